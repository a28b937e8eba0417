(** * Proofs about what clustering prints when it does not succeed (C88). *)
From Verif Require Import Base Float Kmeans KmeansSpec KmeansProofs KmeansCases KmeansSays KmeansSaysSpec KmeansSaysProofs KmeansSaysRun KmeansSaysTop KmeansCutSpec.
From Coq Require Import Lia.

Lemma ends_ok {A} (r : option (res A)) x : ends r x -> forall a, r <> Some (Ok a).
Proof. intros H a ->. destruct x; contradiction. Qed.
Lemma ends_said {A B} (m : said A) (f : A -> said B) i x : ends (snd (said_bind m f i)) x ->
  (ends (snd (m i)) x /\ fst (said_bind m f i) = fst (m i))
  \/ exists o a j, m i = (o, Some (Ok (a, j))) /\ ends (snd (f a j)) x /\ fst (said_bind m f i) = o ++ fst (f a j).
Proof.
  rewrite said_eq. destruct (m i) as [o [[[a j]| |]|]]; cbn [fst snd]; intros H; [right; exists o, a, j; auto|left; split; [exact H|reflexivity]..].
Qed.
Section Cut.
  Context {T : Type} (P : point T) (sorted : list (nat * f64) -> list (nat * f64)) (rng : nat -> N) (Hsort : sort_ok sorted).
  Variables (points : list T) (k : N) (vfuel : nat).
  Hypothesis Hroom : (N.of_nat (length points) * k < 2 ^ 64)%N.
  Hypothesis Hk : (k < 2 ^ 31)%N.
  Notation reached := (reached P sorted rng vfuel points k).

  Lemma points_quiet c L i : short L (graph c) -> (N.of_nat (length (concat (assignment c))) * (L + 1) < 2 ^ 64)%N ->
    (forall r, assign_points P c <> Ok r) -> length (assignment c) <> 0%nat -> fst (say_points P c i) = [].
  Proof.
    clear Hroom Hk Hsort. intros Hs Hr Hn NE. unfold say_points, assign_points in *. destruct (Nat.eqb_spec (length (centroids c)) (length (assignment c))) as [E|]; [|reflexivity].
    set (l := enumerated 0 (assignment c)) in *. set (k0 := mkCounts 0 0 0 0 (repeat 0%N (length (assignment c))) 0).
    assert (Ll : length l = length (concat (assignment c))) by (unfold l; rewrite <- (enumerated_spec (assignment c) 0); now rewrite map_length).
    destruct (Nat.eqb_spec (length (assignment c)) 0) as [|_]; [contradiction|].
    destruct (N.eq_dec (N.of_nat (length (concat (assignment c)))) 0) as [Z|NZ].
    - exfalso. assert (El : l = []) by (destruct l; [reflexivity|cbn in Ll; lia]). rewrite El in Hn. cbn [assign_loop res_bind] in Hn. eapply Hn. reflexivity.
    - assert (HL : (L < 2 ^ 64)%N) by nia.
      assert (R0 : KmeansSaysProofs.room L (N.of_nat (length l)) k0) by (rewrite Ll; constructor; cbn [k0 n_obvious n_cutoff n_moved n_stayed n_sum]; nia).
      pose proof (loop_counts P (centroids c) L HL l (graph c) (repeat [] (length (centroids c))) false k0 Hs R0) as A.
      destruct (assign_loop P (centroids c) l (graph c) _ false) as [[[g' asg'] b']| |] eqn:EL; [|cbn in A; rewrite A, said_lift; reflexivity..].
      exfalso. cbn [res_bind] in Hn. eapply Hn. reflexivity.
  Qed.
  Lemma points_silent c i x : reached c -> ends (snd (say_points P c i)) x -> ends (Some (assign_points P c)) x /\ fst (say_points P c i) = [].
  Proof using Hsort Hroom.
    clear Hk. intros R H. destruct (reached_points P sorted rng Hsort points k vfuel Hroom c i R) as [E F]. rewrite E in H.
    split; [destruct (assign_points P c) as [a| |]; exact H|]. pose proof (reached_short P sorted rng Hsort points k vfuel c R) as Sh.
    pose proof (reached_positive P sorted rng points k vfuel c R) as Kp. apply reached_shape in R as [S1 S2 S3 S4].
    assert (Lp : length (concat (assignment c)) = length points) by now apply Permutation_length.
    apply (points_quiet c (k - 1) i Sh); [rewrite Lp; replace (k - 1 + 1)%N with k by lia; exact Hroom| |lia].
    intros r Er. rewrite Er in H. destruct x; exact H.
  Qed.

  Lemma centroids_cut asg l : forall i x, ends (snd (say_centroids P rng vfuel asg l i)) x ->
    exists pre v post cs j, l = pre ++ v :: post /\ run_mapM (new_centroid P rng vfuel asg) pre i = Some (Ok (cs, j))
    /\ ends (new_centroid P rng vfuel asg v j) x /\ fst (say_centroids P rng vfuel asg l i) = warnings (count (meanless P) (pre ++ [v])).
  Proof.
    clear Hroom Hk Hsort. induction l as [|v l IH]; intros i x H; [cbn in H; destruct x; contradiction|]. cbn [say_centroids] in *.
    assert (E : say_centroid P rng vfuel asg v i = (warnings (if meanless P v then 1 else 0), new_centroid P rng vfuel asg v i)).
    { unfold say_centroid, meanless. destruct (mean P v) eqn:Em; reflexivity. }
    apply ends_said in H as [[H ->]|(o & c & j & H1 & H & ->)].
    - rewrite E in *. cbn [fst snd] in *. exists [], v, l, [], i. repeat split; try exact H. cbn [app]. rewrite count_cons. now rewrite N.add_0_r.
    - rewrite E in H1. injection H1 as <- H1. apply ends_said in H as [[H ->]|(o & cs & j' & H2 & H & _)]; [|cbn in H; destruct x; contradiction].
      apply IH in H as (pre & w & post & cs & j' & -> & Hp & Hw & ->). exists (v :: pre), w, post, (c :: cs), j'. split; [reflexivity|]. split; [|split; [exact Hw|]].
      + cbn [run_mapM]. unfold run_bind, run_ret. now rewrite H1, Hp.
      + cbn [app]. rewrite count_cons. unfold warnings. rewrite N2Nat.inj_add, repeat_app, concat_app. reflexivity.
  Qed.

  Lemma said_summed c c1 b i : reached c -> assign_points P c = Ok (c1, b) -> exists r, say_points P c i = (report_lines r, Some (Ok ((c1, b), i)))
    /\ summed_up P c c1 r /\ coherent (N.of_nat (length points)) k r.
  Proof using Hsort Hroom.
    clear Hk. intros R H1. destruct (reached_points P sorted rng Hsort points k vfuel Hroom c i R) as [E F]. destruct (F c1 b H1) as (r & to & outs & F1 & F2 & F3 & F4 & F5 & F6 & F7).
    exists r. split; [|split; [|exact F6]].
    - rewrite H1 in E. unfold run_lift in E. cbn in E. rewrite <- F1, <- E. now destruct (say_points P c i).
    - apply reached_shape in R as [S1 S2 S3 S4]. assert (Ek : length (assignment c) = N.to_nat k) by lia. exists to, outs. rewrite Ek. auto.
  Qed.

  Lemma pass_cut c i x : reached c -> ends (snd (say_pass P sorted rng vfuel c i)) x ->
    broken_off P sorted rng vfuel points k c x (fst (say_pass P sorted rng vfuel c i)).
  Proof using Hsort Hroom Hk.
    intros R H. unfold say_pass in *. apply ends_said in H as [[H ->]|(o & [c1 b] & j & H1 & H & ->)].
    - destruct (points_silent c i x R H) as [H1 ->]. now apply off_points.
    - destruct (reached_points P sorted rng Hsort points k vfuel Hroom c i R) as [E _]. rewrite H1 in E. cbn [snd] in E. symmetry in E. apply run_lift_ok in E as [E ->].
      destruct (said_summed c c1 b i R E) as (r & Q & Sm & Co). rewrite Q in H1. injection H1 as <-. cbn [fst snd] in *.
      apply ends_said in H as [[H ->]|(o & cs & j & H2 & H & ->)].
      + apply centroids_cut in H as (pre & v & post & cs & j & El & Hp & Hv & ->). eapply off_means; eassumption.
      + destruct (centroids_said P rng vfuel (assignment c1) (assignment c1) i) as [C1 C2]. rewrite H2 in C1, C2. cbn [fst snd] in C1, C2. symmetry in C1.
        rewrite (C2 cs j C1). apply ends_said in H as [[H ->]|(o' & g & j' & H3 & H & _)]; [|cbn in H; destruct x; contradiction].
        assert (Q3 : (N.of_nat (length (graph c1)) < 2 ^ 31)%N) by (rewrite (assigned_length P sorted rng points k vfuel c c1 b R E); exact Hk).
        pose proof (neighbours_said P sorted Hsort cs (graph c1) j Q3) as Q4. rewrite Q4 in *.
        destruct (compute_neighbours P sorted cs (graph c1) j) as [[[g j']| |]|] eqn:Eg; cbn [fst snd] in *; [destruct x; contradiction|rewrite app_nil_r..];
          (eapply off_lists; [exact E|exact Sm|exact Co|exact C1|rewrite Eg; exact H]).
  Qed.

  Lemma passes_cut fuel : forall n z c i x, reached c -> z = as_i32 (Z.of_N n) -> (build P = Debug -> z = Z.of_N n) ->
    ends (snd (say_passes P sorted rng fuel vfuel z c i)) x ->
    cut_short P sorted rng vfuel points k n c x (fst (say_passes P sorted rng fuel vfuel z c i)).
  Proof using Hsort Hroom Hk.
    induction fuel as [|fuel IH]; intros n z c i x R Hz Hd H; cbn [say_passes] in *; [cbn in *; destruct x; [contradiction..|apply cut_fuel]|].
    apply ends_said in H as [[H ->]|(o & [c1 b] & i1 & H1 & H & ->)]; [apply cut_here; now apply pass_cut|]. cbn [fst snd] in *.
    destruct (pass_said P sorted rng Hsort points k vfuel Hroom Hk c i R) as [E F]. rewrite H1 in E, F. cbn [fst snd] in E, F. symmetry in E.
    destruct (F c1 b i1 E) as (r & e & g & -> & F2 & F3 & F4). rewrite said_lift in *.
    assert (Rz : (- 2 ^ 31 <= z < 2 ^ 31)%Z).
    { rewrite Hz. unfold as_i32. pose proof (Z.mod_pos_bound (Z.of_N n + 2 ^ 31) (2 ^ 32) ltac:(lia)). lia. }
    destruct (count_pass P z) as [z'| |] eqn:Ez.
    - destruct (count_pass_next P z z' Rz Ez) as [Rz' Nx]. destruct b; [|cbn in H; destruct x; contradiction].
      eapply cut_later; [exact E|exact F2|exact F3|destruct (N.eqb_spec (moved r) 0); [discriminate|lia]|].
      apply IH; [eapply reached_pass; eassumption| | |exact H].
      + rewrite <- (as_i32_id z' Rz'). specialize (Nx 0%Z). rewrite !Z.add_0_r in Nx. rewrite Nx, Hz. unfold as_i32.
        replace ((Z.of_N n + 2 ^ 31) mod 2 ^ 32 - 2 ^ 31 + 1 + 2 ^ 31)%Z with ((Z.of_N n + 2 ^ 31) mod 2 ^ 32 + 1)%Z by lia. rewrite Zplus_mod_idemp_l.
        do 2 f_equal. lia.
      + intros B. specialize (Hd B). unfold count_pass in Ez. rewrite B in Ez. destruct (z =? 2 ^ 31 - 1)%Z; [discriminate|]. injection Ez as <-. lia.
    - unfold count_pass in Ez. destruct (z =? 2 ^ 31 - 1)%Z; [destruct (build P)|]; discriminate.
    - unfold count_pass in Ez. destruct (Z.eqb_spec z (2 ^ 31 - 1)) as [Q|]; [|discriminate]. destruct (build P) eqn:B; [|discriminate].
      destruct x; cbn in H; try contradiction. cbn [fst]. rewrite app_nil_r. eapply cut_count; [specialize (Hd eq_refl); lia|exact B|exact E|exact F2|exact F3].
  Qed.
  Lemma told_cut c lines m c' : told P sorted rng vfuel points k c lines m c' -> check_enough c' k = Panic ->
    forall n, cut_short P sorted rng vfuel points k n c Aborted (lines ++ [Iterations (as_i32 (Z.of_N (n + m)))]).
  Proof.
    clear Hroom Hk Hsort. induction 1 as [c i c' j r e g H1 H2 H3 H4|c i c' j r e g o m d H1 H2 H3 H4 H5 IH]; intros Hc n.
    - eapply cut_few; eassumption.
    - rewrite <- app_assoc. eapply cut_later; try eassumption. replace (n + (m + 1))%N with (n + 1 + m)%N by lia. now apply IH.
  Qed.
  Lemma init_quiet i x : ends (init P sorted points k i) x -> fst (say_init P sorted points k i) = [].
  Proof using Hsort Hk.
    clear Hroom. unfold say_init, init. rewrite said_lift. unfold run_bind at 1, run_lift. destruct (init_assignment points k) as [asg| |] eqn:Ea; [|reflexivity..].
    cbn [res_map]. rewrite said_lift. unfold run_bind. destruct (init_centroids P asg) as [cs| |] eqn:Ec; [|reflexivity..]. cbn [res_map].
    pose proof (init_lengths P points k asg cs Ea Ec) as Hl.
    rewrite said_eq, (neighbours_said P sorted Hsort) by (rewrite map_length, seq_length, Hl; exact Hk). unfold init_neighbours.
    destruct (compute_neighbours P sorted cs _ i) as [[[g j]| |]|]; [|reflexivity..]. intros H. destruct x; contradiction.
  Qed.
  Lemma cluster_cut fuel i o r x : say_cluster P sorted rng fuel vfuel points k i = (o, r) -> ends r x ->
    (ends (init P sorted points k i) x /\ o = [])
    \/ exists c0 i0 lines, init P sorted points k i = Some (Ok (c0, i0)) /\ cut_short P sorted rng vfuel points k 0 c0 x lines /\ o = Grew 0 :: lines.
  Proof using Hsort Hroom Hk.
    intros Ho H. replace o with (fst (say_cluster P sorted rng fuel vfuel points k i)) by now rewrite Ho.
    replace r with (snd (say_cluster P sorted rng fuel vfuel points k i)) in H by now rewrite Ho. clear Ho. unfold say_cluster in *.
    destruct (init_said P sorted Hsort points k Hk i (init_lengths P points k)) as [E F].
    apply ends_said in H as [[H ->]|(o1 & c0 & i1 & H1 & H & ->)].
    - left. rewrite E in H. split; [exact H|]. now apply (init_quiet i x).
    - right. rewrite H1 in E, F. cbn [fst snd] in E, F. symmetry in E. rewrite (F _ _ E). exists c0, i1. eexists. split; [exact E|]. split; [|reflexivity].
      pose proof (reached_init P sorted rng vfuel points k _ _ _ E) as R.
      apply ends_said in H as [[H ->]|(o2 & [c1 n] & i2 & H2 & H & ->)]; [apply passes_cut; [exact R|reflexivity|reflexivity|exact H]|].
      destruct (passes_output P sorted rng Hsort points k vfuel Hroom Hk fuel 0 c0 i1 o2 c1 n i2 R ltac:(lia) H2) as (m & G1 & ->). rewrite Z.add_0_l in *.
      cbn [fst snd] in *. rewrite said_say, said_lift in *. cbn [fst snd] in *.
      destruct (check_enough c1 k) as [u| |] eqn:Ec; cbn [quiet run_ret fst snd] in *; [destruct x; contradiction| |].
      + unfold check_enough, assert_ in Ec. destruct (_ <=? _)%N; discriminate.
      + destruct x; try contradiction. exact (told_cut c0 o2 m c1 G1 Ec 0%N).
  Qed.
End Cut.
