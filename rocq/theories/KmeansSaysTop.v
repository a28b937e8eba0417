(** * Proofs about what clustering prints: neighbour lists, coherence, whole runs. *)
From Flocq Require Import BinarySingleNaN.
From Verif Require Import Base Float Kmeans KmeansSpec KmeansProofs KmeansSays KmeansSaysSpec KmeansSaysProofs KmeansSaysRun.

Section Top.
  Context {T : Type} (P : point T).
  Variable sorted : list (nat * f64) -> list (nat * f64).
  Variable rng : nat -> N.
  Hypothesis Hsort : sort_ok sorted.

  (** ** Neighbour lists *)
  Lemma count_pass_ok z : (z < 2 ^ 31 - 1)%Z -> count_pass P z = Ok (z + 1)%Z.
  Proof. intros H. unfold count_pass. rewrite (proj2 (Z.eqb_neq _ _)); [reflexivity|lia]. Qed.
  Lemma settle_said cs nb z : (z < 2 ^ 31 - 1)%Z -> settle_counting P sorted 2 cs nb z =
    match settle P sorted 2 cs nb with
    | Some (Ok nb') => Some (Ok (nb', z + (if regrown (length cs) nb then 1 else 0)))%Z
    | Some Err => Some Err
    | Some Panic => Some Panic
    | None => None
    end.
  Proof using Hsort.
    intros Hz. cbn [settle_counting settle]. destruct (update_distances P cs nb) as [nb1| |] eqn:E; try reflexivity.
    apply distances_ok in E as (_ & E2 & E3 & E4 & _).
    assert (L : length (sorted (near nb1)) = length (near nb)) by (rewrite (sorted_length _ Hsort) by exact E4; apply (f_equal (@length nat)) in E3; now rewrite !map_length in E3).
    unfold resize at 1 3. cbn [watermark near src_id]. rewrite E2, L. unfold regrown. cbv zeta. fold (new_num (length cs) (watermark nb)). rewrite Nat.ltb_antisym.
    destruct (_ <=? _)%nat; cbn [negb]; [now rewrite Z.add_0_r|]. rewrite count_pass_ok by exact Hz.
    pose proof (settle_new P sorted Hsort 0 cs (src_id nb1)) as N. cbn [settle] in N. destruct (update_distances P cs (nb_new (src_id nb1) (length cs))) as [nb2| |]; try reflexivity.
    destruct (resize _ _) as [[] nb3]; [reflexivity|discriminate].
  Qed.
  Lemma settle_all_said cs g : forall z i, (z + Z.of_nat (length g) < 2 ^ 31)%Z -> settle_all P sorted cs g z i =
    match compute_neighbours P sorted cs g i with
    | Some (Ok (g', j)) => Some (Ok ((g', z + Z.of_N (count (regrown (length cs)) g))%Z, j))
    | Some Err => Some Err
    | Some Panic => Some Panic
    | None => None
    end.
  Proof using Hsort.
    unfold compute_neighbours. induction g as [|nb g IH]; intros z i Hz; cbn [settle_all run_mapM]; [cbn; now rewrite Z.add_0_r|].
    cbn [length] in Hz. unfold run_bind at 1 3. rewrite settle_said by lia. destruct (settle P sorted 2 cs nb) as [[nb'| |]|]; try reflexivity.
    unfold run_lift. cbn [res_map]. unfold run_bind. cbn [fst snd]. rewrite IH by (destruct (regrown _ _); lia).
    destruct (run_mapM _ g i) as [[[g' j]| |]|]; try reflexivity. unfold run_ret. cbn [fst snd]. rewrite count_cons. do 4 f_equal. destruct (regrown _ _); lia.
  Qed.
  Lemma neighbours_said cs g i : (N.of_nat (length g) < 2 ^ 31)%N -> say_neighbours P sorted cs g i =
    match compute_neighbours P sorted cs g i with
    | Some (Ok (g', j)) => ([Grew (Z.of_N (count (regrown (length cs)) g))], Some (Ok (g', j)))
    | r => ([], r)
    end.
  Proof using Hsort.
    intros H. unfold say_neighbours. rewrite said_quiet, settle_all_said by lia. destruct (compute_neighbours P sorted cs g i) as [[[g' j]| |]|]; reflexivity.
  Qed.
  Lemma fresh_kept k : count (regrown k) (map (fun i => nb_new i k) (seq 0 k)) = 0%N.
  Proof.
    unfold count. assert (F : filter (regrown k) (map (fun i => nb_new i k) (seq 0 k)) = []); [|now rewrite F].
    assert (G : forall l, Forall (fun i => (i < k)%nat) l -> filter (regrown k) (map (fun i => nb_new i k) l) = []).
    { induction 1 as [|i l Hi _ IH]; [reflexivity|]. cbn [map filter]. rewrite IH. unfold regrown. cbv zeta. fold (new_num k (watermark (nb_new i k))). rewrite nb_new_length by exact Hi.
      assert (new_num k (watermark (nb_new i k)) * 3 / 4 <= k - 1)%nat; [|destruct (Nat.ltb_spec (k - 1) (new_num k (watermark (nb_new i k)) * 3 / 4)); [lia|reflexivity]].
      apply Nat.div_le_upper_bound; [lia|]. unfold new_num. lia. }
    apply G, Forall_forall. intros i Hi. apply in_seq in Hi. lia.
  Qed.

  (** ** A report has no contradictions *)
  Lemma sum_bound l m : Forall (fun t => (t <= m)%N) l -> (sum l <= N.of_nat (length l) * m)%N.
  Proof. induction 1 as [|a l Ha _ IH]; [cbn; lia|]. change (sum (a :: l)) with (a + sum l)%N. cbn [length]. nia. Qed.
  Lemma sum_least l : Forall (fun t => (1 <= t)%N) l -> (N.of_nat (length l) <= sum l)%N.
  Proof. induction 1 as [|a l Ha _ IH]; [cbn; lia|]. change (sum (a :: l)) with (a + sum l)%N. cbn [length]. lia. Qed.
  Lemma kept_stay own to outs : length own = length outs -> length to = length outs -> Forall2 (fun (i : nat) (jo : nat * outcome) => snd jo = Kept -> fst jo = i) own (combine to outs) ->
    (count (fun e : nat * nat => negb (fst e =? snd e)%nat) (combine own to) + count is_kept outs <= N.of_nat (length outs))%N.
  Proof.
    revert to outs. induction own as [|i own IH]; intros [|j to] [|o outs] L1 L2 F; try discriminate. cbn [combine] in *. inversion_clear F as [|? ? ? ? F1 F2].
    rewrite !count_cons. cbn [fst snd length] in *. specialize (IH to outs ltac:(lia) ltac:(lia) F2). destruct o as [|t s]; cbn [is_kept].
    - rewrite (F1 eq_refl), Nat.eqb_refl. cbn [negb]. lia.
    - destruct (negb _); lia.
  Qed.
  Lemma report_coherent K L own to outs r : (0 < K)%nat -> length own = length outs -> length to = length outs ->
    Forall2 (fun (i : nat) (jo : nat * outcome) => snd jo = Kept -> fst jo = i) own (combine to outs) ->
    Forall (fun t => (t <= L)%N) (reads outs) -> reports K own to outs r ->
    coherent (N.of_nat (length outs)) (L + 1) r /\ (Forall (fun t => (1 <= t)%N) (reads outs) -> match average r with Some a => (1 <= a)%N | None => True end).
  Proof.
    intros HK L1 L2 Ks HL [R1 R2 R3 R4 [R5 R5'] [(i & Hi & R6) R6'] R7].
    pose proof (both_counts (fun e : nat * nat => (fst e =? snd e)%nat) (combine own to)) as BC. rewrite combine_length in BC.
    pose proof (kept_or_read outs) as KR. pose proof (stopped_read outs) as SR. pose proof (kept_stay own to outs L1 L2 Ks) as KS.
    assert (Hh : (highest r <= L)%N) by (destruct R5' as [->|Hin]; [lia|]; rewrite Forall_forall in HL; now apply HL).
    assert (Hlo : (lowest r <= highest r)%N).
    { destruct R6 as [_ [->|Hin]]; [lia|]. rewrite Forall_forall in R5. apply R5. apply in_reads in Hin as (s & Hin). apply in_of_cluster, in_combine_r in Hin. apply in_reads. eauto. }
    split.
    - split; [rewrite R1, R2, R3, R4; repeat split; lia|]. rewrite R7. destruct (reads outs) as [|t l] eqn:ER.
      + cbn [length] in *. split; [lia|]. destruct R5' as [->|[]]. reflexivity.
      + split; [rewrite R3; cbn [length] in *; lia|]. apply N.div_le_upper_bound; [cbn [length]; lia|]. now apply sum_bound.
    - intros H1. rewrite R7. destruct (reads outs) as [|t l]; [exact I|]. apply sum_least in H1. apply N.div_le_lower_bound; [cbn [length]; lia|lia].
  Qed.
  (** Lists are read unless they are empty, and then every distance is small enough. *)
  Lemma treated_reads cs g i x t s : (forall a b d, dist P a b = Ok d -> is_nan d = false) -> treated P cs g i x (Looked t s) -> (1 <= t)%N.
  Proof.
    intros Hn (ci & d & nb & _ & H1 & _ & H2 & (a & b & E & _ & H3)). apply Hn in H1. destruct b as [|e b]; [|lia]. destruct a as [|e a]; [|cbn [length] in H3; lia].
    cbn [app] in E. unfold certain in H2. rewrite E, H1 in H2. discriminate H2.
  Qed.

  (** ** Runs *)
  Section Points.
    Variables (points : list T) (k : N) (vfuel : nat).
    Hypothesis Hroom : (N.of_nat (length points) * k < 2 ^ 64)%N.
    Hypothesis Hk : (k < 2 ^ 31)%N.

    Lemma reached_short c : reached P sorted rng vfuel points k c -> short (k - 1) (graph c).
    Proof using Hsort.
      clear Hroom Hk. intros R. pose proof (reached_settled P sorted rng Hsort points k vfuel c R) as G. apply reached_shape in R as [_ _ S3 S4]. apply Forall_forall. intros nb Hn.
      apply In_nth_error in Hn as (n & Hn). destruct (G n nb Hn) as ((_ & H) & _). lia.
    Qed.
    Lemma reached_positive c : reached P sorted rng vfuel points k c -> (0 < k)%N.
    Proof.
      clear Hroom Hk. induction 1 as [i c j H|c i c' b j R IH H]; [|exact IH]. unfold init in H. apply run_bind_ok in H as (asg & i1 & Ha & _). apply run_lift_ok in Ha as [Ha _].
      unfold init_assignment in Ha. destruct (N.eqb_spec k 0); [discriminate|lia].
    Qed.
    Lemma reached_points c i : reached P sorted rng vfuel points k c ->
      snd (say_points P c i) = run_lift (assign_points P c) i
      /\ forall c' b, assign_points P c = Ok (c', b) -> exists r to outs, fst (say_points P c i) = report_lines r
         /\ reports (N.to_nat k) (places (assignment c)) to outs r
         /\ Forall2 (fun e o => treated P (centroids c) (graph c) (fst e) (snd e) o) (combine (places (assignment c)) (concat (assignment c))) outs
         /\ assignment c' = map (sent_to to (concat (assignment c))) (seq 0 (N.to_nat k))
         /\ b = negb (moved r =? 0)%N
         /\ coherent (N.of_nat (length points)) k r
         /\ ((forall a b d, dist P a b = Ok d -> is_nan d = false) -> match average r with Some a => (1 <= a)%N | None => True end).
    Proof using Hsort Hroom.
      clear Hk. intros R. pose proof (reached_short c R) as Sh. pose proof (reached_positive c R) as Kp. apply reached_shape in R as [S1 S2 S3 S4].
      assert (Lp : length (concat (assignment c)) = length points) by now apply Permutation_length.
      destruct (points_said P c (k - 1) i Sh) as [E F]; [rewrite Lp; replace (k - 1 + 1)%N with k by lia; exact Hroom|]. split; [exact E|]. intros c' b Ec.
      destruct (F c' b Ec) as (r & to & outs & F1 & F2 & F3 & F4 & F5 & F6 & F7 & F8). assert (Ek : length (assignment c) = N.to_nat k) by lia.
      rewrite Ek in F2, F7. exists r, to, outs. split; [exact F1|]. split; [exact F2|]. split; [exact F3|]. split; [exact F7|]. split; [exact F8|].
      assert (Lo : length (places (assignment c)) = length outs) by (rewrite <- places_eq, map_length, F6, <- (enumerated_spec (assignment c) 0); now rewrite map_length).
      destruct (report_coherent (N.to_nat k) (k - 1) (places (assignment c)) to outs r) as [C1 C2]; [lia|exact Lo|lia|exact F4| |exact F2|].
      - apply Forall_forall. intros t Ht. apply in_reads in Ht as (s & Ht). clear -F3 Ht Sh. revert Ht. induction F3 as [|e o l l' H _ IH]; [contradiction|].
        intros [->|Ht]; [|now apply IH]. destruct H as (ci & d & nb & _ & _ & H1 & _ & H2). apply looks_bound in H2. apply nth_error_In in H1. unfold short in Sh. rewrite Forall_forall in Sh.
        specialize (Sh nb H1). cbv beta in Sh. lia.
      - replace (k - 1 + 1)%N with k in C1 by lia. replace (length outs) with (length points) in C1 by lia. split; [exact C1|]. intros Hn. apply C2.
        apply Forall_forall. intros t Ht. apply in_reads in Ht as (s & Ht). clear -F3 Ht Hn. revert Ht. induction F3 as [|e o l l' H _ IH]; [contradiction|].
        intros [->|Ht]; [|now apply IH]. eapply treated_reads; eassumption.
    Qed.

    Lemma centroids_said asg l : forall i, snd (say_centroids P rng vfuel asg l i) = run_mapM (new_centroid P rng vfuel asg) l i
      /\ forall cs j, run_mapM (new_centroid P rng vfuel asg) l i = Some (Ok (cs, j)) ->
         fst (say_centroids P rng vfuel asg l i) = concat (repeat [Hashes; Uncommon; Hashes] (N.to_nat (count (fun v => match mean P v with Err => true | _ => false end) l))).
    Proof.
      clear Hroom Hk. induction l as [|v l IH]; intros i; [split; reflexivity|]. cbn [say_centroids run_mapM].
      assert (E : say_centroid P rng vfuel asg v i = (match mean P v with Err => [Hashes; Uncommon; Hashes] | _ => [] end, new_centroid P rng vfuel asg v i)).
      { unfold say_centroid. destruct (mean P v) eqn:Em; reflexivity. }
      rewrite said_eq, E. unfold run_bind. destruct (new_centroid P rng vfuel asg v i) as [[[c i1]| |]|] eqn:Ec; try (split; [reflexivity|discriminate]).
      cbn [fst snd]. destruct (IH i1) as [I1 I2]. rewrite said_eq. destruct (say_centroids P rng vfuel asg l i1) as [o r]. cbn [fst snd] in I1, I2. subst r.
      destruct (run_mapM (new_centroid P rng vfuel asg) l i1) as [[[cs j]| |]|]; try (split; [reflexivity|discriminate]). split; [reflexivity|].
      intros cs' j' _. cbn [fst snd quiet]. rewrite app_nil_r, (I2 cs j eq_refl), count_cons. destruct (mean P v); cbn [app]; [now rewrite N.add_0_l| |now rewrite N.add_0_l].
      now rewrite N2Nat.inj_add.
    Qed.

    Lemma assigned_length c c' b : reached P sorted rng vfuel points k c -> assign_points P c = Ok (c', b) -> N.of_nat (length (graph c')) = k.
    Proof. clear Hroom Hk. intros R H. apply reached_shape in R as [_ _ _ S4]. apply assign_points_kept in H as (_ & _ & H & _). lia. Qed.
    Lemma pass_said c i : reached P sorted rng vfuel points k c ->
      snd (say_pass P sorted rng vfuel c i) = pass P sorted rng vfuel c i
      /\ forall c' b j, pass P sorted rng vfuel c i = Some (Ok ((c', b), j)) -> exists r e g, fst (say_pass P sorted rng vfuel c i) = block r e g
         /\ about P c c' r e g /\ coherent (N.of_nat (length points)) k r /\ b = negb (moved r =? 0)%N.
    Proof using Hsort Hroom Hk.
      intros R. destruct (reached_points c i R) as [E F]. split.
      - unfold say_pass, pass. apply said_erase; [exact E|]. intros [c1 b1] i1 H1. apply run_lift_ok in H1 as [H1 ->]. cbn [fst snd].
        apply said_erase; [apply centroids_said|]. intros cs i2 H2. apply said_erase; [|reflexivity]. rewrite neighbours_said by (rewrite (assigned_length c c1 b1 R H1); exact Hk).
        now destruct (compute_neighbours P sorted cs (graph c1) i2) as [[[g j]| |]|].
      - intros c' b j H. unfold pass in H. apply run_bind_ok in H as ([c1 b1] & i1 & H1 & H). apply run_lift_ok in H1 as [H1 ->]. cbn [fst snd] in H.
        apply run_bind_ok in H as (cs & i2 & H2 & H). apply run_bind_ok in H as (g & i3 & H3 & H). injection H as <- <- <-.
        destruct (F c1 b1 H1) as (r & to & outs & F1 & F2 & F3 & F4 & F5 & F6 & F7). unfold say_pass.
        assert (E1 : say_points P c i = (report_lines r, Some (Ok ((c1, b1), i)))).
        { rewrite H1 in E. unfold run_lift in E. cbn in E. rewrite <- F1, <- E. now destruct (say_points P c i). }
        rewrite (said_split _ _ _ _ _ _ E1). cbn [fst snd].
        destruct (centroids_said (assignment c1) (assignment c1) i) as [C1 C2]. unfold update_centroids in H2. rewrite H2 in C1. specialize (C2 cs i2 H2).
        destruct (say_centroids P rng vfuel (assignment c1) (assignment c1) i) as [oc rc] eqn:E2. cbn [fst snd] in C1, C2. subst oc rc. rewrite (said_split _ _ _ _ _ _ E2). cbn [fst snd].
        assert (E3 : say_neighbours P sorted cs (graph c1) i2 = ([Grew (Z.of_N (count (regrown (length cs)) (graph c1)))], Some (Ok (g, i3)))).
        { rewrite neighbours_said by (rewrite (assigned_length c c1 b1 R H1); exact Hk). now rewrite H3. }
        rewrite (said_split _ _ _ _ _ _ E3). cbn [fst quiet]. rewrite app_nil_r. eexists r, _, _. split; [reflexivity|]. split; [|split; [exact F6|exact F5]].
        apply reached_shape in R as [S1 S2 S3 S4]. assert (Ek : length (assignment c) = N.to_nat k) by lia. split; [|reflexivity|exists c1, b1; split; [exact H1|reflexivity]].
        exists to, outs. rewrite Ek. split; [exact F2|]. split; [exact F3|exact F4].
    Qed.

    (** The count of passes *)
    Lemma as_i32_id z : (- 2 ^ 31 <= z < 2 ^ 31)%Z -> as_i32 z = z.
    Proof. clear Hroom Hk. intros H. unfold as_i32. rewrite Z.mod_small by lia. lia. Qed.
    Lemma count_pass_next z z' : (- 2 ^ 31 <= z < 2 ^ 31)%Z -> count_pass P z = Ok z' -> (- 2 ^ 31 <= z' < 2 ^ 31)%Z /\ forall n, as_i32 (z' + n) = as_i32 (z + 1 + n).
    Proof.
      clear Hroom Hk. intros Hz. unfold count_pass. destruct (Z.eqb_spec z (2 ^ 31 - 1)) as [->|Ne].
      - destruct (build P); [discriminate|]. intros H. injection H as <-. split; [lia|]. intros n. unfold as_i32. f_equal.
        replace (2 ^ 31 - 1 + 1 + n + 2 ^ 31)%Z with (- 2 ^ 31 + n + 2 ^ 31 + 1 * 2 ^ 32)%Z by lia. now rewrite Z.mod_add by lia.
      - intros H. injection H as <-. split; [lia|]. reflexivity.
    Qed.
    Lemma passes_said fuel : forall z c i, reached P sorted rng vfuel points k c ->
      match snd (say_passes P sorted rng fuel vfuel z c i) with
      | Some (Ok ((c', n), j)) => passes P sorted rng fuel vfuel z c i = Some (Ok (c', j))
      | Some Err => passes P sorted rng fuel vfuel z c i = Some Err
      | Some Panic => passes P sorted rng fuel vfuel z c i = Some Panic
      | None => passes P sorted rng fuel vfuel z c i = None
      end.
    Proof using Hsort Hroom Hk.
      induction fuel as [|fuel IH]; intros z c i R; cbn [say_passes passes]; [reflexivity|]. destruct (pass_said c i R) as [E _].
      unfold run_bind. rewrite said_eq. destruct (say_pass P sorted rng vfuel c i) as [o r]. cbn [snd] in E. subst r.
      destruct (pass P sorted rng vfuel c i) as [[[[c1 b] i1]| |]|] eqn:Ep; try reflexivity. cbn [snd fst]. rewrite said_lift. unfold run_lift.
      destruct (count_pass P z) as [z'| |]; try reflexivity. cbn [res_map]. destruct b; [|reflexivity]. apply IH. eapply reached_pass; eassumption.
    Qed.
    Lemma passes_output fuel : forall z c i o c' n j, reached P sorted rng vfuel points k c -> (- 2 ^ 31 <= z < 2 ^ 31)%Z ->
      say_passes P sorted rng fuel vfuel z c i = (o, Some (Ok ((c', n), j))) ->
      exists m, told P sorted rng vfuel points k c o m c' /\ n = as_i32 (z + Z.of_N m).
    Proof using Hsort Hroom Hk.
      induction fuel as [|fuel IH]; intros z c i o c' n j R Hz H; cbn [say_passes] in H; [discriminate|].
      apply said_ok in H as (o1 & [c1 b] & i1 & o2 & H1 & H & ->). cbn [fst snd] in H. rewrite said_lift in H. destruct (count_pass P z) as [z'| |] eqn:Ez; try discriminate.
      destruct (count_pass_next z z' Hz Ez) as [Hz' Nx]. destruct (pass_said c i R) as [E F]. rewrite H1 in E, F. cbn [fst snd] in E, F. symmetry in E.
      destruct (F c1 b i1 E) as (r & e & g & -> & F2 & F3 & F4). destruct b.
      - apply IH in H as (m & G1 & ->); [|eapply reached_pass; eassumption|exact Hz']. exists (m + 1)%N. split; [|rewrite Nx; f_equal; lia].
        eapply told_more; try eassumption. destruct (N.eqb_spec (moved r) 0); [discriminate|lia].
      - injection H as <- <- <- <-. exists 1%N. rewrite app_nil_r. split; [eapply told_last; try eassumption; destruct (N.eqb_spec (moved r) 0); [assumption|discriminate]|].
        rewrite <- (as_i32_id z' Hz'). specialize (Nx 0%Z). now rewrite !Z.add_0_r in Nx.
    Qed.

    Lemma init_said i : (forall asg cs, init_assignment points k = Ok asg -> init_centroids P asg = Ok cs -> N.of_nat (length cs) = k) ->
      snd (say_init P sorted points k i) = init P sorted points k i /\ forall c j, init P sorted points k i = Some (Ok (c, j)) -> fst (say_init P sorted points k i) = [Grew 0].
    Proof using Hsort Hk.
      intros Hlen. unfold say_init, init. rewrite said_lift. unfold run_bind at 1 3, run_lift. destruct (init_assignment points k) as [asg| |] eqn:Ea; try (split; [reflexivity|discriminate]).
      cbn [res_map]. rewrite said_lift. unfold run_bind. destruct (init_centroids P asg) as [cs| |] eqn:Ec; try (split; [reflexivity|discriminate]). cbn [res_map].
      rewrite said_eq, neighbours_said by (rewrite map_length, seq_length, (Hlen asg cs eq_refl Ec); exact Hk). rewrite fresh_kept. unfold init_neighbours.
      destruct (compute_neighbours P sorted cs _ i) as [[[g j]| |]|]; cbn; (split; [reflexivity|try discriminate; try reflexivity]).
    Qed.
    Lemma init_lengths asg cs : init_assignment points k = Ok asg -> init_centroids P asg = Ok cs -> N.of_nat (length cs) = k.
    Proof.
      clear Hroom Hk. intros Ha Hc. pose proof (init_assignment_spec points k) as S. cbv zeta in S. destruct ((k =? 0) || _)%N eqn:E; [congruence|].
      apply Bool.orb_false_elim in E as [E _]. apply N.eqb_neq in E. destruct S as (ch & rest & S & L & _). rewrite S in Ha. injection Ha as <-.
      apply res_mapM_ok, Forall2_len in Hc. rewrite app_length in Hc. cbn [length] in Hc. lia.
    Qed.

    (** Printing changes nothing. *)
    Lemma cluster_silent fuel i : snd (say_cluster P sorted rng fuel vfuel points k i) = cluster P sorted rng fuel vfuel points k i.
    Proof using Hsort Hroom Hk.
      destruct (init_said i init_lengths) as [E _]. unfold say_cluster, cluster. apply said_erase; [exact E|]. intros c j Hc.
      pose proof (passes_said fuel 0 c j (reached_init _ _ _ _ _ _ _ _ _ Hc)) as H. rewrite said_eq. unfold run_bind at 1.
      destruct (say_passes P sorted rng fuel vfuel 0 c j) as [o [[[[c' n] j']| |]|]]; cbn [snd] in H; rewrite H; try reflexivity. cbn [snd fst]. rewrite said_say. cbn [snd].
      rewrite said_lift. unfold run_bind, run_lift. now destruct (check_enough c' k).
    Qed.
    Lemma cluster_output fuel i o c j : say_cluster P sorted rng fuel vfuel points k i = (o, Some (Ok (c, j))) ->
      exists c0 i0 lines n, init P sorted points k i = Some (Ok (c0, i0)) /\ told P sorted rng vfuel points k c0 lines n c
      /\ o = Grew 0 :: lines ++ [Iterations (as_i32 (Z.of_N n))].
    Proof using Hsort Hroom Hk.
      intros H. unfold say_cluster in H. apply said_ok in H as (o1 & c0 & i1 & o2 & H1 & H & ->). apply said_ok in H as (o3 & [c1 n] & i2 & o4 & H2 & H & ->).
      rewrite said_say, said_lift in H. cbn [fst snd] in H. destruct (init_said i init_lengths) as [E F]. rewrite H1 in E, F. cbn [fst snd] in E, F. symmetry in E. rewrite (F _ _ E).
      destruct (passes_output fuel 0 c0 i1 o3 c1 n i2 (reached_init _ _ _ _ _ _ _ _ _ E) ltac:(lia) H2) as (m & G1 & ->). rewrite Z.add_0_l in H.
      exists c0, i1, o3, m. split; [exact E|]. destruct (check_enough c1 k); try discriminate. injection H as <- <- _. split; [exact G1|reflexivity].
    Qed.
  End Points.
End Top.
