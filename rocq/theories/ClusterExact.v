(** * cluster-colors: one cluster, one cluster per colour, and aborts (C61-C63). *)
From Coq Require Import ZifyBool ZifyNat ZifyN.
From Flocq Require Import BinarySingleNaN.
From Verif Require Import Base Ser SerSpec SerProofs Utils UtilsProofs Huf HufSpec HufTop Img Float FloatProofs HilbertC CodecSpec CodecBytes CodecHilbert CodecCases
  Kmeans KmeansSpec KmeansProofs KmeansFloat KmeansNear KmeansEnd KmeansCheck KmeansTotal KmeansCases ClusterC ClusterSpec ClusterProofs ClusterColors ClusterTop.

(** Number of clusters with points *)
Definition occupied {T} (c : clusters T) : N := N.of_nat (length (filter (fun v : list T => negb (length v =? 0)%nat) (assignment c))).
Lemma check_spec {T} (c : clusters T) k : (k <= 2 ^ 32)%N -> (k <= N.of_nat (length (concat (assignment c))))%N ->
  check_enough c k = if (occupied c <? 99 * k / 100)%N then Panic else Ok tt.
Proof.
  intros Hk Hp. unfold check_enough, assert_, occupied. rewrite floor_099 by exact Hk.
  assert (E : fold_right Nat.add 0%nat (map (@length T) (assignment c)) = length (concat (assignment c))).
  { clear Hp. induction (assignment c) as [|v l IH]; [reflexivity|]. cbn [map fold_right concat]. rewrite app_length. f_equal. exact IH. }
  rewrite E. assert (F : filter (fun v : list T => (0 <? length v)%nat) (assignment c) = filter (fun v : list T => negb (length v =? 0)%nat) (assignment c)).
  { apply filter_ext. intros v. lia. }
  rewrite F. assert (99 * k / 100 <= k)%N by (apply N.div_le_upper_bound; lia).
  match goal with |- (if ?a then _ else _) = (if ?b then _ else _) => destruct a eqn:A, b eqn:B end; try reflexivity; lia.
Qed.

Section Colours.
  Variables (p : profile) (O : oracles) (ord : list (rgb N * N) -> list (rgb N * N)) (im : img).
  Hypothesis Hsort : sort_ok (or_sort O).
  Hypothesis Hord : ord_ok ord.
  Hypothesis Him : img_ok im.
  Hypothesis Hsmall : (im_w im * im_h im < 2 ^ 32)%N.
  Notation pts := (color_counts ord im).
  Notation pix := (map to_rgb (im_px im)).
  Definition cc_ok (x : color_count) : Prop := rgb_ok (cc_color x).

  Lemma cc_pts_ok : Forall cc_ok pts.
  Proof. eapply Forall_impl; [|exact (counts_ok ord Hord im Him Hsmall)]. intros x H. apply H. Qed.
  Lemma cc_dist_total a b : cc_ok a -> cc_ok b -> exists d, dist (cc_point p) a b = Ok d /\ is_finite d = true.
  Proof.
    intros Ha Hb. eexists. split; [reflexivity|]. rewrite (rgb_dist_root _ _ Ha Hb). apply root_spec. now apply sq_dist_bound.
  Qed.
  Lemma cc_mean_total v rest : v <> [] -> Permutation (v ++ rest) pts -> exists m, mean (cc_point p) v = Ok m /\ cc_ok m.
  Proof.
    intros Hv Hp. assert (A : Forall color_count_ok v).
    { pose proof (counts_ok ord Hord im Him Hsmall) as A. rewrite Forall_forall in *. intros x Hx. apply A. eapply Permutation_in; [exact Hp|]. apply in_or_app. now left. }
    assert (W : (weight v < 2 ^ 56)%N).
    { assert (weight v <= weight pts)%N; [|rewrite (counts_weight ord Hord im Him Hsmall) in *; lia].
      unfold weight at 2. rewrite <- (total_perm _ _ (Permutation_map cc_count Hp)). fold (weight (v ++ rest)). rewrite weight_app. lia. }
    destruct (cc_mean_spec p v A Hv W) as (m & E & R & _). now exists m.
  Qed.
  Lemma cc_mean_none : mean (cc_point p) [] = Err.
  Proof. reflexivity. Qed.
  Lemma counts_few : (N.of_nat (length pts) <= im_w im * im_h im)%N.
  Proof.
    rewrite <- (counts_weight ord Hord im Him Hsmall). pose proof (counts_ok ord Hord im Him Hsmall) as A. induction A as [|x l Hx A IH]; [cbn; lia|].
    unfold weight, total in *. cbn [length map fold_right]. destruct Hx as [_ Hx]. lia.
  Qed.

  (** Which initial clusters the first pass keeps *)
  Lemma kept_clusters k i c : (1 <= k <= N.of_nat (length pts))%N -> init (cc_point p) (or_sort O) pts k i = Some (Ok (c, i)) ->
    all_nearest cc_color (centroids c) (assignment c) -> exists c1, assign_points (cc_point p) c = Ok (c1, false).
  Proof.
    intros Hk E Hn. destruct (full_pass_nearest (cc_point p) cc_color (or_sort O) (fun _ => 0%N)) with (vfuel := 0%nat) (points := pts) (k := k) (c := c) as (c1 & b & E1 & _ & _ & B).
    - intros a b. reflexivity.
    - exact Hsort.
    - intros v m Hv Hl Hm. destruct v as [|x v]; [discriminate|]. cbn [mean cc_point] in Hm. unfold cc_mean in Hm. destruct v as [|y v].
      + injection Hm as <-. now inversion Hv.
      + apply res_bind_ok in Hm as ([s w] & _ & Hm). destruct (w =? 0)%N; [discriminate|]. injection Hm as <-. cbn [cc_color]. destruct s as [[r g] b]. cbn.
        unfold u8_ok. repeat split; apply N.mod_lt; lia.
    - exact cc_pts_ok.
    - eapply reached_init, E.
    - eapply init_full; [exact Hsort|exact E].
    - exists c1. destruct b; [|exact E1]. destruct B as [_ B]. specialize (B Hn). discriminate.
  Qed.
  Lemma ends_at_once k : (1 <= k <= N.of_nat (length pts))%N -> (1 <= or_fuel O)%nat ->
    (forall c, init (cc_point p) (or_sort O) pts k 0 = Some (Ok (c, 0%nat)) -> all_nearest cc_color (centroids c) (assignment c)) ->
    exists c c', init (cc_point p) (or_sort O) pts k 0 = Some (Ok (c, 0%nat))
    /\ cluster (cc_point p) (or_sort O) (or_rng O) (or_fuel O) (or_vfuel O) pts k 0 = Some (Ok (c', 0%nat)) /\ assignment c' = assignment c.
  Proof.
    intros Hk Hf Hn. destruct (init_total (cc_point p) (or_sort O) (or_rng O) Hsort cc_ok cc_dist_total pts cc_mean_total k 0 Hk) as (c & E & _).
    destruct (kept_clusters k 0 c Hk E (Hn c E)) as (c1 & E1). exists c.
    destruct (first_pass_ends (cc_point p) (or_sort O) (or_rng O) Hsort cc_ok cc_dist_total pts cc_mean_total k (or_fuel O) (or_vfuel O) 0 c c1 Hk) as (c' & H1 & H2); [pose proof counts_few; lia|exact Hf|exact E|exact E1|].
    exists c'. auto.
  Qed.
  Lemma init_parts k i c : init (cc_point p) (or_sort O) pts k i = Some (Ok (c, i)) ->
    init_assignment pts k = Ok (assignment c) /\ Forall2 (fun v m => exists x, nth_error v 0 = Some x /\ m = x) (assignment c) (centroids c).
  Proof.
    intros H. unfold init in H. apply run_bind_ok in H as (asg & k1 & H1 & H). apply run_bind_ok in H as (cs & k2 & H2 & H).
    apply run_bind_ok in H as (g & k3 & H3 & H). injection H as <- _. cbn [centroids assignment]. apply run_lift_ok in H1 as [H1 _]. apply run_lift_ok in H2 as [H2 _].
    split; [exact H1|]. unfold init_centroids in H2. apply res_mapM_ok in H2. eapply Forall2_weaken; [|exact H2]. intros v m Hv. cbn beta in Hv.
    apply res_bind_ok in Hv as (x & Hx & Hv). apply index_ok in Hx. exists x. split; [exact Hx|]. unfold fake_clone in Hv. cbn in Hv. now injection Hv.
  Qed.
  Lemma one_nearest c : init (cc_point p) (or_sort O) pts 1 0 = Some (Ok (c, 0%nat)) -> all_nearest cc_color (centroids c) (assignment c).
  Proof.
    intros H. apply init_shape in H as [_ S1 S2 _]. intros j v x Hj Hx. assert (j < length (assignment c))%nat by (apply nth_error_Some; congruence).
    destruct (centroids c) as [|ct [|ct' cs]]; cbn [length] in *; try lia. assert (j = 0%nat) by lia. subst j. exists ct. split; [reflexivity|].
    intros c' [<-|[]]. lia.
  Qed.
  Lemma singles c : init (cc_point p) (or_sort O) pts (N.of_nat (length pts)) 0 = Some (Ok (c, 0%nat)) -> Forall (fun v => length v = 1%nat) (assignment c).
  Proof.
    intros H. apply init_parts in H as [H _]. pose proof (init_assignment_spec pts (N.of_nat (length pts))) as I. cbv zeta in I.
    destruct ((N.of_nat (length pts) =? 0) || (N.of_nat (length pts) <? N.of_nat (length pts)))%N eqn:E; [congruence|].
    destruct I as (ch & rest & I1 & I2 & I3 & I4 & _). rewrite H in I1. injection I1 as ->.
    rewrite N.div_same in * by lia. apply Forall_app. split; [|constructor; [lia|constructor]]. eapply Forall_impl; [|exact I3]. cbn beta. intros v Hv. lia.
  Qed.
  Lemma singles_nearest c : init (cc_point p) (or_sort O) pts (N.of_nat (length pts)) 0 = Some (Ok (c, 0%nat)) -> all_nearest cc_color (centroids c) (assignment c).
  Proof.
    intros H j v x Hj Hx. pose proof (singles c H) as S. apply init_parts in H as [_ F].
    rewrite Forall_forall in S. specialize (S v (nth_error_In _ _ Hj)). destruct v as [|y [|]]; try discriminate S. destruct Hx as [->|[]].
    destruct (nth_error (centroids c) j) as [m|] eqn:E.
    - pose proof (Forall2_nth _ _ _ _ _ _ F Hj E) as (y & Hy & ->). injection Hy as <-. exists x. split; [exact E|].
      intros c' _. destruct (cc_color x) as [[r g] b], (cc_color c') as [[r' g'] b']. unfold sq_dist. rewrite !Z.sub_diag. pose proof (Z.pow_even_nonneg (Z.of_N r' - Z.of_N r) 2 ltac:(now exists 1%Z)). pose proof (Z.pow_even_nonneg (Z.of_N g' - Z.of_N g) 2 ltac:(now exists 1%Z)). pose proof (Z.pow_even_nonneg (Z.of_N b' - Z.of_N b) 2 ltac:(now exists 1%Z)). lia.
    - apply nth_error_None in E. apply Forall2_len in F. assert (j < length (assignment c))%nat by (apply nth_error_Some; congruence). lia.
  Qed.

  (** A clustering that succeeds gives an encoding that succeeds. *)
  Lemma encode_ok ord2 H k c j : ord_ok ord2 -> heap_ok suffix_cmp H -> 
    cluster (cc_point p) (or_sort O) (or_rng O) (or_fuel O) (or_vfuel O) pts k 0 = Some (Ok (c, j)) ->
    exists m out, cluster_colors_encode p O ord ord2 H k im = Some m /\ run_vec m = Ok out
    /\ forall S (next : nextf S N) s s', yields next s out s' ->
       exists f0, forall fuel, (f0 <= fuel)%nat -> cluster_colors_decode fuel next s = Some (Ok (reduced im c)).
  Proof.
    intros Ho2 Hh E. unfold cluster_colors_encode, with_clusters. rewrite E. eexists.
    pose proof (reduced_ok _ _ _ _ _ _ _ _ _ _ _ Hord Him Hsmall E) as [R1 R2].
    assert (Hne : im_px (reduced im c) <> []).
    { intros Z. apply (f_equal (map to_rgb)) in Z. rewrite reduced_colours in Z. apply map_eq_nil in Z.
      assert (P : pts = []) by (destruct pts as [|x l] eqn:Q; [reflexivity|];
        assert (In (cc_color x) pix) by (apply (counts_in ord Hord im); rewrite Q; now left); rewrite Z in *; contradiction).
      rewrite P in E. destruct (N.eq_dec k 0) as [->|Hn]; [rewrite cluster_refused in E by (now left); discriminate|].
      rewrite cluster_refused in E by (right; cbn; lia). discriminate. }
    destruct (hufman_lossless ord2 H (reduced im c) R1 Ho2 Hh Hne) as (out & E1 & E2). rewrite R2 in E2. exists out. split; [reflexivity|].
    rewrite (recolor_ok _ _ _ _ _ _ _ _ _ _ _ Hord Him Hsmall E). split; [exact E1|exact E2].
  Qed.
  Lemma same_image c j : cluster (cc_point p) (or_sort O) (or_rng O) (or_fuel O) (or_vfuel O) pts (N.of_nat (length pts)) 0 = Some (Ok (c, j)) ->
    Forall (fun v => length v = 1%nat) (assignment c) -> reduced im c = opaque im.
  Proof.
    intros E S. unfold reduced, opaque, from_rgb. f_equal. rewrite !map_map. apply map_ext_in. intros [q a] Hq. cbn [fst]. f_equal. change (to_rgb (q, a)) with q.
    destruct (lookup_ok _ _ _ _ _ _ _ _ _ _ _ Hord Him Hsmall E q) as (ct & v & x & H1 & H2 & <- & _ & -> & _); [now apply (in_map to_rgb) in Hq|].
    pose proof (cluster_means _ _ _ _ _ _ _ _ _ _ E) as M. unfold cluster_list in H1. apply in_combine_nth in H1 as (n & N1 & N2).
    rewrite Forall_forall in S. specialize (S v (nth_error_In _ _ N2)). destruct v as [|y [|]]; try discriminate S. destruct H2 as [->|[]].
    pose proof (Forall2_nth _ _ _ _ _ _ M N2 N1) as [Q|[Q _]]; cbn in Q; [|discriminate]. injection Q as <-. reflexivity.
  Qed.
End Colours.

(** ** Statements *)
Lemma counts_palette ord im palette : ord_ok ord -> NoDup palette -> (forall q, In q palette <-> In q (map to_rgb (im_px im))) ->
  length (color_counts ord im) = length palette.
Proof.
  intros Ho Hn Hq. rewrite <- (map_length cc_color). apply Permutation_length, NoDup_Permutation; [now apply counts_nodup|exact Hn|].
  intros q. now rewrite Hq, (counts_in ord Ho im).
Qed.
Lemma lossless_palette p O ord ord2 H im palette : sort_ok (or_sort O) -> (1 <= or_fuel O)%nat -> ord_ok ord -> ord_ok ord2 -> heap_ok suffix_cmp H ->
  img_ok im -> (1 <= im_w im * im_h im < 2 ^ 32)%N -> NoDup palette -> (forall q, In q palette <-> In q (map to_rgb (im_px im))) ->
  exists m out, cluster_colors_encode p O ord ord2 H (N.of_nat (length palette)) im = Some m /\ run_vec m = Ok out
  /\ forall S (next : nextf S N) s s', yields next s out s' ->
     exists f0, forall fuel, (f0 <= fuel)%nat -> cluster_colors_decode fuel next s = Some (Ok (opaque im)).
Proof.
  intros Hs Hf Ho Ho2 Hh Hi Hw Hn Hq. rewrite <- (counts_palette ord im palette Ho Hn Hq).
  assert (L : (1 <= length (color_counts ord im))%nat).
  { destruct (color_counts ord im) as [|x l] eqn:E; [|cbn; lia]. pose proof (counts_weight ord Ho im Hi ltac:(lia)) as W. rewrite E in W. cbn in W. lia. }
  destruct (ends_at_once p O ord im Hs Ho Hi ltac:(lia) (N.of_nat (length (color_counts ord im)))) as (c & c' & E1 & E2 & E3); [lia|exact Hf|now apply singles_nearest|].
  destruct (encode_ok p O ord im Ho Hi ltac:(lia) ord2 H _ c' 0 Ho2 Hh E2) as (m & out & M1 & M2 & M3). exists m, out. split; [exact M1|]. split; [exact M2|].
  rewrite <- (same_image p O ord im Ho Hi ltac:(lia) c' 0 E2); [exact M3|]. rewrite E3. eapply singles; try exact E1; try assumption; lia.
Qed.
Lemma one_colour p O ord ord2 H im : sort_ok (or_sort O) -> (1 <= or_fuel O)%nat -> ord_ok ord -> ord_ok ord2 -> heap_ok suffix_cmp H ->
  img_ok im -> (1 <= im_w im * im_h im < 2 ^ 32)%N ->
  exists m out q, cluster_colors_encode p O ord ord2 H 1 im = Some m /\ run_vec m = Ok out
  /\ (forall f, In f channels -> floor_of (f q) (total (map f (map to_rgb (im_px im)))) (im_w im * im_h im))
  /\ forall S (next : nextf S N) s s', yields next s out s' ->
     exists f0, forall fuel, (f0 <= fuel)%nat -> cluster_colors_decode fuel next s = Some (Ok (mkImg (im_w im) (im_h im) (map (fun _ => (q, 255%N)) (im_px im)))).
Proof.
  intros Hs Hf Ho Ho2 Hh Hi Hw.
  assert (L : (1 <= length (color_counts ord im))%nat).
  { destruct (color_counts ord im) as [|x l] eqn:E; [|cbn; lia]. pose proof (counts_weight ord Ho im Hi ltac:(lia)) as W. rewrite E in W. cbn in W. lia. }
  destruct (ends_at_once p O ord im Hs Ho Hi ltac:(lia) 1) as (c & c' & E1 & E2 & E3); [lia|exact Hf|now apply one_nearest|].
  destruct (encode_ok p O ord im Ho Hi ltac:(lia) ord2 H _ c' 0 Ho2 Hh E2) as (m & out & M1 & M2 & M3).
  pose proof (reduced_palette _ _ _ _ _ _ _ _ _ _ _ Ho Hi ltac:(lia) E2) as P. apply cluster_kept in E2 as K. destruct K as (_ & _ & K & _).
  destruct (centroids c') as [|ct [|]] eqn:Ec; cbn [length] in K; try lia. cbn [map] in P.
  assert (U : forall q, In q (map to_rgb (im_px im)) -> new_color c' q = cc_color ct).
  { intros q Hq. assert (I : In (new_color c' q) (map to_rgb (im_px (reduced im c')))) by (rewrite reduced_colours; now apply in_map). apply P in I as [I|[]]. now symmetry. }
  assert (R : reduced im c' = mkImg (im_w im) (im_h im) (map (fun _ => (cc_color ct, 255%N)) (im_px im))).
  { unfold reduced, from_rgb. f_equal. rewrite !map_map. apply map_ext_in. intros q Hq. now rewrite (U (to_rgb q) (in_map to_rgb _ _ Hq)). }
  exists m, out, (cc_color ct). split; [exact M1|]. split; [exact M2|]. split; [|now rewrite <- R].
  intros f Hff. pose proof (reduced_averages _ _ _ _ _ _ _ _ _ _ _ Ho Hi ltac:(lia) E2) as A. 
  assert (Nz : im_px im <> []) by (intros Z; pose proof (img_len im Hi) as IL; rewrite Z in IL; cbn in IL; lia).
  assert (Hin : In (cc_color ct) (map to_rgb (im_px (reduced im c')))).
  { rewrite R. cbn [im_px]. destruct (im_px im); [contradiction|]. left. reflexivity. }
  specialize (A _ f Hin Hff). rewrite sources_eq in A.
  assert (F : filter (fun q => rgb_eqb (new_color c' q) (cc_color ct)) (map to_rgb (im_px im)) = map to_rgb (im_px im)).
  { assert (G : forall l, (forall q, In q l -> new_color c' q = cc_color ct) -> filter (fun q => rgb_eqb (new_color c' q) (cc_color ct)) l = l).
    { induction l as [|q l IH]; intros Hl; [reflexivity|]. cbn [filter]. rewrite (Hl q (or_introl eq_refl)). assert (X : rgb_eqb (cc_color ct) (cc_color ct) = true) by now apply rgb_eqb_ok.
      rewrite X. f_equal. apply IH. intros z Hz. apply Hl. now right. }
    now apply G. }
  rewrite F in A. rewrite (pix_length im Hi) in A by lia. exact A.
Qed.
(** The outcomes of an encoding *)
Lemma outcomes p O ord ord2 H n im palette : sort_ok (or_sort O) -> ord_ok ord -> ord_ok ord2 -> heap_ok suffix_cmp H ->
  img_ok im -> (im_w im * im_h im < 2 ^ 32)%N -> NoDup palette -> (forall q, In q palette <-> In q (map to_rgb (im_px im))) ->
  (1 <= n <= N.of_nat (length palette))%N ->
  cluster_colors_encode p O ord ord2 H n im = None
  \/ (exists m out, cluster_colors_encode p O ord ord2 H n im = Some m /\ run_vec m = Ok out)
  \/ (cluster_colors_encode p O ord ord2 H n im = Some io_panic
      /\ exists c, reached (cc_point p) (or_sort O) (or_rng O) (or_vfuel O) (color_counts ord im) n c /\ (occupied c < 99 * n / 100)%N)
  \/ (cluster_colors_encode p O ord ord2 H n im = Some io_panic
      /\ p = Debug /\ exists c, busy (cc_point p) (or_sort O) (or_rng O) (or_vfuel O) (color_counts ord im) n (2 ^ 31 - 1) c).
Proof.
  intros Hs Ho Ho2 Hh Hi Hw Hn Hq Hk. rewrite <- (counts_palette ord im palette Ho Hn Hq) in Hk.
  destruct (cluster_total (cc_point p) (or_sort O) (or_rng O) Hs cc_ok (cc_dist_total p) (color_counts ord im) (cc_pts_ok ord im Ho Hi Hw) (cc_mean_total p ord im Ho Hi Hw) (cc_mean_none p) n (or_fuel O) (or_vfuel O) 0 Hk)
    as [E|[(c & R & [(j & E & C)|(E & C)])|(E & V)]].
  - left. unfold cluster_colors_encode, with_clusters. now rewrite E.
  - right. left. destruct (encode_ok p O ord im Ho Hi Hw ord2 H n c j Ho2 Hh E) as (m & out & M1 & M2 & _). eauto.
  - right. right. left. split; [unfold cluster_colors_encode, with_clusters; now rewrite E|]. exists c. split; [exact R|].
    apply reached_shape in R as [S0 S1 _ _]. pose proof (counts_few ord im Ho Hi Hw). rewrite check_spec in C; [|lia|rewrite (Permutation_length S0); lia].
    destruct (_ <? _)%N eqn:Q; [lia|discriminate].
  - right. right. right. split; [unfold cluster_colors_encode, with_clusters; now rewrite E|exact V].
Qed.
Lemma some_occupied {T} (c : clusters T) : concat (assignment c) <> [] -> (1 <= occupied c)%N.
Proof.
  unfold occupied. induction (assignment c) as [|v l IH]; intros H; [now elim H|]. cbn [filter]. destruct v as [|x v].
  - cbn [length Nat.eqb negb]. apply IH. exact H.
  - change (negb (length (x :: v) =? 0)%nat) with true. cbn [length]. lia.
Qed.
Lemma two_clusters_safe p O ord ord2 H n im palette : sort_ok (or_sort O) -> ord_ok ord -> ord_ok ord2 -> heap_ok suffix_cmp H ->
  img_ok im -> (im_w im * im_h im < 2 ^ 32)%N -> NoDup palette -> (forall q, In q palette <-> In q (map to_rgb (im_px im))) ->
  (1 <= n <= N.of_nat (length palette))%N -> (n <= 2)%N ->
  cluster_colors_encode p O ord ord2 H n im = None
  \/ (exists m out, cluster_colors_encode p O ord ord2 H n im = Some m /\ run_vec m = Ok out)
  \/ (cluster_colors_encode p O ord ord2 H n im = Some io_panic
      /\ p = Debug /\ exists c, busy (cc_point p) (or_sort O) (or_rng O) (or_vfuel O) (color_counts ord im) n (2 ^ 31 - 1) c).
Proof.
  intros Hs Ho Ho2 Hh Hi Hw Hn Hq Hk H2. destruct (outcomes p O ord ord2 H n im palette Hs Ho Ho2 Hh Hi Hw Hn Hq Hk) as [E|[E|[(E & c & R & C)|E]]]; [now left|now right; left| |now right; right].
  exfalso. apply reached_shape in R as [S0 _ _ _]. rewrite <- (counts_palette ord im palette Ho Hn Hq) in Hk.
  assert (1 <= occupied c)%N by (apply some_occupied; intros Z; rewrite Z in S0; apply Permutation_length in S0; cbn in S0; lia).
  assert (99 * n / 100 <= 1)%N by (apply N.div_le_upper_bound; lia). lia.
Qed.

(** ** An image with seven colours, for which four clusters are too many *)
Definition unlucky : list color_count :=
  [mkCC (4,2,2) 3; mkCC (3,1,2) 3; mkCC (2,1,1) 3; mkCC (4,0,0) 2; mkCC (3,1,1) 2; mkCC (2,2,4) 3; mkCC (3,3,2) 1]%N.
Definition unlucky_image : img := mkImg 17 1 (concat (map (fun e => repeat (cc_color e, 255%N) (N.to_nat (cc_count e))) unlucky)).
Definition unlucky_picks : nat -> N := fun i => nth i [2; 0; 0; 1; 0; 1; 0; 1; 0; 2; 1; 0; 0; 0; 1; 0]%N 0%N.
Lemma unlucky_ok : img_ok unlucky_image.
Proof.
  split; [unfold u32_ok; cbn; lia|]. split; [unfold u32_ok; cbn; lia|]. split; [cbn; lia|]. split; [vm_compute; reflexivity|].
  assert (H : forallb (fun q : rgba => let '(r, g, b, a) := q in (r <? 256) && (g <? 256) && (b <? 256) && (a <? 256))%N (im_px unlucky_image) = true)
    by (vm_compute; reflexivity).
  rewrite forallb_forall in H. apply Forall_forall. intros [[[r g] b] a] Hp. specialize (H _ Hp). cbv beta iota in H.
  apply andb_prop in H as [H Ha]. apply andb_prop in H as [H Hb]. apply andb_prop in H as [Hr Hg].
  apply N.ltb_lt in Hr, Hg, Hb, Ha. repeat split; assumption.
Qed.
Lemma unlucky_aborts p ord2 H : cluster_colors_encode p (mkOr insertion_sort unlucky_picks 10 20) (fun l => l) ord2 H 4 unlucky_image = Some io_panic.
Proof.
  unfold cluster_colors_encode, with_clusters. assert (E : color_counts (fun l => l) unlucky_image = unlucky) by (vm_compute; reflexivity). rewrite E. clear E.
  cbn [or_sort or_rng or_fuel or_vfuel].
  pose (test := fun r : option (res (clusters color_count * nat)) => match r with Some Panic => true | _ => false end).
  assert (E : test (cluster (cc_point p) insertion_sort unlucky_picks 10 20 unlucky 4 0) = true) by (destruct p; vm_compute; reflexivity).
  unfold test in E. destruct (cluster _ _ _ _ _ _ _ _) as [[| |]|]; try discriminate. reflexivity.
Qed.
Lemma enough_but_abort : exists im ord picks palette, img_ok im /\ (im_w im * im_h im = 17)%N /\ ord_ok ord
  /\ NoDup palette /\ (forall q, In q palette <-> In q (map to_rgb (im_px im))) /\ length palette = 7%nat
  /\ forall p ord2 H, cluster_colors_encode p (mkOr insertion_sort picks 10 20) ord ord2 H 4 im = Some io_panic.
Proof.
  exists unlucky_image, (fun l => l), unlucky_picks, (map cc_color unlucky). split; [exact unlucky_ok|]. split; [reflexivity|]. split; [intros l; apply Permutation_refl|].
  assert (E : color_counts (fun l => l) unlucky_image = unlucky) by (vm_compute; reflexivity).
  assert (Ho : ord_ok (fun l : list (rgb N * N) => l)) by (intros l; apply Permutation_refl).
  split; [rewrite <- E; now apply counts_nodup|]. split; [intros q; rewrite <- E; symmetry; now apply counts_in|]. split; [reflexivity|].
  intros p ord2 H. apply unlucky_aborts.
Qed.

(** ** Concrete cases *)
Lemma strip_palette : NoDup (map cc_color (color_counts (fun l => l) strip)) /\ (forall q, In q (map cc_color (color_counts (fun l => l) strip)) <-> In q (map to_rgb (im_px strip)))
  /\ length (color_counts (fun l => l) strip) = 5%nat.
Proof.
  assert (Ho : ord_ok (fun l : list (rgb N * N) => l)) by (intros l; apply Permutation_refl).
  split; [now apply counts_nodup|]. split; [|vm_compute; reflexivity]. intros q. symmetry. now apply counts_in.
Qed.
Lemma case62 : exists m out, cluster_colors_encode Release some_oracles (fun l => l) (@rev _) list_heap 5 strip = Some m /\ run_vec m = Ok out
  /\ cluster_colors_decode 100 list_next (out ++ [7]%N) = Some (Ok (opaque strip)).
Proof.
  pose (test := fun o : option (io unit) => match o with
    | Some m => match run_vec m with Ok out => cluster_colors_decode 100 list_next (out ++ [7]%N) | _ => None end | None => None end).
  assert (H : test (cluster_colors_encode Release some_oracles (fun l => l) (@rev _) list_heap 5 strip) = Some (Ok (opaque strip))) by (vm_compute; reflexivity).
  unfold test in H. destruct (cluster_colors_encode _ _ _ _ _ _ _) as [m|]; [|discriminate]. destruct (run_vec m) as [out| |] eqn:E; try discriminate.
  now exists m, out.
Qed.
Lemma case61 : exists m out, cluster_colors_encode Debug some_oracles (fun l => l) (@rev _) list_heap 1 strip = Some m /\ run_vec m = Ok out
  /\ cluster_colors_decode 100 list_next (out ++ [7]%N) = Some (Ok (mkImg 6 1 (repeat (px 1 1 1 255) 6))).
Proof.
  pose (test := fun o : option (io unit) => match o with
    | Some m => match run_vec m with Ok out => cluster_colors_decode 100 list_next (out ++ [7]%N) | _ => None end | None => None end).
  assert (H : test (cluster_colors_encode Debug some_oracles (fun l => l) (@rev _) list_heap 1 strip) = Some (Ok (mkImg 6 1 (repeat (px 1 1 1 255) 6)))) by (vm_compute; reflexivity).
  unfold test in H. destruct (cluster_colors_encode _ _ _ _ _ _ _) as [m|]; [|discriminate]. destruct (run_vec m) as [out| |] eqn:E; try discriminate.
  now exists m, out.
Qed.
Lemma check_tolerance T (c : clusters T) k : (k <= 2 ^ 32)%N -> (k <= N.of_nat (length (concat (assignment c))))%N ->
  check_enough c k = if (N.of_nat (length (filter (fun v : list T => negb (length v =? 0)%nat) (assignment c))) <? 99 * k / 100)%N then Panic else Ok tt.
Proof. exact (check_spec c k). Qed.
