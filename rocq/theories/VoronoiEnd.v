(** * voronoi in a release build: its outcomes, one cluster, one cluster per pixel (C95). *)
From Coq Require Import ZifyBool ZifyNat ZifyN Reals Lra.
From Flocq Require Import Core BinarySingleNaN.
From Verif Require Import Base Ser SerSpec SerProofs Utils UtilsProofs Img Float FloatProofs CodecSpec CodecBytes CodecHilbert SpecialProofs
  Kmeans KmeansSpec KmeansProofs KmeansFloat KmeansNear KmeansEnd KmeansCheck KmeansTotal ClusterC ClusterSpec ClusterProofs VoronoiProofs ClusterTop ClusterExact ClusterColors.
Close Scope R_scope.

(** ** Distances *)
Lemma sqdiff_release a b : exists d, u32_sqdiff Release a b = Ok d /\ (d < 2 ^ 32)%N.
Proof.
  unfold u32_sqdiff. destruct (usub_release (2 ^ 32) a b) as (d & ->). cbn [res_bind]. unfold ufit.
  destruct (N.ltb_spec (d * d) (2 ^ 32)); eexists; (split; [reflexivity|]); [assumption|]. apply N.mod_lt. lia.
Qed.
Lemma of_N_bounded n : (n < 2 ^ 32)%N -> bounded_by (f64_of_N n) (2 ^ 32) /\ (0 <= B2R (f64_of_N n))%R.
Proof.
  intros H. destruct (of_N_spec n) as [F V _]; [lia|]. unfold bounded_by. rewrite V. split; [split; [exact F|]|apply IZR_le; lia].
  rewrite <- abs_IZR. apply IZR_le. lia.
Qed.
Lemma sqrt_finite x : is_finite x = true -> (0 <= B2R x)%R -> is_finite (fsqrt x) = true /\ (0 <= B2R (fsqrt x))%R /\ (B2R x = 0%R -> B2R (fsqrt x) = 0%R).
Proof.
  intros F H. unfold fsqrt. destruct (Bsqrt_correct 53 1024 f64_prec f64_emax mode_NE x) as (V & Hf & _). split.
  - rewrite Hf. destruct x as [s|s| |s m e Hb]; try discriminate; [reflexivity|]. destruct s; [|reflexivity].
    exfalso. cbn in H. apply (Rle_not_lt _ _ H). apply F2R_lt_0. reflexivity.
  - rewrite V. split.
    + rewrite <- (rnd_int 0) by lia. apply round_le; [exact valid_f64|exact valid_ne|]. apply sqrt_pos.
    + intros ->. rewrite sqrt_0. apply (rnd_int 0). lia.
Qed.
Lemma sum_bounded dx dy c : (dx < 2 ^ 32)%N -> (dy < 2 ^ 32)%N -> bounded_by c 443 ->
  let s := fadd (fadd (f64_of_N dx) (f64_of_N dy)) (fsqr c) in is_finite s = true /\ (0 <= B2R s)%R.
Proof.
  intros Hx Hy Hc. destruct (of_N_bounded dx Hx) as [Bx Px]. destruct (of_N_bounded dy Hy) as [By Py].
  destruct (fsqr_bound c 443 Hc ltac:(lia) ltac:(lia)) as [Bc Pc].
  pose proof (fadd_bound _ _ _ _ Bx By ltac:(lia) ltac:(lia) ltac:(lia)) as B1.
  pose proof (fadd_pos _ _ _ _ Bx By ltac:(lia) ltac:(lia) ltac:(lia) Px Py) as P1.
  cbv zeta. split; [exact (proj1 (fadd_bound _ _ _ _ B1 Bc ltac:(lia) ltac:(lia) ltac:(lia)))|].
  exact (fadd_pos _ _ _ _ B1 Bc ltac:(lia) ltac:(lia) ltac:(lia) P1 Pc).
Qed.
Lemma colour_bounded a b : rgb_ok a -> rgb_ok b -> bounded_by (rgb_dist a b) 443.
Proof.
  intros Ha Hb. rewrite rgb_dist_root by assumption. destruct (root_spec (sq_dist a b) (sq_dist_bound a b Ha Hb)) as (F & _ & B & _).
  split; [exact F|]. rewrite Rabs_pos_eq by lra. lra.
Qed.
Lemma cp_dist_real im a b : in_image im a -> in_image im b -> exists d, cp_dist Release a b = Ok d /\ is_finite d = true /\ (0 <= B2R d)%R.
Proof.
  intros (_ & _ & Ha) (_ & _ & Hb). unfold cp_dist. destruct (sqdiff_release (cp_x a) (cp_x b)) as (dx & -> & Hx).
  destruct (sqdiff_release (cp_y a) (cp_y b)) as (dy & -> & Hy). cbn [res_bind]. eexists. split; [reflexivity|].
  destruct (sum_bounded dx dy _ Hx Hy (colour_bounded _ _ Ha Hb)) as [F P]. destruct (sqrt_finite _ F P) as (H1 & H2 & _). auto.
Qed.
Lemma cp_dist_self im a : in_image im a -> exists d, cp_dist Release a a = Ok d /\ is_finite d = true /\ B2R d = 0%R.
Proof.
  intros (_ & _ & Ha). unfold cp_dist, u32_sqdiff, usub. rewrite !N.leb_refl, !N.sub_diag. cbn [res_bind]. change (ufit Release (2 ^ 32) (0 * 0)) with (@Ok N 0%N). cbn [res_bind].
  eexists. split; [reflexivity|]. rewrite rgb_dist_root by exact Ha.
  assert (Z : sq_dist (cp_color a) (cp_color a) = 0%Z) by (destruct (cp_color a) as [[r g] b]; unfold sq_dist; now rewrite !Z.sub_diag). rewrite Z.
  assert (E : B2R (fadd (fadd (f64_of_N 0) (f64_of_N 0)) (fsqr (root 0))) = 0%R /\ is_finite (fadd (fadd (f64_of_N 0) (f64_of_N 0)) (fsqr (root 0))) = true) by (split; vm_compute; reflexivity).
  destruct E as [E F]. destruct (sqrt_finite _ F ltac:(rewrite E; lra)) as (H1 & _ & H2). auto.
Qed.

(** ** Points that stay *)
Section Stay.
  Context {T : Type} (P : point T).
  Lemma at_index {A} (l : list A) i : (i < length l)%nat -> exists a, index l i = Ok a /\ In a l.
  Proof.
    intros H. unfold index. destruct (nth_error l i) as [a|] eqn:E; [exists a; split; [reflexivity|now apply nth_error_In in E]|].
    apply nth_error_None in E. lia.
  Qed.
  Lemma near_update (g : list neighbours) i w : map near (update_at i (fun nb => mkNb (src_id nb) (near nb) w) g) = map near g.
  Proof. revert i. induction g as [|nb g IH]; intros [|i]; cbn [update_at map]; try reflexivity. now rewrite IH. Qed.
  Lemma loop_stays cs l : forall g asg b,
    (forall i x g', In (i, x) l -> map near g' = map near g -> (i < length asg)%nat /\ exists w, assign_point P cs g' i x = Ok (i, w)) ->
    exists g' asg', assign_loop P cs l g asg b = Ok (g', asg', b).
  Proof.
    induction l as [|[i x] l IH]; intros g asg b H; cbn [assign_loop]; [eauto|].
    destruct (H i x g (or_introl eq_refl) eq_refl) as (Hi & w & ->). cbn [res_bind fst snd].
    destruct (at_index asg i Hi) as (v & -> & _). cbn [res_bind]. rewrite Nat.eqb_refl. cbn [negb]. rewrite Bool.orb_false_r.
    apply IH. intros i' x' g' H1 H2. rewrite update_at_length. apply H; [now right|]. rewrite H2. destruct w; [apply near_update|reflexivity].
  Qed.
  Lemma pass_stays c : length (centroids c) = length (assignment c) -> assignment c <> [] ->
    (forall i v x g', nth_error (assignment c) i = Some v -> In x v -> map near g' = map near (graph c) -> exists w, assign_point P (centroids c) g' i x = Ok (i, w)) ->
    exists c1, assign_points P c = Ok (c1, false).
  Proof.
    intros Hl Hne H. unfold assign_points. rewrite Hl, Nat.eqb_refl.
    destruct (loop_stays (centroids c) (enumerated 0 (assignment c)) (graph c) (repeat [] (length (assignment c))) false) as (g' & asg' & ->).
    - intros i x g' Hin Hg. apply enumerated_in in Hin as (v & _ & Hv & Hx). rewrite Nat.sub_0_r in Hv. rewrite repeat_length. split; [apply nth_error_Some; congruence|]. now apply (H i v).
    - cbn [res_bind]. destruct (assignment c) as [|v l]; [contradiction|]. cbn [length Nat.eqb]. eauto.
  Qed.
  (** No centroid is nearer than one at distance zero. *)
  Lemma probe_zero (ok : T -> Prop) (Hd : forall a b, ok a -> ok b -> exists d, dist P a b = Ok d /\ is_finite d = true /\ (0 <= B2R d)%R) cs x cut l md cl :
    Forall ok cs -> ok x -> (forall t, In t (map fst l) -> (t < length cs)%nat) -> is_finite md = true -> B2R md = 0%R ->
    forall pos, exists w, probe P cs x cut l md cl pos = Ok (cl, w).
  Proof.
    intros Hc Hx Hl Fm Vm. rewrite Forall_forall in Hc. induction l as [|[t d] l IH]; intros pos; cbn [probe]; [eauto|].
    destruct (flt cut d); [eauto|]. destruct (at_index cs t) as (c & -> & Ic); [apply Hl; now left|]. cbn [res_bind].
    destruct (Hd c x (Hc c Ic) Hx) as (e & -> & Fe & Pe). cbn [res_bind].
    assert (Q : flt e md = false) by (unfold flt; rewrite Bltb_correct by assumption; apply Rlt_bool_false; rewrite Vm; exact Pe).
    rewrite Q. apply IH. intros u Hu. apply Hl. now right.
  Qed.
End Stay.

(** What an encoding writes once the clustering succeeded *)
Lemma clustered_emits p O n im c j : img_ok im -> (im_w im * im_h im <= 2 ^ 32)%N ->
  cluster (cp_point p) (or_sort O) (or_rng O) (or_fuel O) (or_vfuel O) (pixels im) n 0 = Some (Ok (c, j)) ->
  exists m, voronoi_encode p O n im = Some m /\ emits m (voronoi_bytes (im_w im) (im_h im) (centroids c)) (Ok tt)
  /\ N.of_nat (length (centroids c)) = n /\ u64_ok n /\ centroids c <> [] /\ Forall (in_image im) (centroids c)
  /\ Permutation (concat (assignment c)) (pixels im) /\ Forall2 (drawn_from im) (assignment c) (centroids c).
Proof.
  intros Hi Hs E. unfold voronoi_encode, with_clusters. rewrite (pixel_points_eq im Hi), E. eexists. split; [reflexivity|].
  pose proof (pixels_in im Hi) as Hp. pose proof Hi as (Hw & Hh & _ & _ & _).
  pose proof (cluster_kept _ _ _ _ _ _ _ _ _ _ E) as (K1 & K2 & K3 & _ & _).
  assert (L : (N.of_nat (length (pixels im)) <= 2 ^ 32)%N) by (rewrite pixels_length; lia).
  assert (AB : Forall (in_image im) (centroids c) /\ Forall (Forall (in_image im)) (assignment c)).
  { apply (reached_ok (cp_point p) (or_sort O) (or_rng O) (in_image im) (or_vfuel O) (pixels im) n c); [|exact Hp|exact (cluster_result _ _ _ _ _ _ _ _ _ _ E)].
    intros v q Hv Hlen Hm. cbn [mean cp_point] in Hm. eapply cp_mean_in; [exact Hi|exact Hv|lia|exact Hm]. }
  destruct AB as [A B].
  assert (U : u64_ok n /\ centroids c <> []).
  { destruct (N.eq_dec n 0) as [->|Hn]; [rewrite cluster_refused in E by (now left); discriminate|].
    split; [|intros Z; rewrite Z in K3; cbn in K3; lia].
    destruct (N.ltb_spec (N.of_nat (length (pixels im))) n) as [Q|Q]; [rewrite cluster_refused in E by (now right); discriminate|]. unfold u64_ok. lia. }
  destruct U as [U Ne].
  split; [|split; [exact K3|split; [exact U|split; [exact Ne|split; [exact A|split; [exact K1|]]]]]].
  - unfold voronoi_bytes. rewrite K3. rewrite <- app_assoc.
    apply emits_bind with (a := tt); [exact (so_ok (ser_ty_ok TU32) (im_w im) Hw eq_refl)|].
    apply emits_bind with (a := tt); [exact (so_ok (ser_ty_ok TU32) (im_h im) Hh eq_refl)|].
    apply emits_bind with (a := tt); [exact (so_ok (ser_ty_ok TUsize) n U eq_refl)|].
    rewrite iter_fst, (cluster_list_length _ _ _ _ _ _ _ _ _ _ E). apply emits_iter. intros q Hq. apply cp_emits, (in_image_ok im); [exact Hi|].
    rewrite Forall_forall in A. now apply A.
  - pose proof (cluster_means _ _ _ _ _ _ _ _ _ _ E) as M. rewrite Forall_forall in B.
    assert (I : forall v, In v (assignment c) -> incl v (pixels im)).
    { intros v Hv q Hq. eapply Permutation_in; [exact K1|]. apply in_concat. now exists v. }
    assert (G : forall v q, In v (assignment c) -> (mean (cp_point p) v = Ok q \/ (mean (cp_point p) v = Err /\ exists w x, In w (assignment c) /\ In x w /\ mean (cp_point p) [x] = Ok q)) -> drawn_from im v q).
    { intros v q Hv Hm. cbn [mean cp_point] in Hm. assert (Vo : Forall color_pos_ok v).
      { eapply Forall_impl; [|exact (B v Hv)]. intros x. now apply in_image_ok. }
      split.
      - intros Hne. destruct (cp_mean_spec p v Vo Hne) as (m & E1 & _ & F).
        { pose proof (part_length v _ Hv) as PL. rewrite (Permutation_length K1) in PL. lia. }
        destruct Hm as [Hm|[Hm _]]; [|congruence]. rewrite E1 in Hm. apply ok_inj in Hm. subst m. exact F.
      - intros ->. destruct Hm as [Hm|[_ (w & x & Hw' & Hx & Hm)]]; [discriminate|].
        rewrite cp_mean_one in Hm; [apply ok_inj in Hm; subst; now apply (I w Hw')|].
        apply (in_image_ok im); [exact Hi|]. specialize (B w Hw'). rewrite Forall_forall in B. now apply B. }
    eapply Forall2_in_weaken; [|exact M]. exact G.
Qed.

Section Voronoi.
  Variables (O : oracles) (im : img).
  Hypothesis Hsort : sort_ok (or_sort O).
  Hypothesis Him : img_ok im.
  Hypothesis Hsmall : (im_w im * im_h im <= 2 ^ 32)%N.
  Notation pts := (pixels im).
  Notation P := (cp_point Release).
  Notation fcluster := (cluster P (or_sort O) (or_rng O) (or_fuel O) (or_vfuel O) pts).
  Lemma v_dist a b : in_image im a -> in_image im b -> exists d, dist P a b = Ok d /\ is_finite d = true.
  Proof. intros Ha Hb. destruct (cp_dist_real im a b Ha Hb) as (d & E & F & _). exists d. split; [exact E|exact F]. Qed.
  Lemma v_count : N.of_nat (length pts) = (im_w im * im_h im)%N.
  Proof. rewrite pixels_length. lia. Qed.
  Lemma v_mean v rest : v <> [] -> Permutation (v ++ rest) pts -> exists m, mean P v = Ok m /\ in_image im m.
  Proof.
    intros Hn Hp. assert (Hv : Forall (in_image im) v).
    { pose proof (pixels_in im Him) as Q. rewrite Forall_forall in *. intros x Hx. apply Q. eapply Permutation_in; [exact Hp|]. apply in_or_app. now left. }
    assert (L : (N.of_nat (length v) <= 2 ^ 32)%N).
    { pose proof (Permutation_length Hp) as Q. rewrite app_length in Q. pose proof v_count. lia. }
    destruct (cp_mean_spec Release v) as (m & E & _); [|exact Hn|exact L|].
    - eapply Forall_impl; [|exact Hv]. intros c. now apply in_image_ok.
    - exists m. split; [exact E|]. eapply cp_mean_in; [exact Him|exact Hv|exact L|exact E].
  Qed.
  Lemma v_none : mean P [] = Err.
  Proof. reflexivity. Qed.

  (** The outcomes of an encoding *)
  Lemma v_outcomes n : (1 <= n <= im_w im * im_h im)%N ->
    voronoi_encode Release O n im = None
    \/ (exists m cs, voronoi_encode Release O n im = Some m /\ run_vec m = Ok (voronoi_bytes (im_w im) (im_h im) cs) /\ N.of_nat (length cs) = n)
    \/ (voronoi_encode Release O n im = Some io_panic
        /\ exists c, reached P (or_sort O) (or_rng O) (or_vfuel O) pts n c /\ (occupied c < 99 * n / 100)%N).
  Proof.
    intros Hk. destruct (cluster_total P (or_sort O) (or_rng O) Hsort (in_image im) v_dist pts (pixels_in im Him) v_mean v_none n (or_fuel O) (or_vfuel O) 0)
      as [E|[(c & R & [(j & E & C)|(E & C)])|(E & V & _)]].
    - rewrite v_count. exact Hk.
    - left. unfold voronoi_encode, with_clusters. now rewrite (pixel_points_eq im Him), E.
    - right. left. destruct (clustered_emits Release O n im c j Him Hsmall E) as (m & H1 & H2 & H3 & _). exists m, (centroids c).
      split; [exact H1|]. split; [now apply emits_run_vec in H2|exact H3].
    - right. right. split; [unfold voronoi_encode, with_clusters; now rewrite (pixel_points_eq im Him), E|]. exists c. split; [exact R|].
      apply reached_shape in R as [S0 S1 _ _]. rewrite check_spec in C; [|lia|rewrite (Permutation_length S0), v_count; lia].
      destruct (_ <? _)%N eqn:Q; [lia|discriminate].
    - discriminate V.
  Qed.
  Lemma v_two n : (1 <= n <= im_w im * im_h im)%N -> (n <= 2)%N ->
    voronoi_encode Release O n im = None
    \/ (exists m cs, voronoi_encode Release O n im = Some m /\ run_vec m = Ok (voronoi_bytes (im_w im) (im_h im) cs) /\ N.of_nat (length cs) = n).
  Proof.
    intros Hk H2. destruct (v_outcomes n Hk) as [E|[E|(_ & c & R & C)]]; [now left|now right|]. exfalso. apply reached_shape in R as [S0 _ _ _].
    assert (1 <= occupied c)%N by (apply some_occupied; intros Z; rewrite Z in S0; apply Permutation_length in S0; pose proof v_count; cbn in S0; lia).
    assert (99 * n / 100 <= 1)%N by (apply N.div_le_upper_bound; lia). lia.
  Qed.

  (** ** Runs that end with their first pass *)
  Lemma v_ids (c : clusters color_pos) g' : ids_ok (length (centroids c)) (graph c) -> map near g' = map near (graph c) -> ids_ok (length (centroids c)) g'.
  Proof.
    intros [H1 H2] Hg. assert (L : length g' = length (graph c)) by (rewrite <- (map_length near g'), Hg; apply map_length). split; [lia|].
    intros nb t Hn Ht. apply (in_map near) in Hn. rewrite Hg in Hn. apply in_map_iff in Hn as (nb0 & Q & Hn). rewrite <- Q in Ht. now apply (H2 nb0).
  Qed.
  Lemma v_first n : (1 <= n <= im_w im * im_h im)%N -> (1 <= or_fuel O)%nat ->
    (forall c, init P (or_sort O) pts n 0 = Some (Ok (c, 0%nat)) -> Forall (in_image im) (centroids c) -> ids_ok (length (centroids c)) (graph c) ->
      Permutation (concat (assignment c)) pts ->
      forall i v x g', nth_error (assignment c) i = Some v -> In x v -> map near g' = map near (graph c) -> exists w, assign_point P (centroids c) g' i x = Ok (i, w)) ->
    exists c c', init P (or_sort O) pts n 0 = Some (Ok (c, 0%nat)) /\ fcluster n 0%nat = Some (Ok (c', 0%nat)) /\ assignment c' = assignment c.
  Proof.
    intros Hk Hf H. rewrite <- v_count in Hk. pose proof v_count as Hc.
    destruct (init_total P (or_sort O) (or_rng O) Hsort (in_image im) v_dist pts v_mean n 0 Hk) as (c & E & F & Ne).
    pose proof (fit_ids P (in_image im) pts v_mean n c F) as I. destruct F as [[S0 S1 S2 S3] G C K].
    destruct (pass_stays P c) as (c1 & E1); [lia|intros Z; rewrite Z in *; cbn in *; lia| |].
    - intros i v x g'. now apply H.
    - exists c. destruct (first_pass_ends P (or_sort O) (or_rng O) Hsort (in_image im) v_dist pts v_mean n (or_fuel O) (or_vfuel O) 0 c c1 Hk) as (c' & Q1 & Q2); [lia|exact Hf|exact E|exact E1|].
      exists c'. auto.
  Qed.
  (** One cluster: the centroid of all the pixels *)
  Lemma v_one : (1 <= im_w im * im_h im)%N -> (1 <= or_fuel O)%nat ->
    exists m c, voronoi_encode Release O 1 im = Some m /\ run_vec m = Ok (voronoi_bytes (im_w im) (im_h im) [c]) /\ centroid_of pts c /\ in_image im c.
  Proof.
    intros Hk Hf. destruct (v_first 1 ltac:(lia) Hf) as (c & c' & _ & E & _).
    - intros c E C I Pm i v x g' Hi Hx Hg. apply init_shape in E as [S0 S1 S2 _].
      assert (Li : (i < length (assignment c))%nat) by (apply nth_error_Some; congruence).
      destruct (assign_point_total P (or_rng O) (in_image im) v_dist (centroids c) g' i x C) as (j & w & Q & Hj).
      + pose proof (pixels_in im Him) as Q. rewrite Forall_forall in Q. apply Q. eapply Permutation_in; [exact Pm|]. apply in_concat. exists v. split; [eapply nth_error_In, Hi|exact Hx].
      + now apply v_ids.
      + lia.
      + exists w. rewrite Q. do 2 f_equal. lia.
    - destruct (clustered_emits Release O 1 im c' 0 Him Hsmall E) as (m & H1 & H2 & H3 & _ & _ & Hin0 & H4 & H5).
      destruct (centroids c') as [|ct [|]] eqn:Ec; cbn [length] in H3; try lia. exists m, ct. split; [exact H1|]. split; [now apply emits_run_vec in H2|].
      inversion H5 as [|v ct' l l' [D _] F Ev]; subst. inversion F; subst. rewrite <- Ev in H4. cbn [concat] in H4. rewrite app_nil_r in H4.
      assert (Hv : v <> []) by (intros ->; apply Permutation_length in H4; pose proof v_count; cbn in H4; lia).
      split; [|now inversion Hin0]. intros f Hin. specialize (D Hv f Hin). rewrite (total_perm (map f pts) (map f v)) by (symmetry; now apply Permutation_map).
      now rewrite (Permutation_length (Permutation_sym H4)).
  Qed.
  (** One cluster per pixel: the centroids are the pixels *)
  Lemma v_singles c : (1 <= im_w im * im_h im)%N -> init P (or_sort O) pts (im_w im * im_h im) 0 = Some (Ok (c, 0%nat)) ->
    Forall2 (fun v q => v = [q]) (assignment c) (centroids c).
  Proof.
    intros Hk H. rewrite <- v_count in H, Hk. unfold init in H. apply run_bind_ok in H as (asg & k1 & H1 & H). apply run_bind_ok in H as (cs & k2 & H2 & H).
    apply run_bind_ok in H as (g & k3 & H3 & H). injection H as <- _. cbn [centroids assignment]. apply run_lift_ok in H1 as [H1 _]. apply run_lift_ok in H2 as [H2 _].
    pose proof (init_assignment_spec pts (N.of_nat (length pts))) as I. cbv zeta in I.
    destruct ((N.of_nat (length pts) =? 0) || (N.of_nat (length pts) <? N.of_nat (length pts)))%N eqn:E; [lia|].
    destruct I as (ch & rest & I1 & I2 & I3 & I4 & _ & I6). rewrite H1 in I1. injection I1 as ->. rewrite N.div_same in * by lia.
    assert (S : Forall (fun v => length v = 1%nat /\ incl v pts) (ch ++ [rest])).
    { apply Forall_forall. intros v Hv. split.
      - apply in_app_or in Hv as [Hv|[<-|[]]]; [rewrite Forall_forall in I3; specialize (I3 v Hv); cbn in I3; lia|lia].
      - intros x Hx. rewrite <- I6. apply in_app_or in Hv as [Hv|[<-|[]]]; apply in_or_app; [right; apply in_concat; exists v; split; [now rewrite <- in_rev|exact Hx]|now left]. }
    unfold init_centroids in H2. apply res_mapM_ok in H2. pose proof (pixels_in im Him) as Q. rewrite Forall_forall in S, Q.
    eapply Forall2_in_weaken; [|exact H2]. intros v m Hin Hv. cbn beta in Hv. destruct (S v Hin) as [L N]. destruct v as [|x [|]]; cbn in L; try lia.
    cbn in Hv. unfold fake_clone in Hv. cbn [mean cp_point] in Hv. rewrite cp_mean_one in Hv; [injection Hv as <-; reflexivity|].
    apply (in_image_ok im); [exact Him|]. apply Q, N. now left.
  Qed.
  Lemma v_each : (1 <= im_w im * im_h im)%N -> (1 <= or_fuel O)%nat ->
    exists m cs, voronoi_encode Release O (im_w im * im_h im) im = Some m /\ run_vec m = Ok (voronoi_bytes (im_w im) (im_h im) cs) /\ Permutation cs pts.
  Proof.
    intros Hk Hf. destruct (v_first (im_w im * im_h im) ltac:(lia) Hf) as (c & c' & Ei & E & A).
    - intros c E C I Pm i v x g' Hi Hx Hg. pose proof (v_singles c Hk E) as S. apply init_shape in E as [S0 S1 S2 _].
      assert (Li : (i < length (assignment c))%nat) by (apply nth_error_Some; congruence).
      destruct (nth_error (centroids c) i) as [q|] eqn:Eq; [|apply nth_error_None in Eq; lia].
      pose proof (Forall2_nth _ _ _ _ _ _ S Hi Eq) as Ev. cbn beta in Ev. subst v. destruct Hx as [<-|[]].
      assert (Hq : in_image im q) by (rewrite Forall_forall in C; apply C; eapply nth_error_In, Eq).
      unfold assign_point. unfold index at 1. rewrite Eq. cbn [res_bind dist cp_point]. destruct (cp_dist_self im q Hq) as (d & -> & Fd & Vd). cbn [res_bind].
      destruct (v_ids c g' I Hg) as [J1 J2]. destruct (at_index g' i ltac:(lia)) as (nb & -> & In_). cbn [res_bind]. destruct (fle d _); [eauto|].
      destruct (probe_zero P (in_image im) (cp_dist_real im) (centroids c) q (fmul (f64_of_N 2) d) (near nb) d i C Hq (fun t => J2 nb t In_) Fd Vd 0) as (w & ->).
      cbn [res_map fst snd]. eauto.
    - destruct (clustered_emits Release O _ im c' 0 Him Hsmall E) as (m & H1 & H2 & H3 & _ & _ & Hin & H4 & H5).
      exists m, (centroids c'). split; [exact H1|]. split; [now apply emits_run_vec in H2|].
      assert (G : centroids c' = concat (assignment c')); [|rewrite G; exact H4].
      pose proof (v_singles c Hk Ei) as S. rewrite <- A in S. clear -S H5 H4 Him.
      assert (Ok1 : forall v x, In v (assignment c') -> In x v -> color_pos_ok x).
      { intros v x Hv Hx. apply (in_image_ok im); [exact Him|]. pose proof (pixels_in im Him) as Q. rewrite Forall_forall in Q. apply Q. eapply Permutation_in; [exact H4|]. apply in_concat. eauto. }
      clear H4. revert S Ok1. generalize (centroids c). induction H5 as [|v q l l' [D _] F IH]; intros cs S Ok1; [reflexivity|].
      inversion S as [|v' q' l1 cs1 Hv S1]; subst. cbn [concat app]. f_equal; [|apply (IH cs1 S1); intros v x Hv; apply Ok1; now right].
      specialize (D ltac:(discriminate)). destruct (cp_mean_spec Release [q']) as (m' & Em & _ & Fm); [constructor; [apply (Ok1 [q']); now left|constructor]|discriminate|cbn; lia|].
      rewrite cp_mean_one in Em by (apply (Ok1 [q']); now left). injection Em as <-.
      assert (X : forall f, In f components -> f q = f q').
      { intros f Hf. specialize (D f Hf). unfold floor_of, total in D. cbn [map fold_right length] in D. lia. }
      destruct q as [x y [[r g] b]], q' as [x' y' [[r' g'] b']].
      assert (A1 := X cp_x ltac:(cbn; tauto)). assert (A2 := X cp_y ltac:(cbn; tauto)).
      unfold components, channels in X. cbn [map] in X.
      pose proof (X _ (or_intror (or_intror (or_introl eq_refl)))) as A3. pose proof (X _ (or_intror (or_intror (or_intror (or_introl eq_refl))))) as A4.
      pose proof (X _ (or_intror (or_intror (or_intror (or_intror (or_introl eq_refl)))))) as A5. cbn in *. congruence.
  Qed.
End Voronoi.

(** ** The decoded images *)
Lemma drawn_pixels w h cs im f : voronoi_image w h cs im -> (forall x y c, (x < w)%N -> (y < h)%N -> first_nearest cs x y c -> cp_color c = f (x, y)) ->
  im = mkImg w h (map (fun q => (f q, 255%N)) (row_major w h)).
Proof.
  intros (Hw & Hh & Ho & Hl & Hp) Hf. destruct im as [w' h' l]. cbn [im_w im_h im_px] in *. subst w' h'. f_equal. unfold is_opaque in Ho. cbn [im_px] in Ho.
  apply List.nth_ext with (d := (black, 0%N)) (d' := (black, 0%N)).
  - rewrite map_length, row_major_length. lia.
  - intros i Hi. destruct (index_split w h i ltac:(lia)) as (x & y & Hx & Hy & ->).
    pose proof (row_major_nth w h x y Hx Hy) as R. erewrite (nth_error_nth (map _ _)); [|rewrite nth_error_map, R; reflexivity].
    destruct (Hp x y Hx Hy) as (c & N & E). rewrite (Hf x y c Hx Hy N) in E. unfold pixel_at in E. cbn [im_w im_px fst snd] in E.
    rewrite Forall_forall in Ho. specialize (Ho _ (nth_In l (black, 0%N) Hi)). destruct (nth _ l _) as [q a]. cbn in Ho, E. now rewrite Ho, E.
Qed.
Lemma one_colour O im : sort_ok (or_sort O) -> (1 <= or_fuel O)%nat -> img_ok im -> (1 <= im_w im <= 46341)%N -> (1 <= im_h im <= 46341)%N ->
  exists m c, voronoi_encode Release O 1 im = Some m /\ run_vec m = Ok (voronoi_bytes (im_w im) (im_h im) [c]) /\ centroid_of (pixels im) c
  /\ forall S (next : nextf S N) s s', yields next s (voronoi_bytes (im_w im) (im_h im) [c]) s' ->
     voronoi_decode Release next s = Ok (mkImg (im_w im) (im_h im) (repeat (cp_color c, 255%N) (N.to_nat (im_w im * im_h im)))).
Proof.
  intros Hs Hf Hi Hw Hh. destruct (v_one O im Hs Hi ltac:(nia) ltac:(nia) Hf) as (m & c & H1 & H2 & H3 & H4). exists m, c.
  split; [exact H1|]. split; [exact H2|]. split; [exact H3|].
  destruct (voronoi_decode_release (im_w im) (im_h im) [c]) as (im' & D1 & D2); [lia|lia|discriminate|unfold u64_ok; cbn; lia| | |].
  - constructor; [now apply (in_image_ok im)|constructor].
  - constructor; [destruct H4; lia|constructor].
  - intros S next s s' Hy. rewrite (D2 S next s s' Hy). f_equal. rewrite (drawn_pixels _ _ _ _ (fun _ => cp_color c) D1).
    + f_equal. rewrite <- row_major_length. induction (row_major (im_w im) (im_h im)) as [|q l IH]; [reflexivity|]. cbn [map length repeat]. now rewrite IH.
    + intros x y d _ _ (b & a & E & _). destruct b as [|e b]; [now injection E as <- _|]. injection E as _ E. destruct b; discriminate.
Qed.
Lemma own_pixel im cs x y c : Permutation cs (pixels im) -> (x < im_w im)%N -> (y < im_h im)%N -> first_nearest cs x y c -> cp_color c = to_rgb (pixel_at im (x, y)).
Proof.
  intros Hp Hx Hy (b & a & E & Hb & Ha).
  assert (Hq : In (mkCP x y (to_rgb (pixel_at im (x, y)))) cs).
  { eapply Permutation_in; [symmetry; exact Hp|]. unfold pixels. apply in_map_iff. exists (x, y). split; [reflexivity|]. apply nth_error_In with (n := px_index (im_w im) x y). now apply row_major_nth. }
  assert (Z : (plane_dist x y c <= 0)%Z).
  { set (q := mkCP x y _) in Hq. assert (Q : plane_dist x y q = 0%Z) by (unfold plane_dist, q; cbn [cp_x cp_y]; now rewrite !Z.sub_diag).
    rewrite <- Q. rewrite E in Hq. rewrite Forall_forall in Ha, Hb. apply in_app_or in Hq as [Hq|[->|Hq]]; [specialize (Hb q Hq); lia|lia|apply (Ha q Hq)]. }
  assert (Hc : In c (pixels im)) by (eapply Permutation_in; [exact Hp|]; rewrite E; apply in_elt).
  unfold pixels in Hc. apply in_map_iff in Hc as ([x' y'] & <- & _). unfold plane_dist in Z. cbn [cp_x cp_y cp_color fst snd] in *.
  assert (x' = x) by nia. assert (y' = y) by nia. now subst.
Qed.
Lemma lossless_pixels O im : sort_ok (or_sort O) -> (1 <= or_fuel O)%nat -> img_ok im -> (1 <= im_w im <= 46341)%N -> (1 <= im_h im <= 46341)%N ->
  exists m out, voronoi_encode Release O (im_w im * im_h im) im = Some m /\ run_vec m = Ok out /\ N.of_nat (length out) = (16 + 19 * (im_w im * im_h im))%N
  /\ forall S (next : nextf S N) s s', yields next s out s' -> voronoi_decode Release next s = Ok (opaque im).
Proof.
  intros Hs Hf Hi Hw Hh. destruct (v_each O im Hs Hi ltac:(nia) ltac:(nia) Hf) as (m & cs & H1 & H2 & H3). exists m, (voronoi_bytes (im_w im) (im_h im) cs).
  assert (L : N.of_nat (length cs) = (im_w im * im_h im)%N) by (rewrite (Permutation_length H3), pixels_length; lia).
  split; [exact H1|]. split; [exact H2|]. split; [rewrite voronoi_size; lia|].
  assert (A : Forall (in_image im) cs).
  { pose proof (pixels_in im Hi) as Q. rewrite Forall_forall in *. intros q Hq. apply Q. eapply Permutation_in; [exact H3|exact Hq]. }
  destruct (voronoi_decode_release (im_w im) (im_h im) cs) as (im' & D1 & D2); [lia|lia|intros ->; cbn in L; nia|unfold u64_ok; nia| | |].
  - revert A. apply Forall_impl. intros q. now apply in_image_ok.
  - revert A. apply Forall_impl. intros q (? & ? & _). lia.
  - intros S next s s' Hy. rewrite (D2 S next s s' Hy). f_equal. rewrite (drawn_pixels _ _ _ _ (fun p => to_rgb (pixel_at im p)) D1).
    + unfold opaque. f_equal. rewrite <- (row_major_pixels im Hi) at 1. rewrite map_map. reflexivity.
    + intros x y c Hx Hy'. now apply own_pixel.
Qed.
Lemma wrong_number p O n im : img_ok im -> (n = 0 \/ im_w im * im_h im < n)%N -> voronoi_encode p O n im = Some io_panic.
Proof.
  intros Hi Hn. unfold voronoi_encode, with_clusters. rewrite (pixel_points_eq im Hi). rewrite cluster_refused; [reflexivity|]. rewrite pixels_length. lia.
Qed.

(** ** Cases *)
Lemma case95 : exists m out, voronoi_encode Release some_oracles 6 wall = Some m /\ run_vec m = Ok out /\ length out = 130%nat
  /\ voronoi_decode Release list_next (out ++ [7]%N) = Ok (opaque wall).
Proof.
  pose (test := fun (r : option (io unit)) => match r with
    | Some m => match run_vec m with
        | Ok out => match voronoi_decode Release list_next (out ++ [7]%N) with Ok im' => (length out, im') | _ => (1%nat, mkImg 0 0 []) end
        | _ => (2%nat, mkImg 0 0 []) end
    | None => (3%nat, mkImg 0 0 []) end).
  assert (H : test (voronoi_encode Release some_oracles 6 wall) = (130%nat, opaque wall)) by (vm_compute; reflexivity).
  unfold test in H. destruct (voronoi_encode _ _ _ _) as [m|]; [|discriminate]. destruct (run_vec m) as [out| |] eqn:E; try discriminate.
  destruct (voronoi_decode _ _ _) as [im'| |] eqn:E2; try discriminate. injection H as H1 H2. exists m, out. subst im'. auto.
Qed.
Lemma case95_one : exists m out, voronoi_encode Release some_oracles 1 wall = Some m /\ run_vec m = Ok out
  /\ voronoi_decode Release list_next out = Ok (mkImg 3 2 (repeat (5, 71, 1, 255)%N 6)).
Proof.
  pose (test := fun (r : option (io unit)) => match r with
    | Some m => match run_vec m with
        | Ok out => match voronoi_decode Release list_next out with Ok im' => (length out, im') | _ => (1%nat, mkImg 0 0 []) end
        | _ => (2%nat, mkImg 0 0 []) end
    | None => (3%nat, mkImg 0 0 []) end).
  assert (H : test (voronoi_encode Release some_oracles 1 wall) = (35%nat, mkImg 3 2 (repeat (5, 71, 1, 255)%N 6))) by (vm_compute; reflexivity).
  unfold test in H. destruct (voronoi_encode _ _ _ _) as [m|]; [|discriminate]. destruct (run_vec m) as [out| |] eqn:E; try discriminate.
  destruct (voronoi_decode _ _ _) as [im'| |] eqn:E2; try discriminate. injection H as H1 H2. exists m, out. subst im'. auto.
Qed.
