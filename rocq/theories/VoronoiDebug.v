(** * With overflow checks, voronoi cannot encode (C44). *)
From Coq Require Import ZifyBool ZifyNat ZifyN.
From Flocq Require Import BinarySingleNaN.
From Verif Require Import Base Ser SerSpec SerProofs Img Float HilbertC CodecSpec CodecBytes CodecHilbert Kmeans KmeansSpec KmeansProofs KmeansEnd
  ClusterC ClusterSpec ClusterProofs VoronoiProofs.

(** ** Distances that never fail with an error value *)
Section NoErr.
  Context {T : Type} (P : point T) (sorted : list (nat * f64) -> list (nat * f64)).
  Hypothesis no_err : forall a b, dist P a b <> Err.

  Lemma probe_err cs x cut l : forall md cl pos, probe P cs x cut l md cl pos <> Err.
  Proof.
    induction l as [|[t d] l IH]; intros md cl pos; cbn [probe]; [discriminate|]. destruct (flt cut d); [discriminate|].
    unfold index. destruct (nth_error cs t) as [c|]; cbn [res_bind]; [|discriminate]. pose proof (no_err c x). destruct (dist P c x); cbn [res_bind]; try congruence.
    destruct (flt a md); apply IH.
  Qed.
  Lemma assign_point_err cs g i x : assign_point P cs g i x <> Err.
  Proof.
    unfold assign_point, index. destruct (nth_error cs i) as [c|]; cbn [res_bind]; [|discriminate]. pose proof (no_err c x).
    destruct (dist P c x) as [d| |]; cbn [res_bind]; try congruence. destruct (nth_error g i) as [nb|]; cbn [res_bind]; [|discriminate].
    destruct (fle d _); [discriminate|]. pose proof (probe_err cs x (fmul (f64_of_N 2) d) (near nb) d i 0). destruct (probe _ _ _ _ _ _ _ _); cbn; congruence.
  Qed.
  Lemma assign_loop_err cs l : forall g asg b, assign_loop P cs l g asg b <> Err.
  Proof.
    induction l as [|[i x] l IH]; intros g asg b; cbn [assign_loop]; [discriminate|]. pose proof (assign_point_err cs g i x).
    destruct (assign_point P cs g i x) as [r| |]; cbn [res_bind]; try congruence. unfold index. destruct (nth_error asg (fst r)); cbn [res_bind]; [apply IH|discriminate].
  Qed.
  Lemma assign_loop_dist cs l : forall g asg b r, assign_loop P cs l g asg b = Ok r -> forall i x, In (i, x) l -> exists c d, nth_error cs i = Some c /\ dist P c x = Ok d.
  Proof.
    induction l as [|[i0 x0] l IH]; intros g asg b r H i x Hin; [contradiction|]. cbn [assign_loop] in H. apply res_bind_ok in H as (r1 & H1 & H).
    apply res_bind_ok in H as (v & _ & H). destruct Hin as [E|Hin]; [|eapply IH; eassumption]. injection E as -> ->.
    unfold assign_point in H1. apply res_bind_ok in H1 as (c & Hc & H1). apply res_bind_ok in H1 as (d & Hd & _). apply index_ok in Hc. now exists c, d.
  Qed.
  Lemma assign_points_err c : assign_points P c <> Err.
  Proof.
    unfold assign_points. destruct (_ =? _)%nat; [|discriminate]. pose proof (assign_loop_err (centroids c) (enumerated 0 (assignment c)) (graph c) (repeat [] (length (centroids c))) false).
    destruct (assign_loop _ _ _ _ _ _) as [[[g a] b]| |]; cbn [res_bind]; try congruence. destruct (_ =? _)%nat; discriminate.
  Qed.

  Lemma distances_err cs nb : update_distances P cs nb <> Err.
  Proof.
    unfold update_distances, index. destruct (nth_error cs (src_id nb)) as [s|]; cbn [res_bind]; [|discriminate].
    match goal with |- res_bind ?m _ <> _ => assert (m <> Err) end.
    { apply mapM_err. intros [t d] _. cbn [fst]. destruct (nth_error cs t) as [c|]; cbn [res_bind]; [|discriminate]. pose proof (no_err s c).
      destruct (dist P s c); cbn [res_bind]; try congruence. destruct (is_finite _); discriminate. }
    destruct (res_mapM _ _); cbn [res_bind]; congruence.
  Qed.
  Lemma settle_err fuel cs : forall nb, settle P sorted fuel cs nb <> Some Err.
  Proof.
    induction fuel as [|fuel IH]; intros nb; [discriminate|]. rewrite settle_S. pose proof (distances_err cs nb).
    destruct (update_distances P cs nb) as [nb'| |]; try congruence. destruct (resize _ _) as [[|] nb2]; [discriminate|apply IH].
  Qed.
  Lemma run_mapM_total {A B} (f : A -> run B) l : (forall x i, In x l -> f x i <> None /\ f x i <> Some Err) -> forall i, run_mapM f l i <> None /\ run_mapM f l i <> Some Err.
  Proof.
    induction l as [|x l IH]; intros H i; [split; discriminate|]. cbn [run_mapM]. unfold run_bind. destruct (H x i (or_introl eq_refl)) as [H1 H2].
    destruct (f x i) as [[[y j]| |]|]; try (split; congruence). assert (H' : forall z i, In z l -> f z i <> None /\ f z i <> Some Err) by (intros z i' Hz; apply H; now right).
    destruct (IH H' j) as [H3 H4]. destruct (run_mapM f l j) as [[[ys j']| |]|]; split; congruence || discriminate.
  Qed.
  Hypothesis Hsort : sort_ok sorted.
  Lemma compute_total cs g i : compute_neighbours P sorted cs g i <> None /\ compute_neighbours P sorted cs g i <> Some Err.
  Proof.
    unfold compute_neighbours. apply run_mapM_total. intros nb i' _. pose proof (settle_two P sorted Hsort 0 cs nb) as [_ H1]. pose proof (settle_err 2 cs nb) as H2.
    destruct (settle P sorted 2 cs nb) as [[nb'| |]|]; unfold run_lift; cbn [res_map]; split; congruence.
  Qed.
End NoErr.

Lemma cp_dist_err p a b : cp_dist p a b <> Err.
Proof.
  unfold cp_dist. pose proof (sqdiff_err p (cp_x a) (cp_x b)). destruct (u32_sqdiff p (cp_x a) (cp_x b)); cbn [res_bind]; try congruence.
  pose proof (sqdiff_err p (cp_y a) (cp_y b)). destruct (u32_sqdiff p (cp_y a) (cp_y b)); cbn [res_bind]; congruence.
Qed.
Lemma cp_dist_debug a b d : cp_dist Debug a b = Ok d -> (cp_x b <= cp_x a /\ cp_y b <= cp_y a)%N.
Proof. intros H. apply res_bind_ok in H as (dx & H1 & H). apply res_bind_ok in H as (dy & H2 & _). split; eapply sqdiff_debug; eassumption. Qed.

Definition cp_position (c : color_pos) : N * N := (cp_x c, cp_y c).
Lemma pixels_nodup im : NoDup (map cp_position (pixels im)).
Proof.
  unfold pixels. rewrite map_map. cbn [cp_position cp_x cp_y]. rewrite (map_ext _ (fun q => q)) by (now intros [x y]). rewrite map_id.
  apply row_major_visits.
Qed.

(** The centroids at the start are the first points of the chunks. *)
Lemma centroids_start im asg : img_ok im -> Forall (fun v => v <> []) asg -> Forall (Forall (in_image im)) asg ->
  init_centroids (cp_point Debug) asg = Ok (map (hd (mkCP 0 0 black)) asg).
Proof.
  intros Hi Hne Hin. unfold init_centroids. apply mapM_ok. intros v Hv. rewrite Forall_forall in Hne, Hin. specialize (Hne v Hv). specialize (Hin v Hv).
  destruct v as [|q v]; [congruence|]. cbn [index nth_error res_bind hd]. unfold fake_clone. cbn [mean cp_point].
  rewrite cp_mean_one; [reflexivity|]. inversion_clear Hin. now apply (in_image_ok im).
Qed.

Lemma cluster_debug im sorted rng fuel vfuel k i : img_ok im -> sort_ok sorted -> (2 <= im_w im * im_h im)%N -> (1 <= fuel)%nat ->
  cluster (cp_point Debug) sorted rng fuel vfuel (pixels im) k i = Some Panic.
Proof.
  intros Hi Hsort H2 Hf. assert (NE : forall a b, dist (cp_point Debug) a b <> Err) by apply cp_dist_err.
  pose proof (init_assignment_spec (pixels im) k) as Hinit. cbv zeta in Hinit.
  assert (L : N.of_nat (length (pixels im)) = (im_w im * im_h im)%N) by (rewrite pixels_length; lia).
  destruct ((k =? 0) || (N.of_nat (length (pixels im)) <? k))%N eqn:Ek.
  { apply cluster_refused. lia. }
  destruct Hinit as (chunks & rest & E & Lc & Fc & Lr & Hpos & Hcat). set (ppc := (N.of_nat (length (pixels im)) / k)%N) in *.
  set (asg := chunks ++ [rest]) in *.
  assert (Perm : Permutation (concat asg) (pixels im)).
  { unfold asg. rewrite concat_app. cbn [concat]. rewrite app_nil_r, <- Hcat, Permutation_app_comm. apply Permutation_app_head.
    apply Permutation_concat || (clear; induction chunks as [|v l IH]; [constructor|]; cbn [rev concat]; rewrite concat_app; cbn [concat]; rewrite app_nil_r, IH; apply Permutation_app_comm). }
  assert (Hne : Forall (fun v : list color_pos => v <> []) asg).
  { unfold asg. apply Forall_app. split; [eapply Forall_impl; [|exact Fc]|constructor; [|constructor]].
    - intros v Hv ->. cbn in Hv. lia.
    - intros ->. cbn in *. lia. }
  assert (Hin : Forall (Forall (in_image im)) asg).
  { pose proof (pixels_in im Hi) as A. rewrite Forall_forall in A. apply Forall_forall. intros v Hv. apply Forall_forall. intros q Hq. apply A.
    eapply Permutation_in; [exact Perm|]. apply in_concat. now exists v. }
  set (cs := map (hd (mkCP 0 0 black)) asg).
  assert (Ecs : init_centroids (cp_point Debug) asg = Ok cs) by (apply (centroids_start im); assumption).
  assert (Lk : N.of_nat (length asg) = k) by (unfold asg; rewrite app_length; cbn [length]; lia).
  assert (I : init (cp_point Debug) sorted (pixels im) k i = match init_neighbours (cp_point Debug) sorted cs i with
     | Some (Ok (g, j)) => Some (Ok (mkCl cs asg g, j)) | Some Err => Some Err | Some Panic => Some Panic | None => None end).
  { unfold init, run_bind, run_lift, run_ret. rewrite E. cbn [res_map]. rewrite Ecs. cbn [res_map]. reflexivity. }
  pose proof (compute_total (cp_point Debug) sorted NE Hsort cs (map (fun i => nb_new i (length cs)) (seq 0 (length cs))) i) as [T1 T2].
  fold (init_neighbours (cp_point Debug) sorted cs) in T1, T2.
  unfold cluster, run_bind. rewrite I. destruct (init_neighbours (cp_point Debug) sorted cs i) as [[[g j]| |]|] eqn:En; [|congruence|reflexivity|congruence].
  pose proof (init_settled _ _ Hsort _ _ _ _ _ I) as [G C]. pose proof (init_shape _ _ _ _ _ _ _ I) as [_ _ S2 S3]. cbn [centroids graph] in *.
  destruct asg as [|v0 [|v1 asg']] eqn:Ea; cbn [length] in Lk; [lia| |].
  - (* one cluster *)
    assert (A : forall r, assign_points (cp_point Debug) (mkCl cs [v0] g) <> Ok r).
    { intros r Hr. unfold assign_points in Hr. cbn [centroids assignment graph] in Hr. destruct (_ =? _)%nat; [|discriminate].
      apply res_bind_ok in Hr as (x & Hx & _). cbn [enumerated] in Hx. rewrite app_nil_r in Hx. cbn [concat] in Perm. rewrite app_nil_r in Perm.
      assert (D : forall q, In q v0 -> (cp_x q <= cp_x (hd (mkCP 0 0 black) v0) /\ cp_y q <= cp_y (hd (mkCP 0 0 black) v0))%N).
      { intros q Hq. destruct (assign_loop_dist _ _ _ _ _ _ _ Hx 0%nat q) as (c & d & Hc & Hd); [apply in_map_iff; now exists q|].
        cbn in Hc. injection Hc as <-. now apply cp_dist_debug in Hd. }
      assert (V0 : v0 = pixels im).
      { destruct chunks as [|v l]; [|cbn [length] in Lc; lia]. unfold asg in Ea. cbn in Ea. injection Ea as <-. cbn in Hcat. now rewrite app_nil_r in Hcat. }
      assert (P0 : (0 < im_w im /\ 0 < im_h im)%N) by nia.
      assert (Hd : cp_position (hd (mkCP 0 0 black) v0) = (0, 0)%N).
      { rewrite V0. unfold pixels. pose proof (row_major_nth (im_w im) (im_h im) 0 0 ltac:(lia) ltac:(lia)) as R. unfold px_index in R. cbn [N.mul N.add N.to_nat] in R.
        destruct (row_major (im_w im) (im_h im)) as [|q l]; [discriminate|]. cbn in R. injection R as ->. reflexivity. }
      unfold cp_position in Hd. injection Hd as Hd1 Hd2. rewrite Hd1, Hd2 in D.
      assert (X : forall x y, (x < im_w im)%N -> (y < im_h im)%N -> (x <= 0 /\ y <= 0)%N).
      { intros x0 y0 Hx0 Hy0. specialize (D (mkCP x0 y0 (to_rgb (pixel_at im (x0, y0))))). cbn [cp_x cp_y] in D. apply D. rewrite V0.
        unfold pixels. apply in_map_iff. exists (x0, y0). split; [reflexivity|]. now apply in_row_major. }
      pose proof (X (im_w im - 1)%N (im_h im - 1)%N ltac:(lia) ltac:(lia)). nia. }
    destruct fuel as [|fuel]; [lia|]. cbn [passes]. unfold run_bind, pass, run_bind, run_lift.
    pose proof (assign_points_err (cp_point Debug) NE (mkCl cs [v0] g)). destruct (assign_points (cp_point Debug) (mkCl cs [v0] g)) as [r| |]; [exfalso; now apply (A r)|congruence|reflexivity].
  - (* several clusters: the distances of the first two *)
    exfalso. assert (Lcs : length cs = length (v0 :: v1 :: asg')) by (unfold cs; apply map_length). cbn [length] in Lcs.
    assert (D : forall a b, (a < length cs)%nat -> (b < length cs)%nat -> b <> a -> exists ca cb, nth_error cs a = Some ca /\ nth_error cs b = Some cb /\ (cp_x cb <= cp_x ca /\ cp_y cb <= cp_y ca)%N).
    { intros a b Ha Hb Hab. destruct (nth_error g a) as [nb|] eqn:Eg; [|apply nth_error_None in Eg; lia].
      destruct (G a nb Eg) as ((Gn & _) & Gi & _). rewrite Gi in Gn. pose proof (C a nb Eg b Hb Hab) as Hb'. apply in_map_iff in Hb' as ([b' d] & Eb & Hb'). cbn in Eb. subst b'.
      apply (no_dist _ _ _ _ Gn) in Hb' as (_ & ca & cb & H3 & H4 & H5 & _). exists ca, cb. split; [exact H3|]. split; [exact H4|]. now apply cp_dist_debug in H5. }
    destruct (D 0 1)%nat as (a & b & Ha & Hb & Hab); [lia..|]. destruct (D 1 0)%nat as (b' & a' & Hb' & Ha' & Hba); [lia..|].
    rewrite Ha in Ha'. injection Ha' as <-. rewrite Hb in Hb'. injection Hb' as <-. unfold cs in Ha, Hb. cbn in Ha, Hb. injection Ha as <-. injection Hb as <-.
    pose proof (pixels_nodup im) as Nd. eapply Permutation_NoDup in Nd; [|apply Permutation_map; symmetry; exact Perm]. cbn [concat] in Nd.
    inversion_clear Hne as [|? ? N0 Hne']. inversion_clear Hne' as [|? ? N1 _].
    destruct v0 as [|q0 v0]; [congruence|]. destruct v1 as [|q1 v1]; [congruence|]. cbn [hd] in *. cbn [app map] in Nd. inversion_clear Nd as [|? ? Nd1 _]. apply Nd1.
    rewrite map_app. apply in_or_app. right. left. unfold cp_position. f_equal; lia.
Qed.

Lemma voronoi_debug_encode O n im : img_ok im -> sort_ok (or_sort O) -> (2 <= im_w im * im_h im)%N -> (1 <= or_fuel O)%nat ->
  voronoi_encode Debug O n im = Some io_panic.
Proof. intros Hi Hs H2 Hf. unfold voronoi_encode, with_clusters. now rewrite (pixel_points_eq im Hi), cluster_debug. Qed.
