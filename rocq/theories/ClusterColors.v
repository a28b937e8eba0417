(** * Lemmas for cluster-colors (C43). *)
From Coq Require Import ZifyBool ZifyNat ZifyN.
From Verif Require Import Base Ser SerSpec SerProofs Utils UtilsProofs Huf HufSpec HufTop Img Float HilbertC CodecSpec CodecBytes CodecHilbert Kmeans KmeansSpec KmeansProofs KmeansEnd
  ClusterC ClusterSpec ClusterProofs.

(** ** The lookup table *)
Section Insert.
  Context {V : Type}.
  Notation ins := (fold_left (fun (m : list (rgb N * V)) e => hm_insert rgb_eqb (fst e) (snd e) m)).
  Lemma insert_other k es : forall m, ~ In k (map fst es) -> hm_get rgb_eqb k (ins es m) = hm_get rgb_eqb k m.
  Proof.
    induction es as [|[k0 v0] es IH]; intros m H; [reflexivity|]. cbn [fold_left map fst snd] in *. rewrite IH by (intros Hin; apply H; now right).
    rewrite (hm_get_insert rgb_eqb_ok). destruct (rgb_eqb k k0) eqn:E; [|reflexivity]. apply rgb_eqb_ok in E. subst. exfalso. apply H. now left.
  Qed.
  Lemma insert_in k v es : forall m, NoDup (map fst es) -> In (k, v) es -> hm_get rgb_eqb k (ins es m) = Some v.
  Proof.
    induction es as [|[k0 v0] es IH]; intros m Hn Hin; [contradiction|]. cbn [fold_left map fst snd] in *. inversion_clear Hn as [|? ? H1 H2].
    destruct Hin as [E|Hin]; [|now apply IH]. injection E as -> ->. rewrite insert_other by exact H1. rewrite (hm_get_insert rgb_eqb_ok).
    now rewrite (eqb_refl' rgb_eqb_ok).
  Qed.
End Insert.

(** ** The colours with their counts *)
Section Counts.
  Variable ord : list (rgb N * N) -> list (rgb N * N).
  Hypothesis Hord : ord_ok ord.
  Variable im : img.
  Hypothesis Him : img_ok im.
  Hypothesis Hsmall : (im_w im * im_h im < 2 ^ 32)%N.
  Notation pix := (map to_rgb (im_px im)).
  Notation pts := (color_counts ord im).

  Lemma pix_length : N.of_nat (length pix) = (im_w im * im_h im)%N.
  Proof. rewrite (img_len im Him). lia. Qed.
  Lemma occurs_le q (l : list (rgb N)) : (occurs rgb_eqb q l <= N.of_nat (length l))%N.
  Proof. induction l as [|x l IH]; cbn [occurs length]; [lia|]. destruct (rgb_eqb q x); lia. Qed.
  Lemma freq_small q n : In (q, n) (count_freqs rgb_eqb pix) -> (n mod 2 ^ 32 = n /\ 1 <= n < 2 ^ 32)%N /\ In q pix.
  Proof.
    intros Hin. apply (count_freqs_in rgb_eqb_ok) in Hin as [Hq ->]. pose proof (occurs_le q pix) as L. rewrite pix_length in L.
    apply (occurs_pos rgb_eqb_ok) in Hq as P. split; [|exact Hq]. split; [apply N.mod_small|]; lia.
  Qed.
  Lemma counts_sum (h : rgb N -> N) : total (map (fun p => h (cc_color p) * cc_count p)%N pts) = total (map h pix).
  Proof.
    change (total (map h pix)) with (sumN (map h pix)). rewrite <- (count_freqs_weighted rgb_eqb_ok h pix).
    unfold color_counts. rewrite map_map. cbn [cc_color cc_count].
    rewrite (total_perm _ _ (Permutation_map _ (Hord (count_freqs rgb_eqb pix)))). unfold total, sumN. f_equal.
    apply map_ext_in. intros [q n] Hin. cbn [fst snd]. apply freq_small in Hin as [[E _] _]. rewrite E. lia.
  Qed.
  Lemma counts_ok : Forall color_count_ok pts.
  Proof.
    apply Forall_forall. intros p Hp. unfold color_counts in Hp. apply in_map_iff in Hp as ([q n] & <- & Hin).
    apply (Permutation_in _ (Hord _)) in Hin. apply freq_small in Hin as [[E H] Hq]. unfold color_count_ok. cbn [cc_color cc_count fst snd].
    rewrite E. split; [|exact H]. pose proof (img_rgb im Him) as R. rewrite Forall_forall in R. now apply R.
  Qed.
  Lemma counts_nodup : NoDup (map cc_color pts).
  Proof.
    unfold color_counts. rewrite map_map. cbn [cc_color]. eapply Permutation_NoDup; [|apply (count_freqs_nodup rgb_eqb_ok pix)].
    apply Permutation_map. symmetry. apply Hord.
  Qed.
  Lemma counts_in q : In q pix <-> In q (map cc_color pts).
  Proof.
    unfold color_counts. rewrite map_map. cbn [cc_color]. rewrite <- (count_freqs_keys rgb_eqb_ok pix). split; apply Permutation_in; apply Permutation_map.
    - symmetry. apply Hord.
    - apply Hord.
  Qed.
  Lemma counts_weight : weight pts = (im_w im * im_h im)%N.
  Proof.
    rewrite <- pix_length, <- (total_ones pix), <- (counts_sum (fun _ => 1%N)). unfold weight. f_equal. apply map_ext. intros p. lia.
  Qed.
End Counts.

(** ** Sums over the clusters *)
Lemma total_concat {A} (h : A -> N) ll : total (map h (concat ll)) = total (map (fun l => total (map h l)) ll).
Proof. induction ll as [|l ll IH]; [reflexivity|]. cbn [concat map]. rewrite map_app, total_app, IH. reflexivity. Qed.
Lemma total_filter {A} (P : A -> bool) (h : A -> N) l : total (map h (filter P l)) = total (map (fun x => if P x then h x else 0%N) l).
Proof. induction l as [|x l IH]; [reflexivity|]. cbn [filter map]. destruct (P x); cbn [map total fold_right] in *; unfold total in *; rewrite IH; reflexivity. Qed.
Lemma weight_app a b : weight (a ++ b) = (weight a + weight b)%N.
Proof. unfold weight. now rewrite map_app, total_app. Qed.
Lemma weight_part v ll : In v ll -> (weight v <= weight (concat ll))%N.
Proof.
  induction ll as [|w ll IH]; intros H; [contradiction|]. cbn [concat]. rewrite weight_app. destruct H as [->|H]; [lia|]. specialize (IH H). lia.
Qed.
Lemma floor_sum v (L : list (N * N)) : (forall e, In e L -> floor_of v (fst e) (snd e) \/ (fst e = 0 /\ snd e = 0)%N) ->
  (0 < total (map snd L))%N -> floor_of v (total (map fst L)) (total (map snd L)).
Proof.
  intros H. assert (G : floor_of v (total (map fst L)) (total (map snd L)) \/ (total (map fst L) = 0 /\ total (map snd L) = 0)%N).
  { induction L as [|[s w] L IH]; [now right|]. cbn [map fst snd total fold_right].
    destruct (H (s, w) (or_introl eq_refl)) as [H1|H1]; (destruct IH as [H2|H2]; [intros e He; apply H; now right| |]);
      cbn [fst snd] in H1; unfold floor_of, total in *; [left; lia..|right; lia]. }
  intros W. destruct G as [G|[_ G]]; [exact G|]. lia.
Qed.

Lemma in_combine_nth {A B} (a : A) (b : B) la lb : In (a, b) (combine la lb) -> exists i, nth_error la i = Some a /\ nth_error lb i = Some b.
Proof.
  revert lb. induction la as [|x la IH]; intros [|y lb] H; try contradiction. destruct H as [H|H].
  - injection H as -> ->. now exists 0%nat.
  - destruct (IH _ H) as (i & H1 & H2). now exists (S i).
Qed.
Lemma Forall2_nth {A B} (R : A -> B -> Prop) la lb i a b : Forall2 R la lb -> nth_error la i = Some a -> nth_error lb i = Some b -> R a b.
Proof. intros H. revert i. induction H; intros [|i] Ha Hb; try discriminate; cbn in *; [congruence|eauto]. Qed.
Lemma map_snd_combine {A B} (la : list A) (lb : list B) : length la = length lb -> map snd (combine la lb) = lb.
Proof. revert lb. induction la as [|x la IH]; intros [|y lb] H; try discriminate; [reflexivity|]. cbn. f_equal. apply IH. now injection H. Qed.

Definition same_or_black (o : option (rgb N)) : rgb N := match o with Some c => c | None => black end.

Section Encode.
  Variables (p : profile) (sorted : list (nat * f64) -> list (nat * f64)) (rng : nat -> N) (fuel vfuel : nat).
  Variable ord : list (rgb N * N) -> list (rgb N * N).
  Variables (im : img) (k : N) (i : nat) (c : clusters color_count) (j : nat).
  Hypothesis Hord : ord_ok ord.
  Hypothesis Him : img_ok im.
  Hypothesis Hsmall : (im_w im * im_h im < 2 ^ 32)%N.
  Hypothesis Hc : cluster (cc_point p) sorted rng fuel vfuel (color_counts ord im) k i = Some (Ok (c, j)).
  Notation pix := (map to_rgb (im_px im)).
  Notation pts := (color_counts ord im).
  Notation entries := (flat_map (fun e : color_count * list color_count => map (fun p => (cc_color p, cc_color (fst e))) (snd e)) (cluster_list c)).
  Definition new_color (q : rgb N) : rgb N := same_or_black (hm_get rgb_eqb q (reduced_colors c)).
  Definition reduced : img := from_rgb (im_w im) (im_h im) (map new_color pix).

  Lemma parts_perm : Permutation (concat (map snd (cluster_list c))) pts.
  Proof. apply cluster_kept in Hc. apply Hc. Qed.
  Lemma entries_keys : map fst entries = map cc_color (concat (map snd (cluster_list c))).
  Proof.
    induction (cluster_list c) as [|[ct v] L IH]; [reflexivity|]. cbn [flat_map map concat fst snd]. rewrite !map_app, IH, map_map. reflexivity.
  Qed.
  Lemma entries_nodup : NoDup (map fst entries).
  Proof.
    rewrite entries_keys. eapply Permutation_NoDup; [apply Permutation_map; symmetry; apply parts_perm|]. now apply counts_nodup.
  Qed.
  Lemma new_color_of ct v x : In (ct, v) (cluster_list c) -> In x v -> hm_get rgb_eqb (cc_color x) (reduced_colors c) = Some (cc_color ct).
  Proof.
    intros H1 H2. unfold reduced_colors. apply insert_in; [exact entries_nodup|]. apply in_flat_map. exists (ct, v). split; [exact H1|].
    apply in_map_iff. now exists x.
  Qed.
  Lemma pixel_cluster q : In q pix -> exists ct v x, In (ct, v) (cluster_list c) /\ In x v /\ cc_color x = q.
  Proof.
    intros H. apply (counts_in ord Hord im) in H. apply in_map_iff in H as (x & <- & Hx). apply (Permutation_in _ (Permutation_sym parts_perm)) in Hx.
    apply in_concat in Hx as (v & Hv & Hx). apply in_map_iff in Hv as ([ct v'] & E & Hv). cbn in E. subst v'. now exists ct, v, x.
  Qed.
  Lemma part_ok ct v : In (ct, v) (cluster_list c) -> Forall color_count_ok v /\ (weight v < 2 ^ 32)%N.
  Proof.
    intros H. assert (Hv : In v (map snd (cluster_list c))) by (apply in_map_iff; now exists (ct, v)). split.
    - pose proof (counts_ok ord Hord im Him Hsmall) as A. rewrite Forall_forall in *. intros x Hx. apply A.
      eapply Permutation_in; [apply parts_perm|]. apply in_concat. now exists v.
    - eapply N.le_lt_trans; [apply weight_part, Hv|]. unfold weight. rewrite (total_perm _ _ (Permutation_map cc_count parts_perm)).
      change (weight pts < 2 ^ 32)%N. rewrite counts_weight; assumption.
  Qed.
  Lemma part_mean ct v : In (ct, v) (cluster_list c) -> v <> [] ->
    rgb_ok (cc_color ct) /\ forall f, In f channels -> floor_of (f (cc_color ct)) (wsum f v) (weight v).
  Proof.
    intros H Hv. destruct (part_ok ct v H) as [A W]. destruct (cc_mean_spec p v A Hv ltac:(lia)) as (m & E & R & F & _).
    pose proof (cluster_means _ _ _ _ _ _ _ _ _ _ Hc) as M. unfold cluster_list in H. apply in_combine_nth in H as (n & H1 & H2).
    pose proof (Forall2_nth _ _ _ _ _ _ M H2 H1) as [Q|[Q _]]; cbn [mean cc_point] in Q; rewrite E in Q; [|discriminate].
    apply ok_inj in Q. subst m. now split.
  Qed.
  Lemma lookup_ok q : In q pix -> exists ct v x, In (ct, v) (cluster_list c) /\ In x v /\ cc_color x = q
    /\ hm_get rgb_eqb q (reduced_colors c) = Some (cc_color ct) /\ new_color q = cc_color ct /\ rgb_ok (cc_color ct).
  Proof.
    intros H. destruct (pixel_cluster q H) as (ct & v & x & H1 & H2 & <-). exists ct, v, x. pose proof (new_color_of ct v x H1 H2) as G.
    repeat (split; [assumption || reflexivity|]). unfold new_color. rewrite G. split; [reflexivity|]. apply (part_mean ct v H1). intros ->. contradiction.
  Qed.
  Lemma recolor_ok : recolor (reduced_colors c) im = Ok reduced.
  Proof.
    unfold recolor. rewrite (buffer_ok im Him). cbn [res_bind].
    rewrite (mapM_ok _ (fun px => new_color (to_rgb px))); [unfold reduced; now rewrite map_map|].
    intros px Hpx. destruct (lookup_ok (to_rgb px)) as (ct & v & x & _ & _ & _ & E & E' & _); [now apply in_map|]. now rewrite E, E'.
  Qed.
  Lemma reduced_ok : img_ok reduced /\ opaque reduced = reduced.
  Proof.
    destruct Him as (H1 & H2 & H3 & H4 & H5). split.
    - unfold reduced, from_rgb. repeat split; cbn [im_w im_h im_px]; auto.
      + rewrite !map_length. exact H4.
      + apply Forall_map, Forall_map, Forall_forall. intros q Hq. destruct (lookup_ok q Hq) as (ct & v & x & _ & _ & _ & _ & E & R).
        unfold rgba_ok. cbn [fst snd]. rewrite E. split; [exact R|unfold u8_ok; lia].
    - apply opaque_id. unfold is_opaque, reduced, from_rgb. cbn [im_px]. apply Forall_map. apply Forall_forall. reflexivity.
  Qed.
  Lemma reduced_colours : map to_rgb (im_px reduced) = map new_color pix.
  Proof. unfold reduced, from_rgb. cbn [im_px]. rewrite !map_map. reflexivity. Qed.
  Lemma reduced_palette : incl (map to_rgb (im_px reduced)) (map cc_color (centroids c)).
  Proof.
    rewrite reduced_colours. intros q Hq. apply in_map_iff in Hq as (q0 & <- & Hq). destruct (lookup_ok q0 Hq) as (ct & v & x & H & _ & _ & _ & E & _).
    rewrite E. apply in_map. unfold cluster_list in H. eapply in_combine_l, H.
  Qed.

  Lemma sources_eq d : sources im reduced d = filter (fun q => rgb_eqb (new_color q) d) pix.
  Proof.
    unfold sources. rewrite reduced_colours. induction pix as [|q l IH]; [reflexivity|]. cbn [map combine filter snd]. destruct (rgb_eqb (new_color q) d); cbn [map fst]; now rewrite IH.
  Qed.
  Lemma sum_parts d (h : rgb N -> N) : total (map h (sources im reduced d))
    = total (map (fun e : color_count * list color_count => if rgb_eqb (cc_color (fst e)) d then wsum h (snd e) else 0%N) (cluster_list c)).
  Proof.
    rewrite sources_eq, total_filter, <- (counts_sum ord Hord im Him Hsmall).
    rewrite <- (total_perm _ _ (Permutation_map _ parts_perm)), total_concat, map_map. f_equal. apply map_ext_in. intros [ct v] H. cbn [fst snd].
    assert (G : forall x, In x v -> new_color (cc_color x) = cc_color ct).
    { intros x Hx. unfold new_color. now rewrite (new_color_of ct v x H Hx). }
    destruct (rgb_eqb (cc_color ct) d) eqn:E.
    - unfold wsum. f_equal. apply map_ext_in. intros x Hx. now rewrite (G x Hx), E.
    - rewrite (map_ext_in _ (fun _ => 0%N * 1)%N) by (intros x Hx; rewrite (G x Hx), E; reflexivity).
      now rewrite (total_scale (fun _ => 1%N)).
  Qed.
  Lemma reduced_averages : averages im reduced.
  Proof.
    intros d f Hd Hf.
    assert (L : N.of_nat (length (sources im reduced d)) = total (map (fun _ => 1%N) (sources im reduced d))) by now rewrite total_ones.
    assert (W : forall v, wsum (fun _ => 1%N) v = weight v) by (intros v; unfold wsum, weight; f_equal; apply map_ext; intros x; lia).
    assert (N0 : (0 < N.of_nat (length (sources im reduced d)))%N).
    { rewrite sources_eq. rewrite reduced_colours in Hd. apply in_map_iff in Hd as (q & E & Hq).
      assert (In q (filter (fun q => rgb_eqb (new_color q) d) pix)) by (apply filter_In; split; [exact Hq|now apply rgb_eqb_ok]).
      destruct (filter _ pix); [contradiction|]. cbn [length]. lia. }
    rewrite L in *. rewrite !sum_parts in *.
    pose (F := fun e : color_count * list color_count => if rgb_eqb (cc_color (fst e)) d then (wsum f (snd e), weight (snd e)) else (0, 0)%N).
    assert (E1 : map (fun e : color_count * list color_count => if rgb_eqb (cc_color (fst e)) d then wsum f (snd e) else 0%N) (cluster_list c) = map fst (map F (cluster_list c))).
    { rewrite map_map. apply map_ext. intros e. unfold F. now destruct (rgb_eqb _ d). }
    assert (E2 : map (fun e : color_count * list color_count => if rgb_eqb (cc_color (fst e)) d then wsum (fun _ => 1%N) (snd e) else 0%N) (cluster_list c) = map snd (map F (cluster_list c))).
    { rewrite map_map. apply map_ext. intros e. unfold F. rewrite W. now destruct (rgb_eqb _ d). }
    rewrite E1, E2 in *. apply floor_sum; [|exact N0]. intros e He. apply in_map_iff in He as ([ct v] & <- & H). unfold F. cbn [fst snd].
    destruct (rgb_eqb (cc_color ct) d) eqn:E; [|now right]. apply rgb_eqb_ok in E. subst d. cbn [fst snd].
    destruct v as [|x v]; [now right|]. left. apply (part_mean ct (x :: v) H); [discriminate|exact Hf].
  Qed.
End Encode.

Lemma cluster_colors_run p O ord ord2 H n im m out : ord_ok ord -> ord_ok ord2 -> heap_ok suffix_cmp H -> img_ok im -> (im_w im * im_h im < 2 ^ 32)%N ->
  cluster_colors_encode p O ord ord2 H n im = Some m -> run_vec m = Ok out ->
  exists im' newc palette, im_w im' = im_w im /\ im_h im' = im_h im /\ is_opaque im'
  /\ map to_rgb (im_px im') = map newc (map to_rgb (im_px im))
  /\ N.of_nat (length palette) = n /\ incl (map to_rgb (im_px im')) palette
  /\ averages im im'
  /\ forall S (next : nextf S N) s s', yields next s out s' ->
     exists f0, forall fuel, (f0 <= fuel)%nat -> cluster_colors_decode fuel next s = Some (Ok im').
Proof.
  intros Ho Ho2 Hh Hi Hs He Hr. unfold cluster_colors_encode, with_clusters in He.
  destruct (cluster _ _ _ _ _ _ _ _) as [[[c j]| |]|] eqn:E; [| | |discriminate]; injection He as <-; [|discriminate..].
  pose proof (reduced_ok _ _ _ _ _ _ _ _ _ _ _ Ho Hi Hs E) as [R1 R2].
  rewrite (recolor_ok _ _ _ _ _ _ _ _ _ _ _ Ho Hi Hs E) in Hr.
  change (run_vec (hufman_encode ord2 H (reduced im c)) = Ok out) in Hr.
  pose proof (cluster_kept _ _ _ _ _ _ _ _ _ _ E) as (K1 & K2 & K3 & K4 & K5).
  assert (Hne : im_px (reduced im c) <> []).
  { intros Z. apply (f_equal (map to_rgb)) in Z. rewrite reduced_colours in Z. apply map_eq_nil in Z.
    assert (P : color_counts ord im = []) by (destruct (color_counts ord im) as [|x l] eqn:Q; [reflexivity|];
      assert (In (cc_color x) (map to_rgb (im_px im))) by (apply (counts_in ord Ho im); rewrite Q; now left); rewrite Z in *; contradiction).
    rewrite P in E. destruct (N.eq_dec n 0) as [->|Hn]; [rewrite cluster_refused in E by (now left); discriminate|].
    rewrite cluster_refused in E by (right; cbn; lia). discriminate. }
  destruct (hufman_lossless ord2 H (reduced im c) R1 Ho2 Hh Hne) as (out' & E1 & E2). rewrite Hr in E1. apply ok_inj in E1. subst out'. rewrite R2 in E2.
  exists (reduced im c), (new_color c), (map cc_color (centroids c)).
  split; [reflexivity|]. split; [reflexivity|]. split; [now apply opaque_id|]. split; [apply reduced_colours|].
  split; [rewrite map_length; exact K3|]. split; [exact (reduced_palette _ _ _ _ _ _ _ _ _ _ _ Ho Hi Hs E)|]. split; [exact (reduced_averages _ _ _ _ _ _ _ _ _ _ _ Ho Hi Hs E)|].
  exact E2.
Qed.
(** No clusters, or more than there are colours: abort before anything is written. *)
Lemma cluster_colors_refused p O ord ord2 H n im : ord_ok ord ->
  (n = 0%N \/ exists palette, incl (map to_rgb (im_px im)) palette /\ (N.of_nat (length palette) < n)%N) ->
  cluster_colors_encode p O ord ord2 H n im = Some io_panic.
Proof.
  intros Ho Hn. unfold cluster_colors_encode, with_clusters. rewrite cluster_refused; [reflexivity|].
  destruct Hn as [Hn|(palette & Hp & Hl)]; [now left|right]. eapply N.le_lt_trans; [|exact Hl].
  rewrite <- (map_length cc_color).
  assert (L : (length (map cc_color (color_counts ord im)) <= length palette)%nat); [|lia].
  apply NoDup_incl_length; [now apply counts_nodup|]. intros q Hq. apply Hp. now apply (counts_in ord Ho im).
Qed.
