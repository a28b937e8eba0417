(** * Proofs: the colours chosen by the clustering codecs, and the assignment to clusters. *)
From Coq Require Import Permutation Lia ZArith Zify ZifyBool ZifyNat ZifyN.
From Verif Require Import Base Ser SerSpec Bit Huf HufSpec HufTop Img Float HilbertC CodecSpec CodecBytes CodecHilbert CodecFinal CodecCases Kmeans KmeansSpec KmeansFloat KmeansProofs KmeansNear KmeansEnd KmeansTop KmeansCases ClusterC ClusterSpec ClusterTop ClusterColors BestSpec BestProofs.

(** ** Means *)
Lemma wspread_channels l c :
  weighted_spread l c = zsum (fun f : rgb N -> N => zsum (fun q => Z.of_N (cc_count q) * (Z.of_N (f (cc_color q)) - Z.of_N (f c)) ^ 2)%Z l) channels.
Proof.
  unfold weighted_spread. induction l as [|x l IH]; [reflexivity|]. rewrite zsum_cons, IH, sq_dist_channels.
  unfold channels. rewrite !zsum_cons. cbn [zsum fold_right]. lia.
Qed.
Lemma total_pos l : l <> [] -> Forall color_count_ok l -> (0 < total (map cc_count l))%N.
Proof. intros Hl H. destruct H as [|q l [_ Hq] _]; [congruence|]. unfold total. cbn [map fold_right]. lia. Qed.
Lemma weighted_mean_best p l : Forall color_count_ok l -> l <> [] -> (total (map cc_count l) < 2 ^ 56)%N ->
  exists m, cc_mean p l = Ok m /\ forall c, (weighted_spread l (cc_color m) < weighted_spread l c + 3 * Z.of_N (total (map cc_count l)))%Z.
Proof.
  intros Hl Hn Hw. destruct (weighted_mean p l Hl Hn Hw) as (m & E & _ & _ & H). exists m. split; [exact E|]. intros c.
  pose proof (total_pos l Hn Hl) as HP.
  assert (K : forall f, In f channels ->
    (zsum (fun q => Z.of_N (cc_count q) * (Z.of_N (f (cc_color q)) - Z.of_N (f (cc_color m))) ^ 2) l
     < zsum (fun q => Z.of_N (cc_count q) * (Z.of_N (f (cc_color q)) - Z.of_N (f c)) ^ 2) l + zsum (fun q => Z.of_N (cc_count q)) l)%Z).
  { intros f Hf. destruct (H f Hf) as [F _]. unfold floor_of in F.
    assert (E1 : zsum (fun q => Z.of_N (cc_count q)) l = Z.of_N (total (map cc_count l))) by (now rewrite total_zsum, zsum_map).
    assert (E2 : zsum (fun q => Z.of_N (f (cc_color q)) * Z.of_N (cc_count q))%Z l = Z.of_N (total (map (fun q => f (cc_color q) * cc_count q)%N l))).
    { rewrite total_zsum, zsum_map. apply zsum_ext. intros q _. lia. }
    apply (floor_near_best (fun q => Z.of_N (cc_count q)) (fun q => Z.of_N (f (cc_color q)))); [lia|]. rewrite E2, E1. nia. }
  rewrite !wspread_channels. rewrite total_zsum, zsum_map.
  pose proof (K red (or_introl eq_refl)). pose proof (K green (or_intror (or_introl eq_refl))). pose proof (K blue (or_intror (or_intror (or_introl eq_refl)))).
  unfold channels. rewrite !zsum_cons. cbn [zsum fold_right] in *. fold (@zsum color_count) in *. lia.
Qed.
Lemma pspread_components l c :
  position_spread l c = zsum (fun f : color_pos -> N => zsum (fun q => 1 * (Z.of_N (f q) - Z.of_N (f c)) ^ 2)%Z l) components.
Proof.
  unfold position_spread. induction l as [|x l IH]; [reflexivity|]. rewrite zsum_cons, IH, sq_dist_channels.
  unfold components, channels. cbn [map]. rewrite !zsum_cons. cbn [zsum fold_right]. lia.
Qed.
Lemma position_mean_best p l : Forall color_pos_ok l -> l <> [] -> (N.of_nat (length l) <= 2 ^ 32)%N ->
  exists m, cp_mean p l = Ok m /\ forall c, (position_spread l m < position_spread l c + 5 * Z.of_nat (length l))%Z.
Proof.
  intros Hl Hn Hw. destruct (position_mean p l Hl Hn Hw) as (m & E & _ & H). exists m. split; [exact E|]. intros c.
  assert (HL : (1 <= length l)%nat) by (destruct l; [congruence|cbn; lia]).
  assert (K : forall f, In f components ->
    (zsum (fun q => 1 * (Z.of_N (f q) - Z.of_N (f m)) ^ 2) l < zsum (fun q => 1 * (Z.of_N (f q) - Z.of_N (f c)) ^ 2) l + Z.of_nat (length l))%Z).
  { intros f Hf. destruct (H f Hf) as [F _]. unfold floor_of in F. rewrite <- zsum_const.
    apply (floor_near_best (fun _ => 1%Z) (fun q => Z.of_N (f q))); [rewrite zsum_const; lia|].
    replace (zsum (fun q => Z.of_N (f q) * 1)%Z l) with (Z.of_N (total (map f l))) by (rewrite total_zsum, zsum_map; apply zsum_ext; intros; lia).
    rewrite zsum_const. nia. }
  rewrite !pspread_components. clear H.
  assert (A : forall fs, incl fs components -> fs <> [] ->
    (zsum (fun f : color_pos -> N => zsum (fun q => 1 * (Z.of_N (f q) - Z.of_N (f m)) ^ 2) l) fs
     < zsum (fun f : color_pos -> N => zsum (fun q => 1 * (Z.of_N (f q) - Z.of_N (f c)) ^ 2) l) fs + Z.of_nat (length fs) * Z.of_nat (length l))%Z).
  { induction fs as [|f fs IH]; intros Hi Hne; [congruence|]. rewrite !zsum_cons. pose proof (K f (Hi f (or_introl eq_refl))) as Kf.
    destruct fs as [|f' fs]; [cbn [zsum fold_right length] in *; fold (@zsum color_pos) in *; lia|].
    specialize (IH (fun x Hx => Hi x (or_intror Hx)) ltac:(discriminate)).
    change (length (f :: f' :: fs)) with (Datatypes.S (length (f' :: fs))). lia. }
  apply (A components); [apply incl_refl|discriminate].
Qed.

(** ** Images *)
Lemma cluster_best p O ord ord2 H n im m out : ord_ok ord -> ord_ok ord2 -> heap_ok suffix_cmp H -> img_ok im -> (im_w im * im_h im < 2 ^ 32)%N ->
  cluster_colors_encode p O ord ord2 H n im = Some m -> run_vec m = Ok out ->
  exists im', im_w im' = im_w im /\ im_h im' = im_h im
  /\ (forall g, square_error im im' < square_error im (repaint g im') + 3 * Z.of_N (im_w im * im_h im))%Z
  /\ forall S (next : nextf S N) s s', yields next s out s' ->
     exists f0, forall fuel, (f0 <= fuel)%nat -> cluster_colors_decode fuel next s = Some (Ok im').
Proof.
  intros Ho Ho2 Hh Hi Hs He Hr. destruct (cluster_colors_run p O ord ord2 H n im m out Ho Ho2 Hh Hi Hs He Hr) as (im' & newc & pal & W1 & W2 & _ & C & _ & _ & A & D).
  exists im'. split; [exact W1|]. split; [exact W2|]. split; [|exact D]. intros g.
  assert (HL : length (im_px im) = length (im_px im')) by (apply (f_equal (@length _)) in C; rewrite !map_length in C; congruence).
  assert (Hne : im_px im <> []).
  { intros Z. assert (n = 0%N \/ exists palette, incl (map to_rgb (im_px im)) palette /\ (N.of_nat (length palette) < n)%N) as K.
    { destruct (N.eq_dec n 0) as [->|Nn]; [now left|right]. exists []. rewrite Z. split; [apply incl_refl|cbn; lia]. }
    rewrite (cluster_colors_refused p O ord ord2 H n im Ho K) in He. injection He as <-. clear -Hr. discriminate Hr. }
  replace (Z.of_N (im_w im * im_h im)) with (Z.of_nat (length (im_px im))) by (destruct Hi as (_ & _ & _ & E & _); lia).
  now apply averages_best.
Qed.

(** ** Assignment *)
Lemma inertia_sum {T} (col : T -> rgb N) wt cs : forall asg, length asg = length cs ->
  inertia col wt cs asg = zsum (fun q : T * T => Z.of_N (wt (snd q)) * sq_dist (col (fst q)) (col (snd q)))%Z
    (concat (map (fun q : T * list T => map (pair (fst q)) (snd q)) (combine cs asg))).
Proof.
  unfold inertia. induction cs as [|c cs IH]; intros [|v asg] E; try discriminate; [reflexivity|].
  cbn [combine map concat fst snd]. rewrite zsum_cons, zsum_app, IH by now injection E. cbn [fst snd]. f_equal. now rewrite zsum_map.
Qed.
Lemma pairs_least {T} (d : T -> T -> Z) (a : list (T * T)) : forall b, Permutation (map snd a) (map snd b) ->
  (forall c c' x, In (c, x) a -> In (c', x) b -> (d c x <= d c' x)%Z) -> (zsum (fun q => d (fst q) (snd q)) a <= zsum (fun q => d (fst q) (snd q)) b)%Z.
Proof.
  induction a as [|[c x] a IH]; intros b Hp H.
  - apply Permutation_nil in Hp. apply map_eq_nil in Hp as ->. lia.
  - cbn [map snd] in Hp. assert (Hx : In x (map snd b)) by (eapply Permutation_in; [exact Hp|now left]).
    apply in_map_iff in Hx as ([c' x'] & E & Hin). cbn in E. subst x'. apply in_split in Hin as (b1 & b2 & ->).
    assert (P : Permutation (b1 ++ (c', x) :: b2) ((c', x) :: b1 ++ b2)) by (symmetry; apply Permutation_middle).
    rewrite (zsum_perm _ _ _ P), !zsum_cons. cbn [fst snd].
    assert (d c x <= d c' x)%Z by (apply H; [now left|apply in_or_app; right; now left]).
    assert (zsum (fun q => d (fst q) (snd q)) a <= zsum (fun q => d (fst q) (snd q)) (b1 ++ b2))%Z; [|lia]. apply IH.
    + apply Permutation_cons_inv with x. rewrite Hp. rewrite (Permutation_map snd P). reflexivity.
    + intros e e' y He He'. apply H; [now right|]. apply (Permutation_in _ (Permutation_sym P)). now right.
Qed.
Lemma pairs_points {T} (cs : list T) : forall asg, length asg = length cs ->
  map snd (concat (map (fun q : T * list T => map (pair (fst q)) (snd q)) (combine cs asg))) = concat asg.
Proof.
  induction cs as [|c cs IH]; intros [|v asg] E; try discriminate; [reflexivity|]. cbn [combine map concat fst snd].
  rewrite map_app, IH by now injection E. rewrite map_map. cbn [snd]. now rewrite map_id.
Qed.
Lemma pairs_in {T} (cs : list T) asg c x : In (c, x) (concat (map (fun q : T * list T => map (pair (fst q)) (snd q)) (combine cs asg))) ->
  exists j v, nth_error cs j = Some c /\ nth_error asg j = Some v /\ In x v.
Proof.
  revert asg. induction cs as [|d cs IH]; intros [|v asg]; cbn [combine map concat]; try (intros []; fail).
  intros Hin. apply in_app_iff in Hin as [Hin|Hin].
  - apply in_map_iff in Hin as (y & E & Hy). injection E as <- <-. exists O, v. auto.
  - destruct (IH asg Hin) as (j & v' & H). exists (Datatypes.S j), v'. exact H.
Qed.
(** The least total over all choices of a centroid for each point *)
Lemma nearest_least {T} (col : T -> rgb N) wt cs asg : length asg = length cs -> all_nearest col cs asg ->
  forall asg', length asg' = length cs -> Permutation (concat asg') (concat asg) -> (inertia col wt cs asg <= inertia col wt cs asg')%Z.
Proof.
  intros HL Ha asg' HL' Hp. rewrite !inertia_sum by assumption.
  apply (pairs_least (fun c x => Z.of_N (wt x) * sq_dist (col c) (col x))%Z).
  - rewrite !pairs_points by assumption. now symmetry.
  - intros c c' x H H'. apply pairs_in in H as (j & v & N1 & N2 & N3). apply pairs_in in H' as (j' & v' & N1' & _).
    destruct (Ha j v x N2 N3) as (cj & Ej & M). rewrite N1 in Ej. injection Ej as <-. specialize (M c' (nth_error_In _ _ N1')).
    apply Z.mul_le_mono_nonneg_l; lia.
Qed.
Lemma full_pass_least {T} (P : point T) col sorted rng : coloured col P -> sort_ok sorted -> forall vfuel points k c,
  (forall v m, Forall (fun p => rgb_ok (col p)) v -> (length v <= length points)%nat -> mean P v = Ok m -> rgb_ok (col m)) ->
  Forall (fun p => rgb_ok (col p)) points -> reached P sorted rng vfuel points k c -> full c ->
  exists c' b, assign_points P c = Ok (c', b) /\ centroids c' = centroids c /\ Permutation (concat (assignment c')) points
  /\ forall wt asg, length asg = length (centroids c) -> Permutation (concat asg) points ->
     (inertia col wt (centroids c) (assignment c') <= inertia col wt (centroids c) asg)%Z.
Proof.
  intros HP Hs vfuel points k c Hm Hok Hr Hf.
  destruct (KmeansEnd.full_pass_nearest P col sorted rng HP Hs vfuel points k c Hm Hok Hr Hf) as (c' & b & E & EC & Ha & _).
  exists c', b. split; [exact E|]. split; [exact EC|].
  destruct (assign_points_kept _ _ _ _ E) as (K1 & K2 & _ & _ & K3 & _).
  destruct (every_pass T P sorted rng vfuel points k c Hr) as (Q & _).
  assert (Q' : Permutation (concat (assignment c')) points) by (rewrite K1; exact Q).
  split; [exact Q'|]. intros wt asg HL Hp. apply nearest_least; [congruence|exact Ha|exact HL|]. rewrite Hp. now symmetry.
Qed.
(** ** Truncated means are not always best *)
Definition three : img := mkImg 3 1 [((0, 0, 0), 255); ((1, 0, 0), 255); ((1, 0, 0), 255)]%N.
Lemma three_ok : img_ok three.
Proof. split; [cbn; unfold u32_ok; lia|]. split; [cbn; unfold u32_ok; lia|]. split; [cbn; lia|]. split; [reflexivity|]. repeat constructor; unfold u8_ok; cbn; lia. Qed.
Lemma three_run : exists m out im', cluster_colors_encode Debug some_oracles (fun l => l) (fun l => l) list_heap 1 three = Some m /\ run_vec m = Ok out
  /\ cluster_colors_decode 100 list_next out = Some (Ok im') /\ (square_error three im', square_error three (repaint (fun _ => (1, 0, 0)%N) im')) = (2, 1)%Z.
Proof.
  pose (test := fun (r : option (io unit)) => match r with
    | Some m => match run_vec m with
        | Ok out => match cluster_colors_decode 100 list_next out with Some (Ok im') => (square_error three im', square_error three (repaint (fun _ => (1, 0, 0)%N) im')) | _ => (0, 0)%Z end
        | _ => (0, 0)%Z end
    | None => (0, 0)%Z end).
  assert (H : test (cluster_colors_encode Debug some_oracles (fun l => l) (fun l => l) list_heap 1 three) = (2, 1)%Z) by (vm_compute; reflexivity).
  unfold test in H. destruct (cluster_colors_encode _ _ _ _ _ _ _) as [m|]; [|discriminate]. destruct (run_vec m) as [out| |] eqn:E; try discriminate.
  destruct (cluster_colors_decode _ _ _) as [[im'| |]|] eqn:E2; try discriminate. exists m, out, im'. auto.
Qed.
Lemma truncation_hurts : exists O ord H im n m out im' g,
  ord_ok ord /\ heap_ok suffix_cmp H /\ img_ok im /\ (im_w im * im_h im < 2 ^ 32)%N /\ sort_ok (or_sort O)
  /\ cluster_colors_encode Debug O ord ord H n im = Some m /\ run_vec m = Ok out
  /\ cluster_colors_decode 100 list_next out = Some (Ok im') /\ (square_error im (repaint g im') < square_error im im')%Z.
Proof.
  destruct three_run as (m & out & im' & E1 & E2 & E3 & E4). injection E4 as E4 E5.
  exists some_oracles, (fun l => l), list_heap, three, 1%N, m, out, im', (fun _ => (1, 0, 0)%N).
  split; [intros l; apply Permutation_refl|]. split; [apply list_heap_ok|]. split; [exact three_ok|]. split; [cbn; lia|].
  split; [apply insertion_sort_ok|]. split; [exact E1|]. split; [exact E2|]. split; [exact E3|]. rewrite E4, E5. lia.
Qed.
