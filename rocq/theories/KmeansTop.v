(** * Statements of C39, C41, assembled. *)
From Flocq Require Import BinarySingleNaN.
From Verif Require Import Base Ser Float HilbertC CodecSpec Kmeans KmeansSpec KmeansProofs KmeansFloat KmeansNear KmeansEnd.

Lemma every_pass T (P : point T) sorted rng vfuel points k c : reached P sorted rng vfuel points k c ->
  Permutation (concat (assignment c)) points /\ N.of_nat (length (assignment c)) = k /\ N.of_nat (length (centroids c)) = k /\ N.of_nat (length (graph c)) = k.
Proof. intros H. apply reached_shape in H as [H1 H2 H3 H4]. auto. Qed.
Lemma lists_wellformed T (P : point T) sorted rng vfuel points k c : sort_ok sorted -> reached P sorted rng vfuel points k c ->
  (k <= 16777216)%N ->
  forall i nb, nth_error (graph c) i = Some nb ->
  neighbours_of P (centroids c) i nb
  /\ (Nat.min (N.to_nat k - 1) (Nat.sqrt (N.to_nat k)) <= length (near nb) <= N.to_nat k - 1)%nat /\ watermark nb = 0%nat.
Proof.
  intros Hs Hr Hk i nb E. destruct (reached_settled P sorted rng Hs _ _ _ _ Hr i nb E) as ((Hn & Hl) & Hi & Hw). rewrite Hi in Hn.
  apply every_pass in Hr as (_ & _ & L & _). assert (K : length (centroids c) = N.to_nat k) by lia. rewrite K, lower_bound_sqrt in Hl by lia. auto.
Qed.
Lemma at_most_twice T (P : point T) sorted fuel cs nb : sort_ok sorted ->
  settle P sorted (2 + fuel) cs nb = settle P sorted 2 cs nb /\ settle P sorted 2 cs nb <> None.
Proof. intros Hs. now apply settle_two. Qed.
Lemma first_full T (P : point T) sorted points k i c j : sort_ok sorted -> init P sorted points k i = Some (Ok (c, j)) -> full c.
Proof. intros Hs. now apply init_full. Qed.
(** The passes of C42, and no point is lost or invented. *)
Lemma nearest_kept T (P : point T) col c : coloured col P ->
  Forall (fun p => rgb_ok (col p)) (centroids c) -> Forall (Forall (fun p => rgb_ok (col p))) (assignment c) ->
  length (assignment c) = length (centroids c) -> assignment c <> [] ->
  (forall i, (i < length (centroids c))%nat -> exists nb, nth_error (graph c) i = Some nb /\ neighbours_of P (centroids c) i nb /\ complete (centroids c) i nb) ->
  exists c' b, assign_points P c = Ok (c', b) /\ centroids c' = centroids c
  /\ Permutation (concat (assignment c')) (concat (assignment c)) /\ length (assignment c') = length (centroids c)
  /\ all_nearest col (centroids c) (assignment c') /\ (b = false <-> all_nearest col (centroids c) (assignment c)).
Proof.
  intros HP H1 H2 H3 H4 H5. destruct (assign_points_nearest P col c HP H1 H2 H3 H4 H5) as (c' & b & E & EC & A & B). exists c', b.
  destruct (assign_points_kept P c c' b E) as (K1 & K2 & _). split; [exact E|]. split; [exact EC|]. split; [exact K1|]. split; [congruence|]. split; [exact A|exact B].
Qed.
Lemma full_kept T (P : point T) col sorted rng : coloured col P -> sort_ok sorted -> forall vfuel points k c,
  (forall v m, Forall (fun p => rgb_ok (col p)) v -> (length v <= length points)%nat -> mean P v = Ok m -> rgb_ok (col m)) ->
  Forall (fun p => rgb_ok (col p)) points -> reached P sorted rng vfuel points k c -> full c ->
  exists c' b, assign_points P c = Ok (c', b) /\ centroids c' = centroids c
  /\ Permutation (concat (assignment c')) points /\ length (assignment c') = length (centroids c)
  /\ all_nearest col (centroids c) (assignment c') /\ (b = false <-> all_nearest col (centroids c) (assignment c)).
Proof.
  intros HP Hs vfuel points k c Hm Hp Hr Hf. destruct (full_pass_nearest P col sorted rng HP Hs vfuel points k c Hm Hp Hr Hf) as (c' & b & E & EC & A & B).
  destruct (assign_points_kept P c c' b E) as (K1 & K2 & _ & _ & K3 & _). apply reached_shape in Hr as [R _ _ _]. exists c', b.
  split; [exact E|]. split; [exact EC|]. split; [etransitivity; [exact K1|exact R]|]. split; [congruence|]. split; [exact A|exact B].
Qed.
