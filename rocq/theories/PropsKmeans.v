(** * Properties C39-C42, C55: clustering (src/kmeans.rs, src/geom.rs). *)
From Coq Require Import Sorted.
From Flocq Require Import BinarySingleNaN.
From Verif Require Import Base Ser Float HilbertC CodecSpec Kmeans KmeansSpec ClusterC ClusterSpec KmeansProofs KmeansFloat KmeansNear KmeansEnd KmeansTop KmeansCases.

(** C39.  Nothing is assumed about the distances, the means, the sort or the random
    choices. *)
Theorem C39_every_point_once : forall T (P : point T) sorted rng fuel vfuel points k i c j,
  cluster P sorted rng fuel vfuel points k i = Some (Ok (c, j)) ->
  Permutation (concat (assignment c)) points /\ N.of_nat (length (assignment c)) = k /\ N.of_nat (length (centroids c)) = k
  /\ Permutation (concat (map snd (cluster_list c))) points /\ N.of_nat (length (cluster_list c)) = k.
Proof. exact @cluster_kept. Qed.
Print Assumptions C39_every_point_once.
Theorem C39_every_pass : forall T (P : point T) sorted rng vfuel points k c, reached P sorted rng vfuel points k c ->
  Permutation (concat (assignment c)) points /\ N.of_nat (length (assignment c)) = k /\ N.of_nat (length (centroids c)) = k /\ N.of_nat (length (graph c)) = k.
Proof. exact @every_pass. Qed.
Print Assumptions C39_every_pass.
Example C39_case : exists c, cluster (cc_point Release) insertion_sort no_rng 10 10 pts3 3 0 = Some (Ok (c, 0%nat))
  /\ map (map cc_color) (assignment c) = [[(2, 2, 2); (0, 2, 0); (1, 0, 2)]; [(2, 3, 3)]; [(3, 1, 0)]]%N.
Proof. exact case39. Qed.

(** C40 *)
Theorem C40_initial_chunks : forall T (points : list T) (k : N), let n := N.of_nat (length points) in
  if ((k =? 0) || (n <? k))%N then init_assignment points k = Panic
  else exists chunks rest, init_assignment points k = Ok (chunks ++ [rest])
    /\ N.of_nat (length chunks) = (k - 1)%N
    /\ Forall (fun c => N.of_nat (length c) = (n / k)%N) chunks
    /\ N.of_nat (length rest) = (n - (k - 1) * (n / k))%N /\ (0 < n / k <= N.of_nat (length rest))%N
    /\ rest ++ concat (rev chunks) = points.
Proof. exact @init_assignment_spec. Qed.
Print Assumptions C40_initial_chunks.
Theorem C40_refused : forall T (P : point T) sorted rng fuel vfuel points k i, (k = 0 \/ N.of_nat (length points) < k)%N ->
  cluster P sorted rng fuel vfuel points k i = Some Panic.
Proof. exact @cluster_refused. Qed.
Print Assumptions C40_refused.
Example C40_case : init_assignment [1; 2; 3; 4; 5; 6; 7; 8]%N 3 = Ok [[7; 8]; [5; 6]; [1; 2; 3; 4]]%N
  /\ init_assignment [1; 2]%N 3 = Panic /\ init_assignment [1; 2]%N 0 = Panic.
Proof. repeat split; vm_compute; reflexivity. Qed.

(** C41 *)
Theorem C41_lists : forall T (P : point T) sorted rng vfuel points k c, sort_ok sorted -> reached P sorted rng vfuel points k c ->
  (k <= 16777216)%N ->
  forall i nb, nth_error (graph c) i = Some nb ->
  neighbours_of P (centroids c) i nb
  /\ (Nat.min (N.to_nat k - 1) (Nat.sqrt (N.to_nat k)) <= length (near nb) <= N.to_nat k - 1)%nat /\ watermark nb = 0%nat.
Proof. exact @lists_wellformed. Qed.
Print Assumptions C41_lists.
Theorem C41_at_most_twice : forall T (P : point T) sorted fuel cs nb, sort_ok sorted ->
  settle P sorted (2 + fuel) cs nb = settle P sorted 2 cs nb /\ settle P sorted 2 cs nb <> None.
Proof. exact @at_most_twice. Qed.
Print Assumptions C41_at_most_twice.
Theorem C41_full_at_first : forall T (P : point T) sorted points k i c j, sort_ok sorted ->
  init P sorted points k i = Some (Ok (c, j)) -> full c.
Proof. exact @first_full. Qed.
Print Assumptions C41_full_at_first.
Example C41_case : sort_ok insertion_sort
  /\ exists c j, init (cc_point Release) insertion_sort pts3 3 0 = Some (Ok (c, j))
     /\ map (fun nb => map fst (near nb)) (graph c) = [[1; 2]; [0; 2]; [0; 1]]%nat.
Proof. exact case41. Qed.

(** C42 *)
Theorem C42_nearest : forall T (P : point T) col c, coloured col P ->
  Forall (fun p => rgb_ok (col p)) (centroids c) -> Forall (Forall (fun p => rgb_ok (col p))) (assignment c) ->
  length (assignment c) = length (centroids c) -> assignment c <> [] ->
  (forall i, (i < length (centroids c))%nat -> exists nb, nth_error (graph c) i = Some nb /\ neighbours_of P (centroids c) i nb /\ complete (centroids c) i nb) ->
  exists c' b, assign_points P c = Ok (c', b) /\ centroids c' = centroids c
  /\ Permutation (concat (assignment c')) (concat (assignment c)) /\ length (assignment c') = length (centroids c)
  /\ all_nearest col (centroids c) (assignment c') /\ (b = false <-> all_nearest col (centroids c) (assignment c)).
Proof. exact @nearest_kept. Qed.
Print Assumptions C42_nearest.
(** In a run: whenever the lists have full length, as in the first pass, and always
    for at most two clusters. *)
Theorem C42_full_lists : forall T (P : point T) col sorted rng, coloured col P -> sort_ok sorted -> forall vfuel points k c,
  (forall v m, Forall (fun p => rgb_ok (col p)) v -> (length v <= length points)%nat -> mean P v = Ok m -> rgb_ok (col m)) ->
  Forall (fun p => rgb_ok (col p)) points -> reached P sorted rng vfuel points k c -> full c ->
  exists c' b, assign_points P c = Ok (c', b) /\ centroids c' = centroids c
  /\ Permutation (concat (assignment c')) points /\ length (assignment c') = length (centroids c)
  /\ all_nearest col (centroids c) (assignment c') /\ (b = false <-> all_nearest col (centroids c) (assignment c)).
Proof. exact @full_kept. Qed.
Print Assumptions C42_full_lists.
Theorem C42_two_clusters_full : forall T (P : point T) sorted rng, sort_ok sorted -> forall vfuel points k c,
  (k <= 2)%N -> reached P sorted rng vfuel points k c -> full c.
Proof. exact @two_full. Qed.
Print Assumptions C42_two_clusters_full.
Example C42_case : coloured cc_color (cc_point Release)
  /\ (forall v m, Forall (fun p => rgb_ok (cc_color p)) v -> mean (cc_point Release) v = Ok m -> rgb_ok (cc_color m))
  /\ exists c j c' b, init (cc_point Release) insertion_sort pts3 3 0 = Some (Ok (c, j)) /\ assign_points (cc_point Release) c = Ok (c', b)
     /\ map cc_color (centroids c) = [(2, 2, 2); (2, 3, 3); (3, 1, 0)]%N
     /\ map (map cc_color) (assignment c') = [[(2, 2, 2); (0, 2, 0); (1, 0, 2)]; [(2, 3, 3)]; [(3, 1, 0)]]%N /\ b = true.
Proof. exact case42. Qed.

(** C55.  Two runs that end with a point that is not in a nearest cluster: one stops
    in its first pass; one is stable because its neighbour lists are cut short. *)
Theorem C55_stops_early_refuted : exists points c, length points = 4%nat /\ NoDup (map cc_color points)
  /\ cluster (cc_point Release) insertion_sort no_rng 1 0 points 2 0 = Some (Ok (c, 0%nat))
  /\ ~ all_nearest cc_color (centroids c) (assignment c).
Proof. exact early_stop. Qed.
Print Assumptions C55_stops_early_refuted.
Theorem C55_stable_refuted : exists points c, length points = 5%nat /\ NoDup (map cc_color points)
  /\ cluster (cc_point Release) insertion_sort no_rng 10 10 points 3 0 = Some (Ok (c, 0%nat))
  /\ ~ all_nearest cc_color (centroids c) (assignment c)
  /\ forall rng vfuel i, exists c', pass (cc_point Release) insertion_sort rng vfuel c i = Some (Ok ((c', false), i))
     /\ centroids c' = centroids c /\ assignment c' = assignment c.
Proof. exact stable_stop. Qed.
Print Assumptions C55_stable_refuted.
