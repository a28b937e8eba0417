(** * C88: what clustering prints.  Statements only; proofs are in KmeansSays*.v. *)
From Coq Require Import String.
From Flocq Require Import BinarySingleNaN.
From Verif Require Import Base Prs Float Special ClusterC Kmeans KmeansSpec KmeansProofs KmeansCases ClusterExact KmeansSays KmeansSaysSpec KmeansSaysTop KmeansSaysCases KmeansCutSpec KmeansCut.
Close Scope string_scope.
Open Scope list_scope.

(** Counting and printing change nothing: the program of Kmeans.v, which leaves them out, has the same result, the same use of
    random numbers and the same aborts. *)
Theorem C88_silent : forall T (P : point T) sorted rng, sort_ok sorted -> forall points k vfuel,
  (N.of_nat (length points) * k < 2 ^ 64)%N -> (k < 2 ^ 31)%N -> forall fuel i,
  snd (say_cluster P sorted rng fuel vfuel points k i) = cluster P sorted rng fuel vfuel points k i.
Proof. exact @cluster_silent. Qed.
Print Assumptions C88_silent.
(** One pass over the points: each number that is printed, in terms of what happens to each point. *)
Theorem C88_pass : forall T (P : point T) sorted rng, sort_ok sorted -> forall points k vfuel,
  (N.of_nat (length points) * k < 2 ^ 64)%N -> forall c i, reached P sorted rng vfuel points k c ->
  snd (say_points P c i) = run_lift (assign_points P c) i
  /\ forall c' b, assign_points P c = Ok (c', b) -> exists r to outs, fst (say_points P c i) = report_lines r
     /\ reports (N.to_nat k) (places (assignment c)) to outs r
     /\ Forall2 (fun e o => treated P (centroids c) (graph c) (fst e) (snd e) o) (combine (places (assignment c)) (concat (assignment c))) outs
     /\ assignment c' = map (sent_to to (concat (assignment c))) (seq 0 (N.to_nat k))
     /\ b = negb (moved r =? 0)%N
     /\ coherent (N.of_nat (length points)) k r
     /\ ((forall a b d, dist P a b = Ok d -> is_nan d = false) -> match average r with Some a => (1 <= a)%N | None => True end).
Proof. exact @reached_points. Qed.
Print Assumptions C88_pass.
(** The line on neighbour lists counts those that are built anew. *)
Theorem C88_neighbours : forall T (P : point T) sorted, sort_ok sorted -> forall cs g i, (N.of_nat (length g) < 2 ^ 31)%N ->
  say_neighbours P sorted cs g i =
  match compute_neighbours P sorted cs g i with
  | Some (Ok (g', j)) => ([Grew (Z.of_N (count (regrown (length cs)) g))], Some (Ok (g', j)))
  | r => ([], r)
  end.
Proof. exact @neighbours_said. Qed.
Print Assumptions C88_neighbours.
(** A run that succeeds: no list is built anew at the start, every pass has its block, only the last reports that nothing
    moved, and the number of passes comes last, modulo 2^32. *)
Theorem C88_run : forall T (P : point T) sorted rng, sort_ok sorted -> forall points k vfuel,
  (N.of_nat (length points) * k < 2 ^ 64)%N -> (k < 2 ^ 31)%N -> forall fuel i o c j,
  say_cluster P sorted rng fuel vfuel points k i = (o, Some (Ok (c, j))) ->
  exists c0 i0 lines n, init P sorted points k i = Some (Ok (c0, i0)) /\ told P sorted rng vfuel points k c0 lines n c
  /\ o = Grew 0 :: lines ++ [Iterations (as_i32 (Z.of_N n))].
Proof. exact @cluster_output. Qed.
Print Assumptions C88_run.
(** A run that does not succeed: nothing if it fails at the start, else the line on the first neighbour lists, the blocks of
    the passes before the one that is broken off, and of that one what precedes the failure. *)
Theorem C88_cut : forall T (P : point T) sorted rng, sort_ok sorted -> forall points k vfuel,
  (N.of_nat (length points) * k < 2 ^ 64)%N -> (k < 2 ^ 31)%N -> forall fuel i o r x,
  say_cluster P sorted rng fuel vfuel points k i = (o, r) -> ends r x ->
  (ends (init P sorted points k i) x /\ o = [])
  \/ exists c0 i0 lines, init P sorted points k i = Some (Ok (c0, i0)) /\ cut_short P sorted rng vfuel points k 0 c0 x lines /\ o = Grew 0 :: lines.
Proof. exact @cluster_cut. Qed.
Print Assumptions C88_cut.
(** Too few clusters at the end; no clusters at all; a run of which only one pass is looked at *)
Example C88_cut_case : (N.of_nat (length unlucky) * 4 < 2 ^ 64)%N
  /\ ends (snd (say_cluster (cc_point Release) insertion_sort unlucky_picks 10 20 unlucky 4 0)) Aborted
  /\ say_cluster (cc_point Release) insertion_sort unlucky_picks 10 20 unlucky 0 0 = ([], Some Panic)
  /\ ends (snd (say_cluster (cc_point Debug) insertion_sort no_rng 1 10 pts12 4 0)) Unfinished
  /\ length (fst (say_cluster (cc_point Debug) insertion_sort no_rng 1 10 pts12 4 0)) = 10%nat.
Proof. split; [reflexivity|]. split; [vm_compute; exact I|]. split; [vm_compute; reflexivity|]. split; [vm_compute; exact I|]. vm_compute. reflexivity. Qed.
(** The three lines "Uncommon: empty cluster" are about empty clusters only. *)
Theorem C88_empty : forall p v v', (mean (cc_point p) v = Err <-> v = []) /\ (mean (cp_point p) v' = Err <-> v' = []).
Proof. exact no_mean. Qed.
Print Assumptions C88_empty.
(** The watermark is that of the last point, not the highest: a list of three is cut to two although a point of the
    cluster has just read all three. *)
Theorem C88_watermark_refuted : forall p, exists c i c' j x v nb, reached (cc_point p) insertion_sort no_rng 10 pts12 4 c
  /\ pass (cc_point p) insertion_sort no_rng 10 c i = Some (Ok ((c', true), j))
  /\ nth_error (assignment c) 3 = Some v /\ In x v /\ treated (cc_point p) (centroids c) (graph c) 3 x (Looked 3 false)
  /\ nth_error (graph c') 3 = Some nb /\ length (near nb) = 2%nat.
Proof. exact watermark_low. Qed.
Print Assumptions C88_watermark_refuted.

(** Twelve colours and four clusters, as printed *)
Example C88_case : (N.of_nat (length pts12) * 4 < 2 ^ 64)%N /\ sort_ok insertion_sort
  /\ transcript (fst (say_cluster (cc_point Debug) insertion_sort no_rng 10 10 pts12 4 0)) =
     concat (map (fun s => txt s ++ [10%N])
       ["Grew 0 neighbour lists"; "Moved: 2, Stayed: 10"; "Stopped early: 11"; "Because of"; "..certainty radius of its previous centroid: 10";
        "..neighbour cutoff: 1"; "Global max tested neighbours: 3"; "Min of max tested neighbours: 0"; "Average tested neighbours: 2"; "Grew 0 neighbour lists";
        "Moved: 0, Stayed: 12"; "Stopped early: 12"; "Because of"; "..certainty radius of its previous centroid: 12";
        "..neighbour cutoff: 0"; "Global max tested neighbours: 0"; "Min of max tested neighbours: 0"; "Grew 0 neighbour lists"; "#iterations: 2"]%string)
  /\ signed (as_i32 (2 ^ 31 + 5)) = txt "-2147483643".
Proof. split; [reflexivity|]. split; [apply insertion_sort_ok|]. split; vm_compute; reflexivity. Qed.
(** The run of C63 that aborts prints as well; here is how it ends. *)
Example C88_abort_case : snd (say_cluster (cc_point Release) insertion_sort unlucky_picks 10 20 unlucky 4 0) = Some Panic
  /\ skipn 72 (fst (say_cluster (cc_point Release) insertion_sort unlucky_picks 10 20 unlucky 4 0)) =
     [Hashes; Uncommon; Hashes; Hashes; Uncommon; Hashes; Grew 0; Moved 0 7; Stopped 4; Because; Radius 4; Cutoff 0; Highest 2; Lowest 0; Average 2;
      Hashes; Uncommon; Hashes; Hashes; Uncommon; Hashes; Grew 0; Iterations 8].
Proof. split; vm_compute; reflexivity. Qed.
