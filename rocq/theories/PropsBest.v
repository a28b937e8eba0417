(** * Property C77: the colours that lossy codecs choose for groups of pixels. *)
From Coq Require Import Permutation.
From Verif Require Import Base Ser SerSpec Bit Huf HufSpec HufTop Img Float HilbertC CodecSpec CodecCases Kmeans KmeansSpec KmeansCases ClusterC ClusterSpec ClusterTop BestSpec BestProofs BestTop.

(** C77: approximate runs.  No image with one colour per run is closer to the original. *)
Theorem C77_runs : forall scan im fuel stack d, img_ok im -> visits_all (im_w im) (im_h im) (scan (im_w im) (im_h im)) ->
  feq d (f64_of_N 0) = false -> (length (scan (im_w im) (im_h im)) < fuel)%nat ->
  exists runs out, let path := scan (im_w im) (im_h im) in
  out = dims im ++ runs_bytes (coded mean_round runs) /\ concat runs = colours im path /\ Forall (fun r => r <> []) runs
  /\ run_vec (hilbert_encode scan fuel (RLE d) im) = Ok out
  /\ forall S (next : nextf S N) s s', yields next s out s' ->
     exists im', hilbert_decode scan stack (RLE d) next s = Ok im' /\ im_w im' = im_w im /\ im_h im' = im_h im
     /\ flat_on runs (colours im' path)
     /\ forall im'', img_ok im'' -> im_w im'' = im_w im -> im_h im'' = im_h im -> flat_on runs (colours im'' path) ->
        (square_error im im' <= square_error im im'')%Z.
Proof. exact approx_best. Qed.
Print Assumptions C77_runs.
(** cluster-colors.  Repainting the decoded image gains less than 3 per pixel. *)
Theorem C77_clusters : forall p O ord ord2 H n im m out,
  ord_ok ord -> ord_ok ord2 -> heap_ok suffix_cmp H -> img_ok im -> (im_w im * im_h im < 2 ^ 32)%N ->
  cluster_colors_encode p O ord ord2 H n im = Some m -> run_vec m = Ok out ->
  exists im', im_w im' = im_w im /\ im_h im' = im_h im
  /\ (forall g, square_error im im' < square_error im (repaint g im') + 3 * Z.of_N (im_w im * im_h im))%Z
  /\ forall S (next : nextf S N) s s', yields next s out s' ->
     exists f0, forall fuel, (f0 <= fuel)%nat -> cluster_colors_decode fuel next s = Some (Ok im').
Proof. exact cluster_best. Qed.
Print Assumptions C77_clusters.
(** But it can gain something, because means are rounded down. *)
Theorem C77_clusters_best_refuted : exists O ord H im n m out im' g,
  ord_ok ord /\ heap_ok suffix_cmp H /\ img_ok im /\ (im_w im * im_h im < 2 ^ 32)%N /\ sort_ok (or_sort O)
  /\ cluster_colors_encode Debug O ord ord H n im = Some m /\ run_vec m = Ok out
  /\ cluster_colors_decode 100 list_next out = Some (Ok im') /\ (square_error im (repaint g im') < square_error im im')%Z.
Proof. exact truncation_hurts. Qed.
Print Assumptions C77_clusters_best_refuted.
(** The means themselves *)
Theorem C77_weighted_mean : forall p l, Forall color_count_ok l -> l <> [] -> (total (map cc_count l) < 2 ^ 56)%N ->
  exists m, cc_mean p l = Ok m /\ forall c, (weighted_spread l (cc_color m) < weighted_spread l c + 3 * Z.of_N (total (map cc_count l)))%Z.
Proof. exact weighted_mean_best. Qed.
Print Assumptions C77_weighted_mean.
Theorem C77_position_mean : forall p l, Forall color_pos_ok l -> l <> [] -> (N.of_nat (length l) <= 2 ^ 32)%N ->
  exists m, cp_mean p l = Ok m /\ forall c, (position_spread l m < position_spread l c + 5 * Z.of_nat (length l))%Z.
Proof. exact position_mean_best. Qed.
Print Assumptions C77_position_mean.
(** A pass with full neighbour lists: no assignment to the same centroids is better,
    whatever the weights of the points. *)
Theorem C77_assignment : forall T (P : point T) col sorted rng, coloured col P -> sort_ok sorted -> forall vfuel points k c,
  (forall v m, Forall (fun p => rgb_ok (col p)) v -> (length v <= length points)%nat -> mean P v = Ok m -> rgb_ok (col m)) ->
  Forall (fun p => rgb_ok (col p)) points -> reached P sorted rng vfuel points k c -> full c ->
  exists c' b, assign_points P c = Ok (c', b) /\ centroids c' = centroids c /\ Permutation (concat (assignment c')) points
  /\ forall wt asg, length asg = length (centroids c) -> Permutation (concat asg) points ->
     (inertia col wt (centroids c) (assignment c') <= inertia col wt (centroids c) asg)%Z.
Proof. exact @full_pass_least. Qed.
Print Assumptions C77_assignment.
Example C77_case : img_ok wall /\ visits_all 3%N 2%N (curve 3%N 2%N) /\ (im_w wall, im_h wall) = (3, 2)%N /\ feq (f64_of_N 5) (f64_of_N 0) = false
  /\ (exists m out im', cluster_colors_encode Debug some_oracles (fun l => l) (fun l => l) list_heap 1 three = Some m /\ run_vec m = Ok out
      /\ cluster_colors_decode 100 list_next out = Some (Ok im') /\ (square_error three im', square_error three (repaint (fun _ => (1, 0, 0)%N) im')) = (2, 1)%Z)
  /\ spread [(1, 0, 0); (2, 0, 0); (2, 9, 0)]%N (mean_round [(1, 0, 0); (2, 0, 0); (2, 9, 0)]%N) = 55%Z
  /\ flat_on [[(1, 0, 0); (2, 0, 0)]; [(2, 9, 0)]]%N [(7, 7, 7); (7, 7, 7); (1, 1, 1)]%N
  /\ inertia cc_color cc_count [mkCC (2, 2, 2) 1; mkCC (3, 1, 0) 1]%N [[mkCC (2, 2, 2) 1; mkCC (0, 2, 0) 5]; [mkCC (3, 1, 0) 1]]%N = 40%Z.
Proof.
  split; [exact wall_ok|]. split; [apply curve_visits|]. split; [reflexivity|]. split; [vm_compute; reflexivity|]. split; [exact three_run|].
  split; [vm_compute; reflexivity|]. split; [exists [(7, 7, 7); (1, 1, 1)]%N; split; reflexivity|vm_compute; reflexivity].
Qed.
