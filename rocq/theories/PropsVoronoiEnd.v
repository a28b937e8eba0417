(** * Property C95: how an encoding by voronoi ends in a release build (src/kmeans.rs,
    src/codec/clusterc.rs). *)
From Verif Require Import Base Ser SerSpec Img CodecSpec Kmeans KmeansSpec ClusterC ClusterSpec KmeansCases CodecCases ClusterTop VoronoiEnd.

(** C95.  The only abort is the one for lack of clusters with points. *)
Theorem C95_outcomes : forall O im, sort_ok (or_sort O) -> img_ok im -> (im_w im * im_h im <= 2 ^ 32)%N ->
  forall n, (1 <= n <= im_w im * im_h im)%N ->
  voronoi_encode Release O n im = None
  \/ (exists m cs, voronoi_encode Release O n im = Some m /\ run_vec m = Ok (voronoi_bytes (im_w im) (im_h im) cs) /\ N.of_nat (length cs) = n)
  \/ (voronoi_encode Release O n im = Some io_panic
      /\ exists c, reached (cp_point Release) (or_sort O) (or_rng O) (or_vfuel O) (pixels im) n c
         /\ (N.of_nat (length (filter (fun v => negb (length v =? 0)%nat) (assignment c))) < 99 * n / 100)%N).
Proof. exact v_outcomes. Qed.
Print Assumptions C95_outcomes.
Theorem C95_two_clusters : forall O im, sort_ok (or_sort O) -> img_ok im -> (im_w im * im_h im <= 2 ^ 32)%N ->
  forall n, (1 <= n <= im_w im * im_h im)%N -> (n <= 2)%N ->
  voronoi_encode Release O n im = None
  \/ (exists m cs, voronoi_encode Release O n im = Some m /\ run_vec m = Ok (voronoi_bytes (im_w im) (im_h im) cs) /\ N.of_nat (length cs) = n).
Proof. exact v_two. Qed.
Print Assumptions C95_two_clusters.
(** A number of clusters out of range aborts in either build. *)
Theorem C95_wrong_number : forall p O n im, img_ok im -> (n = 0 \/ im_w im * im_h im < n)%N -> voronoi_encode p O n im = Some io_panic.
Proof. exact wrong_number. Qed.
Print Assumptions C95_wrong_number.
(** One cluster: the run ends, and the image becomes plain in its mean colour. *)
Theorem C95_one_cluster : forall O im, sort_ok (or_sort O) -> (1 <= or_fuel O)%nat -> img_ok im -> (1 <= im_w im <= 46341)%N -> (1 <= im_h im <= 46341)%N ->
  exists m c, voronoi_encode Release O 1 im = Some m /\ run_vec m = Ok (voronoi_bytes (im_w im) (im_h im) [c]) /\ centroid_of (pixels im) c
  /\ forall S (next : nextf S N) s s', yields next s (voronoi_bytes (im_w im) (im_h im) [c]) s' ->
     voronoi_decode Release next s = Ok (mkImg (im_w im) (im_h im) (repeat (cp_color c, 255%N) (N.to_nat (im_w im * im_h im)))).
Proof. exact one_colour. Qed.
Print Assumptions C95_one_cluster.
(** One cluster per pixel: the run ends, nothing is lost but the alpha channel. *)
Theorem C95_cluster_per_pixel : forall O im, sort_ok (or_sort O) -> (1 <= or_fuel O)%nat -> img_ok im -> (1 <= im_w im <= 46341)%N -> (1 <= im_h im <= 46341)%N ->
  exists m out, voronoi_encode Release O (im_w im * im_h im) im = Some m /\ run_vec m = Ok out /\ N.of_nat (length out) = (16 + 19 * (im_w im * im_h im))%N
  /\ forall S (next : nextf S N) s s', yields next s out s' -> voronoi_decode Release next s = Ok (opaque im).
Proof. exact lossless_pixels. Qed.
Print Assumptions C95_cluster_per_pixel.
Example C95_case : img_ok wall /\ sort_ok (or_sort some_oracles)
  /\ (exists m out im', voronoi_encode Release some_oracles 2 wall = Some m /\ run_vec m = Ok out
     /\ length out = 54%nat /\ voronoi_decode Release list_next out = Ok im'
     /\ map to_rgb (im_px im') = [(8, 2, 2); (0, 210, 0); (0, 210, 0); (8, 2, 2); (0, 210, 0); (0, 210, 0)]%N)
  /\ (exists m out, voronoi_encode Release some_oracles 1 wall = Some m /\ run_vec m = Ok out
     /\ voronoi_decode Release list_next out = Ok (mkImg 3 2 (repeat (5, 71, 1, 255)%N 6)))
  /\ (exists m out, voronoi_encode Release some_oracles 6 wall = Some m /\ run_vec m = Ok out /\ length out = 130%nat
     /\ voronoi_decode Release list_next (out ++ [7]%N) = Ok (opaque wall))
  /\ voronoi_encode Release some_oracles 7 wall = Some io_panic.
Proof.
  split; [exact wall_ok|]. split; [exact insertion_sort_ok|]. split; [exact case44|]. split; [exact case95_one|]. split; [exact case95|].
  apply wrong_number; [exact wall_ok|]. right. reflexivity.
Qed.
