(** * Properties C61-C63: how an encoding by cluster-colors ends (src/kmeans.rs,
    src/codec/clusterc.rs). *)
From Flocq Require Import BinarySingleNaN.
From Verif Require Import Base Ser SerSpec Utils Huf HufSpec HufTop Img Float HilbertC CodecSpec Kmeans KmeansSpec ClusterC ClusterSpec KmeansCases CodecCases ClusterTop
  KmeansLoop ClusterExact.

(** C61.  Whatever the sort, the random choices and the number of passes allowed, two
    clusters never come to rest on this image.  A debug build aborts in pass 2^31, when
    the i32 that counts the passes overflows. *)
Theorem C61_ends_refuted : exists im ord, img_ok im /\ (im_w im * im_h im = 129)%N /\ ord_ok ord
  /\ forall O ord2 H, sort_ok (or_sort O) -> cluster_colors_encode Release O ord ord2 H 2 im = None
     /\ ((N.of_nat (or_fuel O) < 2 ^ 31)%N -> cluster_colors_encode Debug O ord ord2 H 2 im = None)
     /\ ((2 ^ 31 <= N.of_nat (or_fuel O))%N -> cluster_colors_encode Debug O ord ord2 H 2 im = Some io_panic).
Proof. exact encode_never_ends. Qed.
Print Assumptions C61_ends_refuted.
(** One cluster: always ends after one pass, and gives every pixel the mean colour. *)
Theorem C61_one_cluster : forall p O ord ord2 H im, sort_ok (or_sort O) -> (1 <= or_fuel O)%nat -> ord_ok ord -> ord_ok ord2 -> heap_ok suffix_cmp H ->
  img_ok im -> (1 <= im_w im * im_h im < 2 ^ 32)%N ->
  exists m out q, cluster_colors_encode p O ord ord2 H 1 im = Some m /\ run_vec m = Ok out
  /\ (forall f, In f channels -> floor_of (f q) (total (map f (map to_rgb (im_px im)))) (im_w im * im_h im))
  /\ forall S (next : nextf S N) s s', yields next s out s' ->
     exists f0, forall fuel, (f0 <= fuel)%nat -> cluster_colors_decode fuel next s = Some (Ok (mkImg (im_w im) (im_h im) (map (fun _ => (q, 255%N)) (im_px im)))).
Proof. exact one_colour. Qed.
Print Assumptions C61_one_cluster.
Example C61_case : img_ok strip /\ sort_ok (or_sort some_oracles) /\ heap_ok suffix_cmp (@list_heap (rgb N))
  /\ exists m out, cluster_colors_encode Debug some_oracles (fun l => l) (@rev _) list_heap 1 strip = Some m /\ run_vec m = Ok out
  /\ cluster_colors_decode 100 list_next (out ++ [7]%N) = Some (Ok (mkImg 6 1 (repeat (px 1 1 1 255) 6))).
Proof. split; [exact strip_ok|]. split; [exact insertion_sort_ok|]. split; [apply list_heap_ok|exact case61]. Qed.

(** C62 *)
Theorem C62_cluster_per_colour : forall p O ord ord2 H im palette, sort_ok (or_sort O) -> (1 <= or_fuel O)%nat -> ord_ok ord -> ord_ok ord2 -> heap_ok suffix_cmp H ->
  img_ok im -> (1 <= im_w im * im_h im < 2 ^ 32)%N -> NoDup palette -> (forall q, In q palette <-> In q (map to_rgb (im_px im))) ->
  exists m out, cluster_colors_encode p O ord ord2 H (N.of_nat (length palette)) im = Some m /\ run_vec m = Ok out
  /\ forall S (next : nextf S N) s s', yields next s out s' ->
     exists f0, forall fuel, (f0 <= fuel)%nat -> cluster_colors_decode fuel next s = Some (Ok (opaque im)).
Proof. exact lossless_palette. Qed.
Print Assumptions C62_cluster_per_colour.
Example C62_case : img_ok strip /\ sort_ok (or_sort some_oracles) /\ heap_ok suffix_cmp (@list_heap (rgb N))
  /\ (exists palette, NoDup palette /\ (forall q, In q palette <-> In q (map to_rgb (im_px strip))) /\ length palette = 5%nat)
  /\ exists m out, cluster_colors_encode Release some_oracles (fun l => l) (@rev _) list_heap 5 strip = Some m /\ run_vec m = Ok out
  /\ cluster_colors_decode 100 list_next (out ++ [7]%N) = Some (Ok (opaque strip)).
Proof.
  split; [exact strip_ok|]. split; [exact insertion_sort_ok|]. split; [apply list_heap_ok|]. split; [|exact case62].
  exists (map cc_color (color_counts (fun l => l) strip)). rewrite map_length. exact strip_palette.
Qed.

(** C63 *)
Theorem C63_outcomes : forall p O ord ord2 H n im palette, sort_ok (or_sort O) -> ord_ok ord -> ord_ok ord2 -> heap_ok suffix_cmp H ->
  img_ok im -> (im_w im * im_h im < 2 ^ 32)%N -> NoDup palette -> (forall q, In q palette <-> In q (map to_rgb (im_px im))) ->
  (1 <= n <= N.of_nat (length palette))%N ->
  cluster_colors_encode p O ord ord2 H n im = None
  \/ (exists m out, cluster_colors_encode p O ord ord2 H n im = Some m /\ run_vec m = Ok out)
  \/ (cluster_colors_encode p O ord ord2 H n im = Some io_panic
      /\ exists c, reached (cc_point p) (or_sort O) (or_rng O) (or_vfuel O) (color_counts ord im) n c
         /\ (N.of_nat (length (filter (fun v => negb (length v =? 0)%nat) (assignment c))) < 99 * n / 100)%N)
  \/ (cluster_colors_encode p O ord ord2 H n im = Some io_panic
      /\ p = Debug /\ exists c, busy (cc_point p) (or_sort O) (or_rng O) (or_vfuel O) (color_counts ord im) n (2 ^ 31 - 1) c).
Proof. exact outcomes. Qed.
Print Assumptions C63_outcomes.
Theorem C63_two_clusters : forall p O ord ord2 H n im palette, sort_ok (or_sort O) -> ord_ok ord -> ord_ok ord2 -> heap_ok suffix_cmp H ->
  img_ok im -> (im_w im * im_h im < 2 ^ 32)%N -> NoDup palette -> (forall q, In q palette <-> In q (map to_rgb (im_px im))) ->
  (1 <= n <= N.of_nat (length palette))%N -> (n <= 2)%N ->
  cluster_colors_encode p O ord ord2 H n im = None
  \/ (exists m out, cluster_colors_encode p O ord ord2 H n im = Some m /\ run_vec m = Ok out)
  \/ (cluster_colors_encode p O ord ord2 H n im = Some io_panic
      /\ p = Debug /\ exists c, busy (cc_point p) (or_sort O) (or_rng O) (or_vfuel O) (color_counts ord im) n (2 ^ 31 - 1) c).
Proof. exact two_clusters_safe. Qed.
Print Assumptions C63_two_clusters.
(** The tolerance computed in floating point is exactly 1%. *)
Theorem C63_tolerance : forall T (c : clusters T) k, (k <= 2 ^ 32)%N -> (k <= N.of_nat (length (concat (assignment c))))%N ->
  check_enough c k = if (N.of_nat (length (filter (fun v : list T => negb (length v =? 0)%nat) (assignment c))) <? 99 * k / 100)%N then Panic else Ok tt.
Proof. exact check_tolerance. Qed.
Print Assumptions C63_tolerance.
(** Seven colours, four clusters, and an abort. *)
Theorem C63_enough_colours_refuted : exists im ord picks palette, img_ok im /\ (im_w im * im_h im = 17)%N /\ ord_ok ord
  /\ NoDup palette /\ (forall q, In q palette <-> In q (map to_rgb (im_px im))) /\ length palette = 7%nat
  /\ forall p ord2 H, cluster_colors_encode p (mkOr insertion_sort picks 10 20) ord ord2 H 4 im = Some io_panic.
Proof. exact enough_but_abort. Qed.
Print Assumptions C63_enough_colours_refuted.
Example C63_case : let c := fun empty => mkCl (repeat 0%N 300) (repeat [7]%N (300 - empty) ++ repeat [] (empty - 1) ++ [repeat 8%N 9]) [] in
  (exists palette, NoDup palette /\ (forall q, In q palette <-> In q (map to_rgb (im_px strip))) /\ length palette = 5%nat)
  /\ (exists m out, cluster_colors_encode Release some_oracles (fun l => l) (@rev _) list_heap 3 strip = Some m /\ run_vec m = Ok out)
  /\ (300 <= N.of_nat (length (concat (assignment (c 4%nat)))))%N
  /\ check_enough (c 4%nat) 300 = Ok tt /\ check_enough (c 5%nat) 300 = Panic.
Proof.
  cbn zeta. split; [exact (proj1 (proj2 (proj2 (proj2 C62_case))))|].
  split; [destruct case43 as (m & out & im' & H1 & H2 & _); exists m, out; now split|].
  split; [vm_compute; discriminate|]. split; vm_compute; reflexivity.
Qed.
