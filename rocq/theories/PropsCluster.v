(** * Properties C43-C45, and C01-C03, C05 for positioned colours (src/codec/clusterc.rs).

    [O] holds the sort, the random choices and the loop bounds of the clustering; an
    encoding that is still running when the bounds are used up is [None]. *)
From Flocq Require Import BinarySingleNaN.
From Verif Require Import Base Ser SerSpec Bit Utils Huf HufSpec HufTop Back BackSpec Img Float HilbertC CodecSpec Kmeans KmeansSpec
  ClusterC ClusterSpec ClusterColors VoronoiProofs VoronoiDebug KmeansCases CodecCases ClusterTop.

(** C01, C02, C03, C05 *)
Theorem C01_color_pos : forall c, color_pos_ok c -> run_vec (ser_color_pos c) = Ok (color_pos_bytes c) /\ length (color_pos_bytes c) = 19%nat
  /\ forall S (next : nextf S N) s s', yields next s (color_pos_bytes c) s' -> deser_color_pos S next s = (Ok c, s').
Proof. exact cp_roundtrip. Qed.
Print Assumptions C01_color_pos.
Theorem C02_color_pos : forall S (next : nextf S N) s c s', byte_source next s -> deser_color_pos S next s = (Ok c, s') ->
  color_pos_ok c /\ exists bs, run_vec (ser_color_pos c) = Ok bs /\ yields next s bs s'.
Proof. exact cp_canonical. Qed.
Print Assumptions C02_color_pos.
Theorem C03_color_pos : forall c bs p, color_pos_ok c -> run_vec (ser_color_pos c) = Ok bs -> strict_prefix p bs ->
  forall S (next : nextf S N) s, yields_all next s p -> fst (deser_color_pos S next s) = Err.
Proof. exact cp_truncation. Qed.
Print Assumptions C03_color_pos.
Theorem C03_color_pos_no_panic : forall S (next : nextf S N) s, byte_source next s -> fst (deser_color_pos S next s) <> Panic.
Proof. exact cp_no_panic. Qed.
Print Assumptions C03_color_pos_no_panic.
Theorem C05_color_pos : forall c k, color_pos_ok c ->
  fst (ser_color_pos c (short_writer k)) = (if (19 <=? k)%nat then Ok tt else Err)
  /\ written (snd (ser_color_pos c (short_writer k))) = firstn k (color_pos_bytes c).
Proof. exact cp_short. Qed.
Print Assumptions C05_color_pos.
Example C01_color_pos_case : let c := mkCP 258 7 (1, 2, 255)%N in
  color_pos_ok c /\ color_pos_bytes c = [2; 1; 0; 0; 7; 0; 0; 0; 3; 0; 0; 0; 0; 0; 0; 0; 1; 2; 255]%N
  /\ deser_color_pos _ list_next (color_pos_bytes c ++ [9]%N) = (Ok c, [9]%N)
  /\ deser_color_pos _ list_next (firstn 18 (color_pos_bytes c)) = (Err, []).
Proof. split; [unfold color_pos_ok, u32_ok; cbn; unfold u8_ok; lia|]. repeat split; vm_compute; reflexivity. Qed.

(** C43 *)
Theorem C43_reduced_image : forall p O ord ord2 H n im m out,
  ord_ok ord -> ord_ok ord2 -> heap_ok suffix_cmp H -> img_ok im -> (im_w im * im_h im < 2 ^ 32)%N ->
  cluster_colors_encode p O ord ord2 H n im = Some m -> run_vec m = Ok out ->
  exists im' newc palette, im_w im' = im_w im /\ im_h im' = im_h im /\ is_opaque im'
  /\ map to_rgb (im_px im') = map newc (map to_rgb (im_px im))
  /\ N.of_nat (length palette) = n /\ incl (map to_rgb (im_px im')) palette
  /\ averages im im'
  /\ forall S (next : nextf S N) s s', yields next s out s' ->
     exists f0, forall fuel, (f0 <= fuel)%nat -> cluster_colors_decode fuel next s = Some (Ok im').
Proof. exact cluster_colors_run. Qed.
Print Assumptions C43_reduced_image.
Theorem C43_too_few_colours : forall p O ord ord2 H n im, ord_ok ord ->
  (n = 0%N \/ exists palette, incl (map to_rgb (im_px im)) palette /\ (N.of_nat (length palette) < n)%N) ->
  cluster_colors_encode p O ord ord2 H n im = Some io_panic.
Proof. exact cluster_colors_refused. Qed.
Print Assumptions C43_too_few_colours.
Example C43_case : img_ok strip /\ ord_ok (fun l : list (rgb N * N) => l) /\ ord_ok (@rev (rgb N * N)) /\ heap_ok suffix_cmp (@list_heap (rgb N))
  /\ exists m out im', cluster_colors_encode Release some_oracles (fun l => l) (@rev _) list_heap 3 strip = Some m /\ run_vec m = Ok out
  /\ cluster_colors_decode 100 list_next (out ++ [7]%N) = Some (Ok im')
  /\ map to_rgb (im_px im') = [(3, 1, 0); (1, 1, 1); (1, 1, 1); (2, 3, 3); (1, 1, 1); (1, 1, 1)]%N.
Proof.
  split; [exact strip_ok|]. split; [intros l; apply Permutation_refl|]. split; [intros l; apply Permutation_sym, Permutation_rev|].
  split; [apply list_heap_ok|exact case43].
Qed.

(** C44, release build *)
Theorem C44_release : forall O n im m out, img_ok im -> (im_w im <= 46341)%N -> (im_h im <= 46341)%N ->
  voronoi_encode Release O n im = Some m -> run_vec m = Ok out ->
  exists cs parts im', out = voronoi_bytes (im_w im) (im_h im) cs /\ N.of_nat (length cs) = n
  /\ Permutation (concat parts) (pixels im) /\ Forall2 (drawn_from im) parts cs /\ Forall (in_image im) cs
  /\ voronoi_image (im_w im) (im_h im) cs im'
  /\ forall S (next : nextf S N) s s', yields next s out s' -> voronoi_decode Release next s = Ok im'.
Proof. exact voronoi_release. Qed.
Print Assumptions C44_release.
Theorem C44_decode_release : forall w h cs, (w <= 46341)%N -> (h <= 46341)%N -> cs <> [] -> u64_ok (N.of_nat (length cs)) ->
  Forall color_pos_ok cs -> Forall (fun c => (cp_x c <= 46340)%N /\ (cp_y c <= 46340)%N) cs ->
  exists im, voronoi_image w h cs im /\ forall S (next : nextf S N) s s', yields next s (voronoi_bytes w h cs) s' -> voronoi_decode Release next s = Ok im.
Proof. exact voronoi_decode_release. Qed.
Print Assumptions C44_decode_release.
Theorem C44_size : forall w h cs, length (voronoi_bytes w h cs) = (16 + 19 * length cs)%nat.
Proof. exact voronoi_size. Qed.
Print Assumptions C44_size.
Theorem C44_truncated : forall p w h cs q, buffer_fits w h -> Forall color_pos_ok cs -> u64_ok (N.of_nat (length cs)) -> strict_prefix q (voronoi_bytes w h cs) ->
  forall S (next : nextf S N) s, yields_all next s q -> voronoi_decode p next s = Err.
Proof. exact decode_trunc. Qed.
Print Assumptions C44_truncated.
Theorem C44_no_centroids : forall p w h, buffer_fits w h -> (0 < w)%N -> (0 < h)%N ->
  forall S (next : nextf S N) s s', yields next s (voronoi_bytes w h []) s' -> voronoi_decode p next s = Panic.
Proof. exact voronoi_decode_none. Qed.
Print Assumptions C44_no_centroids.
(** With overflow checks, one centroid left of or above one pixel is enough for the
    decoder to abort, and the encoder aborts on every image of two or more pixels. *)
Theorem C44_decode_debug : forall w h cs c x y, buffer_fits w h -> Forall color_pos_ok cs -> u64_ok (N.of_nat (length cs)) ->
  In c cs -> (x < w)%N -> (y < h)%N -> (cp_x c < x \/ cp_y c < y)%N ->
  forall S (next : nextf S N) s s', yields next s (voronoi_bytes w h cs) s' -> voronoi_decode Debug next s = Panic.
Proof. exact voronoi_decode_debug. Qed.
Print Assumptions C44_decode_debug.
Theorem C44_encode_debug : forall O n im, img_ok im -> sort_ok (or_sort O) -> (2 <= im_w im * im_h im)%N -> (1 <= or_fuel O)%nat ->
  voronoi_encode Debug O n im = Some io_panic.
Proof. exact voronoi_debug_encode. Qed.
Print Assumptions C44_encode_debug.
(** Beyond those dimensions a far centroid can win. *)
Theorem C44_wide_refuted : exists w h cs, buffer_fits w h /\ u64_ok (N.of_nat (length cs)) /\ Forall color_pos_ok cs /\ cs <> []
  /\ Forall (fun c => (cp_x c < w)%N /\ (cp_y c < h)%N) cs
  /\ exists c, min_by_key (voronoi_key Release 0 0) cs = Ok c /\ ~ first_nearest cs 0 0 c
  /\ exists im, to_rgb (pixel_at im (0, 0)%N) = cp_color c /\ (forall d, In d cs -> cp_color d = cp_color c -> d = c)
  /\ forall S (next : nextf S N) s s', yields next s (voronoi_bytes w h cs) s' -> voronoi_decode Release next s = Ok im.
Proof. exact wide_wrong. Qed.
Print Assumptions C44_wide_refuted.
Example C44_case : img_ok wall /\ sort_ok (or_sort some_oracles)
  /\ exists m out im', voronoi_encode Release some_oracles 2 wall = Some m /\ run_vec m = Ok out
  /\ length out = 54%nat /\ voronoi_decode Release list_next out = Ok im'
  /\ map to_rgb (im_px im') = [(8, 2, 2); (0, 210, 0); (0, 210, 0); (8, 2, 2); (0, 210, 0); (0, 210, 0)]%N.
Proof. split; [exact wall_ok|]. split; [exact insertion_sort_ok|exact case44]. Qed.

(** C45 *)
Theorem C45_weighted_mean : forall p l, Forall color_count_ok l -> l <> [] -> (total (map cc_count l) < 2 ^ 56)%N ->
  exists m, cc_mean p l = Ok m /\ rgb_ok (cc_color m) /\ (1 <= cc_count m < 2 ^ 32)%N /\ forall f, In f channels ->
  floor_of (f (cc_color m)) (total (map (fun q => f (cc_color q) * cc_count q)%N l)) (total (map cc_count l))
  /\ forall lo hi, (forall q, In q l -> (lo <= f (cc_color q) <= hi)%N) -> (lo <= f (cc_color m) <= hi)%N.
Proof. exact weighted_mean. Qed.
Print Assumptions C45_weighted_mean.
Theorem C45_position_mean : forall p l, Forall color_pos_ok l -> l <> [] -> (N.of_nat (length l) <= 2 ^ 32)%N ->
  exists m, cp_mean p l = Ok m /\ color_pos_ok m /\ forall f, In f components ->
  floor_of (f m) (total (map f l)) (N.of_nat (length l))
  /\ forall lo hi, (forall q, In q l -> (lo <= f q <= hi)%N) -> (lo <= f m <= hi)%N.
Proof. exact position_mean. Qed.
Print Assumptions C45_position_mean.
Theorem C45_one_point : forall p,
  (forall x, cc_mean p [x] = Ok x) /\ (forall x, color_pos_ok x -> cp_mean p [x] = Ok x) /\ cc_mean p [] = Err /\ cp_mean p [] = Err.
Proof. exact mean_of_one. Qed.
Print Assumptions C45_one_point.
Example C45_case : cc_mean Debug [mkCC (10, 0, 255) 3; mkCC (20, 1, 255) 1]%N = Ok (mkCC (12, 0, 255) 1)%N
  /\ cp_mean Debug [mkCP 4294967295 0 (10, 0, 255); mkCP 4294967292 1 (21, 0, 255)]%N = Ok (mkCP 4294967293 0 (15, 0, 255))%N.
Proof. split; vm_compute; reflexivity. Qed.
