(** * Specification vocabulary for the clustering codecs (C43-C45). *)
From Verif Require Import Base Ser SerSpec BackSpec Img CodecSpec Kmeans ClusterC.

Definition red (c : rgb N) : N := fst (fst c).
Definition green (c : rgb N) : N := snd (fst c).
Definition blue (c : rgb N) : N := snd c.
Definition channels : list (rgb N -> N) := [red; green; blue].
Definition total (l : list N) : N := fold_right N.add 0%N l.
(** [v] is [sum / weight] rounded down. *)
Definition floor_of (v sum weight : N) : Prop := (v * weight <= sum < (v + 1) * weight)%N.

(** The components of a point with a position *)
Definition components : list (color_pos -> N) := cp_x :: cp_y :: map (fun f p => f (cp_color p)) channels.
Definition color_pos_ok (c : color_pos) : Prop := u32_ok (cp_x c) /\ u32_ok (cp_y c) /\ rgb_ok (cp_color c).
Definition color_count_ok (c : color_count) : Prop := rgb_ok (cc_color c) /\ (1 <= cc_count c < 2 ^ 32)%N.

(** The original colours of the pixels that have colour [c] in the second image *)
Definition sources (im im' : img) (c : rgb N) : list (rgb N) :=
  map fst (filter (fun e : rgb N * rgb N => rgb_eqb (snd e) c) (combine (map to_rgb (im_px im)) (map to_rgb (im_px im')))).
(** Every colour of the second image is the mean of the pixels it stands for. *)
Definition averages (im im' : img) : Prop :=
  forall c f, In c (map to_rgb (im_px im')) -> In f channels ->
  floor_of (f c) (total (map f (sources im im' c))) (N.of_nat (length (sources im im' c))).

(** Squared distance in the plane *)
Definition plane_dist (x y : N) (c : color_pos) : Z :=
  ((Z.of_N (cp_x c) - Z.of_N x) ^ 2 + (Z.of_N (cp_y c) - Z.of_N y) ^ 2)%Z.
(** [c] is the first of the elements of [cs] nearest to [(x, y)]. *)
Definition first_nearest (cs : list color_pos) (x y : N) (c : color_pos) : Prop :=
  exists before after, cs = before ++ c :: after
  /\ Forall (fun d => (plane_dist x y c < plane_dist x y d)%Z) before
  /\ Forall (fun d => (plane_dist x y c <= plane_dist x y d)%Z) after.

(** The pixels as points, row by row *)
Definition pixels (im : img) : list color_pos :=
  map (fun p : N * N => mkCP (fst p) (snd p) (to_rgb (pixel_at im p))) (row_major (im_w im) (im_h im)).
(** The bytes of a point, and of a whole voronoi file *)
Definition color_pos_bytes (c : color_pos) : list N := le32 (cp_x c) ++ le32 (cp_y c) ++ pixel_bytes (cp_color c).
Definition voronoi_bytes (w h : N) (cs : list color_pos) : list N :=
  (le32 w ++ le32 h) ++ le64 (N.of_nat (length cs)) ++ concat (map color_pos_bytes cs).
(** [c] is the mean of the points [v], rounded down per component. *)
Definition centroid_of (v : list color_pos) (c : color_pos) : Prop :=
  forall f, In f components -> floor_of (f c) (total (map f v)) (N.of_nat (length v)).
(** The image drawn from the centroids [cs] *)
Definition voronoi_image (w h : N) (cs : list color_pos) (im : img) : Prop :=
  im_w im = w /\ im_h im = h /\ is_opaque im /\ N.of_nat (length (im_px im)) = (w * h)%N
  /\ forall x y, (x < w)%N -> (y < h)%N -> exists c, first_nearest cs x y c /\ to_rgb (pixel_at im (x, y)) = cp_color c.
(** A point with the position of a pixel of [im] *)
Definition in_image (im : img) (c : color_pos) : Prop := (cp_x c < im_w im)%N /\ (cp_y c < im_h im)%N /\ rgb_ok (cp_color c).
(** [c] is the mean of the points [v]; a pixel if there are none. *)
Definition drawn_from (im : img) (v : list color_pos) (c : color_pos) : Prop := (v <> [] -> centroid_of v c) /\ (v = [] -> In c (pixels im)).
(** Dimensions of a buffer that can be allocated *)
Definition buffer_fits (w h : N) : Prop := u32_ok w /\ u32_ok h /\ (3 * w * h < 2 ^ 63)%N.
