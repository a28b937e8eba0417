(** * Model of src/codec/clusterc.rs: the clustering codecs. *)
From Flocq Require Import BinarySingleNaN.
From Verif Require Import Base Ser Bit Utils Huf Dict Back Img Float HilbertC Kmeans.

(** ** Points with a weight (src/codec/clusterc.rs:69-72 [ColorCount]) *)
Record color_count := mkCC { cc_color : rgb N; cc_count : N }.
(** [Iterator::fold] with a step that may panic *)
Fixpoint fold_res {A B} (f : A -> B -> res A) (l : list B) (a : A) : res A :=
  match l with
  | [] => Ok a
  | b :: l => res_bind (f a b) (fold_res f l)
  end.
(** u64 addition *)
Definition uadd64 (p : profile) (a b : N) : res N := ufit p (2 ^ 64) (a + b).
(** src/codec/clusterc.rs:92-98 [weighed_add]; the product of a u8 and a u32 fits u64 *)
Definition weighed_add (p : profile) (x : rgb N * N) (y : color_count) : res (rgb N * N) :=
  let '(sr, sg, sb, w) := x in let '(r, g, b) := cc_color y in let n := cc_count y in
  res_bind (uadd64 p sr (r * n)) (fun sr =>
  res_bind (uadd64 p sg (g * n)) (fun sg =>
  res_bind (uadd64 p sb (b * n)) (fun sb =>
  res_bind (uadd64 p w n) (fun w => Ok (sr, sg, sb, w))))).
(** src/codec/clusterc.rs:83-113 [ColorCount::mean]; dividing by zero panics *)
Definition cc_mean (p : profile) (points : list color_count) : res color_count :=
  match points with
  | [] => Err
  | [x] => Ok x
  | _ => res_bind (fold_res (weighed_add p) points (0, 0, 0, 0)%N) (fun r =>
         let '(s, w) := r in
         if (w =? 0)%N then Panic else Ok (mkCC (map3 (fun x => (x / w) mod 256)%N s) 1))
  end.
(** src/codec/clusterc.rs:74-79 *)
Definition cc_point (p : profile) : point color_count := mkPoint _ (fun a b => Ok (rgb_dist (cc_color a) (cc_color b))) (cc_mean p) p.

(** ** Points with a position (src/codec/clusterc.rs:200-204 [ColorPos]) *)
Record color_pos := mkCP { cp_x : N; cp_y : N; cp_color : rgb N }.
(** [(a - b).pow(2)] on u32 *)
Definition u32_sqdiff (p : profile) (a b : N) : res N :=
  res_bind (usub p (2 ^ 32) a b) (fun d => ufit p (2 ^ 32) (d * d)).
(** src/codec/clusterc.rs:206-213 *)
Definition cp_dist (p : profile) (a b : color_pos) : res f64 :=
  res_bind (u32_sqdiff p (cp_x a) (cp_x b)) (fun dx =>
  res_bind (u32_sqdiff p (cp_y a) (cp_y b)) (fun dy =>
  Ok (fsqrt (fadd (fadd (f64_of_N dx) (f64_of_N dy)) (fsqr (rgb_dist (cp_color a) (cp_color b))))))).
(** src/codec/clusterc.rs:221-228 [vector_add] *)
Definition vector_add (p : profile) (s : N * N * rgb N) (y : color_pos) : res (N * N * rgb N) :=
  let '(sx, sy, (sr, sg, sb)) := s in let '(r, g, b) := cp_color y in
  res_bind (uadd64 p sx (cp_x y)) (fun sx =>
  res_bind (uadd64 p sy (cp_y y)) (fun sy =>
  res_bind (uadd64 p sr r) (fun sr =>
  res_bind (uadd64 p sg g) (fun sg =>
  res_bind (uadd64 p sb b) (fun sb => Ok (sx, sy, (sr, sg, sb))))))).
(** src/codec/clusterc.rs:216-247 [ColorPos::mean] *)
Definition cp_mean (p : profile) (points : list color_pos) : res color_pos :=
  match points with
  | [] => Err
  | _ => res_bind (fold_res (vector_add p) points (0, 0, (0, 0, 0))%N) (fun r =>
         let '(sx, sy, s) := r in
         let n := N.of_nat (length points) in
         Ok (mkCP ((sx / n) mod 2 ^ 32) ((sy / n) mod 2 ^ 32) (map3 (fun x => (x / n) mod 256) s))%N)
  end.
(** src/codec/clusterc.rs:206-247 *)
Definition cp_point (p : profile) : point color_pos := mkPoint _ (cp_dist p) (cp_mean p) p.
(** src/codec/clusterc.rs:250-257 *)
Definition ser_color_pos (c : color_pos) : io unit :=
  io_bind (ser TU32 (cp_x c)) (fun _ => io_bind (ser TU32 (cp_y c)) (fun _ => ser (TRgb TU8) (cp_color c))).
(** src/codec/clusterc.rs:259-272 *)
Definition deser_color_pos : deserializer color_pos := fun S next =>
  rd_bind (deser TU32 S next) (fun x => rd_bind (deser TU32 S next) (fun y =>
  rd_bind (deser (TRgb TU8) S next) (fun c => rd_ret (mkCP x y c)))).

(** The oracles of one clustering: the sort, the random choices, and bounds for the
    loops of [cluster]. *)
Record oracles := mkOr {
  or_sort : list (nat * f64) -> list (nat * f64);
  or_rng : nat -> N;
  or_fuel : nat;
  or_vfuel : nat
}.
(** [f(cluster(..))?]: [None] when a loop of [cluster] runs out of fuel *)
Definition with_clusters {T} (O : oracles) (P : point T) (points : list T) (n : N) (f : clusters T -> io unit) : option (io unit) :=
  match cluster P (or_sort O) (or_rng O) (or_fuel O) (or_vfuel O) points n 0 with
  | None => None
  | Some (Ok (c, _)) => Some (f c)
  | Some Err => Some io_fail
  | Some Panic => Some io_panic
  end.

(** src/codec/clusterc.rs:21-24 *)
Definition color_counts (ord : list (rgb N * N) -> list (rgb N * N)) (im : img) : list color_count :=
  map (fun e : rgb N * N => mkCC (fst e) (snd e mod 2 ^ 32)) (ord (count_freqs rgb_eqb (map to_rgb (im_px im)))).
(** src/codec/clusterc.rs:31-40: the map from old to new colours *)
Definition reduced_colors (c : clusters color_count) : list (rgb N * rgb N) :=
  fold_left (fun m e => hm_insert rgb_eqb (fst e) (snd e) m)
    (flat_map (fun e : color_count * list color_count => map (fun p => (cc_color p, cc_color (fst e))) (snd e)) (cluster_list c)) [].
(** src/codec/clusterc.rs:43-49; [from_fn] visits the pixels row by row *)
Definition recolor (m : list (rgb N * rgb N)) (im : img) : res img :=
  res_bind (buffer_new (im_w im) (im_h im)) (fun _ =>
  res_map (from_rgb (im_w im) (im_h im))
    (res_mapM (fun px => match hm_get rgb_eqb (to_rgb px) m with Some c => Ok c | None => Panic end) (im_px im))).
(** src/codec/clusterc.rs:18-53 [ClusterColors::encode].  [ord]: order of the colour
    counts, [ord2]: order used inside the Hufman codec. *)
Definition cluster_colors_encode (p : profile) (O : oracles) (ord ord2 : list (rgb N * N) -> list (rgb N * N)) (H : heap (suffix (rgb N)))
    (n : N) (im : img) : option (io unit) :=
  with_clusters O (cc_point p) (color_counts ord im) n (fun c =>
  io_bind (io_lift (recolor (reduced_colors c) im)) (fun reduced => hufman_encode ord2 H reduced)).
(** src/codec/clusterc.rs:55-57 *)
Definition cluster_colors_decode (fuel : nat) {S} (next : nextf S N) (s : S) : option (res img) := hufman_decode fuel next s.

(** The pixels with their positions, row by row ([GenericImageView::pixels]) *)
Definition pixel_points (im : img) : list color_pos :=
  map (fun e : N * N * rgba => mkCP (fst (fst e)) (snd (fst e)) (to_rgb (snd e)))
    (combine (flat_map (fun y => map (fun x => (N.of_nat x, N.of_nat y)) (seq 0 (N.to_nat (im_w im)))) (seq 0 (N.to_nat (im_h im)))) (im_px im)).
(** src/codec/clusterc.rs:148-166 [VoronoiCluster::encode] *)
Definition voronoi_encode (p : profile) (O : oracles) (n : N) (im : img) : option (io unit) :=
  with_clusters O (cp_point p) (pixel_points im) n (fun c =>
  io_bind (ser TU32 (im_w im)) (fun _ =>
  io_bind (ser TU32 (im_h im)) (fun _ =>
  io_bind (ser TUsize n) (fun _ =>
  io_iter (fun e : color_pos * list color_pos => ser_color_pos (fst e)) (cluster_list c))))).
(** src/codec/clusterc.rs:183: the key of a centroid for pixel [(x, y)] *)
Definition voronoi_key (p : profile) (x y : N) (c : color_pos) : res N :=
  res_bind (u32_sqdiff p (cp_x c) x) (fun dx =>
  res_bind (u32_sqdiff p (cp_y c) y) (fun dy => ufit p (2 ^ 32) (dx + dy))).
(** [Iterator::min_by_key]: the first of the least elements; [None] ([Err]) if empty.
    Every key is computed, also that of a single element. *)
Fixpoint min_by {A} (key : A -> res N) (best : A * N) (l : list A) : res A :=
  match l with
  | [] => Ok (fst best)
  | a :: l => res_bind (key a) (fun k => if (k <? snd best)%N then min_by key (a, k) l else min_by key best l)
  end.
(** [Iterator::min_by_key]: all elements *)
Definition min_by_key {A} (key : A -> res N) (l : list A) : res A :=
  match l with
  | [] => Err
  | a :: l => res_bind (key a) (fun k => min_by key (a, k) l)
  end.
(** src/codec/clusterc.rs:168-189 [VoronoiCluster::decode] *)
Definition voronoi_decode (p : profile) {S} (next : nextf S N) (s : S) : res img :=
  match create_image_buffer_standard next s with
  | (Ok (w, h, _), s) =>
      match deser TUsize S next s with
      | (Ok n, s) =>
          match rd_repeat (deser_color_pos S next) n s with
          | (Ok cs, _) =>
              res_map (from_rgb w h)
                (res_mapM (fun q : nat * nat => res_map cp_color (unwrap (min_by_key (voronoi_key p (N.of_nat (snd q)) (N.of_nat (fst q))) cs)))
                  (list_prod (seq 0 (N.to_nat h)) (seq 0 (N.to_nat w))))
          | (Err, _) => Err
          | (Panic, _) => Panic
          end
      | (Err, _) => Err
      | (Panic, _) => Panic
      end
  | (Err, _) => Err
  | (Panic, _) => Panic
  end.
