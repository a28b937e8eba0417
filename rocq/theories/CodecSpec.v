(** * Specification vocabulary for the image codecs (C30-C38, C53). *)
From Verif Require Import Base Ser SerSpec Bit Utils Huf HufSpec Dict DictSpec Back BackSpec Img Float HilbertC.

(** ** Images *)
Definition rgb_ok (c : rgb N) : Prop := let '(r, g, b) := c in u8_ok r /\ u8_ok g /\ u8_ok b.
Definition rgba_ok (p : rgba) : Prop := rgb_ok (fst p) /\ u8_ok (snd p).
(** An image that fits in memory: u32 dimensions, one pixel per position. *)
Definition img_ok (im : img) : Prop :=
  u32_ok (im_w im) /\ u32_ok (im_h im) /\ (3 * im_w im * im_h im < 2 ^ 63)%N
  /\ N.of_nat (length (im_px im)) = (im_w im * im_h im)%N /\ Forall rgba_ok (im_px im).
(** The same colours with alpha 255 everywhere. *)
Definition opaque (im : img) : img := mkImg (im_w im) (im_h im) (map (fun p : rgba => (fst p, 255%N)) (im_px im)).
Definition is_opaque (im : img) : Prop := Forall (fun p : rgba => snd p = 255%N) (im_px im).

(** The positions of an image, row by row. *)
Definition upto (n : N) : list N := map N.of_nat (seq 0 (N.to_nat n)).
Definition row_major (w h : N) : list (N * N) := flat_map (fun y => map (fun x => (x, y)) (upto w)) (upto h).
(** A traversal that visits every position exactly once. *)
Definition visits_all (w h : N) (ps : list (N * N)) : Prop :=
  NoDup ps /\ forall x y, In (x, y) ps <-> (x < w)%N /\ (y < h)%N.
Definition pos_eqb (a b : N * N) : bool := ((fst a =? fst b) && (snd a =? snd b))%N.
(** The colours at some positions, everything else black. *)
Definition only_at (ps : list (N * N)) (im : img) : img :=
  mkImg (im_w im) (im_h im)
    (map (fun q : N * N * rgba => (if existsb (pos_eqb (fst q)) ps then fst (snd q) else black, 255%N))
         (combine (row_major (im_w im) (im_h im)) (im_px im))).

(** Reading an image at some positions *)
Definition pixel_at (im : img) (p : N * N) : rgba := nth (px_index (im_w im) (fst p) (snd p)) (im_px im) (black, 0%N).
Definition inside (w h : N) (p : N * N) : Prop := (fst p < w)%N /\ (snd p < h)%N.
Definition colours (im : img) (ps : list (N * N)) : list (rgb N) := map (fun p => to_rgb (pixel_at im p)) ps.

(** The header: the dimensions as two little-endian u32. *)
Definition dims (im : img) : list N := le32 (im_w im) ++ le32 (im_h im).

(** The uncompressed form given to the zip compressors. *)
Definition zip_input (im : img) : list N := image_bytes (im_w im) (im_h im) (map to_rgb (im_px im)).
(** How decoding ends when the data stops after the bytes [q] of symbol [x]. *)
Definition cut_outcome {A} (x : symbol) (q : list N) : res A :=
  match x with Explicit _ => if (2 <=? length q)%nat then Panic else Err | LookBack _ _ => Err end.

(** ** Run-length coding *)
Definition expand {T} (runs : list (N * T)) : list T := concat (map (fun r => repeat (snd r) (N.to_nat (fst r))) runs).
Definition run_bytes (r : N * rgb N) : list N := fst r :: pixel_bytes (snd r).
Definition runs_bytes (runs : list (N * rgb N)) : list N := concat (map run_bytes runs).
(** Greedy cutting into runs: [joins run x] says whether [x] may continue [run]; a
    run ends only before an item that does not join it, at 255 items, or at the end. *)
Definition greedy_runs {T} (joins : list T -> T -> bool) (l : list T) (runs : list (list T)) : Prop :=
  concat runs = l
  /\ Forall (fun r => (1 <= length r <= 255)%nat) runs
  /\ (forall r a x b, In r runs -> r = a ++ x :: b -> a <> [] -> joins a x = true)
  /\ (forall before r x r' after, runs = before ++ r :: (x :: r') :: after -> length r = 255%nat \/ joins r x = false).

(** The coded form of the runs, for a choice of colour for each run *)
Definition coded {T} (colour : list T -> T) (runs : list (list T)) : list (N * T) :=
  map (fun r => (N.of_nat (length r), colour r)) runs.
(** Exact coding: an item continues a run that starts with the same item. *)
Definition joins_exact {T} (eqb : T -> T -> bool) (a : list T) (x : T) : bool := match a with y :: _ => eqb y x | [] => false end.

(** Exact sums of the channels, the f64 quotients, and the mean rounded half up. *)
Definition sum_rgb (l : list (rgb N)) : rgb N :=
  fold_right (fun c s => let '(r, g, b) := c in let '(sr, sg, sb) := s in (r + sr, g + sg, b + sb)%N) (0, 0, 0)%N l.
Definition mean_f64 (l : list (rgb N)) : rgb f64 :=
  map3 (fun s => fdiv (f64_of_N s) (f64_of_N (N.of_nat (length l)))) (sum_rgb l).
Definition mean_round (l : list (rgb N)) : rgb N :=
  map3 (fun s => (2 * s + N.of_nat (length l)) / (2 * N.of_nat (length l)))%N (sum_rgb l).
Definition within (d : f64) (l : list (rgb N)) (x : rgb N) : bool := fle (dist_f64 (mean_f64 l) (map3 f64_of_N x)) d.

(** Squared Euclidean distance *)
Definition sq_dist (a b : rgb N) : Z :=
  let '(r, g, u) := a in let '(r', g', u') := b in
  ((Z.of_N r - Z.of_N r') ^ 2 + (Z.of_N g - Z.of_N g') ^ 2 + (Z.of_N u - Z.of_N u') ^ 2)%Z.

(** ** Differences between successive colours *)
Definition diff1 (a b : rgb N) : list Z := let '(r, g, u) := a in let '(r', g', u') := b in
  [Z.of_N r - Z.of_N r'; Z.of_N g - Z.of_N g'; Z.of_N u - Z.of_N u']%Z.
Fixpoint diffs (last : rgb N) (l : list (rgb N)) : list (list Z) :=
  match l with [] => [] | c :: l => diff1 c last :: diffs c l end.
Definition diff_ok (d : list Z) : Prop := length d = 3%nat /\ Forall (fun z => (-255 <= z <= 255)%Z) d.

(** The side of the small square: the largest power of two strictly below both sides. *)
Definition small_side (w h s : N) : Prop :=
  ((N.min w h <= 1 /\ s = 0) \/ (2 <= N.min w h /\ exists k, s = 2 ^ k /\ 2 ^ k < N.min w h <= 2 ^ (k + 1)))%N.
(** The side of the large square: the smallest power of two with both sides at most that. *)
Definition large_side (w h s : N) : Prop :=
  (N.max w h <= s /\ exists k, s = 2 ^ k /\ forall j, N.max w h <= 2 ^ j -> k <= j)%N.
