(** * Specification vocabulary for the diagrams (C75). *)
From Coq Require Import String Permutation Reals.
From Flocq Require Import Core BinarySingleNaN.
From Verif Require Import Base Prs Huf HufSpec Img Float HilbertC Select Bench Special CodecSpec BenchSpec ProgramSpec Diagrams.
Close Scope string_scope.
Open Scope list_scope.

(** ** Numbers *)
(** A sum, in any order and with any association *)
Inductive sums_to : list f64 -> f64 -> Prop :=
| sums_nil : sums_to [] (f64_of_N 0)
| sums_one x : sums_to [x] x
| sums_add l l1 l2 x y : Permutation l (l1 ++ l2) -> sums_to l1 x -> sums_to l2 y -> sums_to l (fadd x y).
(** The mean of the numbers that are not NaN *)
Definition mean_ok (mean : list f64 -> f64) : Prop := forall l,
  let numbers := filter (fun x => negb (is_nan x)) l in
  match numbers with
  | [] => is_nan (mean l) = true
  | _ => exists s, sums_to numbers s /\ mean l = fdiv s (f64_of_N (N.of_nat (List.length numbers)))
  end.
(** A number that is written and read back: NaN and zero survive, and the others are not
    off by more than a factor of two. *)
Definition reread_ok (reread : f64 -> f64) : Prop := forall x,
  (is_nan x = true -> is_nan (reread x) = true)
  /\ (is_finite x = true -> (0 <= B2R x)%R -> is_finite (reread x) = true /\ (B2R x / 2 <= B2R (reread x) <= 2 * B2R x)%R).
(** Python's division of integers: the nearest f64 *)
Definition py_div_ok (div : N -> N -> option f64) : Prop := forall a b,
  (b = 0%N -> div a b = None)
  /\ ((0 < b < 2 ^ 53)%N -> (a < 2 ^ 53)%N -> exists q, div a b = Some q /\ is_finite q = true /\ Bsign q = false
      /\ B2R q = round radix2 (SpecFloat.fexp 53 1024) (round_mode mode_NE) (IZR (Z.of_N a) / IZR (Z.of_N b))).

(** ** Names *)
(** The codecs that belong together in the diagram: all numbers of clusters, and all
    distances but zero *)
Definition same_family (c c' : any_codec) : Prop :=
  match c, c' with
  | ClusterColors _, ClusterColors _ => True
  | VoronoiCluster _, VoronoiCluster _ => True
  | Hilbert (RLE d), Hilbert (RLE d') => feq d (f64_of_N 0) = feq d' (f64_of_N 0)
  | _, _ => c = c'
  end.
(** [{}] of an f64: digits, a point, a sign, [inf] or [NaN] *)
Definition show_ok (show : f64 -> text) : Prop := forall d, Forall (fun c => c <> 104 /\ c <> SLASH)%N (show d).

(** ** Tables *)
Definition has_header (f : csv_file) : Prop := match f with BenchTable rows => rows <> [] | PngTable _ => True end.
Definition rec_ratio (r : record) : f64 := let '(_, _, ratio, _) := r in ratio.
(** The errors that the benchmark reports for images with pixels *)
Definition usual_error (e : f64) : Prop := is_finite e = true /\ (B2R e = 0 \/ / 2 ^ 40 <= B2R e <= 2 ^ 18)%R.
(** The files of one series *)
Definition of_series (name : text) (files : list (text * csv_file)) : list (text * csv_file) :=
  filter (fun f => text_eqb (series_name (fst f)) name) files.

(** ** What is drawn *)
Section Drawn.
  Variables (reread : f64 -> f64) (mean : list f64 -> f64).
  (** The point of a table in the scatter plot: mean ratio divided by 100, mean error *)
  Definition drawn_at (f : csv_file) (q : f64 * f64) : Prop :=
    match f with
    | BenchTable rows => q = (fdiv (mean (map (fun r => reread (rec_ratio r)) (records rows))) (f64_of_N 100), mean (map (fun r => reread (rec_error r)) (records rows)))
    | PngTable l => q = (fdiv (mean (map (fun r => reread (snd r)) l)) (f64_of_N 100), f64_of_N 0)
    end.
  (** The box of a table: its ratios, its name *)
  Definition box (f : text * csv_file) : list f64 * text :=
    (match snd f with BenchTable rows => map (fun r => reread (rec_ratio r)) (records rows) | PngTable l => map (fun r => reread (snd r)) l end, splitext (fst f)).
  (** Tables that get a box: without errors *)
  Definition kept (f : csv_file) : bool :=
    match f with BenchTable rows => feq (mean (map (fun r => reread (rec_error r)) (records rows))) (f64_of_N 0) | PngTable _ => true end.
  (** The boxes from left to right *)
  Definition ordered (a b : list f64 * text) : Prop := fle (mean (fst a)) (mean (fst b)) = true.
  Definition numbered (b : list f64 * text) : Prop := is_nan (mean (fst b)) = false.
End Drawn.
(** The image of a record came back with the same colours. *)
Definition came_back (opens : text -> option img) (E E' : text -> env) (c : any_codec) (r : record) : Prop :=
  exists im data y, opens (rec_name r) = Some im /\ any_encode (E (rec_name r)) c im = Some (Ok data) /\ any_decode (E' (rec_name r)) c data = Some (Ok y)
  /\ forall i a b, nth_error (im_px im) i = Some a -> nth_error (im_px y) i = Some b -> to_rgb a = to_rgb b.
(** Images within the limits of the benchmark *)
Definition usable (opens : text -> option img) (E : text -> env) (c : any_codec) (path : text) : Prop :=
  exists im, opens path = Some im /\ img_ok im /\ (0 < pixels im < 2 ^ 32)%N /\ env_ok (E path) im /\ (any_is_lossless c = false -> ord_ok (e_ord2 (E path))).
