(** * The experiment scripts: scripts/experiments/hilbert_channels.py, hilbert_distribution.py and png_stats.py.

    What is modelled is the data handed to matplotlib, and the exceptions of the scripts.  [None] is an
    exception.  pandas' [read_csv] is taken to read a file as RFC 4180 says (CsvSpec.v) and to turn columns
    of digits into numbers.  Images are in RGB mode, without an alpha channel. *)
From Coq Require Import String.
From Verif Require Import Base Ser Prs Img CsvSpec Special.
Close Scope string_scope.
Open Scope list_scope.

(** ** Columns of a csv file *)
Fixpoint opt_map {A B} (f : A -> option B) (l : list A) : option (list B) :=
  match l with
  | [] => Some []
  | x :: l => match f x, opt_map f l with Some y, Some ys => Some (y :: ys) | _, _ => None end
  end.
(** A field with a number *)
Definition int_of (t : text) : option Z :=
  match t with
  | [] => None
  | _ => if forallb (fun c => (48 <=? c) && (c <=? 57))%N t then Some (Z.of_N (fold_left (fun a c => 10 * a + (c - 48))%N t 0%N)) else None
  end.
Fixpoint index_of (name : text) (heading : list text) : option nat :=
  match heading with
  | [] => None                                      (* KeyError *)
  | h :: heading => if text_eqb h name then Some 0%nat else match index_of name heading with Some i => Some (S i) | None => None end
  end.
(** [csv_data[name]] after [pd.read_csv]: scripts/experiments/hilbert_channels.py:6-12 *)
Definition column (file name : text) : option (list Z) :=
  match read_csv_text file with
  | Some (heading :: rows) =>
      match index_of name heading with
      | Some i => opt_map (fun r => match nth_error r i with Some t => int_of t | None => None end) rows
      | None => None
      end
  | _ => None                                       (* EmptyDataError *)
  end.

(** ** scripts/experiments/hilbert_channels.py:8-12: the three curves with their colours *)
Definition channels (file : text) : option (list (text * list Z)) :=
  opt_map (fun name => match column file name with Some l => Some (name, l) | None => None end) [txt "red"; txt "green"; txt "blue"].

(** ** scripts/experiments/hilbert_distribution.py:8-13 *)
(** [diff()]: the first entry is NaN *)
Fixpoint diffs_from (x : Z) (l : list Z) : list (option Z) := match l with [] => [] | y :: l => Some (y - x)%Z :: diffs_from y l end.
Definition diff (l : list Z) : list (option Z) := match l with [] => [] | x :: l => None :: diffs_from x l end.
(** Counting with a dictionary *)
Fixpoint bump {A} (eqb : A -> A -> bool) (k : A) (d : list (A * N)) : list (A * N) :=
  match d with
  | [] => [(k, 1%N)]
  | (k', n) :: d => if eqb k' k then (k', n + 1)%N :: d else (k', n) :: bump eqb k d
  end.
Definition tally {A} (eqb : A -> A -> bool) (l : list A) : list (A * N) := fold_left (fun d k => bump eqb k d) l [].
(** Sorting by count in descending order; equal counts keep their order, as in Python *)
Fixpoint insert_count {A} (e : A * N) (l : list (A * N)) : list (A * N) :=
  match l with
  | [] => [e]
  | e' :: l => if (snd e' <? snd e)%N then e :: e' :: l else e' :: insert_count e l
  end.
Definition sort_counts {A} (l : list (A * N)) : list (A * N) := fold_left (fun acc e => insert_count e acc) l [].
(** [value_counts()] drops NaN and sorts by count; the order of equal counts is left open. *)
Definition value_counts (l : list (option Z)) (vc : list (Z * N)) : Prop :=
  exists t, Permutation.Permutation t (tally Z.eqb (concat (map (fun o => match o with Some d => [d] | None => [] end) l))) /\ vc = sort_counts t.
Definition distribution (file colour : text) (vc : list (Z * N)) : Prop := exists l, column file colour = Some l /\ value_counts (diff l) vc.

(** ** scripts/experiments/png_stats.py *)
(** Line 25: [str(w) + 'x' + str(h)] *)
Definition dims (s : N * N) : text := decimal (fst s) ++ txt "x" ++ decimal (snd s).
(** Lines 15 and 26-27 *)
Definition dimensions (sizes : list (N * N)) : list (text * N) := tally text_eqb (map dims sizes).
(** [list.index(1)]: a missing value is a ValueError *)
Fixpoint first_one (l : list N) : option nat :=
  match l with
  | [] => None
  | n :: l => if (n =? 1)%N then Some 0%nat else match first_one l with Some i => Some (S i) | None => None end
  end.
(** Lines 51-61: the bars of the second diagram *)
Definition dim_bars (sizes : list (N * N)) : option (list (text * N)) :=
  let sorted := sort_counts (dimensions sizes) in
  match first_one (map snd sorted) with
  | Some i => Some (firstn i sorted ++ [(txt "singles", N.of_nat (length sorted - i))])
  | None => None
  end.
(** Line 34: [len(png_img.getcolors(w*h))], the number of different pixels; [None] from getcolors if there are more than w*h *)
Definition rgb_eqb (p q : rgb N) : bool := let '(r, g, b) := p in let '(r', g', b') := q in ((r =? r') && (g =? g') && (b =? b'))%N.
Definition ncolors (im : img) : option N :=
  let n := N.of_nat (length (tally rgb_eqb (map to_rgb (im_px im)))) in if (im_w im * im_h im <? n)%N then None else Some n.
(** Lines 73-78: [np.unique] of the array of an RGB image with its counts, of which the sorted counts are shown.
    Without an axis [unique] flattens the array. *)
Definition flat (im : img) : list N := concat (map (fun px => let '(r, g, b) := to_rgb px in [r; g; b]) (im_px im)).
Definition colour_bars (im : img) : list N := rev (map snd (sort_counts (tally N.eqb (flat im)))).
