(** * Specification vocabulary for the output files (C58-C60). *)
From Coq Require Import String.
From Verif Require Import Base Ser Prs Img Float HilbertC Select Special.
Close Scope string_scope.
Open Scope list_scope.
Notation length := List.length.

(** A plain file name *)
Definition plain_name (name : text) : Prop := name <> [] /\ name <> [DOT] /\ name <> [DOT; DOT] /\ ~ In SLASH name.
(** A directory in front of a name: nothing, or something ending in a separator *)
Definition directory (d : text) : Prop := d = [] \/ exists d', d = d' ++ [SLASH].
(** A name without its extension *)
Inductive stem_of : text -> text -> Prop :=
| stem_cut stem ext : stem <> [] -> ~ In DOT ext -> stem_of (stem ++ [DOT] ++ ext) stem
| stem_none name : ~ In DOT name -> stem_of name name
| stem_hidden rest : ~ In DOT rest -> stem_of (DOT :: rest) (DOT :: rest).

(** The cells of a csv file below a heading *)
Fixpoint position (h : text) (cells : list cell) : option nat :=
  match cells with
  | [] => None
  | Word t :: cells => if text_eqb t h then Some 0%nat else option_map S (position h cells)
  | Num _ :: cells => option_map S (position h cells)
  end.
Definition column (h : text) (t : csv) : option (list (option cell)) :=
  match t with
  | [] => None
  | heads :: rows => option_map (fun i => map (fun r => nth_error r i) rows) (position h heads)
  end.
Definition red (px : rgba) : N := let '(r, _, _) := to_rgb px in r.
Definition green (px : rgba) : N := let '(_, g, _) := to_rgb px in g.
Definition blue (px : rgba) : N := let '(_, _, b) := to_rgb px in b.
(** A csv file with the pixels [l], whose columns for green and blue are exchanged *)
Definition dumped (t : csv) (l : list rgba) : Prop :=
  length t = S (length l)
  /\ column (txt "red") t = Some (map (fun px => Some (Num (red px))) l)
  /\ column (txt "blue") t = Some (map (fun px => Some (Num (green px))) l)
  /\ column (txt "green") t = Some (map (fun px => Some (Num (blue px))) l).
(** The same codec, up to the sign of a zero distance *)
Definition same_codec (c c' : any_codec) : Prop :=
  c = c' \/ (exists d d', c = Hilbert (RLE d) /\ c' = Hilbert (RLE d') /\ feq d (f64_of_N 0) = true /\ feq d' (f64_of_N 0) = true).
