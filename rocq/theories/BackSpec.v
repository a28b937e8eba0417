(** * Specification vocabulary for zip-back (C22-C29). *)
From Verif Require Import Base Ser SerSpec Back.

(** ** Symbols *)
Definition symbol_len (s : symbol) : N :=
  match s with Explicit data => N.of_nat (length data) | LookBack len _ => len end.
Definition symbol_ok (s : symbol) : Prop :=
  match s with
  | Explicit data => (N.of_nat (length data) <= 32767)%N /\ Forall u8_ok data
  | LookBack len back => (len <= 32767)%N /\ (back <= 65535)%N
  end.
(** 15-bit length, kind in the top bit; then the data or the distance. *)
Definition symbol_bytes (s : symbol) : list N :=
  match s with
  | Explicit data => le16 (N.of_nat (length data)) ++ data
  | LookBack len back => le16 (32768 + len)%N ++ le16 back
  end.

(** ** History *)
(** Positions count from the start of the stream; the window is the last [R] of them. *)
Definition in_window (R : N) (h : list N) (pos : N) : Prop :=
  (N.of_nat (length h) - R <= pos < N.of_nat (length h))%N.
Definition window (R : N) (h : list N) : list N := skipn (length h - N.to_nat R) h.
(** The positions of the window, in increasing order, at which the six bytes of
    [key] occur. *)
Definition occurrences (R : N) (h key : list N) : list N :=
  filter (fun pos => key_eqb (firstn 6 (skipn (N.to_nat pos) h)) key)
         (map N.of_nat (seq (length h - N.to_nat R) (length h - (length h - N.to_nat R)))).

(** How many bytes of the input [rest] agree with the history read from [pos]. *)
Fixpoint agree (rest from : list N) : nat :=
  match rest, from with
  | x :: rest, y :: from => if (x =? y)%N then S (agree rest from) else O
  | _, _ => O
  end.
Definition match_at (h rest : list N) (pos : N) : N := N.of_nat (agree rest (skipn (N.to_nat pos) h)).

(** Looking back by [back] gives the longest match of the window, the oldest one if
    there are several, and it is worth it. *)
Definition best_match (R : N) (h rest : list N) (len back : N) : Prop :=
  exists pos, in_window R h pos /\ (back = N.of_nat (length h) - pos)%N /\ len = match_at h rest pos /\ (6 <= len)%N
  /\ (forall q, in_window R h q -> (match_at h rest q <= len)%N)
  /\ (forall q, in_window R h q -> (q < pos)%N -> (match_at h rest q < len)%N).
Definition no_match (R : N) (h rest : list N) : Prop :=
  forall q, in_window R h q -> (match_at h rest q < 6)%N.

(** ** The compressed form: [parses R h lits rest syms] -- after the history [h],
    with [lits] the pending literal run (a suffix of [h]), the input [rest] becomes [syms]. *)
Definition literal (lits : list N) : list symbol := match lits with [] => [] | _ => [Explicit lits] end.
Definition grow_by (lits : list N) : nat := Nat.max (length lits) 2.
Inductive parses (R : N) : list N -> list N -> list N -> list symbol -> Prop :=
| parses_repeat h lits rest len back syms :
    best_match R h rest len back ->
    parses R (h ++ firstn (N.to_nat len) rest) [] (skipn (N.to_nat len) rest) syms ->
    parses R h lits rest (literal lits ++ LookBack len back :: syms)
| parses_more h lits rest syms :
    no_match R h rest -> (grow_by lits <= length rest)%nat ->
    parses R (h ++ firstn (grow_by lits) rest) (lits ++ firstn (grow_by lits) rest) (skipn (grow_by lits) rest) syms ->
    parses R h lits rest syms
| parses_last h lits rest :
    no_match R h rest -> (length rest < grow_by lits)%nat ->
    parses R h lits rest (literal (lits ++ rest)).

(** The repetition buffer always has room for at least six bytes. *)
Definition caps_ok (caps : nat -> nat) : Prop := forall i, (6 <= caps i)%nat.

(** What a symbol stands for, after history [h]. *)
Definition symbol_text (h : list N) (s : symbol) : list N :=
  match s with
  | Explicit data => data
  | LookBack len back => firstn (N.to_nat len) (skipn (length h - N.to_nat back) h)
  end.
Fixpoint text (h : list N) (syms : list symbol) : list N :=
  match syms with
  | [] => []
  | s :: syms => symbol_text h s ++ text (h ++ symbol_text h s) syms
  end.

(** ** The byte form of an image, as fed to the compressors: width, height, then per
    pixel the length 3 (8 bytes) and the three channels (see SerSpec.v). *)
Definition pixel_bytes (p : N * N * N) : list N := let '(r, g, b) := p in [3; 0; 0; 0; 0; 0; 0; 0; r; g; b]%N.
Definition image_bytes (w h : N) (px : list (N * N * N)) : list N := le32 w ++ le32 h ++ concat (map pixel_bytes px).
