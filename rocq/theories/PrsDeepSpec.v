(** * Calls nested deeper than the counter of src/prs.rs:27 can count (C47). *)
From Verif Require Import Base Prs PrsSpec PrsWideSpec.

(** The text begins with [name(arg,..,arg,], which is not nested too deep. *)
Definition begins_call (s name : text) (args : list text) (rest : text) : Prop :=
  s = name ++ LPAREN :: concat (map (fun a => a ++ [COMMA]) args) ++ rest /\ name <> [] /\ plain name
  /\ Forall (fun a => a <> [] /\ argument a) args
  /\ nesting_below 65536 (name ++ LPAREN :: concat (map (fun a => a ++ [COMMA]) args)).
(** The beginning of an argument, with [k] groups open *)
Inductive unclosed : nat -> text -> Prop :=
| unc_none a : argument a -> unclosed 0 a
| unc_open k cur b : unclosed k cur -> balanced b -> unclosed (S k) (cur ++ LPAREN :: b).
(** [name(arg,..,arg,cur(tail], where the last parenthesis is the first one that makes 65536 open ones *)
Definition too_deep (s name : text) (args : list text) (tail : text) : Prop := exists cur,
  begins_call s name args (cur ++ LPAREN :: tail) /\ unclosed (N.to_nat 65534) cur
  /\ nesting_below 65536 (name ++ LPAREN :: concat (map (fun a => a ++ [COMMA]) args) ++ cur).
(** One of the positions around the name and the arguments that are read first is inside a character. *)
Definition miscut_first (s : text) : Prop := exists name args rest,
  begins_call s name args rest /\ exists k, In k (cuts name args) /\ ~ boundary s k.
(** Where the name and the arguments are, in characters *)
Fixpoint arg_spans (pos : nat) (args : list text) : list (nat * nat) :=
  match args with
  | [] => []
  | a :: args => (pos, pos + length a)%nat :: arg_spans (pos + length a + 1) args
  end.
Definition spans (name : text) (args : list text) : list (nat * nat) := (0, length name)%nat :: arg_spans (length name + 1) args.
(** The part of the text that has these positions, taken as numbers of bytes *)
Definition bytes_of (s : text) (ij : nat * nat) (m : text) : Prop := exists l r,
  s = l ++ m ++ r /\ length (bytes l) = fst ij /\ length (bytes (l ++ m)) = snd ij.
