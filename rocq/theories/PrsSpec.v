(** * Specification vocabulary for argument parsing (C46-C48). *)
From Verif Require Import Base Prs.

Definition special (c : N) : Prop := c = LPAREN \/ c = RPAREN \/ c = COMMA.
Definition plain (s : text) : Prop := Forall (fun c => ~ special c) s.
Definition ascii (s : text) : Prop := Forall (fun c => (c < 128)%N) s.
(** Text with matching parentheses *)
Inductive balanced : text -> Prop :=
| bal_nil : balanced []
| bal_char c s : c <> LPAREN -> c <> RPAREN -> balanced s -> balanced (c :: s)
| bal_group s t : balanced s -> balanced t -> balanced (LPAREN :: s ++ RPAREN :: t).
(** The same, with commas only inside parentheses *)
Inductive argument : text -> Prop :=
| arg_nil : argument []
| arg_char c s : ~ special c -> argument s -> argument (c :: s)
| arg_group s t : balanced s -> argument t -> argument (LPAREN :: s ++ RPAREN :: t).
Fixpoint commas (args : list text) : text :=
  match args with
  | [] => []
  | [a] => a
  | a :: args => a ++ COMMA :: commas args
  end.
(** [name(arg,..,arg)] *)
Definition is_call (s name : text) (args : list text) : Prop :=
  name <> [] /\ plain name /\ Forall (fun a => a <> [] /\ argument a) args
  /\ s = name ++ LPAREN :: commas args ++ [RPAREN].
(** Fewer than [n] parentheses are open at any point. *)
Definition count (c : N) (s : text) : nat := length (filter (fun x => (x =? c)%N) s).
Definition nesting_below (n : N) (s : text) : Prop :=
  forall p q, s = p ++ q -> (N.of_nat (count LPAREN p) < n + N.of_nat (count RPAREN p))%N.
(** Running parsers one after the other, all of them failing *)
Inductive all_fail {S T : Type} (input : text) : list (text * (text -> S -> parsed T * S)) -> S -> list (text * parse_error) -> S -> Prop :=
| af_nil s : all_fail input [] s [] s
| af_cons name f l s e s1 es s2 : f input s = (PErr e, s1) -> all_fail input l s1 es s2 -> all_fail input ((name, f) :: l) s ((name, e) :: es) s2.
