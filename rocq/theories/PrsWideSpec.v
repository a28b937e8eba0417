(** * Text as bytes, and the places where the argument parser cuts it (C47). *)
From Verif Require Import Base Prs PrsSpec.

(** The UTF-8 form of a character (RFC 3629) *)
Definition utf8 (c : N) : list N :=
  (if c <? 128 then [c]
   else if c <? 2048 then [192 + c / 64; 128 + c mod 64]
   else if c <? 65536 then [224 + c / 4096; 128 + (c / 64) mod 64; 128 + c mod 64]
   else [240 + c / 262144; 128 + (c / 4096) mod 64; 128 + (c / 64) mod 64; 128 + c mod 64])%N.
Definition bytes (s : text) : list N := flat_map utf8 s.
(** Byte [k] is the first one of a character, or [k] is the end of the text. *)
Definition boundary (s : text) (k : nat) : Prop := exists a b, s = a ++ b /\ length (bytes a) = k.
(** Not above U+10FFFF; surrogates are not excluded *)
Definition scalar (c : N) : Prop := (c < 1114112)%N.
(** A byte that continues a character *)
Definition continuation (b : N) : Prop := (128 <= b < 192)%N.

(** In [name(arg,..,arg,] the positions, counted in characters, around the name and the arguments *)
Fixpoint arg_cuts (pos : nat) (args : list text) : list nat :=
  match args with
  | [] => []
  | a :: args => pos :: (pos + length a)%nat :: arg_cuts (pos + length a + 1) args
  end.
Definition cuts (name : text) (args : list text) : list nat := length name :: arg_cuts (length name + 1) args.
(** The text begins like a call, and one of these positions, taken as a number of bytes, is inside a character. *)
Definition miscut (s : text) : Prop := exists name args rest,
  s = name ++ LPAREN :: concat (map (fun a => a ++ [COMMA]) args) ++ rest /\ name <> [] /\ plain name
  /\ Forall (fun a => a <> [] /\ argument a) args /\ exists k, In k (cuts name args) /\ ~ boundary s k.
