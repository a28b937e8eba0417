(** * Where an LSB-first bit writer accepts whole bytes (C09). *)
From Verif Require Import Base Bit BitSpec.

(** The operation begins with a whole byte. *)
Definition whole (op : bit_op) : Prop :=
  match op with OpBit _ => False | OpByte _ => True | OpArr bits => (8 <= length bits)%nat end.
(** After [c] bits: every operation with a whole byte starts on a byte boundary. *)
Fixpoint fits (c : nat) (ops : list bit_op) : Prop :=
  match ops with
  | [] => True
  | op :: ops => (whole op -> (c mod 8 = 0)%nat) /\ fits (c + length (op_bits LsbFirst op)) ops
  end.
