(** * Specification vocabulary for serialization (C01-C05).

    Independent of the model of src/ser.rs: says what the byte format is, what a
    value of a Rust type is, and what it means for an iterator to deliver bytes. *)
From Verif Require Import Base Ser.

(** The byte format of a value; [None] if it contains a character that has no
    single-byte (Latin-1) form. *)
Fixpoint concat_opt (l : list (option (list N))) : option (list N) :=
  match l with
  | [] => Some []
  | x :: l => match x, concat_opt l with
              | Some a, Some b => Some (a ++ b)
              | _, _ => None
              end
  end.

Definition app_opt (a b : option (list N)) : option (list N) := concat_opt [a; b].

(** little-endian digits, most significant byte last *)
Definition le16 (n : N) : list N := [n mod 256; n / 256]%N.
Definition le32 (n : N) : list N := [n mod 256; n / 256 mod 256; n / 65536 mod 256; n / 16777216]%N.
Definition le64 (n : N) : list N := le32 (n mod 4294967296)%N ++ le32 (n / 4294967296)%N.

Fixpoint format (t : ty) : val t -> option (list N) :=
  match t with
  | TU8 => fun n => Some [n]
  | TU16 => fun n => Some (le16 n)
  | TI16 => fun z => Some (le16 (Z.to_N (if (z <? 0)%Z then z + 65536 else z)%Z))
  | TU32 => fun n => Some (le32 n)
  | TU64 | TUsize => fun n => Some (le64 n)
  | TChar => fun c => if (c <? 256)%N then Some [c] else None
  | TPair a b => fun p => app_opt (format a (fst p)) (format b (snd p))
  | TVec a => fun l => app_opt (Some (le64 (N.of_nat (length l)))) (concat_opt (map (format a) l))
  | TArr _ a => fun l => concat_opt (map (format a) l)
  | TRgb a => fun c => let '(r, g, b) := c in
                       app_opt (Some (le64 3)) (concat_opt [format a r; format a g; format a b])
  end.

(** [x] is a value of the Rust type [t] *)
Fixpoint wf (t : ty) : val t -> Prop :=
  match t with
  | TU8 => u8_ok
  | TU16 => u16_ok
  | TI16 => i16_ok
  | TU32 => u32_ok
  | TU64 => u64_ok
  | TUsize => u64_ok
  | TChar => fun c => (c < 1114112)%N
  | TPair a b => fun p => wf a (fst p) /\ wf b (snd p)
  | TVec a => fun l => u64_ok (N.of_nat (length l)) /\ Forall (wf a) l
  | TArr n a => fun l => length l = n /\ Forall (wf a) l
  | TRgb a => fun c => let '(r, g, b) := c in wf a r /\ wf a g /\ wf a b
  end.

(** Pulling [l] from the iterator in state [s] leads to state [s']. *)
Inductive yields {S A : Type} (next : nextf S A) : S -> list A -> S -> Prop :=
| yields_nil s : yields next s [] s
| yields_cons s x s1 l s2 :
    next s = (Ok x, s1) -> yields next s1 l s2 -> yields next s (x :: l) s2.

(** The iterator delivers [l] and then reports its end. *)
Definition yields_all {S A} (next : nextf S A) (s : S) (l : list A) : Prop :=
  exists s' s'', yields next s l s' /\ next s' = (Err, s'').

(** From state [s] on, the iterator delivers bytes and never panics ([I] is an
    invariant of its state). *)
Definition byte_source {S} (next : nextf S N) (s : S) : Prop :=
  exists I : S -> Prop, I s /\
  forall s, I s -> match next s with
                   | (Ok b, s') => u8_ok b /\ I s'
                   | (Err, s') => I s'
                   | (Panic, _) => False
                   end.

Definition strict_prefix {A} (p l : list A) : Prop := exists x r, l = p ++ x :: r.
