(** * Computations that print

    Used for the [print!]s of the codecs; [M] is what can be printed.  Not modelled: a
    standard output or error that cannot be written to. *)
From Verif Require Import Base.

(** A computation over a state ([rd] or [io]) that prints *)
Definition says (M S A : Type) := S -> list M * (res A * S).
Definition hush {M S A} (m : S -> res A * S) : says M S A := fun s => ([], m s).
Definition utter {M S} (m : M) : says M S unit := fun s => ([m], (Ok tt, s)).
Definition says_bind {M S A B} (m : says M S A) (f : A -> says M S B) : says M S B := fun s =>
  match m s with
  | (o, (Ok a, s')) => let '(o', r) := f a s' in (o ++ o', r)
  | (o, (Err, s')) => (o, (Err, s'))
  | (o, (Panic, s')) => (o, (Panic, s'))
  end.
(** [for x in xs { f(x)?; }] *)
Fixpoint says_iter {M S A} (f : A -> says M S unit) (xs : list A) : says M S unit :=
  match xs with
  | [] => hush (fun s => (Ok tt, s))
  | x :: xs => says_bind (f x) (fun _ => says_iter f xs)
  end.
(** What has been printed when a writer is handed on *)
Definition after {M S A} (o : list M) (m : says M S A) : says M S A := fun s => let '(o', r) := m s in (o ++ o', r).

