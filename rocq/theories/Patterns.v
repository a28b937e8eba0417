(** * Model of [matches_fully] (src/prs.rs) for patterns with alternatives, and of the
    unchecked access in [ParseAlternatives]. *)
From Verif Require Import Base Prs Regex.

(** A pattern: its alternatives, separated by "|" at top level.  The regex crate prefers
    earlier alternatives; "|" binds weaker than concatenation. *)
Definition pattern := list re.
(** All ways to match, in order of preference *)
Definition pattern_ways (l : pattern) (start : bool) (s : text) : list way := flat_map (fun r => ways r start s) l.
(** [Regex::captures] as in Regex.v *)
Fixpoint pattern_search (l : pattern) (start : bool) (s : text) : option way :=
  match pattern_ways l start s with
  | w :: _ => Some w
  | [] => match s with [] => None | _ :: s => pattern_search l false s end
  end.
(** src/prs.rs:9: [format!("^{}$", regex)] puts the anchors around the text of the
    pattern, so "^" goes to the first alternative and "$" to the last. *)
Definition close (l : pattern) : pattern :=
  match rev l with [] => [] | r :: front => rev front ++ [Seq r Eos] end.
Definition anchored (l : pattern) : pattern := match close l with [] => [] | r :: l => Seq Bos r :: l end.
(** [matches.len()]: the whole match and all groups of the pattern, whether they took part or not *)
Definition captures_len (l : pattern) : nat := S (list_sum (map groups l)).
(** src/prs.rs:8-21 *)
Definition matches_fully_any (s : text) (l : pattern) : option text :=
  match pattern_search (anchored l) true s with
  | Some w => if (captures_len l =? 1)%nat then Some (wy_taken w) else None
  | None => None
  end.

(** ** The unchecked access *)
(** How a function ends: normally, by a failed assertion, by a panic of the parser it
    calls, or by executing code without defined behaviour. *)
Inductive conduct (A : Type) := Done (x : A) | Assertion | Aborted_inside | Undefined.
Arguments Done {A}. Arguments Assertion {A}. Arguments Aborted_inside {A}. Arguments Undefined {A}.
Section Alternatives.
  Context {S T : Type}.
  Local Notation alternatives := (@alternatives T).
  (** src/prs.rs:202-206 *)
  Definition into_success (self : alternatives) (x : T) : conduct alternatives :=
    match al_res self with
    | inl _ => Assertion
    | inr _ => Done (mkAlt (al_input self) (inl x))
    end.
  (** [Result::unwrap_err_unchecked]: undefined on [Ok] *)
  Definition unwrap_err_unchecked {E} (r : T + E) : conduct E := match r with inr e => Done e | inl _ => Undefined end.
  (** src/prs.rs:208-220 *)
  Definition stack_error (self : alternatives) (name : text) (e : parse_error) : conduct alternatives :=
    match al_res self with
    | inl _ => Assertion
    | inr _ => match unwrap_err_unchecked (al_res self) with
               | Done v => Done (mkAlt (al_input self) (inr (v ++ [(name, e)])))
               | Assertion => Assertion | Aborted_inside => Aborted_inside | Undefined => Undefined
               end
    end.
  (** src/prs.rs:190-200 *)
  Definition then_try_checked (self : alternatives) (name : text) (f : @parser S T) (s : S) : conduct alternatives * S :=
    match al_res self with
    | inl _ => (Done self, s)
    | inr _ => match f (al_input self) s with
               | (POk x, s) => (into_success self x, s)
               | (PErr e, s) => (stack_error self name e, s)
               | (PPanic, s) => (Aborted_inside, s)
               end
    end.
End Alternatives.
