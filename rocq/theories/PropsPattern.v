(** * Property C72: full matches, and the unchecked access in [ParseAlternatives] (src/prs.rs). *)
From Coq Require Import String.
From Verif Require Import Base Prs Regex Patterns PatternSpec PatternProofs.
Close Scope string_scope.
Open Scope list_scope.

(** A pattern without top-level alternatives, anchors or groups matches exactly its own texts, and returns them. *)
Theorem C72_full_match : forall r s t, plain r = true -> groups r = 0%nat -> matches_fully_any s [r] = Some t <-> t = s /\ lang r s.
Proof. exact fully_one. Qed.
Print Assumptions C72_full_match.
(** A pattern with a group never matches. *)
Theorem C72_groups : forall l s, (0 < list_sum (map groups l))%nat -> matches_fully_any s l = None.
Proof. exact fully_groups. Qed.
Print Assumptions C72_groups.
(** With alternatives the match need not be full: "rle|zip" matches "rlex". *)
Theorem C72_alternatives_refuted : exists a b s t, plain a = true /\ plain b = true /\ groups a = 0%nat /\ groups b = 0%nat
  /\ ~ lang a s /\ ~ lang b s /\ t <> s /\ matches_fully_any s [a; b] = Some t.
Proof. exact fully_two_wrong. Qed.
Print Assumptions C72_alternatives_refuted.
(** What is true of two alternatives: *)
Theorem C72_two_alternatives : forall a b s, plain a = true -> plain b = true -> groups a = 0%nat -> groups b = 0%nat ->
  ((exists t, matches_fully_any s [a; b] = Some t) <-> (exists u v, s = u ++ v /\ lang a u) \/ (exists u v, s = u ++ v /\ lang b v)).
Proof. exact fully_two. Qed.
Print Assumptions C72_two_alternatives.
(** The unchecked access always finds an error list, and no assertion around it fails. *)
Theorem C72_unchecked : forall S T (self : @alternatives T) name (f : @parser S T) s,
  fst (then_try_checked self name f s) <> Undefined /\ fst (then_try_checked self name f s) <> Assertion
  /\ (fst (then_try_checked self name f s) = Aborted_inside <-> (exists v, al_res self = inr v) /\ fst (f (al_input self) s) = PPanic).
Proof. exact unchecked_safe. Qed.
Print Assumptions C72_unchecked.
(** On its own, too: called on a success it fails its assertion instead of reading the error list that is not there. *)
Theorem C72_guarded : forall T (self : @alternatives T) name e, stack_error self name e <> Undefined
  /\ (stack_error self name e = Assertion <-> exists x, al_res self = inl x)
  /\ (forall v, al_res self = inr v -> stack_error self name e = Done (mkAlt (al_input self) (inr (v ++ [(name, e)])))).
Proof. exact guarded. Qed.
Print Assumptions C72_guarded.

Definition hilbert_pattern : re := Seq (Cls (fun c => (c =? 72)%N || (c =? 104)%N)) (lit (txt "ilbert")).
Example C72_case : plain hilbert_pattern = true /\ groups hilbert_pattern = 0%nat
  /\ matches_fully_any (txt "Hilbert") [hilbert_pattern] = Some (txt "Hilbert") /\ matches_fully_any (txt "Hilberts") [hilbert_pattern] = None
  /\ matches_fully_any (txt "Hilbert") [Grp hilbert_pattern] = None
  /\ matches_fully_any (txt "unzip") [lit (txt "rle"); lit (txt "zip")] = Some (txt "zip")
  /\ fst (then_try_checked (S := unit) (alt_new (T := nat) (txt "x")) (txt "n") (fun _ s => (PErr Other, s)) tt) = Done (mkAlt (txt "x") (inr [(txt "n", Other)])).
Proof. repeat (split; [reflexivity|]). reflexivity. Qed.
