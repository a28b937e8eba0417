(** * Properties C46-C48 (src/prs.rs). *)
From Coq Require Import String.
From Verif Require Import Base Prs PrsSpec PrsTop PrsWideSpec PrsWide PrsDeepSpec PrsDeep.
Close Scope string_scope.
Open Scope list_scope.

(** C46 *)
Theorem C46_calls : forall p s, ascii s -> nesting_below 65536 s ->
  (forall name args, fun_call p s = Ok (name, args) <-> is_call s name args) /\ fun_call p s <> Panic.
Proof. exact PrsProofs.fun_call_spec. Qed.
Print Assumptions C46_calls.
(** The pieces of a call are determined by the text. *)
Theorem C46_unique : forall s n1 a1 n2 a2, ascii s -> nesting_below 65536 s -> is_call s n1 a1 -> is_call s n2 a2 -> n1 = n2 /\ a1 = a2.
Proof. exact PrsProofs.is_call_unique. Qed.
Print Assumptions C46_unique.
(** The bound on the nesting is needed: [a] followed by 65536 opening parentheses. *)
Theorem C46_deep_refuted : exists s, ascii s /\ (forall name args, ~ is_call s name args)
  /\ fun_call Release s = Ok ([97%N], []) /\ fun_call Debug s = Panic.
Proof. exact deep_refuted. Qed.
Print Assumptions C46_deep_refuted.
(** Without the bound *)
Theorem C46_all : forall p s, ascii s -> forall n a, fun_call p s = Ok (n, a) <->
  (is_call s n a /\ nesting_below 65536 s) \/ (p = Release /\ exists tail, too_deep s n a tail /\ plain tail).
Proof. exact ascii_all. Qed.
Print Assumptions C46_all.
Example C46_case : ascii nested_call /\ nesting_below 65536 nested_call /\ is_call nested_call (txt "a") [txt "b"; txt "c(d,e)"].
Proof. exact nested_call_ok. Qed.
Example C46_rejected : forall p, Forall (fun s => fun_call p s = Err)
  [txt ""; txt "a"; txt "(b)"; txt "a(b,,c)"; txt "a(b,)"; txt "a(,b)"; txt "a(b)c"; txt "a(b"; txt "a(b))"; txt "a,b"; txt "a()(b)"].
Proof. exact not_calls. Qed.

(** C47 *)
Theorem C47_never_accepted : forall p s, ~ ascii s -> nesting_below 65536 s \/ p = Debug -> forall r, fun_call p s <> Ok r.
Proof. exact wide_rejected. Qed.
Print Assumptions C47_never_accepted.
Theorem C47_aborts_refuted : forall p, exists s name args, is_call s name args /\ fun_call p s = Panic.
Proof. exact wide_panics. Qed.
Print Assumptions C47_aborts_refuted.
Theorem C47_rejects_refuted : forall p, exists s name args, is_call s name args /\ fun_call p s = Err.
Proof. exact wide_errs. Qed.
Print Assumptions C47_rejects_refuted.
Example C47_case : forall p, fun_call p (E_ACUTE :: txt "(b)") = Panic /\ is_call (E_ACUTE :: txt "(b)") [E_ACUTE] [txt "b"]
  /\ fun_call p (txt "a(" ++ E_ACUTE :: txt ")") = Err /\ is_call (txt "a(" ++ E_ACUTE :: txt ")") (txt "a") [[E_ACUTE]].
Proof. exact wide_cases. Qed.

(** Exactly which texts are accepted, abort the parser, or are rejected *)
Theorem C47_outcomes : forall p s, nesting_below 65536 s ->
  (forall name args, fun_call p s = Ok (name, args) <-> ascii s /\ is_call s name args)
  /\ (fun_call p s = Panic <-> miscut s)
  /\ (fun_call p s = Err <-> ~ miscut s /\ forall name args, ~ (ascii s /\ is_call s name args)).
Proof. exact outcomes. Qed.
Print Assumptions C47_outcomes.
(** The same for all texts, however deep *)
Theorem C47_debug : forall s,
  (forall n a, fun_call Debug s = Ok (n, a) <-> ascii s /\ is_call s n a /\ nesting_below 65536 s)
  /\ (fun_call Debug s = Panic <-> miscut_first s \/ exists name args tail, too_deep s name args tail).
Proof. exact all_debug. Qed.
Print Assumptions C47_debug.
Theorem C47_release : forall s,
  (forall n a, fun_call Release s = Ok (n, a) <->
    (ascii s /\ is_call s n a /\ nesting_below 65536 s)
    \/ (exists name args tail, too_deep s name args tail /\ plain tail /\ Forall2 (bytes_of s) (spans name args) (n :: a)))
  /\ (fun_call Release s = Panic <-> miscut_first s).
Proof. exact all_release. Qed.
Print Assumptions C47_release.
Example C47_deep : ~ ascii deep_wide /\ too_deep deep_wide ([E_ACUTE; E_ACUTE] ++ txt "xx") [txt "b"] []
  /\ fun_call Release deep_wide = Ok ([E_ACUTE; E_ACUTE], [txt "x"]) /\ fun_call Debug deep_wide = Panic
  /\ fun_call Release (deep_wide ++ [RPAREN]) = Err.
Proof. exact deep_wide_case. Qed.
(** Cutting text at byte positions: the bytes are those of UTF-8, *)
Theorem C47_slices : forall s i j m, slice s (N.of_nat i) (N.of_nat j) = Ok m <->
  exists l r, s = l ++ m ++ r /\ length (bytes l) = i /\ length (bytes (l ++ m)) = j.
Proof. exact slice_spec. Qed.
Print Assumptions C47_slices.
(** and a position is allowed unless a continuation byte follows. *)
Theorem C47_boundaries : forall s k, Forall scalar s ->
  (boundary s k <-> k = length (bytes s) \/ exists b, nth_error (bytes s) k = Some b /\ ~ continuation b).
Proof. exact boundary_byte. Qed.
Print Assumptions C47_boundaries.
Example C47_cuts : forall p, nesting_below 65536 two_acute /\ miscut two_acute /\ boundary two_acute 2 /\ ~ boundary two_acute 3 /\ fun_call p two_acute = Panic
  /\ fun_call p (E_ACUTE :: E_ACUTE :: txt "(b)") = Err /\ ~ miscut (E_ACUTE :: E_ACUTE :: txt "(b)").
Proof. exact two_acute_case. Qed.

(** C48: the state of type [S] records what the parsers did. *)
Theorem C48_first_success : forall S T (l : list (text * (text -> S -> parsed T * S))) input s x s', try_all l input s = (POk x, s') <->
  exists pre name f post es s1, l = pre ++ (name, f) :: post /\ all_fail input pre s es s1 /\ f input s1 = (POk x, s').
Proof. exact @try_all_ok. Qed.
Print Assumptions C48_first_success.
Theorem C48_all_failed : forall S T (l : list (text * (text -> S -> parsed T * S))) input s e s', try_all l input s = (PErr e, s') <->
  exists es, all_fail input l s es s' /\ e = AllFailed es.
Proof. exact @try_all_err. Qed.
Print Assumptions C48_all_failed.
Theorem C48_aborts : forall S T (l : list (text * (text -> S -> parsed T * S))) input s s', try_all l input s = (PPanic, s') <->
  exists pre name f post es s1, l = pre ++ (name, f) :: post /\ all_fail input pre s es s1 /\ f input s1 = (PPanic, s').
Proof. exact @try_all_panic. Qed.
Print Assumptions C48_aborts.
Example C48_case :
  try_all [(txt "one", counting (PErr Other)); (txt "two", counting (POk 2%N)); (txt "three", counting (POk 3%N))] (txt "x") 0%nat = (POk 2%N, 2%nat)
  /\ try_all [(txt "one", counting (PErr Other)); (txt "two", counting (PErr (WrongName (txt "x"))))] (txt "x") 0%nat
     = (PErr (AllFailed [(txt "one", Other); (txt "two", WrongName (txt "x"))]), 2%nat)
  /\ try_all [(txt "one", counting (PErr Other)); (txt "two", counting PPanic); (txt "three", counting (POk 3%N))] (txt "x") 0%nat = (PPanic, 2%nat).
Proof. exact try_case. Qed.
