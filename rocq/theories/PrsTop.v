(** * Non-ASCII calls, the nesting counter, and alternatives (C46-C48). *)
From Coq Require Import String.
From Verif Require Import Base Prs PrsSpec PrsProofs.
Close Scope string_scope.
Open Scope list_scope.


(** ** Text that is not ASCII is never accepted *)
Section Wide.
  Variables (p : profile) (input : text).
  Hypothesis Hwide : ~ ascii input.
  Hypothesis Hnest : nesting_below 65536 input \/ p = Debug.

  Definition winv (before : text) (st : call_state) : Prop :=
    (st = call_start /\ plain before) \/ ((1 <= paren_stack st)%N /\ depth_at before (paren_stack st)).
  Lemma plain_depth before : plain before -> depth_at before 0.
  Proof. intros H. unfold depth_at. rewrite (count_plain LPAREN before H special_open), (count_plain RPAREN before H special_close). reflexivity. Qed.
  Lemma wide_step before c rest st st' : input = before ++ c :: rest -> winv before st ->
    on_char p input st (N.of_nat (length before)) c = Ok st' -> winv (before ++ [c]) st'.
  Proof.
    intros E Hi. unfold on_char. destruct (N.eqb_spec c LPAREN) as [->|N1]; [|destruct (N.eqb_spec c RPAREN) as [->|N2]; [|destruct (N.eqb_spec c COMMA) as [->|N3]]].
    - unfold on_open. destruct (N.eqb_spec (paren_stack st) 0) as [Z|Z].
      + destruct Hi as [[-> Hb]|[H1 _]]; [|lia]. cbn [paren_stack fun_name last_pos params call_start]. cbn [is_some orb negb N.eqb length].
        change (assert_ (0 =? 0)%nat) with (Ok tt). cbn [res_bind]. destruct (_ =? 0)%N; [discriminate|].
        destruct (slice _ _ _); cbn [res_bind]; try discriminate. intros H. injection H as <-. right. cbn [paren_stack]. split; [lia|].
        apply (depth_open before 0). now apply plain_depth.
      + destruct Hi as [[-> Hb]|[H1 H2]]; [cbn in Z; congruence|]. unfold ufit. destruct (N.ltb_spec (paren_stack st + 1) (2 ^ 16)) as [L|L]; cbn [res_bind].
        * intros H. injection H as <-. right. cbn [paren_stack]. split; [lia|now apply depth_open].
        * destruct Hnest as [Hn| ->]; [|discriminate]. exfalso. change (2 ^ 16)%N with 65536%N in L.
          pose proof (Hn (before ++ [LPAREN]) rest) as HN. rewrite <- app_assoc in HN. specialize (HN E). apply depth_open in H2. unfold depth_at in H2. lia.
    - unfold on_close. destruct (N.eqb_spec (paren_stack st) 0) as [Z|Z]; [discriminate|]. destruct Hi as [[-> Hb]|[H1 H2]]; [cbn in Z; congruence|].
      destruct (N.eqb_spec (paren_stack st) 1) as [O|O].
      + pose proof (str_len_wide input Hwide) as SW. rewrite usub_ok by lia. cbn [res_bind].
        destruct (N.eqb_spec (N.of_nat (length before)) (str_len input - 1)) as [Q|Q]; [|discriminate].
        exfalso. assert (length before < length input)%nat by (rewrite E, app_length; cbn [length]; lia). lia.
      + cbn [res_bind]. rewrite usub_ok by lia. cbn [res_bind]. intros H. injection H as <-. right. cbn [paren_stack]. split; [lia|].
        apply depth_close. now replace (paren_stack st - 1 + 1)%N with (paren_stack st) by lia.
    - unfold on_comma. destruct (N.eqb_spec (paren_stack st) 0) as [Z|Z]; [discriminate|]. destruct Hi as [[-> Hb]|[H1 H2]]; [cbn in Z; congruence|].
      assert (D : depth_at (before ++ [COMMA]) (paren_stack st)) by (apply depth_char; auto; discriminate).
      destruct (N.eqb_spec (paren_stack st) 1) as [O|O].
      + destruct (assert_ _); cbn [res_bind]; try discriminate. destruct (_ =? _)%N; [discriminate|]. destruct (slice _ _ _); cbn [res_bind]; try discriminate.
        intros H. injection H as <-. right. now split.
      + intros H. injection H as <-. right. now split.
    - intros H. injection H as <-. destruct Hi as [[-> Hb]|[H1 H2]].
      + left. split; [reflexivity|]. apply Forall_app. split; [exact Hb|]. repeat constructor. unfold special. intuition.
      + right. split; [exact H1|now apply depth_char].
  Qed.
  Lemma wide_loop rest : forall before st st', input = before ++ rest -> winv before st ->
    call_loop p input rest (N.of_nat (length before)) st = Ok st' -> winv input st'.
  Proof.
    induction rest as [|c rest IH]; intros before st st' E Hi; cbn [call_loop].
    - intros H. injection H as <-. rewrite app_nil_r in E. now rewrite E.
    - destruct (on_char _ _ _ _ _) as [st1| |] eqn:O; cbn [res_bind]; try discriminate. rewrite (snoc_pos before c). apply IH.
      + now rewrite <- app_assoc.
      + eapply wide_step; eassumption.
  Qed.
  Lemma wide_rejected r : fun_call p input <> Ok r.
  Proof.
    unfold fun_call. destruct (call_loop _ _ _ _ _) as [st| |] eqn:L; cbn [res_bind]; try discriminate.
    apply (wide_loop input [] call_start st eq_refl) in L; [|now left; split; [|constructor]]. destruct L as [[-> _]|[H _]]; [discriminate|].
    destruct (N.eqb_spec (paren_stack st) 0); [lia|discriminate].
  Qed.
End Wide.

(** Non-ASCII text: a name that makes the byte slice fall inside a character, and a proper call that is rejected *)
Definition E_ACUTE : N := 233.
Lemma wide_cases p : fun_call p (E_ACUTE :: txt "(b)") = Panic /\ is_call (E_ACUTE :: txt "(b)") [E_ACUTE] [txt "b"]
  /\ fun_call p (txt "a(" ++ E_ACUTE :: txt ")") = Err /\ is_call (txt "a(" ++ E_ACUTE :: txt ")") (txt "a") [[E_ACUTE]].
Proof.
  assert (S : forall c, (c =? LPAREN)%N = false -> (c =? RPAREN)%N = false -> (c =? COMMA)%N = false -> ~ special c).
  { intros c H1 H2 H3 [->|[->| ->]]; discriminate. }
  splits.
  - destruct p; reflexivity.
  - unfold is_call. splits; [discriminate|repeat constructor; now apply S| |reflexivity].
    repeat constructor; [discriminate|now apply S].
  - destruct p; reflexivity.
  - unfold is_call. splits; [discriminate|repeat constructor; now apply S| |reflexivity].
    repeat constructor; [discriminate|now apply S].
Qed.

(** ** The 16-bit nesting counter *)
Definition many_opens : text := 97%N :: repeat LPAREN (N.to_nat 65536).
Definition accepts (r : res (text * list text)) : bool := match r with Ok (n, []) => text_eqb n [97%N] | _ => false end.
Definition panics {A} (r : res A) : bool := match r with Panic => true | _ => false end.
Lemma text_eqb_eq a b : text_eqb a b = true <-> a = b.
Proof.
  unfold text_eqb. split.
  - revert b. induction a as [|x a IH]; intros [|y b]; cbn; try discriminate; [reflexivity|]. intros H. apply andb_prop in H as [H1 H2].
    apply N.eqb_eq in H1 as ->. now rewrite (IH b H2).
  - intros ->. induction b as [|y b IH]; cbn; [reflexivity|]. now rewrite N.eqb_refl, IH.
Qed.
Lemma many_opens_release : fun_call Release many_opens = Ok ([97%N], []).
Proof.
  assert (H : accepts (fun_call Release many_opens) = true) by (vm_compute; reflexivity).
  destruct (fun_call Release many_opens) as [[n [|a l]]| |]; try discriminate. cbn in H. apply text_eqb_eq in H. now subst n.
Qed.
Lemma many_opens_debug : fun_call Debug many_opens = Panic.
Proof.
  assert (H : panics (fun_call Debug many_opens) = true) by (vm_compute; reflexivity).
  destruct (fun_call Debug many_opens); try discriminate. reflexivity.
Qed.
Lemma many_opens_no_call name args : ~ is_call many_opens name args.
Proof.
  intros (_ & _ & _ & E). apply (f_equal (fun s => last s 0%N)) in E.
  assert (R : last (name ++ LPAREN :: commas args ++ [RPAREN]) 0%N = RPAREN).
  { replace (name ++ LPAREN :: commas args ++ [RPAREN]) with ((name ++ LPAREN :: commas args) ++ [RPAREN]) by (rewrite <- app_assoc; reflexivity). apply last_last. }
  rewrite R in E. clear R. assert (B : (last many_opens 0%N =? LPAREN)%N = true) by (vm_compute; reflexivity). apply N.eqb_eq in B. rewrite B in E. discriminate E.
Qed.

(** ** Alternatives *)
Section Alternatives.
  Context {S T : Type}.
  Implicit Types (l : list (text * @parser S T)) (s : S) (v : list (text * parse_error)).
  Lemma chain_done l x input s : try_chain (mkAlt input (inl x)) l s = (POk x, s).
  Proof. induction l as [|[name f] l IH]; [reflexivity|]. cbn [try_chain then_try al_res]. exact IH. Qed.
  Lemma chain_ok l : forall input v s x s', try_chain (mkAlt input (inr v)) l s = (POk x, s') <->
    exists pre name f post es s1, l = pre ++ (name, f) :: post /\ all_fail input pre s es s1 /\ f input s1 = (POk x, s').
  Proof.
    induction l as [|[name f] l IH]; intros input v s x s'; cbn [try_chain].
    - split; [cbn; discriminate|]. intros (pre & nm & g & post & es & s1 & E & _). destruct pre; discriminate.
    - cbn [then_try al_res al_input]. destruct (f input s) as [[y|e|] s1] eqn:F.
      + rewrite chain_done. split.
        * intros H. injection H as <- <-. exists [], name, f, l, [], s. splits; auto. constructor.
        * intros (pre & nm & g & post & es & s2 & E & A & G). destruct pre as [|[nm' g'] pre]; cbn [app] in E; injection E as <- <- ->.
          -- inversion A; subst. congruence.
          -- inversion A; subst. congruence.
      + rewrite IH. split.
        * intros (pre & nm & g & post & es & s2 & -> & A & G). exists ((name, f) :: pre), nm, g, post, ((name, e) :: es), s2. splits; auto. econstructor; eassumption.
        * intros (pre & nm & g & post & es & s2 & E & A & G). destruct pre as [|[nm' g'] pre]; cbn [app] in E; injection E as <- <- ->.
          -- inversion A; subst. congruence.
          -- inversion A as [|? ? ? ? e' s1' es' s2' F' A']; subst. rewrite F in F'. injection F' as <- <-. exists pre, nm, g, post, es', s2. auto.
      + split; [discriminate|]. intros (pre & nm & g & post & es & s2 & E & A & G). destruct pre as [|[nm' g'] pre]; cbn [app] in E; injection E as <- <- ->.
        * inversion A; subst. congruence.
        * inversion A; subst. congruence.
  Qed.
  Lemma chain_err l : forall input v s e s', try_chain (mkAlt input (inr v)) l s = (PErr e, s') <->
    exists es, all_fail input l s es s' /\ e = AllFailed (v ++ es).
  Proof.
    induction l as [|[name f] l IH]; intros input v s x s'; cbn [try_chain].
    - cbn. split.
      + intros H. injection H as <- <-. exists []. rewrite app_nil_r. split; [constructor|reflexivity].
      + intros (es & A & ->). inversion A; subst. now rewrite app_nil_r.
    - cbn [then_try al_res al_input]. destruct (f input s) as [[y|e|] s1] eqn:F.
      + rewrite chain_done. split; [discriminate|]. intros (es & A & _). inversion A; subst. congruence.
      + rewrite IH. split.
        * intros (es & A & ->). exists ((name, e) :: es). rewrite <- app_assoc. split; [|reflexivity]. econstructor; eassumption.
        * intros (es & A & ->). inversion A as [|? ? ? ? e' s1' es' s2' F' A']; subst. rewrite F in F'. injection F' as <- <-. exists es'. split; [exact A'|]. now rewrite <- app_assoc.
      + split; [discriminate|]. intros (es & A & _). inversion A; subst. congruence.
  Qed.
  Lemma chain_panic l : forall input v s s', try_chain (mkAlt input (inr v)) l s = (PPanic, s') <->
    exists pre name f post es s1, l = pre ++ (name, f) :: post /\ all_fail input pre s es s1 /\ f input s1 = (PPanic, s').
  Proof.
    induction l as [|[name f] l IH]; intros input v s s'; cbn [try_chain].
    - split; [cbn; discriminate|]. intros (pre & nm & g & post & es & s1 & E & _). destruct pre; discriminate.
    - cbn [then_try al_res al_input]. destruct (f input s) as [[y|e|] s1] eqn:F.
      + rewrite chain_done. split; [discriminate|]. intros (pre & nm & g & post & es & s2 & E & A & G). destruct pre as [|[nm' g'] pre]; cbn [app] in E; injection E as <- <- ->.
        * inversion A; subst. congruence.
        * inversion A; subst. congruence.
      + rewrite IH. split.
        * intros (pre & nm & g & post & es & s2 & -> & A & G). exists ((name, f) :: pre), nm, g, post, ((name, e) :: es), s2. splits; auto. econstructor; eassumption.
        * intros (pre & nm & g & post & es & s2 & E & A & G). destruct pre as [|[nm' g'] pre]; cbn [app] in E; injection E as <- <- ->.
          -- inversion A; subst. congruence.
          -- inversion A as [|? ? ? ? e' s1' es' s2' F' A']; subst. rewrite F in F'. injection F' as <- <-. exists pre, nm, g, post, es', s2. auto.
      + split.
        * intros H. injection H as <-. exists [], name, f, l, [], s. splits; auto. constructor.
        * intros (pre & nm & g & post & es & s2 & E & A & G). destruct pre as [|[nm' g'] pre]; cbn [app] in E; injection E as <- <- ->.
          -- inversion A; subst. congruence.
          -- inversion A; subst. congruence.
  Qed.
  Lemma try_all_ok l input s x s' : try_all l input s = (POk x, s') <->
    exists pre name f post es s1, l = pre ++ (name, f) :: post /\ all_fail input pre s es s1 /\ f input s1 = (POk x, s').
  Proof. apply chain_ok. Qed.
  Lemma try_all_err l input s e s' : try_all l input s = (PErr e, s') <-> exists es, all_fail input l s es s' /\ e = AllFailed es.
  Proof. unfold try_all, alt_new. rewrite chain_err. cbn [app]. reflexivity. Qed.
  Lemma try_all_panic l input s s' : try_all l input s = (PPanic, s') <->
    exists pre name f post es s1, l = pre ++ (name, f) :: post /\ all_fail input pre s es s1 /\ f input s1 = (PPanic, s').
  Proof. apply chain_panic. Qed.
End Alternatives.

(** Short text cannot nest deeply *)
Lemma count_le c s : (count c s <= length s)%nat.
Proof. unfold count. induction s as [|x s IH]; cbn; [lia|]. destruct (x =? c)%N; cbn [length]; lia. Qed.
Lemma nesting_short n s : (N.of_nat (length s) < n)%N -> nesting_below n s.
Proof. intros H p q ->. rewrite app_length in H. pose proof (count_le LPAREN p). lia. Qed.
Lemma ascii_txt_check s : forallb (fun c => (c <? 128)%N) s = true -> ascii s.
Proof. intros H. apply Forall_forall. intros c Hc. rewrite forallb_forall in H. apply N.ltb_lt. now apply H. Qed.

(** [a(b,c(d,e))] is a call with two arguments *)
Definition nested_call : text := txt "a(b,c(d,e))".
Lemma nested_call_ok : ascii nested_call /\ nesting_below 65536 nested_call /\ is_call nested_call (txt "a") [txt "b"; txt "c(d,e)"].
Proof.
  assert (S : forall c, (c =? LPAREN)%N = false -> (c =? RPAREN)%N = false -> (c =? COMMA)%N = false -> ~ special c).
  { intros c H1 H2 H3 [->|[->| ->]]; discriminate. }
  splits; [now apply ascii_txt_check|now apply nesting_short|]. unfold is_call. splits; [discriminate|repeat constructor; now apply S| |reflexivity].
  constructor; [split; [discriminate|repeat constructor; now apply S]|]. constructor; [|constructor]. split; [discriminate|].
  apply arg_char; [now apply S|]. apply (arg_group (txt "d,e") []); [|constructor]. repeat (apply bal_char; [discriminate|discriminate|]). constructor.
Qed.
Lemma not_calls p : Forall (fun s => fun_call p s = Err)
  [txt ""; txt "a"; txt "(b)"; txt "a(b,,c)"; txt "a(b,)"; txt "a(,b)"; txt "a(b)c"; txt "a(b"; txt "a(b))"; txt "a,b"; txt "a()(b)"].
Proof. destruct p; repeat constructor. Qed.

(** Three parsers over a counter of calls: only the first two are run *)
Definition counting (r : parsed N) : text -> nat -> parsed N * nat := fun _ n => (r, Datatypes.S n).
Lemma try_case : try_all [(txt "one", counting (PErr Other)); (txt "two", counting (POk 2%N)); (txt "three", counting (POk 3%N))] (txt "x") 0%nat = (POk 2%N, 2%nat)
  /\ try_all [(txt "one", counting (PErr Other)); (txt "two", counting (PErr (WrongName (txt "x"))))] (txt "x") 0%nat
     = (PErr (AllFailed [(txt "one", Other); (txt "two", WrongName (txt "x"))]), 2%nat)
  /\ try_all [(txt "one", counting (PErr Other)); (txt "two", counting PPanic); (txt "three", counting (POk 3%N))] (txt "x") 0%nat = (PPanic, 2%nat).
Proof. repeat split. Qed.
Lemma deep_refuted : exists s, ascii s /\ (forall name args, ~ is_call s name args)
  /\ fun_call Release s = Ok ([97%N], []) /\ fun_call Debug s = Panic.
Proof.
  exists many_opens. splits; [|exact many_opens_no_call|exact many_opens_release|exact many_opens_debug].
  apply ascii_txt_check. vm_compute. reflexivity.
Qed.
Lemma wide_panics p : exists s name args, is_call s name args /\ fun_call p s = Panic.
Proof. destruct (wide_cases p) as (A & B & _). eauto. Qed.
Lemma wide_errs p : exists s name args, is_call s name args /\ fun_call p s = Err.
Proof. destruct (wide_cases p) as (_ & _ & A & B). eauto. Qed.
