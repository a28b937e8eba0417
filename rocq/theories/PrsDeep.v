(** * The argument parser on all texts, whatever their nesting (C47). *)
From Coq Require Import String.
From Verif Require Import Base Prs PrsSpec PrsProofs PrsTop PrsWideSpec PrsWide PrsDeepSpec.
Close Scope string_scope.
Open Scope list_scope.

Lemma nesting_prefix n a b : nesting_below n (a ++ b) -> nesting_below n a.
Proof. intros H p q ->. apply (H p (q ++ b)). now rewrite app_assoc. Qed.
Lemma unclosed_open k cur : unclosed k cur <-> open_arg k cur.
Proof.
  split.
  - induction 1 as [a Ha|k cur b H IH Hb]; [now apply open_arg_0|]. destruct IH as (a & bs & Ha & Hbs & Hl & ->). exists a, (b :: bs).
    splits; auto; [cbn; now rewrite Hl|]. now rewrite concat_rev_cons, <- app_assoc.
  - intros (a & bs & Ha & Hb & <- & ->). induction Hb as [|b bs H1 H2 IH]; [cbn; rewrite app_nil_r; now constructor|].
    rewrite concat_rev_cons, app_assoc. cbn [length]. now constructor.
Qed.
(** ** Either the nesting is bounded, or there is a first parenthesis too many *)
Definition depth_ok (b : text) : Prop := (N.of_nat (count LPAREN b) < 65536 + N.of_nat (count RPAREN b))%N.
Lemma nesting_snoc b c : nesting_below 65536 b -> depth_ok (b ++ [c]) -> nesting_below 65536 (b ++ [c]).
Proof.
  intros H1 H2 p q E. destruct q as [|x q] using rev_ind; [rewrite app_nil_r in E; subst p; exact H2|]. rewrite app_assoc in E.
  apply app_inj_tail in E as [-> _]. now apply (H1 p q).
Qed.
Lemma nesting_cases rest : forall b, nesting_below 65536 b ->
  nesting_below 65536 (b ++ rest) \/ exists b' tail, b ++ rest = b' ++ LPAREN :: tail /\ nesting_below 65536 b' /\ depth_at b' 65535.
Proof.
  induction rest as [|c rest IH]; intros b Hb; [left; now rewrite app_nil_r|].
  assert (Hd : depth_ok b) by (apply (Hb b []); now rewrite app_nil_r).
  destruct (N.lt_ge_cases (N.of_nat (count LPAREN (b ++ [c]))) (65536 + N.of_nat (count RPAREN (b ++ [c])))) as [L|L].
  - replace (b ++ c :: rest) with ((b ++ [c]) ++ rest) by (now rewrite <- app_assoc). apply IH. now apply nesting_snoc.
  - right. exists b, rest. unfold depth_ok in Hd. rewrite !count_app in L. unfold count at 2 4 in L. cbn [filter] in L.
    destruct (N.eqb_spec c LPAREN) as [->|N1].
    + change (LPAREN =? RPAREN)%N with false in L. cbn [length] in L. splits; auto. unfold depth_at. lia.
    + exfalso. destruct (c =? RPAREN)%N; cbn [length] in L; lia.
Qed.

Section Run.
  Variables (p : profile) (input : text).

  Lemma depth_below before d : nesting_below 65536 (before ++ [LPAREN]) -> depth_at before d -> (d + 1 < 65536)%N.
  Proof. intros H1 H2. apply depth_open in H2. pose proof (H1 (before ++ [LPAREN]) [] ltac:(now rewrite app_nil_r)). unfold depth_at in H2. lia. Qed.
  Lemma open_char (before : text) st d : paren_stack st = d -> (1 <= d)%N -> (d + 1 < 65536)%N ->
    on_char p input st (N.of_nat (length before)) LPAREN = Ok (mkCS (fun_name st) (params st) (d + 1) (last_pos st)).
  Proof.
    intros Hst Hd R. unfold on_char. rewrite N.eqb_refl. unfold on_open. rewrite Hst. destruct (N.eqb_spec d 0) as [Z|_]; [lia|].
    unfold ufit. destruct (N.ltb_spec (d + 1) (2 ^ 16)) as [_|F]; [|change (2 ^ 16)%N with 65536%N in F; lia]. reflexivity.
  Qed.
  Lemma close_char (before : text) st d : paren_stack st = (d + 1)%N -> (1 <= d)%N ->
    on_char p input st (N.of_nat (length before)) RPAREN = Ok (mkCS (fun_name st) (params st) d (last_pos st)).
  Proof.
    intros Hst Hd. unfold on_char. change (RPAREN =? LPAREN)%N with false. cbv iota. rewrite N.eqb_refl. unfold on_close. rewrite Hst.
    destruct (N.eqb_spec (d + 1) 0) as [Z|_]; [lia|]. destruct (N.eqb_spec (d + 1) 1) as [Z|_]; [lia|]. cbn [res_bind paren_stack fun_name params last_pos].
    rewrite Hst, usub_ok by lia. cbn [res_bind]. now replace (d + 1 - 1)%N with d by lia.
  Qed.
  (** Passing over a piece of text *)
  Definition passes (b : text) (lo : N) : Prop := forall (before after : text) st d, (lo <= d)%N -> input = before ++ b ++ after -> paren_stack st = d -> depth_at before d ->
    nesting_below 65536 (before ++ b) ->
    call_loop p input (b ++ after) (N.of_nat (length before)) st = call_loop p input after (N.of_nat (length (before ++ b))) st.
  Lemma pass_group s lo : (1 <= lo)%N -> balanced s -> passes s (lo + 1) -> passes (LPAREN :: s ++ [RPAREN]) lo.
  Proof.
    intros Hlo Hs IH before after st d Hd E Hst Hdep HN.
    assert (N1 : nesting_below 65536 (before ++ [LPAREN])).
    { apply (nesting_prefix _ _ (s ++ [RPAREN])). now rewrite <- app_assoc. }
    assert (R := depth_below before d N1 Hdep). cbn [app call_loop]. rewrite (open_char before st d Hst) by lia. cbn [res_bind].
    rewrite (snoc_pos before LPAREN), <- app_assoc. cbn [app].
    rewrite (IH (before ++ [LPAREN]) (RPAREN :: after) _ (d + 1)%N); [|lia| |reflexivity|now apply depth_open|].
    2: { rewrite E. cbn [app]. now rewrite <- !app_assoc. }
    2: { apply (nesting_prefix _ _ [RPAREN]). rewrite <- !app_assoc. exact HN. }
    cbn [call_loop]. erewrite (close_char _ _ d) by (try reflexivity; lia). cbn [res_bind fun_name params last_pos].
    rewrite snoc_pos with (c := RPAREN). replace (((before ++ [LPAREN]) ++ s) ++ [RPAREN]) with (before ++ LPAREN :: s ++ [RPAREN]) by (rewrite <- !app_assoc; reflexivity).
    rewrite <- Hst. now destruct st.
  Qed.
  Lemma pass_app a b lo : balanced a -> passes a lo -> passes b lo -> passes (a ++ b) lo.
  Proof.
    intros Ha H1 H2 before after st d Hd E Hst Hdep HN. rewrite <- app_assoc. rewrite (H1 before (b ++ after) st d); try assumption.
    - rewrite (H2 (before ++ a) after st d); try assumption; [now rewrite <- app_assoc|rewrite E, <- !app_assoc; reflexivity|now apply depth_bal|now rewrite <- app_assoc].
    - now rewrite E, <- app_assoc.
    - apply (nesting_prefix _ _ b). now rewrite <- app_assoc.
  Qed.
  Lemma pass_char c lo : c <> LPAREN -> c <> RPAREN -> (c = COMMA -> (2 <= lo)%N) -> passes [c] lo.
  Proof.
    intros H1 H2 H3 before after st d Hd E Hst Hdep HN. cbn [app call_loop].
    assert (Q : on_char p input st (N.of_nat (length before)) c = Ok st).
    { unfold on_char. destruct (N.eqb_spec c LPAREN); [congruence|]. destruct (N.eqb_spec c RPAREN); [congruence|].
      destruct (N.eqb_spec c COMMA) as [C|]; [|reflexivity]. specialize (H3 C). unfold on_comma. rewrite Hst.
      destruct (N.eqb_spec d 0); [lia|]. destruct (N.eqb_spec d 1); [lia|]. reflexivity. }
    rewrite Q. cbn [res_bind]. now rewrite (snoc_pos before c).
  Qed.
  Lemma pass_nil lo : passes [] lo.
  Proof. intros before after st d _ _ _ _ _. now rewrite app_nil_r. Qed.
  Lemma pass_balanced b : balanced b -> forall lo, (2 <= lo)%N -> passes b lo.
  Proof.
    induction 1 as [|c s H1 H2 H IH|s t H1 IH1 H2 IH2]; intros lo L; [apply pass_nil| |].
    - apply (pass_app [c] s); [now apply balanced_one| |now apply IH]. now apply pass_char.
    - replace (LPAREN :: s ++ RPAREN :: t) with ((LPAREN :: s ++ [RPAREN]) ++ t) by (cbn [app]; now rewrite <- app_assoc).
      apply pass_app; [now apply balanced_group| |now apply IH2]. apply pass_group; [lia|exact H1|]. apply IH1. lia.
  Qed.
  Lemma pass_argument b : argument b -> passes b 1.
  Proof.
    induction 1 as [|c s H1 H IH|s t H1 H2 IH2]; [apply pass_nil| |].
    - assert (c <> LPAREN /\ c <> RPAREN /\ c <> COMMA) as (C1 & C2 & C3) by (unfold special in H1; intuition).
      apply (pass_app [c] s); [now apply balanced_one| |exact IH]. apply pass_char; tauto.
    - replace (LPAREN :: s ++ RPAREN :: t) with ((LPAREN :: s ++ [RPAREN]) ++ t) by (cbn [app]; now rewrite <- app_assoc).
      apply pass_app; [now apply balanced_group| |exact IH2]. apply pass_group; [lia|exact H1|]. apply pass_balanced; [exact H1|lia].
  Qed.
  (** Text that leaves groups open *)
  Lemma pass_unclosed k cur : unclosed k cur -> forall before after nm ps lp, input = before ++ cur ++ after -> depth_at before 1 -> nesting_below 65536 (before ++ cur) ->
    call_loop p input (cur ++ after) (N.of_nat (length before)) (mkCS nm ps 1 lp)
    = call_loop p input after (N.of_nat (length (before ++ cur))) (mkCS nm ps (N.of_nat k + 1) lp) /\ depth_at (before ++ cur) (N.of_nat k + 1).
  Proof.
    induction 1 as [a Ha|k cur b H IH Hb]; intros before after nm ps lp E Hdep HN.
    - split; [|apply depth_bal; [exact Hdep|now apply argument_balanced]]. apply (pass_argument a Ha before after _ 1%N); auto. lia.
    - rewrite <- app_assoc in *. destruct (IH before ((LPAREN :: b) ++ after) nm ps lp) as [R D]; [exact E|exact Hdep| |].
      { apply (nesting_prefix _ _ (LPAREN :: b)). now rewrite <- app_assoc. }
      assert (N1 : nesting_below 65536 ((before ++ cur) ++ [LPAREN])).
      { apply (nesting_prefix _ _ b). now rewrite <- !app_assoc. }
      pose proof (depth_below _ _ N1 D) as L. rewrite R. cbn [app call_loop]. rewrite (open_char (before ++ cur) _ (N.of_nat k + 1)) by (try reflexivity; lia).
      cbn [res_bind fun_name params last_pos]. rewrite (snoc_pos (before ++ cur) LPAREN).
      rewrite (pass_balanced b Hb 2 ltac:(lia) ((before ++ cur) ++ [LPAREN]) after _ (N.of_nat k + 1 + 1)%N).
      + replace (((before ++ cur) ++ [LPAREN]) ++ b) with (before ++ cur ++ LPAREN :: b) by (rewrite <- !app_assoc; reflexivity).
        replace (N.of_nat (S k) + 1)%N with (N.of_nat k + 1 + 1)%N by lia. split; [reflexivity|].
        replace (before ++ cur ++ LPAREN :: b) with (((before ++ cur) ++ [LPAREN]) ++ b) by (rewrite <- !app_assoc; reflexivity).
        apply depth_bal; [now apply depth_open|exact Hb].
      + lia.
      + rewrite E, <- !app_assoc. reflexivity.
      + reflexivity.
      + now apply depth_open.
      + rewrite <- !app_assoc. exact HN.
  Qed.

  (** ** The name and the arguments *)
  Lemma comma_deep (before a : text) nm ps rest : a <> [] -> argument a -> depth_at before 1 -> input = before ++ a ++ COMMA :: rest -> nesting_below 65536 (before ++ a) ->
    (exists m, bytes_of input (length before, length before + length a)%nat m
      /\ boundary input (length before) /\ boundary input (length before + length a)
      /\ call_loop p input (a ++ COMMA :: rest) (N.of_nat (length before)) (mkCS (Some nm) ps 1 (N.of_nat (length before)))
       = call_loop p input rest (N.of_nat (length (before ++ a ++ [COMMA]))) (mkCS (Some nm) (ps ++ [m]) 1 (N.of_nat (length (before ++ a ++ [COMMA])))))
    \/ (~ (boundary input (length before) /\ boundary input (length before + length a))
        /\ call_loop p input (a ++ COMMA :: rest) (N.of_nat (length before)) (mkCS (Some nm) ps 1 (N.of_nat (length before))) = Panic).
  Proof.
    intros Ha1 Ha2 HD E HN. rewrite (pass_argument a Ha2 before (COMMA :: rest) _ 1%N); [|lia|exact E|reflexivity|exact HD|exact HN].
    cbn [call_loop]. unfold on_char. change (COMMA =? LPAREN)%N with false. change (COMMA =? RPAREN)%N with false. cbv iota. rewrite N.eqb_refl.
    unfold on_comma. cbn [paren_stack fun_name params last_pos N.eqb Pos.eqb is_some assert_ res_bind].
    destruct (N.eqb_spec (N.of_nat (length before)) (N.of_nat (length (before ++ a)))) as [Q|_].
    { rewrite app_length in Q. destruct a; [congruence|]. cbn [length] in Q. lia. }
    rewrite <- app_length. assert (L : (length before <= length (before ++ a))%nat) by (rewrite app_length; lia).
    destruct (slice_cases input (N.of_nat (length before)) (N.of_nat (length (before ++ a)))) as [[m S]|S]; rewrite S; cbn [res_bind].
    - left. exists m. splits; [now apply slice_spec in S|apply (slice_ok_iff input _ _ L); eauto|apply (slice_ok_iff input _ _ L); eauto|].
      rewrite !snoc_pos with (c := COMMA). now rewrite <- app_assoc.
    - right. split; [now apply slice_panic_iff in S|reflexivity].
  Qed.
  Lemma each_comma_cons a args rest : each_comma (a :: args) ++ rest = a ++ COMMA :: (each_comma args ++ rest).
  Proof. unfold each_comma. cbn [map concat]. now rewrite <- !app_assoc. Qed.
  Lemma args_deep name args : forall ps nm done rest, plain name -> Forall good_arg done -> Forall good_arg args ->
    input = (name ++ LPAREN :: each_comma done) ++ each_comma args ++ rest -> nesting_below 65536 ((name ++ LPAREN :: each_comma done) ++ each_comma args) ->
    let start := name ++ LPAREN :: each_comma done in
    (exists ms, Forall2 (bytes_of input) (arg_spans (length start) args) ms /\ Forall (boundary input) (arg_cuts (length start) args)
      /\ call_loop p input (each_comma args ++ rest) (N.of_nat (length start)) (mkCS (Some nm) ps 1 (N.of_nat (length start)))
       = call_loop p input rest (N.of_nat (length (start ++ each_comma args))) (mkCS (Some nm) (ps ++ ms) 1 (N.of_nat (length (start ++ each_comma args)))))
    \/ (Exists (fun k => ~ boundary input k) (arg_cuts (length start) args)
      /\ call_loop p input (each_comma args ++ rest) (N.of_nat (length start)) (mkCS (Some nm) ps 1 (N.of_nat (length start))) = Panic).
  Proof.
    induction args as [|a args IH]; intros ps nm done rest Hpl Hd Hargs E HN start.
    { left. exists []. cbn [arg_spans arg_cuts]. splits; [constructor|constructor|]. cbn [each_comma map concat app]. now rewrite !app_nil_r. }
    inversion_clear Hargs as [|? ? [Ha1 Ha2] Hrest]. rewrite each_comma_cons in *. rewrite <- (app_nil_r (each_comma (a :: args))) in HN. rewrite each_comma_cons in HN.
    rewrite app_nil_r in HN.
    assert (ST : start ++ a ++ [COMMA] = name ++ LPAREN :: each_comma (done ++ [a])).
    { unfold start. rewrite each_comma_snoc, <- !app_assoc. reflexivity. }
    assert (LN : length (name ++ LPAREN :: each_comma (done ++ [a])) = (length start + length a + 1)%nat).
    { rewrite <- ST, !app_length. cbn [length]. lia. }
    cbn [arg_spans arg_cuts].
    destruct (comma_deep start a nm ps (each_comma args ++ rest) Ha1 Ha2 (name_depth name done Hpl Hd) E) as [(m & B & B1 & B2 & S)|[B S]].
    { apply (nesting_prefix _ _ (COMMA :: each_comma args)). rewrite <- app_assoc. exact HN. }
    - rewrite S, ST. destruct (IH (ps ++ [m]) nm (done ++ [a]) rest Hpl) as [(ms & M1 & M2 & M3)|[M1 M2]]; auto.
      + apply Forall_app. split; [exact Hd|]. repeat constructor; assumption.
      + rewrite <- ST, <- !app_assoc. exact E.
      + rewrite <- ST, <- !app_assoc. exact HN.
      + left. exists (m :: ms). rewrite LN in M1, M2. splits; [now constructor|now repeat constructor|]. rewrite M3.
        replace ((name ++ LPAREN :: each_comma (done ++ [a])) ++ each_comma args) with (start ++ each_comma (a :: args)).
        2: { rewrite <- ST. unfold each_comma. cbn [map concat]. now rewrite <- !app_assoc. }
        now rewrite <- (app_assoc ps).
      + right. rewrite LN in M1. split; [now do 2 apply Exists_cons_tl|exact M2].
    - right. rewrite S. split; [|reflexivity]. destruct (boundary_dec input (length start)) as [D|D]; [|now apply Exists_cons_hd].
      apply Exists_cons_tl, Exists_cons_hd. tauto.
  Qed.
  Definition opening name args : text := name ++ LPAREN :: each_comma args.
  Lemma opening_deep name args rest : begins_call input name args rest ->
    (exists nm ms, Forall2 (bytes_of input) (spans name args) (nm :: ms) /\ Forall (boundary input) (cuts name args)
      /\ call_loop p input input 0 call_start
       = call_loop p input rest (N.of_nat (length (opening name args))) (mkCS (Some nm) ms 1 (N.of_nat (length (opening name args)))))
    \/ (Exists (fun k => ~ boundary input k) (cuts name args) /\ call_loop p input input 0 call_start = Panic).
  Proof.
    intros (E & Hn & Hpl & Hargs & HN). change (concat (map (fun a => a ++ [COMMA]) args)) with (each_comma args) in *.
    assert (R : call_loop p input input 0 call_start = call_loop p input (LPAREN :: each_comma args ++ rest) (N.of_nat (length name)) call_start).
    { rewrite E at 2. pose proof (run_plain p input name Hpl [] (LPAREN :: each_comma args ++ rest) call_start E) as H. cbn [length N.of_nat app] in H. exact H. }
    rewrite R. cbn [call_loop]. unfold on_char. rewrite N.eqb_refl. unfold on_open, call_start. cbn [paren_stack fun_name last_pos params length]. cbn [N.eqb orb negb].
    change (assert_ (0 =? 0)%nat) with (Ok tt). cbn [res_bind].
    destruct (N.eqb_spec (N.of_nat (length name)) 0) as [Z|Z]; [destruct name; [congruence|cbn [length] in Z; lia]|].
    change 0%N with (N.of_nat 0). unfold cuts.
    destruct (slice_cases input (N.of_nat 0) (N.of_nat (length name))) as [[m S]|S]; rewrite S; cbn [res_bind].
    - assert (B : boundary input (length name)) by (apply (slice_ok_iff input 0 (length name) ltac:(lia)); eauto). apply slice_spec in S.
      rewrite !snoc_pos with (c := LPAREN). pose proof (args_deep name args [] m [] rest Hpl (Forall_nil _) Hargs) as A.
      change (each_comma []) with (@nil N) in A. cbv zeta in A. replace (length (name ++ [LPAREN])) with (length name + 1)%nat in * by (rewrite app_length; reflexivity).
      unfold opening. replace (name ++ LPAREN :: each_comma args) with ((name ++ [LPAREN]) ++ each_comma args) by (now rewrite <- app_assoc).
      destruct A as [(ms & A1 & A2 & A3)|[A1 A2]].
      + rewrite E, <- app_assoc. reflexivity.
      + rewrite <- app_assoc. exact HN.
      + left. exists m, ms. splits; [now constructor|now constructor|exact A3].
      + right. split; [now apply Exists_cons_tl|exact A2].
    - right. split; [|reflexivity]. apply Exists_cons_hd. apply slice_panic_iff in S; [|lia]. intros B. apply S. split; [apply boundary_0|exact B].
  Qed.

  (** ** What the loop has seen *)
  Inductive saw : text -> call_state -> Prop :=
  | saw_name before : plain before -> saw before call_start
  | saw_args name args cur k nm ps lp : begins_call (name ++ LPAREN :: each_comma args ++ cur) name args cur -> open_arg k cur ->
      lp = N.of_nat (length (opening name args)) ->
      saw (name ++ LPAREN :: each_comma args ++ cur) (mkCS (Some nm) ps (N.of_nat k + 1) lp).
  Lemma saw_step before c rest st : input = before ++ c :: rest -> rest <> [] -> nesting_below 65536 (before ++ [c]) -> saw before st ->
    (exists st', on_char p input st (N.of_nat (length before)) c = Ok st' /\ saw (before ++ [c]) st')
    \/ on_char p input st (N.of_nat (length before)) c = Err \/ (on_char p input st (N.of_nat (length before)) c = Panic /\ miscut_first input).
  Proof.
    intros E HR HN Hi. unfold on_char. destruct Hi as [before Hb|name ps cur k nm ps' lp Hbc Ho Hlp].
    - destruct (N.eqb_spec c LPAREN) as [->|N1]; [|destruct (N.eqb_spec c RPAREN) as [->|N2]; [|destruct (N.eqb_spec c COMMA) as [->|N3]]].
      + unfold on_open, call_start. cbn [paren_stack fun_name last_pos params length]. cbn [N.eqb orb negb].
        change (assert_ (0 =? 0)%nat) with (Ok tt). cbn [res_bind].
        destruct (N.eqb_spec (N.of_nat (length before)) 0) as [Z|Z]; [now right; left|].
        assert (NE : before <> []) by (intros ->; now cbn in Z).
        change 0%N with (N.of_nat 0). destruct (slice_cases input (N.of_nat 0) (N.of_nat (length before))) as [[m Q]|Q]; rewrite Q; cbn [res_bind].
        * left. eexists. split; [reflexivity|]. rewrite (snoc_pos before LPAREN).
          apply (saw_args before [] [] 0 m []); [|now apply open_arg_0; constructor|reflexivity]. unfold begins_call. cbn [each_comma map concat app]. splits; auto.
        * right. right. split; [reflexivity|]. exists before, [], rest. split; [unfold begins_call; cbn [map concat app]; splits; auto|].
          exists (length before). split; [now left|]. apply slice_panic_iff in Q; [|lia]. intros B. apply Q. split; [apply boundary_0|exact B].
      + right. left. reflexivity.
      + right. left. reflexivity.
      + left. exists call_start. split; [reflexivity|]. apply saw_name. apply Forall_app. split; [exact Hb|]. repeat constructor. unfold special. intuition.
    - destruct Hbc as (_ & Hn & Hpl & Hps & HN0). change (concat (map (fun a => a ++ [COMMA]) ps)) with (each_comma ps) in *. fold good_arg in Hps.
      set (before := name ++ LPAREN :: each_comma ps ++ cur) in *.
      assert (S0 : (N.of_nat k + 1 =? 0)%N = false) by (apply N.eqb_neq; lia).
      assert (NXT : forall k' cur', before ++ [c] = name ++ LPAREN :: each_comma ps ++ cur' -> open_arg k' cur' ->
        saw (before ++ [c]) (mkCS (Some nm) ps' (N.of_nat k' + 1) lp)).
      { intros k' cur' -> Ho'. apply saw_args; auto. unfold begins_call. splits; auto. }
      assert (BC : before ++ [c] = name ++ LPAREN :: each_comma ps ++ (cur ++ [c])) by (unfold before; rewrite <- app_assoc; cbn [app]; now rewrite <- app_assoc).
      destruct (N.eqb_spec c LPAREN) as [->|N1]; [|destruct (N.eqb_spec c RPAREN) as [->|N2]; [|destruct (N.eqb_spec c COMMA) as [->|N3]]].
      + left. unfold on_open. cbn [paren_stack fun_name last_pos params]. rewrite S0.
        assert (D : depth_at before (N.of_nat k + 1)) by (unfold depth_at, before; rewrite (inv_count name ps cur k Hpl Hps Ho); lia).
        pose proof (depth_below before _ HN D) as L.
        unfold ufit. destruct (N.ltb_spec (N.of_nat k + 1 + 1) (2 ^ 16)) as [_|F]; [|change (2 ^ 16)%N with 65536%N in F; lia].
        cbn [res_bind]. eexists. split; [reflexivity|]. replace (N.of_nat k + 1 + 1)%N with (N.of_nat (S k) + 1)%N by lia. apply (NXT _ _ BC). now apply open_arg_open.
      + unfold on_close. cbn [paren_stack fun_name last_pos params]. rewrite S0.
        destruct (N.eqb_spec (N.of_nat k + 1) 1) as [K1|K1].
        * pose proof (str_len_ge input) as SW. assert (LL : (length before + 1 < length input)%nat).
          { rewrite E, app_length. cbn [length]. destruct rest; [congruence|cbn [length]; lia]. }
          rewrite usub_ok by lia. cbn [res_bind].
          destruct (N.eqb_spec (N.of_nat (length before)) (str_len input - 1)) as [Q|Q]; [|now right; left]. exfalso. lia.
        * left. cbn [res_bind paren_stack fun_name last_pos params]. unfold usub. destruct (N.leb_spec 1 (N.of_nat k + 1)); [|lia]. cbn [res_bind].
          destruct k as [|k]; [lia|]. eexists. split; [reflexivity|]. replace (N.of_nat (S k) + 1 - 1)%N with (N.of_nat k + 1)%N by lia.
          apply (NXT _ _ BC). now apply open_arg_close.
      + unfold on_comma. cbn [paren_stack fun_name last_pos params]. rewrite S0.
        destruct (N.eqb_spec (N.of_nat k + 1) 1) as [K1|K1].
        * assert (k = 0%nat) by lia. subst k. apply open_arg_0 in Ho. cbn [is_some assert_ res_bind]. subst lp. unfold opening in *.
          destruct (N.eqb_spec (N.of_nat (length (name ++ LPAREN :: each_comma ps))) (N.of_nat (length before))) as [Q|Q]; [now right; left|].
          assert (NE : cur <> []) by (intros ->; apply Q; unfold before; now rewrite app_nil_r).
          assert (HF : Forall good_arg (ps ++ [cur])) by (apply Forall_app; split; [exact Hps|]; repeat constructor; assumption).
          assert (L : length before = (length (name ++ LPAREN :: each_comma ps) + length cur)%nat).
          { unfold before. rewrite !app_length. cbn [length]. rewrite app_length. lia. }
          assert (BQ : before ++ [COMMA] = name ++ LPAREN :: each_comma (ps ++ [cur])) by (rewrite BC, each_comma_snoc; reflexivity).
          assert (BN : forall r, begins_call (name ++ LPAREN :: each_comma (ps ++ [cur]) ++ r) name (ps ++ [cur]) r).
          { intros r. unfold begins_call. splits; auto. change (concat (map (fun a => a ++ [COMMA]) (ps ++ [cur]))) with (each_comma (ps ++ [cur])). now rewrite <- BQ. }
          destruct (slice_cases input (N.of_nat (length (name ++ LPAREN :: each_comma ps))) (N.of_nat (length before))) as [[m SL]|SL]; rewrite SL; cbn [res_bind].
          -- left. eexists. split; [reflexivity|]. rewrite (snoc_pos before COMMA), BQ.
             pose proof (saw_args name (ps ++ [cur]) [] 0 nm (ps' ++ [m]) _ (BN []) (proj2 (open_arg_0 []) arg_nil) eq_refl) as H.
             rewrite app_nil_r in H. exact H.
          -- right. right. split; [reflexivity|]. exists name, (ps ++ [cur]), rest. split.
             { rewrite E. replace (before ++ COMMA :: rest) with ((before ++ [COMMA]) ++ rest) by (now rewrite <- app_assoc). rewrite BQ, <- app_assoc. apply BN. }
             unfold cuts. rewrite arg_cuts_snoc. rewrite slice_panic_iff in SL by lia.
             assert (P : (length name + 1 + length (each_comma ps))%nat = length (name ++ LPAREN :: each_comma ps)) by (rewrite app_length; cbn [length]; lia).
             destruct (boundary_dec input (length (name ++ LPAREN :: each_comma ps))) as [B|B].
             ++ exists (length before). split; [|tauto]. right. apply in_or_app. right. right. left. rewrite P. now rewrite L.
             ++ exists (length (name ++ LPAREN :: each_comma ps)). split; [|exact B]. right. apply in_or_app. right. left. exact P.
        * left. eexists. split; [reflexivity|]. apply (NXT _ _ BC). apply open_arg_char; auto; try discriminate. lia.
      + left. eexists. split; [reflexivity|]. apply (NXT _ _ BC). apply open_arg_char; auto.
  Qed.
  Lemma saw_loop b : forall before rest st, input = before ++ b ++ rest -> rest <> [] -> nesting_below 65536 (before ++ b) -> saw before st ->
    (exists st', call_loop p input (b ++ rest) (N.of_nat (length before)) st = call_loop p input rest (N.of_nat (length (before ++ b))) st' /\ saw (before ++ b) st')
    \/ call_loop p input (b ++ rest) (N.of_nat (length before)) st = Err \/ (call_loop p input (b ++ rest) (N.of_nat (length before)) st = Panic /\ miscut_first input).
  Proof.
    induction b as [|c b IH]; intros before rest st E HR HN Hi; cbn [app call_loop].
    { left. exists st. rewrite app_nil_r. now split. }
    assert (HN1 : nesting_below 65536 (before ++ [c])) by (apply (nesting_prefix _ _ b); now rewrite <- app_assoc).
    destruct (saw_step before c (b ++ rest) st E) as [(st' & -> & Hi')|[->|[-> M]]]; auto; cbn [res_bind].
    { intros Q. apply app_eq_nil in Q as [_ Q]. contradiction. }
    rewrite (snoc_pos before c). replace (before ++ c :: b) with ((before ++ [c]) ++ b) by (now rewrite <- app_assoc).
    apply IH; auto; rewrite <- app_assoc; assumption.
  Qed.
End Run.

(** ** Past the first parenthesis too many *)
Lemma plain_dec s : {plain s} + {~ plain s}.
Proof.
  apply Forall_dec. intros c. unfold special. destruct (N.eq_dec c LPAREN); [right; tauto|]. destruct (N.eq_dec c RPAREN); [right; tauto|]. destruct (N.eq_dec c COMMA); [right; tauto|]. left. tauto.
Qed.
Lemma wrapped_tail p input tail : forall pos nm ps lp,
  (plain tail -> call_loop p input tail pos (mkCS (Some nm) ps 0 lp) = Ok (mkCS (Some nm) ps 0 lp))
  /\ (~ plain tail -> call_loop p input tail pos (mkCS (Some nm) ps 0 lp) = Err).
Proof.
  induction tail as [|c tail IH]; intros pos nm ps lp; [split; [reflexivity|intros H; destruct H; constructor]|]. cbn [call_loop]. unfold on_char.
  assert (SP : special c -> (plain (c :: tail) -> False)) by (intros H1 H2; inversion_clear H2; contradiction).
  destruct (N.eqb_spec c LPAREN) as [->|N1]; [split; [intros H; destruct (SP special_open H)|reflexivity]|].
  destruct (N.eqb_spec c RPAREN) as [->|N2]; [split; [intros H; destruct (SP special_close H)|reflexivity]|].
  destruct (N.eqb_spec c COMMA) as [->|N3]; [split; [intros H; destruct (SP special_comma H)|reflexivity]|]. cbn [res_bind].
  destruct (IH (pos + 1)%N nm ps lp) as [H1 H2]. split; intros H; [apply H1; now inversion_clear H|apply H2]. intros Q. apply H. constructor; [unfold special; tauto|exact Q].
Qed.
Lemma overflow p input st pos : paren_stack st = 65535%N -> on_char p input st pos LPAREN
  = match p with Debug => Panic | Release => Ok (mkCS (fun_name st) (params st) 0 (last_pos st)) end.
Proof. intros H. unfold on_char. rewrite N.eqb_refl. unfold on_open. rewrite H. destruct p; reflexivity. Qed.
Lemma too_deep_runs p s name args tail : too_deep s name args tail ->
  (exists nm ms, Forall2 (bytes_of s) (spans name args) (nm :: ms)
    /\ fun_call p s = match p with Debug => Panic | Release => if plain_dec tail then Ok (nm, ms) else Err end)
  \/ (Exists (fun k => ~ boundary s k) (cuts name args) /\ fun_call p s = Panic).
Proof.
  intros (cur & Hb & Hu & HN). pose proof Hb as (E & Hn & Hpl & Hargs & HN0). change (concat (map (fun a => a ++ [COMMA]) args)) with (each_comma args) in *.
  destruct (opening_deep p s name args _ Hb) as [(nm & ms & B & _ & S)|[B S]].
  - left. exists nm, ms. split; [exact B|]. unfold fun_call. rewrite S.
    destruct (pass_unclosed p s _ cur Hu (opening name args) (LPAREN :: tail) (Some nm) ms (N.of_nat (length (opening name args)))) as [R _].
    + unfold opening. rewrite <- app_assoc. exact E.
    + now apply name_depth.
    + unfold opening. rewrite <- app_assoc. exact HN.
    + rewrite R. cbn [call_loop]. rewrite overflow by (cbn [paren_stack]; rewrite N2Nat.id; reflexivity).
      destruct p; [reflexivity|]. cbn [res_bind fun_name params last_pos].
      destruct (wrapped_tail Release s tail (N.of_nat (length (opening name args ++ cur)) + 1) nm ms (N.of_nat (length (opening name args)))) as [W1 W2].
      destruct (plain_dec tail) as [P|P]; [rewrite (W1 P)|rewrite (W2 P)]; reflexivity.
  - right. split; [exact B|]. unfold fun_call. now rewrite S.
Qed.
Lemma too_deep_miscut s name args tail : too_deep s name args tail -> Exists (fun k => ~ boundary s k) (cuts name args) -> miscut_first s.
Proof. intros (cur & Hb & _) B. apply Exists_exists in B as (k & K1 & K2). exists name, args, (cur ++ LPAREN :: tail). split; [exact Hb|]. now exists k. Qed.
Lemma bytes_of_cuts s ij m : bytes_of s ij m -> boundary s (fst ij) /\ boundary s (snd ij).
Proof. intros (l & r & -> & H1 & H2). split; [now exists l, (m ++ r)|]. exists (l ++ m), r. now rewrite <- app_assoc. Qed.
Lemma spans_cuts s name args ms : Forall2 (bytes_of s) (spans name args) ms -> Forall (boundary s) (cuts name args).
Proof.
  unfold spans, cuts. intros H. inversion_clear H as [|? m ? l H1 H2]. apply bytes_of_cuts in H1 as [_ H1]. cbn [snd] in H1. constructor; [exact H1|].
  revert H2. generalize (length name + 1)%nat. clear. revert l. induction args as [|a args IH]; intros ms pos H; [constructor|]. cbn [arg_spans arg_cuts] in *.
  inversion_clear H as [|? m ? l H1 H2]. apply bytes_of_cuts in H1 as [H1 H1']. constructor; [exact H1|]. constructor; [exact H1'|]. now apply (IH l).
Qed.
Lemma miscut_first_aborts p s : miscut_first s -> fun_call p s = Panic.
Proof.
  intros (name & args & rest & Hb & k & K1 & K2). destruct (opening_deep p s name args rest Hb) as [(nm & ms & _ & B & _)|[_ S]].
  - rewrite Forall_forall in B. now apply B in K1.
  - unfold fun_call. now rewrite S.
Qed.
Lemma deep_outcome p s b tail : s = b ++ LPAREN :: tail -> nesting_below 65536 b -> depth_at b 65535 ->
  (exists name args, too_deep s name args tail) \/ fun_call p s = Err \/ (fun_call p s = Panic /\ miscut_first s).
Proof.
  intros E HN HD. unfold fun_call.
  destruct (saw_loop p s b [] (LPAREN :: tail) call_start E ltac:(discriminate) HN (saw_name [] (Forall_nil _))) as [(st & _ & Hi)|[R|[R M]]].
  - left. cbn [app] in Hi. inversion Hi as [b' Hb E1 E2|name args cur k nm ps lp Hbc Ho Hlp E1 E2].
    + subst b'. pose proof (plain_depth b Hb) as D. unfold depth_at in *. lia.
    + subst b. clear Hi E2. destruct Hbc as (_ & Hn & Hpl & Hps & HN0). assert (k = N.to_nat 65534).
      { pose proof (inv_count name args cur k Hpl Hps Ho) as C. unfold depth_at in HD. lia. }
      subst k. exists name, args, cur. splits; [|now apply unclosed_open|exact HN].
      unfold begins_call. splits; auto. rewrite E. rewrite <- app_assoc. cbn [app]. unfold each_comma. now rewrite <- app_assoc.
  - right. left. rewrite <- E in R. cbn [length N.of_nat] in R. now rewrite R.
  - right. right. rewrite <- E in R. cbn [length N.of_nat] in R. now rewrite R.
Qed.
Lemma too_deep_nesting s name args tail : too_deep s name args tail -> ~ nesting_below 65536 s.
Proof.
  intros (cur & (E & Hn & Hpl & Hargs & _) & Hu & _) HN. apply unclosed_open in Hu. pose proof (inv_count name args cur _ Hpl Hargs Hu) as C.
  assert (D : depth_at (name ++ LPAREN :: each_comma args ++ cur) 65535) by (unfold depth_at; rewrite C; lia).
  pose proof (depth_below (name ++ LPAREN :: each_comma args ++ cur) 65535) as K. enough (65535 + 1 < 65536)%N by lia. apply K; [|exact D].
  apply (nesting_prefix _ _ tail). rewrite <- app_assoc. cbn [app]. rewrite <- app_assoc. cbn [app]. rewrite <- app_assoc. cbn [app]. unfold each_comma. now rewrite <- E.
Qed.
Lemma miscut_first_iff s : nesting_below 65536 s -> (miscut_first s <-> miscut s).
Proof.
  intros HN. split.
  - intros (name & args & rest & (E & Hn & Hpl & Ha & _) & K). exists name, args, rest. auto.
  - intros (name & args & rest & E & Hn & Hpl & Ha & K). exists name, args, rest. split; [|exact K]. unfold begins_call. splits; auto.
    apply (nesting_prefix _ _ rest). rewrite <- app_assoc. cbn [app]. now rewrite <- E.
Qed.
Lemma bytes_of_unique s ij m m' : bytes_of s ij m -> bytes_of s ij m' -> m = m'.
Proof. destruct ij as [i j]. intros H1 H2. apply slice_spec in H1, H2. congruence. Qed.
Lemma Forall2_unique s l : forall ms ms', Forall2 (bytes_of s) l ms -> Forall2 (bytes_of s) l ms' -> ms = ms'.
Proof.
  induction l as [|x l IH]; intros ms ms' H1 H2; inversion_clear H1; inversion_clear H2; [reflexivity|]. f_equal; [eapply bytes_of_unique; eassumption|]. now apply IH.
Qed.

(** ** The outcomes for all texts *)
Lemma first_bad s : ~ nesting_below 65536 s -> exists b tail, s = b ++ LPAREN :: tail /\ nesting_below 65536 b /\ depth_at b 65535.
Proof.
  intros H. destruct (nesting_cases s []) as [Q|Q]; [|contradiction|exact Q]. intros a b E. symmetry in E. apply app_eq_nil in E as [-> ->]. reflexivity.
Qed.
Lemma nesting_dec s : {nesting_below 65536 s} + {~ nesting_below 65536 s}.
Proof.
  set (f := fun k => (N.of_nat (count LPAREN (firstn k s)) <? 65536 + N.of_nat (count RPAREN (firstn k s)))%N).
  destruct (forallb f (seq 0 (S (length s)))) eqn:F.
  - left. intros a b E. rewrite forallb_forall in F. specialize (F (length a)). unfold f in F. rewrite E, firstn_app, Nat.sub_diag, firstn_all in F. cbn [firstn] in F. rewrite app_nil_r in F.
    apply N.ltb_lt, F, in_seq. rewrite app_length. lia.
  - right. intros H. assert (F' : forallb f (seq 0 (S (length s))) = true); [|congruence]. apply forallb_forall. intros k _. unfold f. apply N.ltb_lt.
    apply (H _ (skipn k s)). now rewrite firstn_skipn.
Qed.
Lemma all_debug s : (forall name args, fun_call Debug s = Ok (name, args) <-> ascii s /\ is_call s name args /\ nesting_below 65536 s)
  /\ (fun_call Debug s = Panic <-> miscut_first s \/ exists name args tail, too_deep s name args tail).
Proof.
  destruct (nesting_dec s) as [HN|HN].
  - destruct (outcomes Debug s HN) as (A & B & _). split; [intros n a; rewrite A; tauto|]. rewrite B, (miscut_first_iff s HN). split; [tauto|].
    intros [H|(n & a & t & H)]; [exact H|]. now apply too_deep_nesting in H.
  - destruct (first_bad s HN) as (b & tail & E & H1 & H2).
    assert (D : forall n a t, too_deep s n a t -> fun_call Debug s = Panic).
    { intros n a t H. destruct (too_deep_runs Debug s n a t H) as [(nm & ms & _ & R)|[_ R]]; exact R. }
    split.
    + intros n a. split; [|tauto]. intros R. exfalso. destruct (deep_outcome Debug s b tail E H1 H2) as [(n' & a' & H)|[Q|[Q _]]]; [|congruence|congruence]. apply D in H. congruence.
    + split; [|intros [H|(n & a & t & H)]; [now apply miscut_first_aborts|exact (D n a t H)]]. intros R.
      destruct (deep_outcome Debug s b tail E H1 H2) as [(n' & a' & H)|[Q|[_ Q]]]; [right; eauto|congruence|now left].
Qed.
Lemma all_release s : (forall n a, fun_call Release s = Ok (n, a) <->
    (ascii s /\ is_call s n a /\ nesting_below 65536 s)
    \/ (exists name args tail, too_deep s name args tail /\ plain tail /\ Forall2 (bytes_of s) (spans name args) (n :: a)))
  /\ (fun_call Release s = Panic <-> miscut_first s).
Proof.
  destruct (nesting_dec s) as [HN|HN].
  - destruct (outcomes Release s HN) as (A & B & _). split; [|now rewrite B, (miscut_first_iff s HN)]. intros n a. rewrite A. split; [tauto|].
    intros [H|(n' & a' & t & H & _)]; [tauto|]. now apply too_deep_nesting in H.
  - destruct (first_bad s HN) as (b & tail & E & H1 & H2).
    split.
    + intros n a. split.
      * intros R. right. destruct (deep_outcome Release s b tail E H1 H2) as [(n' & a' & H)|[Q|[Q _]]]; [|congruence|congruence].
        destruct (too_deep_runs Release s n' a' tail H) as [(nm & ms & M & Q)|[_ Q]]; [|congruence]. cbv iota in Q.
        destruct (plain_dec tail) as [P|P]; [|congruence]. rewrite Q in R. injection R as <- <-. exists n', a', tail. auto.
      * intros [[_ [_ H]]|(n' & a' & t & H & P & M)]; [contradiction|]. destruct (too_deep_runs Release s n' a' t H) as [(nm & ms & M' & Q)|[K _]].
        -- cbv iota in Q. destruct (plain_dec t); [|contradiction]. pose proof (Forall2_unique _ _ _ _ M M') as U. injection U as -> ->. exact Q.
        -- exfalso. apply spans_cuts in M. rewrite Forall_forall in M. apply Exists_exists in K as (k & K1 & K2). now apply M in K1.
    + split; [|now apply miscut_first_aborts]. intros R. destruct (deep_outcome Release s b tail E H1 H2) as [(n' & a' & H)|[Q|[_ Q]]]; [|congruence|exact Q].
      destruct (too_deep_runs Release s n' a' tail H) as [(nm & ms & M & Q)|[K _]]; [|now apply (too_deep_miscut s n' a' tail)]. rewrite Q in R. destruct (plain_dec tail); discriminate.
Qed.
(** For ASCII texts the pieces are the name and the arguments themselves. *)
Lemma ascii_piece l m r : ascii (l ++ m ++ r) -> bytes_of (l ++ m ++ r) (length l, length l + length m)%nat m.
Proof.
  intros H. exists l, r. apply ascii_app in H as [H1 H2]. apply ascii_app in H2 as [H2 _]. splits; [reflexivity|now rewrite bytes_ascii|].
  rewrite bytes_ascii; [now rewrite app_length|]. apply ascii_app. now split.
Qed.
Lemma ascii_spans s args : forall l r, ascii s -> s = l ++ each_comma args ++ r -> Forall2 (bytes_of s) (arg_spans (length l) args) args.
Proof.
  induction args as [|a args IH]; intros l r H E; [constructor|]. rewrite each_comma_cons in E. cbn [arg_spans]. constructor.
  - rewrite E in *. now apply ascii_piece.
  - replace (length l + length a + 1)%nat with (length (l ++ a ++ [COMMA])) by (rewrite !app_length; cbn [length]; lia). apply (IH _ r H). rewrite E, <- !app_assoc. reflexivity.
Qed.
Lemma too_deep_ascii s name args tail : ascii s -> too_deep s name args tail -> Forall2 (bytes_of s) (spans name args) (name :: args).
Proof.
  intros H (cur & (E & _) & _). change (concat (map (fun a => a ++ [COMMA]) args)) with (each_comma args) in E. unfold spans. constructor.
  - pose proof (ascii_piece [] name (LPAREN :: each_comma args ++ cur ++ LPAREN :: tail)) as P. cbn [app length Nat.add] in P. rewrite <- E in P. now apply P.
  - replace (length name + 1)%nat with (length (name ++ [LPAREN])) by (rewrite app_length; reflexivity). apply (ascii_spans s args _ (cur ++ LPAREN :: tail) H).
    rewrite E, <- app_assoc. reflexivity.
Qed.
Lemma ascii_all p s : ascii s -> forall n a, fun_call p s = Ok (n, a) <->
  (is_call s n a /\ nesting_below 65536 s) \/ (p = Release /\ exists tail, too_deep s n a tail /\ plain tail).
Proof.
  intros H n a. destruct p.
  - rewrite (proj1 (all_debug s)). split; [tauto|]. intros [K|[K _]]; [tauto|discriminate].
  - rewrite (proj1 (all_release s)). split.
    + intros [K|(n' & a' & t & K1 & K2 & K3)]; [tauto|]. right. split; [reflexivity|]. exists t. pose proof (Forall2_unique _ _ _ _ K3 (too_deep_ascii s n' a' t H K1)) as U.
      injection U as -> ->. now split.
    + intros [K|[_ (t & K1 & K2)]]; [tauto|]. right. exists n, a, t. splits; auto. now apply (too_deep_ascii s n a t).
Qed.

(** ** Two letters with accents, and too many parentheses: the name and the argument are cut out at the wrong places *)
Definition deep_wide : text := [E_ACUTE; E_ACUTE] ++ txt "xx(b," ++ repeat LPAREN (N.to_nat 65535).
Definition deep_answer (r : res (text * list text)) : bool :=
  match r with Ok (n, [a]) => text_eqb n [E_ACUTE; E_ACUTE] && text_eqb a (txt "x") | _ => false end.
Lemma opens_unclosed k : unclosed k (repeat LPAREN k).
Proof.
  induction k as [|k IH]; [repeat constructor|]. replace (repeat LPAREN (S k)) with (repeat LPAREN k ++ LPAREN :: []); [now repeat constructor|].
  change [LPAREN] with (repeat LPAREN 1). rewrite <- repeat_app. f_equal. lia.
Qed.
Lemma deep_wide_shape (x : text) : begins_call ([E_ACUTE; E_ACUTE] ++ txt "xx(b," ++ x ++ [LPAREN]) ([E_ACUTE; E_ACUTE] ++ txt "xx") [txt "b"] (x ++ [LPAREN]).
Proof.
  assert (SP : forall c, (c =? LPAREN)%N = false -> (c =? RPAREN)%N = false -> (c =? COMMA)%N = false -> ~ special c).
  { intros c H1 H2 H3 [->|[->| ->]]; discriminate. }
  unfold begins_call. splits; [reflexivity|discriminate|repeat constructor; now apply SP|repeat constructor; [discriminate|now apply SP]|].
  assert (H : (N.of_nat (count LPAREN (([E_ACUTE; E_ACUTE] ++ txt "xx") ++ LPAREN :: concat (map (fun a => a ++ [COMMA]) [txt "b"]))) < 65536)%N) by reflexivity.
  intros a b E. rewrite E, count_app in H. lia.
Qed.
Lemma count_opens k : count LPAREN (repeat LPAREN k) = k.
Proof. unfold count. induction k as [|k IH]; [reflexivity|]. cbn [repeat filter]. rewrite N.eqb_refl. cbn [length]. now rewrite IH. Qed.
Lemma deep_wide_opens k : nesting_below 65536 (([E_ACUTE; E_ACUTE] ++ txt "xx") ++ LPAREN :: concat (map (fun a => a ++ [COMMA]) [txt "b"]) ++ repeat LPAREN k) \/ (65535 <= N.of_nat k)%N.
Proof.
  destruct (N.lt_ge_cases (N.of_nat k) 65535) as [L|L]; [left|now right]. intros a b E. apply (f_equal (count LPAREN)) in E.
  change (([E_ACUTE; E_ACUTE] ++ txt "xx") ++ LPAREN :: concat (map (fun a => a ++ [COMMA]) [txt "b"]) ++ repeat LPAREN k)
    with ((([E_ACUTE; E_ACUTE] ++ txt "xx") ++ LPAREN :: concat (map (fun a => a ++ [COMMA]) [txt "b"])) ++ repeat LPAREN k) in E.
  rewrite !count_app, count_opens in E. change (count LPAREN (LPAREN :: concat (map (fun a => a ++ [COMMA]) [txt "b"]))) with 1%nat in E.
  change (count LPAREN [E_ACUTE; E_ACUTE]) with 0%nat in E. change (count LPAREN (txt "xx")) with 0%nat in E. lia.
Qed.
Lemma deep_wide_deep k n : n = S k -> (N.of_nat k = 65534)%N -> too_deep ([E_ACUTE; E_ACUTE] ++ txt "xx(b," ++ repeat LPAREN n) ([E_ACUTE; E_ACUTE] ++ txt "xx") [txt "b"] [].
Proof.
  intros -> K. exists (repeat LPAREN k). splits.
  - replace (repeat LPAREN (S k)) with (repeat LPAREN k ++ [LPAREN]); [apply deep_wide_shape|]. change [LPAREN] with (repeat LPAREN 1). rewrite <- repeat_app. f_equal. lia.
  - replace (N.to_nat 65534) with k by lia. apply opens_unclosed.
  - destruct (deep_wide_opens k) as [H|H]; [exact H|lia].
Qed.
Lemma deep_wide_case : ~ ascii deep_wide /\ too_deep deep_wide ([E_ACUTE; E_ACUTE] ++ txt "xx") [txt "b"] []
  /\ fun_call Release deep_wide = Ok ([E_ACUTE; E_ACUTE], [txt "x"]) /\ fun_call Debug deep_wide = Panic
  /\ fun_call Release (deep_wide ++ [RPAREN]) = Err.
Proof.
  splits.
  - unfold deep_wide. intros H. apply ascii_app in H as [H _]. inversion_clear H as [|? ? H1 _]. now vm_compute in H1.
  - unfold deep_wide. apply (deep_wide_deep (N.to_nat 65534)); lia.
  - assert (H : deep_answer (fun_call Release deep_wide) = true) by (vm_compute; reflexivity).
    destruct (fun_call Release deep_wide) as [[n [|a [|b l]]]| |]; try discriminate H. cbn [deep_answer] in H. apply andb_prop in H as [H1 H2].
    apply text_eqb_eq in H1, H2. now rewrite H1, H2.
  - assert (H : panics (fun_call Debug deep_wide) = true) by (vm_compute; reflexivity). destruct (fun_call Debug deep_wide); try discriminate H. reflexivity.
  - assert (H : match fun_call Release (deep_wide ++ [RPAREN]) with Err => true | _ => false end = true) by (vm_compute; reflexivity).
    destruct (fun_call Release (deep_wide ++ [RPAREN])); try discriminate H. reflexivity.
Qed.
