(** * Which texts abort the argument parser (C47). *)
From Coq Require Import String.
From Verif Require Import Base Prs PrsSpec PrsProofs PrsTop PrsWideSpec.
Close Scope string_scope.
Open Scope list_scope.

(** ** Bytes *)
Lemma utf8_length c : N.of_nat (length (utf8 c)) = utf8_len c.
Proof. unfold utf8, utf8_len. repeat destruct (_ <? _)%N; reflexivity. Qed.
Lemma bytes_length s : N.of_nat (length (bytes s)) = str_len s.
Proof. induction s as [|c s IH]; [reflexivity|]. cbn [bytes flat_map str_len]. rewrite app_length. rewrite <- IH, <- utf8_length. unfold bytes. lia. Qed.
Lemma bytes_app a b : bytes (a ++ b) = bytes a ++ bytes b.
Proof. apply flat_map_app. Qed.
Lemma str_len_app a b : str_len (a ++ b) = (str_len a + str_len b)%N.
Proof. rewrite <- !bytes_length, bytes_app, app_length. lia. Qed.
Lemma split_bytes_spec s : forall n a b, split_bytes s n = Some (a, b) <-> s = a ++ b /\ str_len a = n.
Proof.
  induction s as [|c s IH]; intros n a b; cbn [split_bytes].
  - destruct (N.eqb_spec n 0) as [->|H].
    + split; [intros E; injection E as <- <-; now split|]. intros [E1 E2]. symmetry in E1. apply app_eq_nil in E1 as [-> ->]. reflexivity.
    + split; [discriminate|]. intros [E1 E2]. symmetry in E1. apply app_eq_nil in E1 as [-> ->]. cbn in E2. congruence.
  - destruct (N.eqb_spec n 0) as [->|H].
    + split; [intros E; injection E as <- <-; now split|]. intros [E1 E2]. destruct a as [|x a]; [cbn in E1; now subst b|].
      exfalso. cbn [str_len] in E2. pose proof (utf8_len_pos x). lia.
    + destruct (N.leb_spec (utf8_len c) n) as [L|L].
      * destruct (split_bytes s (n - utf8_len c)) as [[a' b']|] eqn:Q.
        -- apply IH in Q as [Q1 Q2]. split.
           ++ intros E. injection E as <- <-. split; [cbn; now rewrite Q1|]. cbn [str_len]. lia.
           ++ intros [E1 E2]. destruct a as [|x a]; [cbn in E2; congruence|]. cbn in E1. injection E1 as <- E1. cbn [str_len] in E2.
              assert (S : split_bytes s (n - utf8_len c) = Some (a, b)) by (apply IH; split; [exact E1|lia]).
              assert (S' : split_bytes s (n - utf8_len c) = Some (a', b')) by (apply IH; now split). rewrite S in S'. now injection S' as <- <-.
        -- split; [discriminate|]. intros [E1 E2]. destruct a as [|x a]; [cbn in E2; congruence|]. cbn in E1. injection E1 as <- E1. cbn [str_len] in E2.
           assert (S : split_bytes s (n - utf8_len c) = Some (a, b)) by (apply IH; split; [exact E1|lia]). congruence.
      * split; [discriminate|]. intros [E1 E2]. destruct a as [|x a]; [cbn in E2; congruence|]. cbn in E1. injection E1 as <- E1. cbn [str_len] in E2. lia.
Qed.
Lemma boundary_split s k : boundary s k <-> exists a b, split_bytes s (N.of_nat k) = Some (a, b).
Proof.
  split; intros (a & b & H); exists a, b.
  - apply split_bytes_spec. destruct H as [H1 H2]. split; [exact H1|]. rewrite <- bytes_length. now rewrite H2.
  - apply split_bytes_spec in H as [H1 H2]. split; [exact H1|]. rewrite <- bytes_length in H2. lia.
Qed.
(** Cutting a piece out of a text *)
Lemma slice_spec s i j m : slice s (N.of_nat i) (N.of_nat j) = Ok m <->
  exists l r, s = l ++ m ++ r /\ length (bytes l) = i /\ length (bytes (l ++ m)) = j.
Proof.
  unfold slice. split.
  - destruct (N.leb_spec (N.of_nat i) (N.of_nat j)); [|discriminate]. destruct (split_bytes s _) as [[l r]|] eqn:Q1; [|discriminate].
    destruct (split_bytes r _) as [[m' r']|] eqn:Q2; [|discriminate]. intros E. injection E as <-. apply split_bytes_spec in Q1 as [-> Q1]. apply split_bytes_spec in Q2 as [-> Q2].
    exists l, r'. rewrite <- bytes_length in *. rewrite bytes_app, app_length. splits; [reflexivity|lia|lia].
  - intros (l & r & -> & H1 & H2). rewrite bytes_app, app_length in H2. destruct (N.leb_spec (N.of_nat i) (N.of_nat j)); [|lia].
    assert (Q1 : split_bytes (l ++ m ++ r) (N.of_nat i) = Some (l, m ++ r)) by (apply split_bytes_spec; split; [reflexivity|rewrite <- bytes_length; lia]).
    rewrite Q1. assert (Q2 : split_bytes (m ++ r) (N.of_nat j - N.of_nat i) = Some (m, r)) by (apply split_bytes_spec; split; [reflexivity|rewrite <- bytes_length; lia]).
    now rewrite Q2.
Qed.
Lemma slice_cases s i j : (exists m, slice s i j = Ok m) \/ slice s i j = Panic.
Proof. unfold slice. destruct (_ <=? _)%N; [|now right]. destruct (split_bytes s i) as [[a b]|]; [|now right]. destruct (split_bytes b _) as [[m r]|]; [left; eauto|now right]. Qed.
Lemma prefix_of (a b c d : text) : a ++ b = c ++ d -> (length (bytes a) <= length (bytes c))%nat -> exists m, c = a ++ m /\ b = m ++ d.
Proof.
  revert c. induction a as [|x a IH]; intros c E L; [exists c; split; [reflexivity|exact E]|].
  destruct c as [|y c]; [cbn [bytes flat_map length] in L; rewrite app_length in L; pose proof (utf8_length x); pose proof (utf8_len_pos x); lia|].
  cbn in E. injection E as <- E. cbn [bytes flat_map] in L. rewrite !app_length in L. destruct (IH c E) as (m & -> & ->); [unfold bytes; lia|]. now exists m.
Qed.
Lemma slice_ok_iff s i j : (i <= j)%nat -> (exists m, slice s (N.of_nat i) (N.of_nat j) = Ok m) <-> boundary s i /\ boundary s j.
Proof.
  intros Hij. split.
  - intros [m H]. apply slice_spec in H as (l & r & -> & H1 & H2). split; [now exists l, (m ++ r)|]. exists (l ++ m), r. now rewrite app_assoc.
  - intros [(a & b & E1 & H1) (c & d & E2 & H2)]. destruct (prefix_of a b c d) as (m & -> & ->); [congruence|lia|]. exists m. apply slice_spec. exists a, d. now subst.
Qed.
Lemma slice_panic_iff s i j : (i <= j)%nat -> slice s (N.of_nat i) (N.of_nat j) = Panic <-> ~ (boundary s i /\ boundary s j).
Proof.
  intros H. pose proof (slice_ok_iff s i j H) as K. destruct (slice_cases s (N.of_nat i) (N.of_nat j)) as [[m Q]|Q].
  - rewrite Q. split; [discriminate|]. intros N. exfalso. apply N, K. eauto.
  - rewrite Q. split; [|reflexivity]. intros _ B. apply K in B as [m B]. congruence.
Qed.
Lemma boundary_0 s : boundary s 0.
Proof. exists [], s. now split. Qed.
Lemma bytes_ascii s : ascii s -> bytes s = s.
Proof. induction 1 as [|c s Hc Hs IH]; [reflexivity|]. cbn [bytes flat_map]. unfold utf8. apply N.ltb_lt in Hc. rewrite Hc. cbn [app]. f_equal. exact IH. Qed.
Lemma boundary_dec s k : {boundary s k} + {~ boundary s k}.
Proof.
  destruct (split_bytes s (N.of_nat k)) as [[a b]|] eqn:Q; [left; apply boundary_split; eauto|right; intros H; apply boundary_split in H as (a & b & H); congruence].
Qed.
(** Rust's test for a boundary: not a continuation byte *)
Lemma utf8_cons c : scalar c -> exists b l, utf8 c = b :: l /\ ~ continuation b /\ Forall continuation l /\ (length l <= 3)%nat.
Proof.
  unfold scalar, continuation, utf8. intros H.
  pose proof (N.mod_upper_bound c 64 ltac:(discriminate)). pose proof (N.mod_upper_bound (c / 64) 64 ltac:(discriminate)). pose proof (N.mod_upper_bound (c / 4096) 64 ltac:(discriminate)).
  destruct (N.ltb_spec c 128); [|destruct (N.ltb_spec c 2048); [|destruct (N.ltb_spec c 65536)]]; eexists; eexists; pose proof (N.le_0_l (c / 64)); pose proof (N.le_0_l (c / 4096)); pose proof (N.le_0_l (c / 262144)); pose proof (N.le_0_l (c mod 64)); pose proof (N.le_0_l ((c / 64) mod 64)); pose proof (N.le_0_l ((c / 4096) mod 64)); (splits; [reflexivity|lia|repeat apply Forall_cons; try apply Forall_nil; cbv beta; lia|cbn; lia]).
Qed.
Lemma boundary_byte s k : Forall scalar s -> (boundary s k <-> k = length (bytes s) \/ exists b, nth_error (bytes s) k = Some b /\ ~ continuation b).
Proof.
  intros Hs. split.
  - intros (a & b & -> & <-). destruct b as [|c b]; [left; now rewrite app_nil_r|]. right. apply Forall_app in Hs as [_ Hs]. inversion_clear Hs as [|? ? Hc _].
    destruct (utf8_cons c Hc) as (x & l & E & Hx & _). exists x. split; [|exact Hx]. rewrite bytes_app, nth_error_app2, Nat.sub_diag by lia. cbn [bytes flat_map]. now rewrite E.
  - revert k. induction Hs as [|c s Hc Hs IH]; intros k.
    + intros [->|(b & H & _)]; [apply boundary_0|]. destruct k; discriminate.
    + destruct (utf8_cons c Hc) as (x & l & E & Hx & Hl & _). cbn [bytes flat_map]. intros H. destruct (Nat.lt_ge_cases k (length (utf8 c))) as [L|L].
      * destruct H as [->|(b & H & Hb)]; [rewrite app_length in L; lia|]. rewrite nth_error_app1 in H by exact L. rewrite E in H. destruct k; [apply boundary_0|].
        cbn in H. apply nth_error_In in H. rewrite Forall_forall in Hl. now apply Hl in H.
      * assert (B : boundary s (k - length (utf8 c))).
        { apply IH. destruct H as [->|(b & H & Hb)]; [left; rewrite app_length; unfold bytes; lia|]. right. exists b. rewrite nth_error_app2 in H by exact L. now split. }
        destruct B as (a & b & -> & B). exists (c :: a), b. split; [reflexivity|]. cbn [bytes flat_map]. rewrite app_length. unfold bytes in B. lia.
Qed.

(** ** The parser *)
Lemma arg_cuts_snoc args : forall pos a, arg_cuts pos (args ++ [a]) = arg_cuts pos args ++ [pos + length (each_comma args); pos + length (each_comma args) + length a]%nat.
Proof.
  induction args as [|b args IH]; intros pos a; cbn [arg_cuts app].
  - cbn [each_comma map concat length]. now rewrite !Nat.add_0_r.
  - rewrite IH. unfold each_comma. cbn [map concat]. rewrite !app_length. cbn [length]. do 3 f_equal. all: repeat (f_equal; try lia).
Qed.
Section Aborts.
  Variables (p : profile) (input : text).
  Hypothesis Hnest : nesting_below 65536 input.

  Lemma open_step (name rest : text) : name <> [] -> plain name -> input = name ++ LPAREN :: rest ->
    (boundary input (length name) /\ exists nm, call_loop p input input 0 call_start
      = call_loop p input rest (N.of_nat (length (name ++ [LPAREN]))) (mkCS (Some nm) [] 1 (N.of_nat (length (name ++ [LPAREN])))))
    \/ (~ boundary input (length name) /\ call_loop p input input 0 call_start = Panic).
  Proof.
    intros Hn Hpl E. assert (R : call_loop p input input 0 call_start = call_loop p input (LPAREN :: rest) (N.of_nat (length name)) call_start).
    { rewrite E at 2. pose proof (run_plain p input name Hpl [] (LPAREN :: rest) call_start E) as H. cbn [length N.of_nat app] in H. exact H. }
    rewrite R. cbn [call_loop]. unfold on_char. rewrite N.eqb_refl. unfold on_open, call_start. cbn [paren_stack fun_name last_pos params length]. cbn [N.eqb orb negb].
    change (assert_ (0 =? 0)%nat) with (Ok tt). cbn [res_bind].
    destruct (N.eqb_spec (N.of_nat (length name)) 0) as [Z|Z]; [destruct name; [congruence|cbn [length] in Z; lia]|].
    change 0%N with (N.of_nat 0). destruct (boundary_dec input (length name)) as [B|B].
    - left. split; [exact B|]. destruct (slice_ok_iff input 0 (length name) ltac:(lia)) as [_ K]. destruct K as [m K]; [split; [apply boundary_0|exact B]|].
      rewrite K. cbn [res_bind]. exists m. rewrite !snoc_pos with (c := LPAREN). reflexivity.
    - right. split; [exact B|]. destruct (slice_panic_iff input 0 (length name) ltac:(lia)) as [_ K]. rewrite K; [reflexivity|tauto].
  Qed.
  Lemma comma_step (before a : text) nm ps rest : (a <> []) -> argument a -> depth_at before 1 -> input = before ++ a ++ COMMA :: rest ->
    (boundary input (length before) /\ boundary input (length before + length a) /\ exists ps', call_loop p input (a ++ COMMA :: rest) (N.of_nat (length before)) (mkCS (Some nm) ps 1 (N.of_nat (length before)))
      = call_loop p input rest (N.of_nat (length (before ++ a ++ [COMMA]))) (mkCS (Some nm) ps' 1 (N.of_nat (length (before ++ a ++ [COMMA])))))
    \/ (~ (boundary input (length before) /\ boundary input (length before + length a))
        /\ call_loop p input (a ++ COMMA :: rest) (N.of_nat (length before)) (mkCS (Some nm) ps 1 (N.of_nat (length before))) = Panic).
  Proof.
    intros Ha1 Ha2 HD E. rewrite (run_argument p input Hnest a Ha2 before (COMMA :: rest) _ 1%N); [|lia|exact E|reflexivity|exact HD].
    cbn [call_loop]. unfold on_char. change (COMMA =? LPAREN)%N with false. change (COMMA =? RPAREN)%N with false. cbv iota. rewrite N.eqb_refl.
    unfold on_comma. cbn [paren_stack fun_name params last_pos N.eqb Pos.eqb is_some assert_ res_bind].
    destruct (N.eqb_spec (N.of_nat (length before)) (N.of_nat (length (before ++ a)))) as [Q|_].
    { rewrite app_length in Q. destruct a; [congruence|]. cbn [length] in Q. lia. }
    rewrite <- app_length. assert (L : (length before <= length (before ++ a))%nat) by (rewrite app_length; lia).
    destruct (boundary_dec input (length before)) as [B1|B1]; [destruct (boundary_dec input (length (before ++ a))) as [B2|B2]|].
    - left. splits; [exact B1|exact B2|]. destruct (slice_ok_iff input _ _ L) as [_ K]. destruct K as [m K]; [now split|]. rewrite K. cbn [res_bind].
      exists (ps ++ [m]). rewrite !snoc_pos with (c := COMMA). now rewrite <- app_assoc.
    - right. split; [tauto|]. destruct (slice_panic_iff input _ _ L) as [_ K]. rewrite K; [reflexivity|tauto].
    - right. split; [tauto|]. destruct (slice_panic_iff input _ _ L) as [_ K]. rewrite K; [reflexivity|tauto].
  Qed.
  Lemma name_depth name args : plain name -> Forall good_arg args -> depth_at (name ++ LPAREN :: each_comma args) 1.
  Proof. intros Hpl Hps. pose proof (inv_count name args [] 0 Hpl Hps) as H. rewrite app_nil_r in H. unfold depth_at. rewrite H by (apply open_arg_0; constructor). lia. Qed.

  (** ** A bad cut aborts *)
  Lemma args_abort name args : forall ps nm done rest, plain name -> Forall good_arg done -> Forall good_arg args ->
    input = (name ++ LPAREN :: each_comma done) ++ each_comma args ++ rest ->
    Exists (fun k => ~ boundary input k) (arg_cuts (length (name ++ LPAREN :: each_comma done)) args) ->
    call_loop p input (each_comma args ++ rest) (N.of_nat (length (name ++ LPAREN :: each_comma done))) (mkCS (Some nm) ps 1 (N.of_nat (length (name ++ LPAREN :: each_comma done)))) = Panic.
  Proof.
    induction args as [|a args IH]; intros ps nm done rest Hpl Hd Hargs E Hx; [inversion Hx|]. inversion_clear Hargs as [|? ? [Ha1 Ha2] Hrest].
    assert (EQ : each_comma (a :: args) ++ rest = a ++ COMMA :: (each_comma args ++ rest)) by (unfold each_comma; cbn [map concat]; now rewrite <- !app_assoc).
    rewrite EQ in *. destruct (comma_step _ a nm ps _ Ha1 Ha2 (name_depth name done Hpl Hd) E) as [(B1 & B2 & ps' & S)|[_ S]]; [|exact S].
    rewrite S. replace ((name ++ LPAREN :: each_comma done) ++ a ++ [COMMA]) with (name ++ LPAREN :: each_comma (done ++ [a])).
    2: { rewrite each_comma_snoc, <- !app_assoc. reflexivity. }
    apply IH; try assumption.
    - apply Forall_app. split; [exact Hd|]. repeat constructor; assumption.
    - rewrite E, each_comma_snoc, <- !app_assoc. cbn [app]. now rewrite <- !app_assoc.
    - cbn [arg_cuts] in Hx. inversion Hx as [? ? F|? ? Hx2]; subst; [contradiction|]. inversion Hx2 as [? ? F|? ? Hx3]; subst; [contradiction|].
      eapply Exists_impl in Hx3; [|intros k Hk; exact Hk].
      replace (length (name ++ LPAREN :: each_comma (done ++ [a]))) with (length (name ++ LPAREN :: each_comma done) + length a + 1)%nat; [exact Hx3|].
      rewrite each_comma_snoc, !app_length. cbn [length]. rewrite !app_length. cbn [length]. lia.
  Qed.
  Lemma miscut_aborts : miscut input -> fun_call p input = Panic.
  Proof.
    intros (name & args & rest & E & Hn & Hpl & Hargs & k & Hk & Hb). unfold fun_call.
    destruct (open_step name _ Hn Hpl E) as [(B & nm & S)|[_ S]]; rewrite S; [|reflexivity].
    destruct Hk as [<-|Hk]; [contradiction|].
    pose proof (args_abort name args [] nm [] rest Hpl (Forall_nil _) Hargs) as A. change (each_comma []) with (@nil N) in A. unfold each_comma in A. rewrite A; [reflexivity| |].
    - rewrite E, <- app_assoc. reflexivity.
    - apply Exists_exists. exists k. split; [|exact Hb]. rewrite app_length. cbn [length]. exact Hk.
  Qed.

  (** ** Nothing else does *)
  Hypothesis Hwide : ~ ascii input.
  Inductive seen : text -> call_state -> Prop :=
  | seen_name before : plain before -> seen before call_start
  | seen_args name args cur k nm ps : name <> [] -> plain name -> Forall good_arg args -> open_arg k cur ->
      seen (name ++ LPAREN :: each_comma args ++ cur) (mkCS (Some nm) ps (N.of_nat k + 1) (N.of_nat (length (name ++ LPAREN :: each_comma args)))).
  Lemma seen_step before c rest st : input = before ++ c :: rest -> seen before st ->
    (exists st', on_char p input st (N.of_nat (length before)) c = Ok st' /\ seen (before ++ [c]) st')
    \/ on_char p input st (N.of_nat (length before)) c = Err \/ (on_char p input st (N.of_nat (length before)) c = Panic /\ miscut input).
  Proof.
    intros E Hi. unfold on_char. destruct Hi as [before Hb|name ps cur k nm ps' Hn Hpl Hps Ho].
    - destruct (N.eqb_spec c LPAREN) as [->|N1]; [|destruct (N.eqb_spec c RPAREN) as [->|N2]; [|destruct (N.eqb_spec c COMMA) as [->|N3]]].
      + unfold on_open, call_start. cbn [paren_stack fun_name last_pos params length]. cbn [N.eqb orb negb].
        change (assert_ (0 =? 0)%nat) with (Ok tt). cbn [res_bind].
        destruct (N.eqb_spec (N.of_nat (length before)) 0) as [Z|Z]; [now right; left|].
        assert (NE : before <> []) by (intros ->; now cbn in Z).
        change 0%N with (N.of_nat 0). destruct (slice_cases input (N.of_nat 0) (N.of_nat (length before))) as [[m Q]|Q]; rewrite Q; cbn [res_bind].
        * left. eexists. split; [reflexivity|]. pose proof (seen_args before [] [] 0 m [] NE Hb (Forall_nil _)) as H. cbn [each_comma concat map app] in H.
          rewrite (snoc_pos before LPAREN). apply H. now apply open_arg_0; constructor.
        * right. right. split; [reflexivity|]. exists before, [], rest. splits; auto. exists (length before). split; [now left|].
          apply slice_panic_iff in Q; [|lia]. intros B. apply Q. split; [apply boundary_0|exact B].
      + right. left. reflexivity.
      + right. left. reflexivity.
      + left. exists call_start. split; [reflexivity|]. apply seen_name. apply Forall_app. split; [exact Hb|]. repeat constructor. unfold special. intuition.
    - set (before := name ++ LPAREN :: each_comma ps ++ cur) in *.
      assert (S0 : (N.of_nat k + 1 =? 0)%N = false) by (apply N.eqb_neq; lia).
      destruct (N.eqb_spec c LPAREN) as [->|N1]; [|destruct (N.eqb_spec c RPAREN) as [->|N2]; [|destruct (N.eqb_spec c COMMA) as [->|N3]]].
      + left. unfold on_open. cbn [paren_stack fun_name last_pos params]. rewrite S0.
        pose proof (Hnest (before ++ [LPAREN]) rest) as HN. rewrite <- app_assoc in HN. specialize (HN E). rewrite !count_app in HN.
        unfold before in HN. rewrite (inv_count name ps cur k Hpl Hps Ho) in HN.
        change (count LPAREN [LPAREN]) with 1%nat in HN. change (count RPAREN [LPAREN]) with 0%nat in HN.
        unfold ufit. destruct (N.ltb_spec (N.of_nat k + 1 + 1) (2 ^ 16)) as [_|F]; [|change (2 ^ 16)%N with 65536%N in F; lia].
        cbn [res_bind]. eexists. split; [reflexivity|]. unfold before. rewrite <- app_assoc. cbn [app]. rewrite <- app_assoc.
        replace (N.of_nat k + 1 + 1)%N with (N.of_nat (S k) + 1)%N by lia. apply seen_args; try assumption. now apply open_arg_open.
      + unfold on_close. cbn [paren_stack fun_name last_pos params]. rewrite S0.
        destruct (N.eqb_spec (N.of_nat k + 1) 1) as [K1|K1].
        * pose proof (str_len_wide input Hwide) as SW. rewrite usub_ok by lia. cbn [res_bind].
          destruct (N.eqb_spec (N.of_nat (length before)) (str_len input - 1)) as [Q|Q]; [|now right; left].
          exfalso. assert (length before < length input)%nat by (rewrite E, app_length; cbn [length]; lia). lia.
        * left. cbn [res_bind paren_stack fun_name last_pos params]. unfold usub. destruct (N.leb_spec 1 (N.of_nat k + 1)); [|lia]. cbn [res_bind].
          destruct k as [|k]; [lia|]. eexists. split; [reflexivity|]. replace (N.of_nat (S k) + 1 - 1)%N with (N.of_nat k + 1)%N by lia.
          unfold before. rewrite <- app_assoc. cbn [app]. rewrite <- app_assoc. apply seen_args; try assumption. now apply open_arg_close.
      + unfold on_comma. cbn [paren_stack fun_name last_pos params]. rewrite S0.
        destruct (N.eqb_spec (N.of_nat k + 1) 1) as [K1|K1].
        * assert (k = 0%nat) by lia. subst k. apply open_arg_0 in Ho. cbn [is_some assert_ res_bind].
          destruct (N.eqb_spec (N.of_nat (length (name ++ LPAREN :: each_comma ps))) (N.of_nat (length before))) as [Q|Q]; [now right; left|].
          assert (NE : cur <> []) by (intros ->; apply Q; unfold before; now rewrite app_nil_r).
          assert (HF : Forall good_arg (ps ++ [cur])) by (apply Forall_app; split; [exact Hps|]; repeat constructor; assumption).
          assert (L : length before = (length (name ++ LPAREN :: each_comma ps) + length cur)%nat).
          { unfold before. rewrite !app_length. cbn [length]. rewrite app_length. lia. }
          destruct (slice_cases input (N.of_nat (length (name ++ LPAREN :: each_comma ps))) (N.of_nat (length before))) as [[m SL]|SL]; rewrite SL; cbn [res_bind].
          -- left. eexists. split; [reflexivity|]. pose proof (seen_args name (ps ++ [cur]) [] 0 nm (ps' ++ [m]) Hn Hpl) as H. rewrite each_comma_snoc, app_nil_r in H.
             rewrite (snoc_pos before COMMA). unfold before. rewrite <- app_assoc. cbn [app]. rewrite <- app_assoc.
             apply H; [exact HF|now apply open_arg_0; constructor].
          -- right. right. split; [reflexivity|]. exists name, (ps ++ [cur]), rest. splits; auto.
             { rewrite E. unfold before. change (concat (map (fun a => a ++ [COMMA]) (ps ++ [cur]))) with (each_comma (ps ++ [cur])).
               rewrite each_comma_snoc, <- !app_assoc. cbn [app]. now rewrite <- !app_assoc. }
             unfold cuts. rewrite arg_cuts_snoc. rewrite slice_panic_iff in SL by lia.
             assert (P : (length name + 1 + length (each_comma ps))%nat = length (name ++ LPAREN :: each_comma ps)) by (rewrite app_length; cbn [length]; lia).
             destruct (boundary_dec input (length (name ++ LPAREN :: each_comma ps))) as [B|B].
             ++ exists (length before). split; [|tauto]. right. apply in_or_app. right. right. left. rewrite P. now rewrite L.
             ++ exists (length (name ++ LPAREN :: each_comma ps)). split; [|exact B]. right. apply in_or_app. right. left. exact P.
        * left. eexists. split; [reflexivity|]. unfold before. rewrite <- app_assoc. cbn [app]. rewrite <- app_assoc.
          apply seen_args; try assumption. apply open_arg_char; auto; try discriminate. lia.
      + left. eexists. split; [reflexivity|]. unfold before. rewrite <- app_assoc. cbn [app]. rewrite <- app_assoc. apply seen_args; try assumption. apply open_arg_char; auto.
  Qed.
  Lemma seen_loop rest : forall before st, input = before ++ rest -> seen before st ->
    call_loop p input rest (N.of_nat (length before)) st = Panic -> miscut input.
  Proof.
    induction rest as [|c rest IH]; intros before st E Hi; cbn [call_loop]; [discriminate|].
    destruct (seen_step before c rest st E Hi) as [(st' & -> & Hi')|[->|[-> M]]]; cbn [res_bind]; [|discriminate|now intros _].
    rewrite (snoc_pos before c). apply IH; [|exact Hi']. now rewrite <- app_assoc.
  Qed.
  Lemma aborts_miscut : fun_call p input = Panic -> miscut input.
  Proof.
    unfold fun_call. destruct (call_loop _ _ _ _ _) as [st| |] eqn:L; cbn [res_bind]; try discriminate.
    - destruct (negb _); [discriminate|]. destruct (fun_name st); discriminate.
    - intros _. exact (seen_loop input [] call_start eq_refl (seen_name [] (Forall_nil _)) L).
  Qed.
End Aborts.

Lemma ascii_dec s : {ascii s} + {~ ascii s}.
Proof. apply Forall_dec. intros c. destruct (c <? 128)%N eqn:E; [left; now apply N.ltb_lt|right; apply N.ltb_ge in E; lia]. Qed.
Lemma arg_cuts_le args : forall pos k, In k (arg_cuts pos args) -> (k <= pos + length (each_comma args))%nat.
Proof.
  induction args as [|a args IH]; intros pos k H; [destruct H|]. unfold each_comma in *. cbn [arg_cuts map concat] in *. rewrite !app_length. cbn [length].
  destruct H as [<-|[<-|H]]; [lia|lia|]. apply IH in H. lia.
Qed.
Lemma ascii_boundary s k : ascii s -> (k <= length s)%nat -> boundary s k.
Proof.
  intros H L. exists (firstn k s), (skipn k s). split; [now rewrite firstn_skipn|]. rewrite bytes_ascii; [now apply firstn_length_le|].
  rewrite <- (firstn_skipn k s) in H. now apply ascii_app in H as [H _].
Qed.
Lemma aborts_iff p s : nesting_below 65536 s -> (fun_call p s = Panic <-> miscut s).
Proof.
  intros Hn. split; [|now apply miscut_aborts]. destruct (ascii_dec s) as [H|H]; [|now apply aborts_miscut].
  intros Q. exfalso. now apply (proj2 (fun_call_spec p s H Hn)).
Qed.
(** Three outcomes *)
Lemma outcomes p s : nesting_below 65536 s ->
  (forall name args, fun_call p s = Ok (name, args) <-> ascii s /\ is_call s name args)
  /\ (fun_call p s = Panic <-> miscut s)
  /\ (fun_call p s = Err <-> ~ miscut s /\ forall name args, ~ (ascii s /\ is_call s name args)).
Proof.
  intros Hn. assert (A : forall name args, fun_call p s = Ok (name, args) <-> ascii s /\ is_call s name args).
  { intros name args. destruct (ascii_dec s) as [H|H].
    - rewrite (proj1 (fun_call_spec p s H Hn)). tauto.
    - split; [|tauto]. intros Q. now apply wide_rejected in Q; [|exact H|left]. }
  assert (B := aborts_iff p s Hn). splits; [exact A|exact B|].
  destruct (fun_call p s) as [[n a]| |] eqn:Q.
  - split; [discriminate|]. intros [_ H]. exfalso. apply (H n a). now apply A.
  - split; [|reflexivity]. intros _. split; [intros M; now apply B in M|]. intros n a H. apply A in H. discriminate.
  - split; [discriminate|]. intros [H _]. exfalso. now apply H, B.
Qed.

(** Two accented letters: the name is cut between them, the first argument inside the second letter *)
Definition two_acute : text := E_ACUTE :: E_ACUTE :: txt "(b,c)".
Lemma two_acute_case p : nesting_below 65536 two_acute /\ miscut two_acute /\ boundary two_acute 2 /\ ~ boundary two_acute 3 /\ fun_call p two_acute = Panic
  /\ fun_call p (E_ACUTE :: E_ACUTE :: txt "(b)") = Err /\ ~ miscut (E_ACUTE :: E_ACUTE :: txt "(b)").
Proof.
  assert (S : forall c, (c =? LPAREN)%N = false -> (c =? RPAREN)%N = false -> (c =? COMMA)%N = false -> ~ special c).
  { intros c H1 H2 H3 [->|[->| ->]]; discriminate. }
  assert (NB : forall s : text, (length s < 100)%nat -> nesting_below 65536 s).
  { intros s H a b ->. unfold count. rewrite app_length in H. assert (length (filter (fun x => (x =? LPAREN)%N) a) <= length a)%nat by (clear; induction a as [|x a IH]; cbn [filter length]; [lia|]; destruct (x =? LPAREN)%N; cbn [length]; lia). lia. }
  assert (B3 : ~ boundary two_acute 3).
  { intros B. apply boundary_split in B as (a & b & B). discriminate. }
  splits.
  - apply NB. cbn. lia.
  - exists [E_ACUTE; E_ACUTE], [txt "b"], (txt "c)"). splits; [reflexivity|discriminate|repeat constructor; now apply S| |].
    + repeat constructor; [discriminate|now apply S].
    + exists 3%nat. split; [right; now left|exact B3].
  - exists [E_ACUTE], (E_ACUTE :: txt "(b,c)"). now split.
  - exact B3.
  - destruct p; reflexivity.
  - destruct p; reflexivity.
  - rewrite <- (aborts_iff Debug); [discriminate|]. apply NB. cbn. lia.
Qed.
