(** * Proofs about src/prs.rs (C46-C48). *)
From Verif Require Import Base Prs PrsSpec.

Ltac splits := repeat match goal with |- _ /\ _ => split end.

Lemma usub_ok p m a b : (b <= a)%N -> usub p m a b = Ok (a - b)%N.
Proof. intros H. unfold usub. apply N.leb_le in H. now rewrite H. Qed.
(** ** ASCII text: byte and character positions agree *)
Lemma utf8_len_ascii c : (c < 128)%N -> utf8_len c = 1%N.
Proof. intros H. unfold utf8_len. apply N.ltb_lt in H. now rewrite H. Qed.
Lemma utf8_len_pos c : (1 <= utf8_len c)%N.
Proof. unfold utf8_len. repeat destruct (_ <? _)%N; lia. Qed.
Lemma utf8_len_wide c : (128 <= c)%N -> (2 <= utf8_len c)%N.
Proof. intros H. unfold utf8_len. apply N.ltb_ge in H. rewrite H. repeat destruct (_ <? _)%N; lia. Qed.
Lemma str_len_ascii s : ascii s -> str_len s = N.of_nat (length s).
Proof. induction 1 as [|c s Hc Hs IH]; [reflexivity|]. cbn [str_len length]. rewrite utf8_len_ascii by assumption. lia. Qed.
Lemma str_len_ge s : (N.of_nat (length s) <= str_len s)%N.
Proof. induction s as [|c s IH]; [reflexivity|]. cbn [str_len length]. pose proof (utf8_len_pos c). lia. Qed.
Lemma str_len_wide s : ~ ascii s -> (N.of_nat (length s) < str_len s)%N.
Proof.
  induction s as [|c s IH]; intros H; [destruct H; constructor|]. cbn [str_len length].
  destruct (N.lt_ge_cases c 128) as [Hc|Hc].
  - assert (Hs : ~ ascii s) by (intros Hs; apply H; now constructor). apply IH in Hs. pose proof (utf8_len_pos c). lia.
  - pose proof (utf8_len_wide c Hc). pose proof (str_len_ge s). lia.
Qed.
Lemma split_ascii a b : ascii a -> split_bytes (a ++ b) (N.of_nat (length a)) = Some (a, b).
Proof.
  induction 1 as [|c a Hc Ha IH]; [destruct b; reflexivity|]. cbn [app length]. cbn [split_bytes].
  destruct (N.eqb_spec (N.of_nat (S (length a))) 0) as [E|_]; [lia|]. rewrite (utf8_len_ascii c Hc).
  destruct (N.leb_spec 1 (N.of_nat (S (length a)))); [|lia]. replace (N.of_nat (S (length a)) - 1)%N with (N.of_nat (length a)) by lia. now rewrite IH.
Qed.
Lemma slice_ascii a m b : ascii a -> ascii m -> slice (a ++ m ++ b) (N.of_nat (length a)) (N.of_nat (length a) + N.of_nat (length m)) = Ok m.
Proof.
  intros Ha Hm. unfold slice. destruct (N.leb_spec (N.of_nat (length a)) (N.of_nat (length a) + N.of_nat (length m))); [|lia].
  rewrite (split_ascii a _ Ha). replace (N.of_nat (length a) + N.of_nat (length m) - N.of_nat (length a))%N with (N.of_nat (length m)) by lia.
  now rewrite (split_ascii m b Hm).
Qed.
Lemma ascii_app a b : ascii (a ++ b) <-> ascii a /\ ascii b.
Proof. apply Forall_app. Qed.
Lemma ascii_cons c b : ascii (c :: b) <-> (c < 128)%N /\ ascii b.
Proof. split; [intros H; inversion_clear H; auto|intros [H1 H2]; now constructor]. Qed.

(** ** Balanced text *)
Lemma balanced_app a b : balanced a -> balanced b -> balanced (a ++ b).
Proof.
  induction 1 as [|c s H1 H2 H3 IH|s t H1 IH1 H2 IH2]; intros Hb; [exact Hb|cbn; now constructor; auto|].
  cbn [app]. rewrite <- app_assoc. cbn [app]. apply bal_group; auto.
Qed.
Lemma argument_app a b : argument a -> argument b -> argument (a ++ b).
Proof.
  induction 1 as [|c s H1 H3 IH|s t H1 H2 IH2]; intros Hb; [exact Hb|cbn; now constructor; auto|].
  cbn [app]. rewrite <- app_assoc. cbn [app]. apply arg_group; auto.
Qed.
Lemma balanced_one c : c <> LPAREN -> c <> RPAREN -> balanced [c].
Proof. intros H1 H2. apply bal_char; auto. constructor. Qed.
Lemma argument_one c : ~ special c -> argument [c].
Proof. intros H. apply arg_char; auto. constructor. Qed.
Lemma balanced_group b : balanced b -> balanced (LPAREN :: b ++ [RPAREN]).
Proof. intros H. apply (bal_group b []); [exact H|constructor]. Qed.
Lemma argument_group b : balanced b -> argument (LPAREN :: b ++ [RPAREN]).
Proof. intros H. apply (arg_group b []); [exact H|constructor]. Qed.
(** Text with [k] open groups, innermost first *)
Definition open_arg (k : nat) (cur : text) : Prop :=
  exists a bs, argument a /\ Forall balanced bs /\ length bs = k /\ cur = a ++ concat (map (cons LPAREN) (rev bs)).
Lemma open_arg_0 cur : open_arg 0 cur <-> argument cur.
Proof.
  split.
  - intros (a & bs & Ha & _ & Hl & ->). destruct bs; [|discriminate]. cbn. now rewrite app_nil_r.
  - intros H. exists cur, []. splits; auto. cbn. now rewrite app_nil_r.
Qed.
Lemma concat_rev_cons b bs : concat (map (cons LPAREN) (rev (b :: bs))) = concat (map (cons LPAREN) (rev bs)) ++ LPAREN :: b.
Proof. cbn [rev]. rewrite map_app, concat_app. cbn. now rewrite app_nil_r. Qed.
Lemma open_arg_char k cur c : open_arg k cur -> c <> LPAREN -> c <> RPAREN -> (k = 0%nat -> c <> COMMA) -> open_arg k (cur ++ [c]).
Proof.
  intros (a & bs & Ha & Hb & Hl & ->) H1 H2 H3. destruct bs as [|b bs].
  - exists (a ++ [c]), []. cbn in Hl. splits; auto; [|cbn; now rewrite !app_nil_r].
    apply argument_app; [exact Ha|]. apply argument_one. unfold special. intuition.
  - exists a, ((b ++ [c]) :: bs). inversion_clear Hb. splits; auto.
    + constructor; [|assumption]. apply balanced_app; [assumption|now apply balanced_one].
    + rewrite !concat_rev_cons, <- !app_assoc. reflexivity.
Qed.
Lemma open_arg_open k cur : open_arg k cur -> open_arg (S k) (cur ++ [LPAREN]).
Proof.
  intros (a & bs & Ha & Hb & Hl & ->). exists a, ([] :: bs). splits; auto.
  - constructor; [constructor|assumption].
  - cbn [length]. now rewrite Hl.
  - rewrite concat_rev_cons, <- app_assoc. reflexivity.
Qed.
Lemma open_arg_close k cur : open_arg (S k) cur -> open_arg k (cur ++ [RPAREN]).
Proof.
  intros (a & bs & Ha & Hb & Hl & ->). destruct bs as [|b bs]; [discriminate|]. inversion_clear Hb as [|? ? Hb1 Hb2].
  cbn [length] in Hl. injection Hl as Hl. rewrite concat_rev_cons. destruct bs as [|b' bs].
  - exists (a ++ LPAREN :: b ++ [RPAREN]), []. splits; auto.
    + apply argument_app; [exact Ha|now apply argument_group].
    + cbn. now rewrite app_nil_r, <- app_assoc.
  - inversion_clear Hb2. exists a, ((b' ++ LPAREN :: b ++ [RPAREN]) :: bs). splits; auto.
    + constructor; [|assumption]. apply balanced_app; [assumption|now apply balanced_group].
    + rewrite !concat_rev_cons, <- !app_assoc. cbn [app]. now rewrite <- ?app_assoc.
Qed.

(** ** Counting parentheses *)
Lemma count_app c a b : count c (a ++ b) = (count c a + count c b)%nat.
Proof. unfold count. now rewrite filter_app, app_length. Qed.
Lemma count_plain c s : plain s -> special c -> count c s = 0%nat.
Proof.
  intros Hs Hc. unfold count. induction Hs as [|x s Hx Hs IH]; [reflexivity|]. cbn [filter].
  destruct (N.eqb_spec x c) as [->|_]; [contradiction|exact IH].
Qed.
Lemma count_balanced b : balanced b -> count LPAREN b = count RPAREN b.
Proof.
  induction 1 as [|c s H1 H2 H IH|s t H1 IH1 H2 IH2]; [reflexivity| |].
  - change (c :: s) with ([c] ++ s). rewrite !count_app, IH. unfold count. cbn.
    destruct (N.eqb_spec c LPAREN); [congruence|]. destruct (N.eqb_spec c RPAREN); [congruence|]. reflexivity.
  - change (LPAREN :: s ++ RPAREN :: t) with ([LPAREN] ++ s ++ [RPAREN] ++ t). rewrite !count_app, IH1, IH2.
    change (count LPAREN [LPAREN]) with 1%nat. change (count RPAREN [LPAREN]) with 0%nat.
    change (count LPAREN [RPAREN]) with 0%nat. change (count RPAREN [RPAREN]) with 1%nat. lia.
Qed.
Lemma argument_balanced a : argument a -> balanced a.
Proof. induction 1 as [|c s H1 H IH|s t H1 H2 IH]; [constructor| |now constructor]. constructor; auto; intros ->; apply H1; unfold special; auto. Qed.

(** ** Soundness: what the loop has seen *)
Definition good_arg (a : text) : Prop := a <> [] /\ argument a.
Definition each_comma (ps : list text) : text := concat (map (fun a => a ++ [COMMA]) ps).
Lemma each_comma_snoc ps a : each_comma (ps ++ [a]) = each_comma ps ++ a ++ [COMMA].
Proof. unfold each_comma. rewrite map_app, concat_app. cbn. now rewrite app_nil_r. Qed.
Lemma commas_snoc ps a : commas (ps ++ [a]) = each_comma ps ++ a.
Proof.
  induction ps as [|b ps IH]; [reflexivity|]. cbn [app]. assert (E : exists x y, ps ++ [a] = x :: y) by (destruct ps; cbn; eauto).
  destruct E as (x & y & E). cbn [commas]. rewrite E in *. rewrite IH. unfold each_comma. cbn [map concat]. now rewrite <- !app_assoc.
Qed.

Section Loop.
  Variables (p : profile) (input : text).
  Hypothesis Hascii : ascii input.
  Hypothesis Hnest : nesting_below 65536 input.

  Inductive inv : text -> call_state -> Prop :=
  | inv_name before : plain before -> inv before call_start
  | inv_args name ps cur k : name <> [] -> plain name -> Forall good_arg ps -> open_arg k cur ->
      inv (name ++ LPAREN :: each_comma ps ++ cur)
        (mkCS (Some name) ps (N.of_nat k + 1) (N.of_nat (length (name ++ LPAREN :: each_comma ps))))
  | inv_done name ps : is_call input name ps -> inv input (mkCS (Some name) ps 0 (N.of_nat (length input))).

  Lemma open_count k cur : open_arg k cur -> count LPAREN cur = (k + count RPAREN cur)%nat.
  Proof.
    intros (a & bs & Ha & Hb & Hl & ->). rewrite !count_app. rewrite (count_balanced a (argument_balanced a Ha)).
    enough (H : count LPAREN (concat (map (cons LPAREN) (rev bs))) = (k + count RPAREN (concat (map (cons LPAREN) (rev bs))))%nat) by lia.
    subst k. induction Hb as [|b bs Hb1 Hb2 IH]; [reflexivity|]. rewrite concat_rev_cons.
    change (LPAREN :: b) with ([LPAREN] ++ b). rewrite !count_app, (count_balanced b Hb1). unfold text in IH |- *. rewrite IH.
    change (count LPAREN [LPAREN]) with 1%nat. change (count RPAREN [LPAREN]) with 0%nat. cbn [length]. lia.
  Qed.
  Lemma args_count ps : Forall good_arg ps -> count LPAREN (each_comma ps) = count RPAREN (each_comma ps).
  Proof.
    induction 1 as [|a ps [_ Ha] Hps IH]; [reflexivity|]. unfold each_comma in *. cbn [map concat]. rewrite !count_app, IH.
    rewrite (count_balanced a (argument_balanced a Ha)). reflexivity.
  Qed.
  Lemma special_open : special LPAREN. Proof. now left. Qed.
  Lemma special_close : special RPAREN. Proof. right. now left. Qed.
  Lemma special_comma : special COMMA. Proof. right. now right. Qed.
  (** How many parentheses are open *)
  Lemma inv_count name ps cur k : plain name -> Forall good_arg ps -> open_arg k cur ->
    count LPAREN (name ++ LPAREN :: each_comma ps ++ cur) = (S k + count RPAREN (name ++ LPAREN :: each_comma ps ++ cur))%nat.
  Proof.
    intros Hn Hp Ho. change (LPAREN :: each_comma ps ++ cur) with ([LPAREN] ++ each_comma ps ++ cur). rewrite !count_app.
    rewrite (count_plain LPAREN name Hn special_open), (count_plain RPAREN name Hn special_close), (args_count ps Hp), (open_count k cur Ho).
    change (count LPAREN [LPAREN]) with 1%nat. change (count RPAREN [LPAREN]) with 0%nat. lia.
  Qed.

  (** The slice of the current argument *)
  Lemma cur_slice name ps cur rest : input = (name ++ LPAREN :: each_comma ps ++ cur) ++ rest ->
    slice input (N.of_nat (length (name ++ LPAREN :: each_comma ps))) (N.of_nat (length (name ++ LPAREN :: each_comma ps ++ cur))) = Ok cur.
  Proof.
    intros E. assert (E' : input = (name ++ LPAREN :: each_comma ps) ++ cur ++ rest) by (rewrite E, <- !app_assoc; cbn [app]; now rewrite <- app_assoc).
    rewrite E'. replace (N.of_nat (length (name ++ LPAREN :: each_comma ps ++ cur)))
      with (N.of_nat (length (name ++ LPAREN :: each_comma ps)) + N.of_nat (length cur))%N.
    - apply slice_ascii; rewrite E' in Hascii; apply ascii_app in Hascii as [H1 H2]; [exact H1|]. now apply ascii_app in H2 as [H2 _].
    - rewrite !app_length. cbn [length]. rewrite app_length. lia.
  Qed.

  Lemma step before c rest st : input = before ++ c :: rest -> inv before st ->
    on_char p input st (N.of_nat (length before)) c = Err
    \/ exists st', on_char p input st (N.of_nat (length before)) c = Ok st' /\ inv (before ++ [c]) st'.
  Proof.
    intros E Hi. unfold on_char. destruct Hi as [before Hb|name ps cur k Hn Hpl Hps Ho|name ps Hc].
    - (* still in the name *)
      destruct (N.eqb_spec c LPAREN) as [->|N1]; [|destruct (N.eqb_spec c RPAREN) as [->|N2]; [|destruct (N.eqb_spec c COMMA) as [->|N3]]].
      + unfold on_open, call_start. cbn [paren_stack fun_name last_pos params length]. cbn [N.eqb orb negb].
        change (assert_ (0 =? 0)%nat) with (Ok tt). cbn [res_bind].
        destruct (N.eqb_spec (N.of_nat (length before)) 0) as [Z|Z]; [now left|]. right.
        rewrite E. pose proof (slice_ascii [] before (LPAREN :: rest)) as Hs. cbn [app length N.of_nat] in Hs. rewrite N.add_0_l in Hs.
        rewrite Hs; [|constructor|rewrite E in Hascii; now apply ascii_app in Hascii as [H _]]. cbn [res_bind]. eexists. split; [reflexivity|].
        pose proof (inv_args before [] [] 0) as H. cbn [each_comma concat map app] in H.
        replace (N.of_nat (length before) + 1)%N with (N.of_nat (length (before ++ [LPAREN]))) by (rewrite app_length; cbn [length]; lia).
        apply H; [intros ->; cbn in Z; congruence|exact Hb|constructor|now apply open_arg_0; constructor].
      + left. reflexivity.
      + left. reflexivity.
      + right. exists call_start. split; [reflexivity|]. apply inv_name. apply Forall_app. split; [exact Hb|]. repeat constructor.
        unfold special. intuition.
    - set (before := name ++ LPAREN :: each_comma ps ++ cur) in *.
      assert (S0 : (N.of_nat k + 1 =? 0)%N = false) by (apply N.eqb_neq; lia).
      destruct (N.eqb_spec c LPAREN) as [->|N1]; [|destruct (N.eqb_spec c RPAREN) as [->|N2]; [|destruct (N.eqb_spec c COMMA) as [->|N3]]].
      + (* deeper *)
        right. unfold on_open. cbn [paren_stack fun_name last_pos params]. rewrite S0.
        pose proof (Hnest (before ++ [LPAREN]) rest) as HN. rewrite <- app_assoc in HN. specialize (HN E). rewrite !count_app in HN.
        unfold before in HN. rewrite (inv_count name ps cur k Hpl Hps Ho) in HN.
        change (count LPAREN [LPAREN]) with 1%nat in HN. change (count RPAREN [LPAREN]) with 0%nat in HN.
        unfold ufit. destruct (N.ltb_spec (N.of_nat k + 1 + 1) (2 ^ 16)) as [_|F]; [|change (2 ^ 16)%N with 65536%N in F; lia].
        cbn [res_bind]. eexists. split; [reflexivity|]. unfold before. rewrite <- app_assoc. cbn [app]. rewrite <- app_assoc.
        replace (N.of_nat k + 1 + 1)%N with (N.of_nat (S k) + 1)%N by lia. apply inv_args; try assumption. now apply open_arg_open.
      + (* closing *)
        unfold on_close. cbn [paren_stack fun_name last_pos params]. rewrite S0.
        destruct (N.eqb_spec (N.of_nat k + 1) 1) as [K1|K1].
        * assert (k = 0%nat) by lia. subst k. apply open_arg_0 in Ho.
          assert (L : (1 <= str_len input)%N) by (pose proof (str_len_ge input); rewrite E in *; rewrite app_length in *; cbn [length] in *; lia).
          rewrite (usub_ok _ _ _ _ L). cbn [res_bind]. rewrite (str_len_ascii input Hascii).
          destruct (N.eqb_spec (N.of_nat (length before)) (N.of_nat (length input) - 1)) as [Q|Q]; [|left; reflexivity]. cbn [negb].
          assert (R : rest = []).
          { rewrite E in Q. rewrite app_length in Q. cbn [length] in Q. destruct rest; [reflexivity|]. cbn [length] in Q. lia. }
          subst rest. cbn [is_some assert_ res_bind].
          destruct (N.eqb_spec (N.of_nat (length before)) (N.of_nat (length (name ++ LPAREN :: each_comma ps)))) as [Q2|Q2].
          -- assert (cur = []).
             { unfold before in Q2. rewrite !app_length in Q2. cbn [length] in Q2. rewrite app_length in Q2. destruct cur; [reflexivity|cbn [length] in Q2; lia]. }
             subst cur. destruct ps as [|a ps]; [|left; reflexivity]. right. cbn [length]. cbn [Nat.ltb Nat.leb res_bind paren_stack fun_name last_pos params]. rewrite usub_ok by lia. cbn [res_bind].
             eexists. split; [reflexivity|]. rewrite <- E.
             replace (N.of_nat (length before) + 1)%N with (N.of_nat (length input)) by (rewrite E, app_length; cbn [length]; lia).
             apply inv_done. unfold is_call. splits; auto. rewrite E. unfold before. cbn [each_comma map concat commas app]. now rewrite <- app_assoc.
          -- right. unfold before. rewrite (cur_slice name ps cur [RPAREN] E). cbn [res_bind paren_stack fun_name last_pos params]. rewrite usub_ok by lia. cbn [res_bind].
             eexists. split; [reflexivity|]. fold before. rewrite <- E.
             replace (N.of_nat (length before) + 1)%N with (N.of_nat (length input)) by (rewrite E, app_length; cbn [length]; lia).
             apply inv_done. unfold is_call. splits; auto.
             ++ apply Forall_app. split; [exact Hps|]. repeat constructor; [|exact Ho]. intros ->. apply Q2. unfold before. now rewrite app_nil_r.
             ++ rewrite E, commas_snoc. unfold before. rewrite <- !app_assoc. cbn [app]. now rewrite <- !app_assoc.
        * right. cbn [res_bind paren_stack fun_name last_pos params]. unfold usub. destruct (N.leb_spec 1 (N.of_nat k + 1)); [|lia]. cbn [res_bind].
          destruct k as [|k]; [lia|]. eexists. split; [reflexivity|]. replace (N.of_nat (S k) + 1 - 1)%N with (N.of_nat k + 1)%N by lia.
          unfold before. rewrite <- app_assoc. cbn [app]. rewrite <- app_assoc. apply inv_args; try assumption. now apply open_arg_close.
      + (* a comma *)
        unfold on_comma. cbn [paren_stack fun_name last_pos params]. rewrite S0.
        destruct (N.eqb_spec (N.of_nat k + 1) 1) as [K1|K1].
        * assert (k = 0%nat) by lia. subst k. apply open_arg_0 in Ho. cbn [is_some assert_ res_bind].
          destruct (N.eqb_spec (N.of_nat (length (name ++ LPAREN :: each_comma ps))) (N.of_nat (length before))) as [Q|Q]; [left; reflexivity|].
          right. unfold before. rewrite (cur_slice name ps cur (COMMA :: rest) E). cbn [res_bind]. eexists. split; [reflexivity|].
          assert (NE : cur <> []) by (intros ->; apply Q; unfold before; now rewrite app_nil_r).
          pose proof (inv_args name (ps ++ [cur]) [] 0 Hn Hpl) as H. rewrite each_comma_snoc, app_nil_r in H.
          replace (N.of_nat (length (name ++ LPAREN :: each_comma ps ++ cur)) + 1)%N
            with (N.of_nat (length (name ++ LPAREN :: each_comma ps ++ cur ++ [COMMA]))).
          2: { rewrite !app_length. cbn [length]. rewrite !app_length. cbn [length]. lia. }
          rewrite <- app_assoc. cbn [app]. rewrite <- app_assoc. apply H; [|now apply open_arg_0; constructor].
          apply Forall_app. split; [exact Hps|]. repeat constructor; assumption.
        * right. eexists. split; [reflexivity|]. unfold before. rewrite <- app_assoc. cbn [app]. rewrite <- app_assoc.
          apply inv_args; try assumption. apply open_arg_char; auto; try discriminate. lia.
      + right. eexists. split; [reflexivity|]. unfold before. rewrite <- app_assoc. cbn [app]. rewrite <- app_assoc.
        apply inv_args; try assumption. apply open_arg_char; auto.
    - exfalso. apply (f_equal (@length N)) in E. rewrite app_length in E. cbn [length] in E. lia.
  Qed.
  Lemma loop_sound rest : forall before st, input = before ++ rest -> inv before st ->
    call_loop p input rest (N.of_nat (length before)) st = Err \/ exists st', call_loop p input rest (N.of_nat (length before)) st = Ok st' /\ inv input st'.
  Proof.
    induction rest as [|c rest IH]; intros before st E Hi; cbn [call_loop].
    - right. exists st. split; [reflexivity|]. rewrite app_nil_r in E. now rewrite E.
    - destruct (step before c rest st E Hi) as [->|(st' & -> & Hi')]; [now left|]. cbn [res_bind].
      replace (N.of_nat (length before) + 1)%N with (N.of_nat (length (before ++ [c]))) by (rewrite app_length; cbn [length]; lia).
      apply IH; [|exact Hi']. now rewrite <- app_assoc.
  Qed.
  Lemma fun_call_sound : fun_call p input = Err \/ exists name args, fun_call p input = Ok (name, args) /\ is_call input name args.
  Proof.
    unfold fun_call. destruct (loop_sound input [] call_start eq_refl (inv_name [] (Forall_nil _))) as [H|(st & H & Hi)]; cbn [length N.of_nat] in H.
    { rewrite H. now left. }
    rewrite H. cbn [res_bind]. inversion Hi as [b Hb E1 E2|name ps cur k Hn Hpl Hps Ho E1 E2|name ps Hc E2].
    - left. reflexivity.
    - cbn [paren_stack]. left. destruct (N.eqb_spec (N.of_nat k + 1) 0); [lia|]. reflexivity.
    - cbn [paren_stack fun_name params]. right. exists name, ps. split; [reflexivity|assumption].
  Qed.

  (** ** Completeness *)
  Definition depth_at (before : text) (d : N) : Prop := N.of_nat (count LPAREN before) = (d + N.of_nat (count RPAREN before))%N.
  Lemma depth_char before c d : depth_at before d -> c <> LPAREN -> c <> RPAREN -> depth_at (before ++ [c]) d.
  Proof.
    unfold depth_at. intros H H1 H2. rewrite !count_app. unfold count at 2 4. cbn.
    destruct (N.eqb_spec c LPAREN); [congruence|]. destruct (N.eqb_spec c RPAREN); [congruence|]. cbn. lia.
  Qed.
  Lemma depth_open before d : depth_at before d -> depth_at (before ++ [LPAREN]) (d + 1).
  Proof. unfold depth_at. intros H. rewrite !count_app. change (count LPAREN [LPAREN]) with 1%nat. change (count RPAREN [LPAREN]) with 0%nat. lia. Qed.
  Lemma depth_close before d : depth_at before (d + 1) -> depth_at (before ++ [RPAREN]) d.
  Proof. unfold depth_at. intros H. rewrite !count_app. change (count LPAREN [RPAREN]) with 0%nat. change (count RPAREN [RPAREN]) with 1%nat. lia. Qed.
  Lemma depth_bal before b d : depth_at before d -> balanced b -> depth_at (before ++ b) d.
  Proof. unfold depth_at. intros H Hb. rewrite !count_app, (count_balanced b Hb). lia. Qed.
  Lemma depth_room before rest d : input = (before ++ [LPAREN]) ++ rest -> depth_at before d -> (d + 1 < 65536)%N.
  Proof. intros E H. apply depth_open in H. pose proof (Hnest _ _ E). unfold depth_at in H. lia. Qed.

  Lemma snoc_pos (before : text) c : (N.of_nat (length before) + 1)%N = N.of_nat (length (before ++ [c])).
  Proof. rewrite app_length. cbn [length]. lia. Qed.
  (** A group, given that its inside is passed over *)
  Lemma run_group s before after st d : (forall before after st, input = before ++ s ++ after -> paren_stack st = (d + 1)%N -> depth_at before (d + 1) ->
      call_loop p input (s ++ after) (N.of_nat (length before)) st = call_loop p input after (N.of_nat (length (before ++ s))) st) ->
    balanced s -> (1 <= d)%N -> input = before ++ (LPAREN :: s ++ [RPAREN]) ++ after -> paren_stack st = d -> depth_at before d ->
    call_loop p input ((LPAREN :: s ++ [RPAREN]) ++ after) (N.of_nat (length before)) st
    = call_loop p input after (N.of_nat (length (before ++ LPAREN :: s ++ [RPAREN]))) st.
  Proof.
    intros IH Hs Hd E Hst Hdep. cbn [app call_loop]. rewrite <- app_assoc. cbn [app].
    unfold on_char at 1. rewrite N.eqb_refl. unfold on_open. rewrite Hst.
    destruct (N.eqb_spec d 0) as [Z|_]; [lia|]. assert (R : (d + 1 < 65536)%N).
    { apply (depth_room before (s ++ [RPAREN] ++ after)); [|exact Hdep]. rewrite E. cbn [app]. now rewrite <- !app_assoc. }
    unfold ufit. destruct (N.ltb_spec (d + 1) (2 ^ 16)) as [_|F]; [|change (2 ^ 16)%N with 65536%N in F; lia]. cbn [res_bind].
    rewrite (snoc_pos before LPAREN). rewrite IH; [|rewrite E; cbn [app]; now rewrite <- !app_assoc|reflexivity|now apply depth_open].
    cbn [call_loop]. unfold on_char at 1. change (RPAREN =? LPAREN)%N with false. cbv iota. rewrite N.eqb_refl. unfold on_close. cbn [paren_stack fun_name params last_pos].
    destruct (N.eqb_spec (d + 1) 0) as [Z|_]; [lia|]. destruct (N.eqb_spec (d + 1) 1) as [Z|_]; [lia|]. cbn [res_bind paren_stack fun_name params last_pos].
    unfold usub. destruct (N.leb_spec 1 (d + 1)); [|lia]. cbn [res_bind]. rewrite snoc_pos with (c := RPAREN).
    replace (d + 1 - 1)%N with (paren_stack st) by lia. replace (((before ++ [LPAREN]) ++ s) ++ [RPAREN]) with (before ++ LPAREN :: s ++ [RPAREN]).
    - now destruct st.
    - rewrite <- !app_assoc. reflexivity.
  Qed.
  Lemma run_balanced b : balanced b -> forall before after st d, (2 <= d)%N -> input = before ++ b ++ after -> paren_stack st = d -> depth_at before d ->
    call_loop p input (b ++ after) (N.of_nat (length before)) st = call_loop p input after (N.of_nat (length (before ++ b))) st.
  Proof.
    induction 1 as [|c s H1 H2 H IH|s t H1 IH1 H2 IH2]; intros before after st d Hd E Hst Hdep.
    - now rewrite app_nil_r.
    - cbn [app call_loop]. assert (Q : on_char p input st (N.of_nat (length before)) c = Ok st).
      { unfold on_char. destruct (N.eqb_spec c LPAREN); [congruence|]. destruct (N.eqb_spec c RPAREN); [congruence|].
        destruct (N.eqb_spec c COMMA); [|reflexivity]. unfold on_comma. rewrite Hst.
        destruct (N.eqb_spec d 0); [lia|]. destruct (N.eqb_spec d 1); [lia|]. reflexivity. }
      rewrite Q. cbn [res_bind]. rewrite (snoc_pos before c). rewrite (IH (before ++ [c]) after st d); [|assumption|rewrite E, <- app_assoc; reflexivity|assumption|now apply depth_char].
      now rewrite <- app_assoc.
    - replace (LPAREN :: s ++ RPAREN :: t) with ((LPAREN :: s ++ [RPAREN]) ++ t) in * by (cbn [app]; now rewrite <- app_assoc). rewrite <- app_assoc in *.
      rewrite (run_group s before (t ++ after) st d); try assumption; [|intros bf af st' E' Hs' Hd'; apply (IH1 bf af st' (d + 1)%N); auto; lia|lia].
      rewrite (IH2 (before ++ LPAREN :: s ++ [RPAREN]) after st d); try assumption.
      + now rewrite <- app_assoc.
      + now rewrite E, <- app_assoc.
      + apply depth_bal; [exact Hdep|now apply balanced_group].
  Qed.
  Lemma run_argument b : argument b -> forall before after st d, (1 <= d)%N -> input = before ++ b ++ after -> paren_stack st = d -> depth_at before d ->
    call_loop p input (b ++ after) (N.of_nat (length before)) st = call_loop p input after (N.of_nat (length (before ++ b))) st.
  Proof.
    induction 1 as [|c s H1 H IH|s t H1 H2 IH2]; intros before after st d Hd E Hst Hdep.
    - now rewrite app_nil_r.
    - cbn [app call_loop]. assert (c <> LPAREN /\ c <> RPAREN /\ c <> COMMA) as (C1 & C2 & C3) by (unfold special in H1; intuition).
      assert (Q : on_char p input st (N.of_nat (length before)) c = Ok st).
      { unfold on_char. destruct (N.eqb_spec c LPAREN); [congruence|]. destruct (N.eqb_spec c RPAREN); [congruence|].
        destruct (N.eqb_spec c COMMA); [congruence|reflexivity]. }
      rewrite Q. cbn [res_bind]. rewrite (snoc_pos before c). rewrite (IH (before ++ [c]) after st d); [|assumption|rewrite E, <- app_assoc; reflexivity|assumption|now apply depth_char].
      now rewrite <- app_assoc.
    - replace (LPAREN :: s ++ RPAREN :: t) with ((LPAREN :: s ++ [RPAREN]) ++ t) in * by (cbn [app]; now rewrite <- app_assoc). rewrite <- app_assoc in *.
      rewrite (run_group s before (t ++ after) st d); try assumption; [|intros bf af st' E' Hs' Hd'; apply (run_balanced s H1 bf af st' (d + 1)%N); auto; lia].
      rewrite (IH2 (before ++ LPAREN :: s ++ [RPAREN]) after st d); try assumption.
      + now rewrite <- app_assoc.
      + now rewrite E, <- app_assoc.
      + apply depth_bal; [exact Hdep|now apply balanced_group].
  Qed.
  Lemma run_plain b : plain b -> forall before after st, input = before ++ b ++ after ->
    call_loop p input (b ++ after) (N.of_nat (length before)) st = call_loop p input after (N.of_nat (length (before ++ b))) st.
  Proof.
    induction 1 as [|c s H1 H IH]; intros before after st E; [now rewrite app_nil_r|].
    cbn [app call_loop]. assert (c <> LPAREN /\ c <> RPAREN /\ c <> COMMA) as (C1 & C2 & C3) by (unfold special in H1; intuition).
    assert (Q : on_char p input st (N.of_nat (length before)) c = Ok st).
    { unfold on_char. destruct (N.eqb_spec c LPAREN); [congruence|]. destruct (N.eqb_spec c RPAREN); [congruence|].
      destruct (N.eqb_spec c COMMA); [congruence|reflexivity]. }
    rewrite Q. cbn [res_bind]. rewrite (snoc_pos before c). rewrite (IH (before ++ [c]) after st); [|rewrite E, <- app_assoc; reflexivity]. now rewrite <- app_assoc.
  Qed.
  (** All the arguments *)
  Lemma run_args name args : forall ps, name <> [] -> plain name -> Forall good_arg ps -> Forall good_arg args -> (args = [] -> ps = []) ->
    input = (name ++ LPAREN :: each_comma ps) ++ commas args ++ [RPAREN] ->
    call_loop p input (commas args ++ [RPAREN]) (N.of_nat (length (name ++ LPAREN :: each_comma ps)))
      (mkCS (Some name) ps 1 (N.of_nat (length (name ++ LPAREN :: each_comma ps))))
    = Ok (mkCS (Some name) (ps ++ args) 0 (N.of_nat (length input))).
  Proof.
    assert (CLOSE : forall ps cur, name <> [] -> plain name -> Forall good_arg ps -> argument cur -> (cur = [] -> ps = []) ->
      input = (name ++ LPAREN :: each_comma ps) ++ cur ++ [RPAREN] ->
      on_char p input (mkCS (Some name) ps 1 (N.of_nat (length (name ++ LPAREN :: each_comma ps)))) (N.of_nat (length ((name ++ LPAREN :: each_comma ps) ++ cur))) RPAREN
      = Ok (mkCS (Some name) (ps ++ match cur with [] => [] | _ => [cur] end) 0 (N.of_nat (length input)))).
    { intros ps cur Hn Hpl Hps Ha Hcur E. unfold on_char. change (RPAREN =? LPAREN)%N with false. cbv iota. rewrite N.eqb_refl. unfold on_close.
      cbn [paren_stack fun_name params last_pos N.eqb Pos.eqb].
      assert (L : (1 <= str_len input)%N) by (pose proof (str_len_ge input); rewrite E in *; rewrite !app_length in *; cbn [length] in *; lia).
      rewrite (usub_ok _ _ _ _ L). cbn [res_bind]. rewrite (str_len_ascii input Hascii).
      destruct (N.eqb_spec (N.of_nat (length ((name ++ LPAREN :: each_comma ps) ++ cur))) (N.of_nat (length input) - 1)) as [_|Q].
      2: { exfalso. apply Q. rewrite E, !app_length. cbn [length]. lia. }
      cbn [negb is_some assert_ res_bind].
      replace (N.of_nat (length ((name ++ LPAREN :: each_comma ps) ++ cur)) + 1)%N with (N.of_nat (length input)) by (rewrite E, !app_length; cbn [length]; lia).
      destruct cur as [|x cur].
      - rewrite app_nil_r, N.eqb_refl. rewrite Hcur by reflexivity. reflexivity.
      - destruct (N.eqb_spec (N.of_nat (length ((name ++ LPAREN :: each_comma ps) ++ x :: cur))) (N.of_nat (length (name ++ LPAREN :: each_comma ps)))) as [Q|_].
        { rewrite app_length in Q. cbn [length] in Q. lia. }
        rewrite <- app_assoc. cbn [app]. rewrite (cur_slice name ps (x :: cur) [RPAREN]); [reflexivity|]. rewrite E, <- !app_assoc. cbn [app]. now rewrite <- !app_assoc. }
    assert (DEP : forall ps, plain name -> Forall good_arg ps -> depth_at (name ++ LPAREN :: each_comma ps) 1).
    { intros ps Hpl Hps. pose proof (inv_count name ps [] 0 Hpl Hps) as H. rewrite app_nil_r in H. unfold depth_at. rewrite H by (apply open_arg_0; constructor). lia. }
    induction args as [|a args IH]; intros ps Hn Hpl Hps Hargs Hnil E.
    - rewrite (Hnil eq_refl) in *. cbn [commas app]. cbn [call_loop].
      pose proof (CLOSE [] [] Hn Hpl (Forall_nil _) arg_nil (fun _ => eq_refl)) as H. rewrite app_nil_r in H. rewrite H; [reflexivity|exact E].
    - inversion_clear Hargs as [|? ? [Ha1 Ha2] Hrest]. destruct args as [|a' args].
      + cbn [commas] in *. rewrite (run_argument a Ha2 (name ++ LPAREN :: each_comma ps) [RPAREN] _ 1%N); [|lia|exact E|reflexivity|now apply DEP].
        cbn [call_loop]. rewrite (CLOSE ps a); try assumption; [|intros ->; congruence]. cbn [res_bind call_loop].
        destruct a; [congruence|reflexivity].
      + change (commas (a :: a' :: args)) with (a ++ COMMA :: commas (a' :: args)) in *.
        replace ((a ++ COMMA :: commas (a' :: args)) ++ [RPAREN]) with (a ++ COMMA :: commas (a' :: args) ++ [RPAREN]) in * by (rewrite <- app_assoc; reflexivity).
        rewrite (run_argument a Ha2 (name ++ LPAREN :: each_comma ps) (COMMA :: commas (a' :: args) ++ [RPAREN]) _ 1%N); [|lia|exact E|reflexivity|now apply DEP].
        cbn [call_loop]. unfold on_char at 1. change (COMMA =? LPAREN)%N with false. change (COMMA =? RPAREN)%N with false. cbv iota. rewrite N.eqb_refl.
        unfold on_comma. cbn [paren_stack fun_name params last_pos N.eqb Pos.eqb is_some assert_ res_bind].
        destruct (N.eqb_spec (N.of_nat (length (name ++ LPAREN :: each_comma ps))) (N.of_nat (length ((name ++ LPAREN :: each_comma ps) ++ a)))) as [Q|_].
        { rewrite (app_length _ a) in Q. destruct a; [congruence|]. cbn [length] in Q. lia. }
        assert (SL : slice input (N.of_nat (length (name ++ LPAREN :: each_comma ps))) (N.of_nat (length ((name ++ LPAREN :: each_comma ps) ++ a))) = Ok a).
        { rewrite <- app_assoc. cbn [app]. apply (cur_slice name ps a (COMMA :: commas (a' :: args) ++ [RPAREN])). rewrite E, <- !app_assoc. cbn [app]. now rewrite <- !app_assoc. }
        rewrite SL. cbn [res_bind].
        assert (P : (N.of_nat (length ((name ++ LPAREN :: each_comma ps) ++ a)) + 1)%N = N.of_nat (length (name ++ LPAREN :: each_comma (ps ++ [a])))).
        { rewrite each_comma_snoc, !app_length. cbn [length]. rewrite !app_length. cbn [length]. lia. }
        rewrite P, (IH (ps ++ [a])); try assumption.
        * now rewrite <- app_assoc.
        * apply Forall_app. split; [exact Hps|]. repeat constructor; assumption.
        * discriminate.
        * rewrite E, each_comma_snoc, <- !app_assoc. cbn [app]. now rewrite <- !app_assoc.
  Qed.
  Lemma fun_call_complete name args : is_call input name args -> fun_call p input = Ok (name, args).
  Proof.
    intros (Hn & Hpl & Hargs & E). unfold fun_call.
    assert (L : call_loop p input input 0 call_start = Ok (mkCS (Some name) args 0 (N.of_nat (length input)))).
    { rewrite E at 2. pose proof (run_plain name Hpl [] (LPAREN :: commas args ++ [RPAREN]) call_start E) as H. cbn [length N.of_nat app] in H. rewrite H.
      cbn [call_loop]. unfold on_char at 1. rewrite N.eqb_refl. unfold on_open, call_start. cbn [paren_stack fun_name last_pos params length]. cbn [N.eqb orb negb].
      change (assert_ (0 =? 0)%nat) with (Ok tt). cbn [res_bind].
      destruct (N.eqb_spec (N.of_nat (length name)) 0) as [Z|Z]; [destruct name; [congruence|cbn [length] in Z; lia]|].
      pose proof (slice_ascii [] name (LPAREN :: commas args ++ [RPAREN])) as Hs. cbn [app length N.of_nat] in Hs. rewrite N.add_0_l in Hs.
      rewrite E at 1. rewrite Hs; [|constructor|rewrite E in Hascii; now apply ascii_app in Hascii as [A _]]. cbn [res_bind].
      pose proof (run_args name args [] Hn Hpl (Forall_nil _) Hargs (fun _ => eq_refl)) as R. cbn [each_comma map concat] in R.
      rewrite (snoc_pos name LPAREN). apply R. now rewrite E, <- app_assoc. }
    rewrite L. reflexivity.
  Qed.
End Loop.

Lemma fun_call_spec p s : ascii s -> nesting_below 65536 s ->
  (forall name args, fun_call p s = Ok (name, args) <-> is_call s name args) /\ fun_call p s <> Panic.
Proof.
  intros Ha Hn. split.
  - intros name args. split; [|now apply fun_call_complete]. intros H. destruct (fun_call_sound p s Ha Hn) as [E|(n & a & E & Hc)]; [congruence|].
    rewrite E in H. now injection H as -> ->.
  - intros H. destruct (fun_call_sound p s Ha Hn) as [E|(n & a & E & Hc)]; congruence.
Qed.
Lemma is_call_unique s n1 a1 n2 a2 : ascii s -> nesting_below 65536 s -> is_call s n1 a1 -> is_call s n2 a2 -> n1 = n2 /\ a1 = a2.
Proof. intros Ha Hn H1 H2. apply (proj1 (fun_call_spec Debug s Ha Hn)) in H1, H2. rewrite H1 in H2. now injection H2. Qed.
