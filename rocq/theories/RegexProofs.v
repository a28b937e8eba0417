(** * Proofs about matching and the std string functions. *)
From Coq Require Import String.
From Verif Require Import Base Prs PrsSpec PrsProofs PrsTop Regex.
Close Scope string_scope.
Open Scope list_scope.

Lemma in_seq a b st s w : In w (ways (Seq a b) st s) <->
  exists w1 w2, In w1 (ways a st s) /\ In w2 (ways b (st && match wy_taken w1 with [] => true | _ => false end) (wy_rest w1))
    /\ w = mkWay (wy_taken w1 ++ wy_taken w2) (wy_rest w2) (wy_groups w1 ++ wy_groups w2).
Proof.
  cbn [ways]. rewrite in_flat_map. split.
  - intros (w1 & H1 & H2). apply in_map_iff in H2 as (w2 & <- & H2). eauto.
  - intros (w1 & w2 & H1 & H2 & ->). exists w1. split; [exact H1|]. apply in_map_iff. eauto.
Qed.
Lemma in_cls f st s w : In w (ways (Cls f) st s) <-> exists c rest, s = c :: rest /\ f c = true /\ w = mkWay [c] rest [].
Proof.
  cbn [ways]. destruct s as [|c s]; [split; [intros []|intros (c & r & E & _); discriminate]|].
  destruct (f c) eqn:F.
  - cbn. split; [intros [<-|[]]; eauto|]. intros (c' & r & E & _ & ->). injection E as <- <-. now left.
  - split; [intros []|]. intros (c' & r & E & F' & _). injection E as <- <-. congruence.
Qed.
Lemma in_chr x st s w : In w (ways (Chr x) st s) <-> exists rest, s = x :: rest /\ w = mkWay [x] rest [].
Proof.
  unfold Chr. rewrite in_cls. split.
  - intros (c & r & -> & F & ->). apply N.eqb_eq in F as ->. eauto.
  - intros (r & -> & ->). exists x, r. splits; auto. apply N.eqb_refl.
Qed.
Lemma in_lit l : forall st s w, In w (ways (lit l) st s) <-> exists rest, s = l ++ rest /\ w = mkWay l rest [].
Proof.
  induction l as [|c l IH]; intros st s w.
  - cbn. split; [intros [<-|[]]; eauto|]. intros (r & -> & ->). now left.
  - cbn [lit]. rewrite in_seq. split.
    + intros (w1 & w2 & H1 & H2 & ->). apply in_chr in H1 as (r & -> & ->). cbn [wy_rest] in H2. apply IH in H2 as (r' & -> & ->). exists r'. split; reflexivity.
    + intros (r & -> & ->). exists (mkWay [c] (l ++ r) []), (mkWay l r []). splits; [apply in_chr; exists (l ++ r); split; reflexivity|apply IH; exists r; split; reflexivity|reflexivity].
Qed.
Lemma groups_lit l : groups (lit l) = 0%nat.
Proof. induction l as [|c l IH]; [reflexivity|]. cbn. exact IH. Qed.
Lemma in_opt_lit l st s w : In w (ways (opt_lit l) st s) <-> exists t rest, (t = l \/ t = []) /\ s = t ++ rest /\ w = mkWay t rest [].
Proof.
  unfold opt_lit. cbn [ways]. rewrite in_app_iff, in_lit, groups_lit. cbn. split.
  - intros [(r & -> & ->)|[<-|[]]]; [exists l, r; auto|exists [], s; auto].
  - intros (t & r & [->| ->] & -> & ->); [left; eauto|right; now left].
Qed.
Lemma in_plus f : forall s w, In w (plus_ways f s) <-> exists t rest, s = t ++ rest /\ t <> [] /\ Forall (fun c => f c = true) t /\ w = mkWay t rest [].
Proof.
  induction s as [|c s IH]; intros w; cbn [plus_ways].
  - split; [intros []|]. intros (t & r & E & N & _). destruct t; [congruence|discriminate].
  - destruct (f c) eqn:F.
    + rewrite in_app_iff, in_map_iff. cbn. split.
      * intros [(w' & <- & H)|[<-|[]]].
        -- apply IH in H as (t & r & -> & N & A & ->). exists (c :: t), r. cbn. splits; auto. discriminate.
        -- exists [c], s. splits; auto. discriminate.
      * intros (t & r & E & N & A & ->). destruct t as [|c' t]; [congruence|]. injection E as <- ->. inversion_clear A as [|? ? _ A'].
        destruct t as [|c2 t]; [right; now left|left]. exists (mkWay (c2 :: t) r []). split; [reflexivity|]. apply IH. exists (c2 :: t), r. splits; auto. discriminate.
    + split; [intros []|]. intros (t & r & E & N & A & _). destruct t as [|c' t]; [congruence|]. injection E as <- ->. inversion_clear A. congruence.
Qed.
Lemma in_grp a st s w : In w (ways (Grp a) st s) <-> exists w1, In w1 (ways a st s) /\ w = mkWay (wy_taken w1) (wy_rest w1) (Some (wy_taken w1) :: wy_groups w1).
Proof. cbn [ways]. rewrite in_map_iff. split; intros (w1 & H1 & H2); eauto. Qed.
(** A number in parentheses *)
Lemma in_number f st s w : In w (ways (Seq (Chr LPAREN) (Seq (Grp (Plus f)) (Chr RPAREN))) st s) <->
  exists ds post, s = LPAREN :: ds ++ RPAREN :: post /\ ds <> [] /\ Forall (fun c => f c = true) ds /\ w = mkWay (LPAREN :: ds ++ [RPAREN]) post [Some ds].
Proof.
  rewrite in_seq. split.
  - intros (w1 & w2 & H1 & H2 & ->). apply in_chr in H1 as (r & -> & ->). cbn [wy_rest wy_taken wy_groups] in *.
    apply in_seq in H2 as (w3 & w4 & H3 & H4 & ->). apply in_grp in H3 as (w5 & H5 & ->). cbn [ways] in H5. apply in_plus in H5 as (ds & r' & -> & N & A & ->).
    cbn [wy_rest wy_taken wy_groups] in *. apply in_chr in H4 as (post & -> & ->). exists ds, post. splits; auto.
  - intros (ds & post & -> & N & A & ->). exists (mkWay [LPAREN] (ds ++ RPAREN :: post) []), (mkWay (ds ++ [RPAREN]) post [Some ds]).
    splits; [apply in_chr; eexists; split; reflexivity| |reflexivity]. apply in_seq. exists (mkWay ds (RPAREN :: post) [Some ds]), (mkWay [RPAREN] post []).
    splits; [|apply in_chr; eexists; split; reflexivity|reflexivity]. apply in_grp. exists (mkWay ds (RPAREN :: post) []). split; [|reflexivity]. cbn [ways]. apply in_plus. exists ds, (RPAREN :: post). auto.
Qed.
(** A literal followed by something *)
Lemma in_lit_seq l r st s w : In w (ways (Seq (lit l) r) st s) <->
  exists rest w2, s = l ++ rest /\ In w2 (ways r (st && match l with [] => true | _ => false end) rest) /\ w = mkWay (l ++ wy_taken w2) (wy_rest w2) (wy_groups w2).
Proof.
  rewrite in_seq. split.
  - intros (w1 & w2 & H1 & H2 & ->). apply in_lit in H1 as (rest & -> & ->). cbn [wy_rest wy_taken wy_groups] in *. exists rest, w2. auto.
  - intros (rest & w2 & -> & H & ->). exists (mkWay l rest []), w2. splits; auto. apply in_lit. eexists; split; reflexivity.
Qed.
Lemma in_opt_seq l r st s w : In w (ways (Seq (opt_lit l) r) st s) <->
  exists t rest w2, (t = l \/ t = []) /\ s = t ++ rest /\ In w2 (ways r (st && match t with [] => true | _ => false end) rest) /\ w = mkWay (t ++ wy_taken w2) (wy_rest w2) (wy_groups w2).
Proof.
  rewrite in_seq. split.
  - intros (w1 & w2 & H1 & H2 & ->). apply in_opt_lit in H1 as (t & rest & Ht & -> & ->). cbn [wy_rest wy_taken wy_groups] in *. exists t, rest, w2. auto.
  - intros (t & rest & w2 & Ht & -> & H & ->). exists (mkWay t rest []), w2. splits; auto. apply in_opt_lit. eauto.
Qed.

(** ** Searching *)
Definition at_start (st : bool) (pre : text) : bool := st && match pre with [] => true | _ => false end.
Lemma search_some r : forall s st w, search r st s = Some w ->
  exists pre rest l, s = pre ++ rest /\ ways r (at_start st pre) rest = w :: l
    /\ forall pre' rest', s = pre' ++ rest' -> (length pre' < length pre)%nat -> ways r (at_start st pre') rest' = [].
Proof.
  induction s as [|c s IH]; intros st w; cbn [search].
  - destruct (ways r st []) as [|w' l] eqn:W; [discriminate|]. intros E. injection E as ->. exists [], [], l.
    unfold at_start. rewrite andb_true_r. splits; auto. cbn. lia.
  - destruct (ways r st (c :: s)) as [|w' l] eqn:W.
    + intros E. apply IH in E as (pre & rest & l & -> & Hw & Hmin). exists (c :: pre), rest, l. splits; [reflexivity| |].
      * unfold at_start in *. rewrite andb_false_r. exact Hw.
      * intros [|c' pre'] rest' E L; cbn [app] in E.
        -- subst rest'. unfold at_start. rewrite andb_true_r. exact W.
        -- injection E as <- E. cbn [length] in L. specialize (Hmin pre' rest' E ltac:(lia)). unfold at_start in *. rewrite andb_false_r. exact Hmin.
    + intros E. injection E as ->. exists [], (c :: s), l. unfold at_start. rewrite andb_true_r. splits; auto. cbn. lia.
Qed.
Lemma search_none r : forall s st, search r st s = None -> forall pre rest, s = pre ++ rest -> ways r (at_start st pre) rest = [].
Proof.
  induction s as [|c s IH]; intros st; cbn [search].
  - destruct (ways r st []) eqn:W; [|discriminate]. intros _ pre rest E. symmetry in E. apply app_eq_nil in E as [-> ->]. unfold at_start. now rewrite andb_true_r.
  - destruct (ways r st (c :: s)) eqn:W; [|discriminate]. intros E [|c' pre] rest E'; cbn [app] in E'.
    + subst rest. unfold at_start. now rewrite andb_true_r.
    + injection E' as <- E'. specialize (IH false E pre rest E'). unfold at_start in *. now rewrite andb_false_r.
Qed.

(** ** Full matches *)
Lemma in_full r st s w : In w (ways (Seq Bos (Seq r Eos)) st s) <->
  exists w1, st = true /\ In w1 (ways r true s) /\ wy_rest w1 = [] /\ w = mkWay (wy_taken w1) [] (wy_groups w1).
Proof.
  rewrite in_seq. split.
  - intros (w1 & w2 & H1 & H2 & ->). cbn [ways] in H1. destruct st; [|destruct H1]. destruct H1 as [<-|[]]. cbn [wy_rest wy_taken wy_groups andb] in *.
    apply in_seq in H2 as (w3 & w4 & H3 & H4 & ->). cbn [ways] in H4. destruct (wy_rest w3) eqn:R; [|destruct H4]. destruct H4 as [<-|[]]. cbn.
    exists w3. rewrite !app_nil_r. auto.
  - intros (w1 & -> & H & R & ->). exists (mkWay [] s []), (mkWay (wy_taken w1) [] (wy_groups w1)). splits; [now left| |reflexivity].
    cbn [wy_rest wy_taken andb]. apply in_seq. exists w1, (mkWay [] [] []). rewrite R. cbn. rewrite !app_nil_r. auto.
Qed.
Lemma full_some r s t : (forall st s w, In w (ways r st s) -> wy_groups w = []) ->
  (forall st s w, In w (ways r st s) -> s = wy_taken w ++ wy_rest w) ->
  matches_fully s r = Some t <-> (t = s /\ exists w, In w (ways r true s) /\ wy_rest w = []).
Proof.
  intros Hg Ht. unfold matches_fully, captures. destruct (search _ true s) as [w|] eqn:S.
  - apply search_some in S as (pre & rest & l & -> & Hw & _). assert (I : In w (ways (Seq Bos (Seq r Eos)) (at_start true pre) rest)) by (rewrite Hw; now left).
    apply in_full in I as (w1 & Hs & H1 & R & ->). destruct pre; [|discriminate]. cbn [app wy_taken wy_groups]. rewrite (Hg _ _ _ H1). cbn [length Nat.eqb].
    pose proof (Ht _ _ _ H1) as E. rewrite R, app_nil_r in E. split.
    + intros Q. injection Q as <-. split; [congruence|]. eauto.
    + intros [-> _]. congruence.
  - split; [discriminate|]. intros [_ (w & H & R)]. pose proof (search_none _ _ _ S [] s eq_refl) as N.
    assert (I : In (mkWay (wy_taken w) [] (wy_groups w)) (ways (Seq Bos (Seq r Eos)) true s)) by (apply in_full; eauto). unfold at_start in N. cbn [andb] in N. rewrite N in I. destruct I.
Qed.
Lemma full_lit l s t : matches_fully s (lit l) = Some t <-> s = l /\ t = l.
Proof.
  rewrite full_some.
  - split.
    + intros [-> (w & H & R)]. apply in_lit in H as (r & -> & ->). cbn in R. subst r. now rewrite app_nil_r.
    + intros [-> ->]. split; [reflexivity|]. exists (mkWay l [] []). split; [apply in_lit; exists []; now rewrite app_nil_r|reflexivity].
  - intros st s' w H. apply in_lit in H as (r & -> & ->). reflexivity.
  - intros st s' w H. apply in_lit in H as (r & -> & ->). reflexivity.
Qed.
Lemma full_lit_none l s : matches_fully s (lit l) = None <-> s <> l.
Proof.
  destruct (matches_fully s (lit l)) as [t|] eqn:M.
  - apply full_lit in M as [-> _]. split; [discriminate|congruence].
  - split; [|reflexivity]. intros _ ->. assert (H : matches_fully l (lit l) = Some l) by now apply full_lit. congruence.
Qed.

(** ** Numbers *)
Definition dec_value (acc : N) (s : text) : N := fold_left (fun a c => a * 10 + (c - 48))%N s acc.
Lemma dec_value_ge s : forall acc, (acc <= dec_value acc s)%N.
Proof. induction s as [|c s IH]; intros acc; cbn [dec_value fold_left]; [lia|]. specialize (IH (acc * 10 + (c - 48))%N). unfold dec_value in IH. lia. Qed.
Lemma parse_digits_ok s : Forall (fun c => 48 <= c <= 57)%N s -> forall acc, (acc < 2 ^ 64)%N ->
  parse_digits acc s = if (dec_value acc s <? 2 ^ 64)%N then Ok (dec_value acc s) else Err.
Proof.
  induction 1 as [|c s Hc Hs IH]; intros acc Ha.
  - cbn [parse_digits dec_value fold_left]. apply N.ltb_lt in Ha. now rewrite Ha.
  - cbn [parse_digits]. unfold ascii_digit. destruct (N.leb_spec 48 c); [|lia]. destruct (N.leb_spec c 57); [|lia]. cbn [andb].
    change (dec_value acc (c :: s)) with (dec_value (acc * 10 + (c - 48)) s).
    destruct (N.ltb_spec (acc * 10 + (c - 48)) (2 ^ 64)) as [L|L]; [now apply IH|].
    pose proof (dec_value_ge s (acc * 10 + (c - 48))%N). destruct (N.ltb_spec (dec_value (acc * 10 + (c - 48)) s) (2 ^ 64)); [lia|reflexivity].
Qed.
Lemma parse_digits_bad s : forall acc, (exists c, In c s /\ ~ (48 <= c <= 57)%N) -> parse_digits acc s = Err.
Proof.
  induction s as [|c s IH]; intros acc (x & Hx & Hb); [destruct Hx|]. cbn [parse_digits]. destruct (ascii_digit c) eqn:D; [|reflexivity].
  destruct (_ <? _)%N; [|reflexivity]. apply IH. destruct Hx as [->|Hx]; [|eauto]. unfold ascii_digit in D. apply andb_prop in D as [D1 D2].
  apply N.leb_le in D1, D2. exfalso. now apply Hb.
Qed.
Lemma usize_digits s : s <> [] -> Forall (fun c => 48 <= c <= 57)%N s ->
  usize_from_str s = if (dec_value 0 s <? 2 ^ 64)%N then Ok (dec_value 0 s) else Err.
Proof.
  intros N H. assert (P : (0 < 2 ^ 64)%N) by reflexivity. unfold usize_from_str. destruct s as [|c [|c2 s]]; [congruence| |].
  - inversion_clear H as [|? ? Hc _]. destruct (N.eqb_spec c 43); [lia|]. destruct (N.eqb_spec c 45); [lia|]. cbn [orb]. apply parse_digits_ok; [repeat constructor; lia|exact P].
  - pose proof H as H'. inversion_clear H as [|? ? Hc _]. destruct (N.eqb_spec c 43); [lia|]. apply parse_digits_ok; assumption.
Qed.
Lemma usize_no_panic s : usize_from_str s <> Panic.
Proof.
  assert (P : forall s acc, parse_digits acc s <> Panic).
  { induction s0 as [|c s0 IH]; intros acc; cbn [parse_digits]; [discriminate|]. destruct (ascii_digit c); [|discriminate]. destruct (_ <? _)%N; [apply IH|discriminate]. }
  unfold usize_from_str. destruct s as [|c [|c2 s]]; [discriminate| |]; destruct (_ =? _)%N; cbn [orb]; try discriminate; try apply P.
  destruct (_ =? _)%N; [discriminate|apply P].
Qed.
(** Splitting at the first separator *)
Lemma split_first c (a b x y : text) : ~ In c a -> ~ In c b -> a ++ c :: x = b ++ c :: y -> a = b /\ x = y.
Proof.
  revert b. induction a as [|u a IH]; intros [|v b] Ha Hb E; cbn [app] in E.
  - injection E as ->. auto.
  - injection E as <- _. destruct Hb. now left.
  - injection E as -> _. destruct Ha. now left.
  - injection E as <- E. destruct (IH b) as [-> ->]; auto; intros H; [apply Ha|apply Hb]; now right.
Qed.
