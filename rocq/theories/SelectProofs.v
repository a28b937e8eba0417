(** * Proofs about the choice of a codec (C49). *)
From Coq Require Import String.
From Verif Require Import Base Prs PrsSpec PrsProofs PrsTop Regex RegexProofs Img Float HilbertC Select SelectSpec.
Close Scope string_scope.
Open Scope list_scope.
Notation length := List.length.

(** ** The two patterns with numbers *)
(** A pattern for [words], then a number in parentheses *)
Definition number_re (d : N -> bool) (words : list text) (r : re) : Prop :=
  forall st s w, In w (ways r st s) <-> exists wd ds post, In wd words /\ s = wd ++ LPAREN :: ds ++ RPAREN :: post /\ ds <> [] /\ Forall (fun c => d c = true) ds
    /\ w = mkWay (wd ++ LPAREN :: ds ++ [RPAREN]) post [Some ds].
Lemma voronoi_number d : number_re d voronoi_words (voronoi_re d).
Proof.
  intros st s w. unfold voronoi_re. rewrite in_lit_seq. split.
  - intros (rest & w2 & -> & H & ->). apply in_number in H as (ds & post & -> & N & A & ->). exists (txt "voronoi"), ds, post. splits; auto. now left.
  - intros (wd & ds & post & [<-|[]] & -> & N & A & ->). exists (LPAREN :: ds ++ RPAREN :: post), (mkWay (LPAREN :: ds ++ [RPAREN]) post [Some ds]).
    splits; auto. apply in_number. exists ds, post. splits; auto.
Qed.
Lemma cluster_word a b c : (a = txt "luster" \/ a = []) -> (b = txt "-" \/ b = []) -> (c = txt "ors" \/ c = []) ->
  In (txt "c" ++ a ++ b ++ txt "col" ++ c) cluster_words.
Proof. intros [->| ->] [->| ->] [->| ->]; cbn; tauto. Qed.
Lemma cluster_word_inv w : In w cluster_words -> exists a b c, (a = txt "luster" \/ a = []) /\ (b = txt "-" \/ b = []) /\ (c = txt "ors" \/ c = [])
  /\ w = txt "c" ++ a ++ b ++ txt "col" ++ c.
Proof.
  unfold cluster_words. cbn [In]. intros [<-|[<-|[<-|[<-|[<-|[<-|[<-|[<-|[]]]]]]]]].
  - exists [], [], []. auto.
  - exists [], [], (txt "ors"). auto.
  - exists [], (txt "-"), []. auto.
  - exists [], (txt "-"), (txt "ors"). auto.
  - exists (txt "luster"), [], []. auto.
  - exists (txt "luster"), [], (txt "ors"). auto.
  - exists (txt "luster"), (txt "-"), []. auto.
  - exists (txt "luster"), (txt "-"), (txt "ors"). auto.
Qed.
Lemma cluster_number d : number_re d cluster_words (cluster_re d).
Proof.
  intros st s w. unfold cluster_re. rewrite in_lit_seq. split.
  - intros (r1 & w1 & -> & H & ->). apply in_opt_seq in H as (a & r2 & w2 & Ha & -> & H & ->). apply in_opt_seq in H as (b & r3 & w3 & Hb & -> & H & ->).
    apply in_lit_seq in H as (r4 & w4 & -> & H & ->). apply in_opt_seq in H as (c & r5 & w5 & Hc & -> & H & ->).
    apply in_number in H as (ds & post & -> & N & A & ->). cbn [wy_taken wy_rest wy_groups].
    exists (txt "c" ++ a ++ b ++ txt "col" ++ c), ds, post. splits; auto.
    + now apply cluster_word.
    + now rewrite <- !app_assoc.
    + now rewrite <- !app_assoc.
  - intros (wd & ds & post & Hw & -> & N & A & ->). apply cluster_word_inv in Hw as (a & b & c & Ha & Hb & Hc & ->).
    set (num := LPAREN :: ds ++ RPAREN :: post). set (tk := LPAREN :: ds ++ [RPAREN]).
    exists (a ++ b ++ txt "col" ++ c ++ num), (mkWay (a ++ b ++ txt "col" ++ c ++ tk) post [Some ds]). splits; [now rewrite <- !app_assoc| |now rewrite <- !app_assoc].
    apply in_opt_seq. exists a, (b ++ txt "col" ++ c ++ num), (mkWay (b ++ txt "col" ++ c ++ tk) post [Some ds]). splits; auto.
    apply in_opt_seq. exists b, (txt "col" ++ c ++ num), (mkWay (txt "col" ++ c ++ tk) post [Some ds]). splits; auto.
    apply in_lit_seq. exists (c ++ num), (mkWay (c ++ tk) post [Some ds]). splits; auto.
    apply in_opt_seq. exists c, num, (mkWay tk post [Some ds]). splits; auto.
    apply in_number. exists ds, post. splits; auto.
Qed.

Section Numbers.
  Variables (d : N -> bool) (words : list text) (r : re).
  Hypothesis Hd : digit_class_ok d.
  Hypothesis Hr : number_re d words r.
  Hypothesis Hwords : Forall (fun w => ~ In LPAREN w) words.

  Lemma number_unique wd ds post wd' ds' post' : In wd words -> In wd' words -> ~ In RPAREN ds -> ~ In RPAREN ds' ->
    wd ++ LPAREN :: ds ++ RPAREN :: post = wd' ++ LPAREN :: ds' ++ RPAREN :: post' -> ds = ds'.
  Proof.
    intros H1 H2 N1 N2 E. rewrite Forall_forall in Hwords. apply split_first in E as [_ E]; [|now apply Hwords|now apply Hwords].
    now apply split_first in E as [E _].
  Qed.
  Lemma digits_no_paren ds : Forall (fun c => 48 <= c <= 57)%N ds -> ~ In RPAREN ds.
  Proof. intros H I. rewrite Forall_forall in H. apply H in I. unfold RPAREN in I. lia. Qed.
  Lemma class_digits ds : ascii ds -> Forall (fun c => d c = true) ds <-> Forall (fun c => 48 <= c <= 57)%N ds.
  Proof.
    intros Ha. rewrite !Forall_forall. unfold ascii in Ha. rewrite Forall_forall in Ha. split; intros H c Hc; specialize (H c Hc); specialize (Ha c Hc).
    - rewrite (Hd c Ha) in H. apply andb_prop in H as [H1 H2]. apply N.leb_le in H1, H2. lia.
    - rewrite (Hd c Ha). apply andb_true_intro. split; apply N.leb_le; lia.
  Qed.
  Lemma at_ways s pre ds rest : ascii s -> s = pre ++ rest -> number_at words s pre ds ->
    exists wd post, forall st, In (mkWay (wd ++ LPAREN :: ds ++ [RPAREN]) post [Some ds]) (ways r st rest).
  Proof.
    intros Ha E ((N & D) & wd & post & Hw & E'). rewrite E in E'. apply app_inv_head in E'. exists wd, post. intros st. apply Hr. exists wd, ds, post. splits; auto.
    apply class_digits; [|exact D]. rewrite E, E' in Ha. rewrite !ascii_app, ascii_cons, ascii_app in Ha. tauto.
  Qed.
  Lemma ways_at s pre rest st w : ascii s -> s = pre ++ rest -> In w (ways r st rest) -> exists ds, wy_groups w = [Some ds] /\ number_at words s pre ds.
  Proof.
    intros Ha E H. apply Hr in H as (wd & ds & post & Hw & -> & N & A & ->). exists ds. split; [reflexivity|]. split.
    - split; [exact N|]. apply class_digits; [|exact A]. rewrite E in Ha. rewrite !ascii_app, ascii_cons, ascii_app in Ha. tauto.
    - exists wd, post. auto.
  Qed.
  Lemma first_unique s ds ds' : first_number words s ds -> first_number words s ds' -> ds = ds'.
  Proof.
    intros (pre & H & M) (pre' & H' & M'). assert (L : length pre = length pre') by (specialize (M _ _ H'); specialize (M' _ _ H); lia).
    destruct H as ((_ & D) & wd & post & Hw & E), H' as ((_ & D') & wd' & post' & Hw' & E').
    rewrite E in E'. assert (P : pre = pre' /\ wd ++ LPAREN :: ds ++ RPAREN :: post = wd' ++ LPAREN :: ds' ++ RPAREN :: post').
    { clear - E' L. revert pre' L E'. induction pre as [|c pre IH]; intros [|c' pre'] L E; cbn in L; try discriminate; [auto|].
      cbn [app] in E. injection E as <- E. injection L as L. destruct (IH pre' L E) as [-> ?]. auto. }
    destruct P as [_ P]. apply (number_unique wd ds post wd' ds' post'); auto using digits_no_paren.
  Qed.
  Lemma number_in_spec s : ascii s ->
    (forall n, number_in r s = POk n <-> numbered words s n) /\ number_in r s <> PPanic.
  Proof.
    intros Ha. unfold number_in, captures. destruct (search r true s) as [w|] eqn:S.
    - apply search_some in S as (pre & rest & l & E & W & M). assert (I : In w (ways r (at_start true pre) rest)) by (rewrite W; now left).
      destruct (ways_at s pre rest _ w Ha E I) as (ds & G & A). rewrite G. cbn [opt_or pbind length Nat.eqb negb nth_error].
      assert (F : first_number words s ds).
      { exists pre. split; [exact A|]. intros pre' ds' A'. destruct (Nat.le_gt_cases (length pre) (length pre')) as [L|L]; [exact L|]. exfalso.
        pose proof A' as (_ & wd' & post' & _ & E'). specialize (M pre' _ E' L). destruct (at_ways s pre' ds' _ Ha E' A') as (wd2 & post2 & I2).
        specialize (I2 (at_start true pre')). rewrite M in I2. destruct I2. }
      pose proof A as ((N & D) & _). rewrite (usize_digits ds N D). change (dec_value 0 ds) with (number ds). split.
      + intros n. split.
        * destruct (N.ltb_spec (number ds) (2 ^ 64)); cbn [or_other]; [|discriminate]. intros Q. injection Q as <-. exists ds. auto.
        * intros (ds' & F' & <- & L). rewrite (first_unique s ds' ds F' F) in *. apply N.ltb_lt in L. now rewrite L.
      + destruct (_ <? _)%N; discriminate.
    - cbn. split; [|discriminate]. intros n. split; [discriminate|]. intros (ds & (pre & A & _) & _). exfalso.
      pose proof A as (_ & wd & post & _ & E). pose proof (search_none r s true S pre _ E) as W. destruct (at_ways s pre ds _ Ha E A) as (wd2 & post2 & I).
      specialize (I (at_start true pre)). rewrite W in I. destruct I.
  Qed.
  (** For any text: no abort *)
  Lemma number_in_no_panic s : number_in r s <> PPanic.
  Proof.
    unfold number_in, captures. destruct (search r true s) as [w|] eqn:S; [|discriminate]. apply search_some in S as (pre & rest & l & E & W & M).
    assert (I : In w (ways r (at_start true pre) rest)) by (rewrite W; now left). apply Hr in I as (wd & ds & post & _ & _ & _ & _ & ->). cbn.
    pose proof (usize_no_panic ds). destruct (usize_from_str ds); cbn; congruence.
  Qed.
End Numbers.
Lemma cluster_words_ok : Forall (fun w => ~ In LPAREN w) cluster_words.
Proof. apply Forall_forall. intros w Hw I. assert (B : existsb (fun w => existsb (N.eqb LPAREN) w) cluster_words = true).
  { apply existsb_exists. exists w. split; [exact Hw|]. apply existsb_exists. exists LPAREN. split; [exact I|reflexivity]. }
  vm_compute in B. discriminate.
Qed.
Lemma voronoi_words_ok : Forall (fun w => ~ In LPAREN w) voronoi_words.
Proof. apply Forall_forall. intros w Hw I. assert (B : existsb (fun w => existsb (N.eqb LPAREN) w) voronoi_words = true).
  { apply existsb_exists. exists w. split; [exact Hw|]. apply existsb_exists. exists LPAREN. split; [exact I|reflexivity]. }
  vm_compute in B. discriminate.
Qed.

(** ** The other codecs *)
Lemma hilbert_full s t : matches_fully s hilbert_re = Some t <-> t = s /\ (s = txt "hilbert" \/ s = txt "Hilbert").
Proof.
  assert (W : forall st s w, In w (ways hilbert_re st s) <-> exists c rest, s = c :: txt "ilbert" ++ rest /\ (c = 72 \/ c = 104)%N /\ w = mkWay (c :: txt "ilbert") rest []).
  { intros st s0 w. unfold hilbert_re. rewrite in_seq. split.
    - intros (w1 & w2 & H1 & H2 & ->). apply in_cls in H1 as (c & rest & -> & F & ->). cbn [wy_rest wy_taken wy_groups] in *.
      apply in_lit in H2 as (r & -> & ->). exists c, r. splits; auto. apply orb_prop in F as [F|F]; apply N.eqb_eq in F; auto.
    - intros (c & rest & -> & Hc & ->). exists (mkWay [c] (txt "ilbert" ++ rest) []), (mkWay (txt "ilbert") rest []). splits; auto.
      + apply in_cls. exists c, (txt "ilbert" ++ rest). splits; auto. destruct Hc as [->| ->]; reflexivity.
      + apply in_lit. exists rest. auto. }
  rewrite full_some.
  - split.
    + intros [-> (w & H & R)]. split; [reflexivity|]. apply W in H as (c & rest & -> & Hc & ->). cbn in R. subst rest. rewrite app_nil_r. destruct Hc as [->| ->]; auto.
    + intros [-> H]. split; [reflexivity|]. destruct H as [->| ->].
      * exists (mkWay (txt "hilbert") [] []). split; [|reflexivity]. apply W. exists 104%N, []. auto.
      * exists (mkWay (txt "Hilbert") [] []). split; [|reflexivity]. apply W. exists 72%N, []. auto.
  - intros st s' w H. apply W in H as (c & rest & -> & _ & ->). reflexivity.
  - intros st s' w H. apply W in H as (c & rest & -> & _ & ->). reflexivity.
Qed.

Lemma ignore_case_lower a b : Forall (fun l => (97 <= l <= 122)%N) b -> eq_ignore_ascii_case a b = true <-> Forall2 (fun c l => c = l \/ c + 32 = l)%N a b.
Proof.
  intros Hb. unfold eq_ignore_ascii_case. rewrite text_eqb_eq. revert a. induction Hb as [|l b Hl Hb IH]; intros a.
  - destruct a; cbn; split; try discriminate; try constructor; try (intros H; inversion H).
  - assert (L : to_ascii_lower l = l) by (unfold to_ascii_lower; destruct (N.leb_spec 65 l); destruct (N.leb_spec l 90); cbn [andb]; lia).
    destruct a as [|c a]; cbn [map]; [split; [discriminate|intros H; inversion H]|]. rewrite L. split.
    + intros E. injection E as E1 E2. constructor; [|now apply IH]. unfold to_ascii_lower in E1.
      destruct (N.leb_spec 65 c); destruct (N.leb_spec c 90); cbn [andb] in E1; lia.
    + intros H. inversion_clear H as [|? ? ? ? Hc Ht]. f_equal; [|now apply IH]. unfold to_ascii_lower.
      destruct (N.leb_spec 65 c); destruct (N.leb_spec c 90); cbn [andb]; lia.
Qed.

(** ** Calls with one argument *)
Lemma not_special c : (c =? LPAREN)%N = false -> (c =? RPAREN)%N = false -> (c =? COMMA)%N = false -> ~ special c.
Proof. intros H1 H2 H3 [->|[->| ->]]; discriminate. Qed.
Definition plainb (s : text) : bool := forallb (fun c => negb ((c =? LPAREN) || (c =? RPAREN) || (c =? COMMA))%N) s.
Lemma plainb_ok s : plainb s = true -> plain s.
Proof.
  intros H. apply Forall_forall. intros c Hc. unfold plainb in H. rewrite forallb_forall in H. apply H in Hc.
  destruct (c =? LPAREN)%N eqn:E1; [discriminate|]. destruct (c =? RPAREN)%N eqn:E2; [discriminate|]. destruct (c =? COMMA)%N eqn:E3; [discriminate|]. now apply not_special.
Qed.
Lemma plain_argument s : plain s -> argument s.
Proof. induction 1 as [|c s Hc Hs IH]; [constructor|now constructor]. Qed.
Lemma call_one s name a : name <> [] -> plain name -> is_call s name [a] <-> s = name ++ LPAREN :: a ++ [RPAREN] /\ a <> [] /\ argument a.
Proof.
  intros N P. unfold is_call. cbn [commas]. split.
  - intros (_ & _ & A & ->). inversion_clear A as [|? ? [A1 A2] _]. auto.
  - intros (-> & A1 & A2). splits; auto.
Qed.
Lemma call_sub s name a : is_call s name [a] -> ascii s -> nesting_below 65536 s -> ascii a /\ nesting_below 65536 a.
Proof.
  intros (_ & P & _ & ->) Ha Hn. cbn [commas] in *. split.
  - rewrite ascii_app, ascii_cons, ascii_app in Ha. tauto.
  - intros x y ->. specialize (Hn (name ++ LPAREN :: x) (y ++ [RPAREN])). rewrite <- !app_assoc in Hn. cbn [app] in Hn.
    specialize (Hn eq_refl). rewrite (count_app LPAREN name), (count_app RPAREN name), (count_plain RPAREN name P special_close) in Hn.
    change (LPAREN :: x) with ([LPAREN] ++ x) in Hn. rewrite !count_app in Hn. change (count LPAREN [LPAREN]) with 1%nat in Hn. change (count RPAREN [LPAREN]) with 0%nat in Hn. lia.
Qed.
Lemma call_name_paren s name args : is_call s name args -> In LPAREN s.
Proof. intros (_ & _ & _ & ->). apply in_app_iff. right. now left. Qed.

Section Plain.
  Variables (p : profile) (parse_f64 : text -> option f64).

  Lemma method_order a : method_from_str p parse_f64 a =
    match parse_rle p parse_f64 a with POk c => POk c | PPanic => PPanic | PErr e1 =>
    match parse_zip a with POk c => POk c | PPanic => PPanic | PErr e2 => PErr (AllFailed [(txt "rle", e1); (txt "zip", e2)]) end end.
  Proof.
    unfold method_from_str, try_all, pure, alt_new. cbn [try_chain then_try al_res al_input alt_end app].
    destruct (parse_rle p parse_f64 a); [reflexivity| |reflexivity]. cbn [try_chain then_try al_res al_input alt_end app].
    destruct (parse_zip a); reflexivity.
  Qed.
  Lemma method_cases a : ascii a -> nesting_below 65536 a ->
    (forall m, method_from_str p parse_f64 a = POk m <-> method_for parse_f64 a m)
    /\ (method_from_str p parse_f64 a = PPanic <-> a = txt "rle()").
  Proof.
    intros Ha Hn. destruct (fun_call_spec p a Ha Hn) as [Spec NP].
    rewrite method_order. unfold parse_rle, parse_zip.
    destruct (matches_fully a (lit (txt "rle"))) as [t|] eqn:M.
    { apply full_lit in M as [-> _]. cbn. split.
      - intros m. split; [intros E; injection E as <-; now left|]. intros [[_ ->]|[(d & x & E & _)|[E _]]]; [reflexivity|discriminate|discriminate].
      - split; discriminate. }
    apply full_lit_none in M. destruct (fun_call p a) as [[name args]| |] eqn:F; [| |congruence].
    - assert (C : is_call a name args) by now apply Spec. cbn [or_other pbind].
      assert (Z : matches_fully a (lit (txt "zip")) = None).
      { apply full_lit_none. intros ->. apply call_name_paren in C. cbn in C. unfold LPAREN in C. repeat destruct C as [C|C]; discriminate. }
      rewrite Z. destruct (matches_fully name (lit (txt "rle"))) as [t|] eqn:M2.
      + apply full_lit in M2 as [-> _]. cbn [opt_or pbind].
        assert (P : plain (txt "rle")) by (now apply plainb_ok). assert (NE : txt "rle" <> []) by discriminate.
        destruct args as [|d [|d2 args]]; cbn [length Nat.ltb Nat.leb].
        * destruct C as (_ & _ & _ & ->). cbn. split.
          -- intros m. split; [discriminate|]. intros [[E _]|[(d & x & E & Nd & _)|[E _]]]; try discriminate. destruct d as [|c d]; [congruence|].
             injection E as <- E. now destruct d.
          -- split; reflexivity.
        * apply call_one in C as (E & Nd & Ad); [|exact NE|exact P]. destruct (parse_f64 d) as [x|] eqn:D; cbn.
          -- split; [|split; [discriminate|]].
             ++ intros m. split.
                ** intros Q. injection Q as <-. right. left. exists d, x. splits; auto.
                ** intros [[E' _]|[(d' & x' & E' & Nd' & Ad' & D' & ->)|[E' _]]]; [congruence| |].
                   --- rewrite E in E'. change (txt "rle(" ++ d' ++ txt ")") with (txt "rle" ++ LPAREN :: d' ++ [RPAREN]) in E'. apply app_inv_head in E'.
                       injection E' as E'. apply app_inj_tail in E' as [-> _]. congruence.
                   --- subst a. discriminate.
             ++ intros ->. exfalso. apply (f_equal (@List.length N)) in E. rewrite app_length in E. cbn in E. rewrite app_length in E. cbn in E.
                destruct d; [congruence|cbn in E; lia].
          -- split; [|split; [discriminate|]].
             ++ intros m. split; [discriminate|]. intros [[E' _]|[(d' & x' & E' & Nd' & Ad' & D' & ->)|[E' _]]]; [congruence| |subst a; discriminate].
                rewrite E in E'. change (txt "rle(" ++ d' ++ txt ")") with (txt "rle" ++ LPAREN :: d' ++ [RPAREN]) in E'. apply app_inv_head in E'.
                injection E' as E'. apply app_inj_tail in E' as [-> _]. congruence.
             ++ intros ->. exfalso. apply (f_equal (@List.length N)) in E. rewrite app_length in E. cbn in E. rewrite app_length in E. cbn in E.
                destruct d; [congruence|cbn in E; lia].
        * cbn. split; [|split; [discriminate|]].
          -- intros m. split; [discriminate|]. intros [[E' _]|[(d' & x' & E' & Nd' & Ad' & D' & ->)|[E' _]]]; [congruence| |].
             ++ assert (C' : is_call a (txt "rle") [d']) by (apply call_one; auto). destruct (is_call_unique _ _ _ _ _ Ha Hn C C') as [_ Q]. discriminate.
             ++ subst a. apply call_name_paren in C. cbn in C. unfold LPAREN in C. repeat destruct C as [C|C]; discriminate.
          -- intros ->. assert (C' : is_call (txt "rle()") (txt "rle") []) by (unfold is_call; splits; auto).
             destruct (is_call_unique _ _ _ _ _ Ha Hn C C') as [_ Q]. discriminate.
      + apply full_lit_none in M2. cbn. split; [|split; [discriminate|]].
        * intros m. split; [discriminate|]. intros [[E' _]|[(d' & x' & E' & Nd' & Ad' & D' & ->)|[E' _]]]; [congruence| |].
          -- assert (C' : is_call a (txt "rle") [d']) by (apply call_one; auto; [discriminate|now apply plainb_ok]). destruct (is_call_unique _ _ _ _ _ Ha Hn C C') as [Q _]. congruence.
          -- subst a. apply call_name_paren in C. cbn in C. unfold LPAREN in C. repeat destruct C as [C|C]; discriminate.
        * intros ->. assert (C' : is_call (txt "rle()") (txt "rle") []) by (unfold is_call; splits; auto; [discriminate|now apply plainb_ok]).
          destruct (is_call_unique _ _ _ _ _ Ha Hn C C') as [Q _]. congruence.
    - assert (NC : forall name args, ~ is_call a name args) by (intros name args C; apply Spec in C; congruence).
      cbn [or_other pbind]. destruct (matches_fully a (lit (txt "zip"))) as [t|] eqn:Z.
      + apply full_lit in Z as [-> _]. cbn. split; [|split; discriminate]. intros m. split.
        * intros Q. injection Q as <-. right. right. auto.
        * intros [[E _]|[(d & x & E & _)|[_ ->]]]; [discriminate|discriminate|reflexivity].
      + apply full_lit_none in Z. cbn. split; [|split; [discriminate|]].
        * intros m. split; [discriminate|]. intros [[E' _]|[(d' & x' & E' & Nd' & Ad' & D' & ->)|[E' _]]]; [congruence| |congruence].
          destruct (NC (txt "rle") [d']). apply call_one; auto; [discriminate|now apply plainb_ok].
        * intros ->. destruct (NC (txt "rle") []). unfold is_call. splits; auto; [discriminate|now apply plainb_ok].
  Qed.
  Lemma method_argument a m : method_for parse_f64 a m -> a <> [] /\ argument a.
  Proof.
    intros [[-> _]|[(d & x & -> & Nd & Ad & _)|[-> _]]].
    - split; [discriminate|]. now apply plain_argument, plainb_ok.
    - split; [discriminate|]. change (txt "rle(" ++ d ++ txt ")") with (txt "rle" ++ (LPAREN :: d ++ [RPAREN])).
      apply argument_app; [now apply plain_argument, plainb_ok|]. now apply argument_group, argument_balanced.
    - split; [discriminate|]. now apply plain_argument, plainb_ok.
  Qed.
  Lemma hilbert_cases s : ascii s -> nesting_below 65536 s ->
    (forall c, hilbert_from_str p parse_f64 s = POk c <->
       exists a m, (s = txt "hilbert(" ++ a ++ txt ")" \/ s = txt "Hilbert(" ++ a ++ txt ")") /\ method_for parse_f64 a m /\ c = Hilbert m)
    /\ (hilbert_from_str p parse_f64 s = PPanic <-> s = txt "hilbert(rle())" \/ s = txt "Hilbert(rle())").
  Proof.
    intros Ha Hn. destruct (fun_call_spec p s Ha Hn) as [Spec NP]. unfold hilbert_from_str.
    assert (K : forall a, a <> [] -> argument a -> s = txt "hilbert(" ++ a ++ txt ")" \/ s = txt "Hilbert(" ++ a ++ txt ")" ->
      exists h, is_call s h [a] /\ matches_fully h hilbert_re = Some h).
    { intros a Na Aa [E|E].
      - exists (txt "hilbert"). split; [|now apply hilbert_full; auto]. apply call_one; auto; [discriminate|now apply plainb_ok].
      - exists (txt "Hilbert"). split; [|now apply hilbert_full; auto]. apply call_one; auto; [discriminate|now apply plainb_ok]. }
    assert (R : txt "rle()" <> [] /\ argument (txt "rle()")).
    { split; [discriminate|]. change (txt "rle()") with (txt "rle" ++ (LPAREN :: [] ++ [RPAREN])).
      apply argument_app; [now apply plain_argument, plainb_ok|]. apply argument_group. constructor. }
    destruct (fun_call p s) as [[h args]| |] eqn:F; [| |congruence].
    - assert (C : is_call s h args) by now apply Spec. cbn [or_other pbind].
      destruct (matches_fully h hilbert_re) as [t|] eqn:M.
      + apply hilbert_full in M as [_ Hh]. cbn [opt_or pbind]. destruct args as [|a [|a2 args]]; cbn [length Nat.eqb negb].
        * split; [|split; [discriminate|]].
          -- intros c. split; [discriminate|]. intros (a & m & E & Hm & _). destruct (method_argument a m Hm) as [Na Aa]. destruct (K a Na Aa E) as (h' & C' & _).
             destruct (is_call_unique _ _ _ _ _ Ha Hn C C') as [_ Q]. discriminate.
          -- intros E. destruct R as [R1 R2]. destruct (K _ R1 R2 E) as (h' & C' & _). destruct (is_call_unique _ _ _ _ _ Ha Hn C C') as [_ Q]. discriminate.
        * destruct (call_sub s h a C Ha Hn) as [Aa Na]. destruct (method_cases a Aa Na) as [MS MP].
          assert (E : s = h ++ LPAREN :: a ++ [RPAREN]) by (destruct C as (_ & _ & _ & ->); reflexivity).
          assert (E2 : s = txt "hilbert(" ++ a ++ txt ")" \/ s = txt "Hilbert(" ++ a ++ txt ")") by (destruct Hh as [->| ->]; [left|right]; exact E).
          split.
          -- intros c. split.
             ++ destruct (method_from_str p parse_f64 a) as [m| |] eqn:Q; cbn [pbind]; try discriminate. intros Q'. injection Q' as <-.
                exists a, m. splits; auto. now apply MS.
             ++ intros (a' & m & E' & Hm & ->). destruct (method_argument a' m Hm) as [Na' Aa']. destruct (K a' Na' Aa' E') as (h' & C' & _).
                destruct (is_call_unique _ _ _ _ _ Ha Hn C C') as [_ Q]. injection Q as <-. apply MS in Hm. rewrite Hm. reflexivity.
          -- split.
             ++ intros Q. assert (P : method_from_str p parse_f64 a = PPanic) by (destruct (method_from_str p parse_f64 a); cbn in Q; congruence).
                apply MP in P as ->. exact E2.
             ++ intros E'. destruct R as [R1 R2]. destruct (K _ R1 R2 E') as (h' & C' & _). destruct (is_call_unique _ _ _ _ _ Ha Hn C C') as [_ Q]. injection Q as ->.
                rewrite (proj2 MP eq_refl). reflexivity.
        * split; [|split; [discriminate|]].
          -- intros c. split; [discriminate|]. intros (a' & m & E & Hm & _). destruct (method_argument a' m Hm) as [Na Aa]. destruct (K a' Na Aa E) as (h' & C' & _).
             destruct (is_call_unique _ _ _ _ _ Ha Hn C C') as [_ Q]. discriminate.
          -- intros E. destruct R as [R1 R2]. destruct (K _ R1 R2 E) as (h' & C' & _). destruct (is_call_unique _ _ _ _ _ Ha Hn C C') as [_ Q]. discriminate.
      + cbn [opt_or pbind]. split; [|split; [discriminate|]].
        * intros c. split; [discriminate|]. intros (a' & m & E & Hm & _). destruct (method_argument a' m Hm) as [Na Aa]. destruct (K a' Na Aa E) as (h' & C' & M').
          destruct (is_call_unique _ _ _ _ _ Ha Hn C C') as [-> _]. congruence.
        * intros E. destruct R as [R1 R2]. destruct (K _ R1 R2 E) as (h' & C' & M'). destruct (is_call_unique _ _ _ _ _ Ha Hn C C') as [-> _]. congruence.
    - cbn [or_other pbind]. split; [|split; [discriminate|]].
      + intros c. split; [discriminate|]. intros (a' & m & E & Hm & _). destruct (method_argument a' m Hm) as [Na Aa]. destruct (K a' Na Aa E) as (h' & C' & _).
        apply Spec in C'. congruence.
      + intros E. destruct R as [R1 R2]. destruct (K _ R1 R2 E) as (h' & C' & _). apply Spec in C'. congruence.
  Qed.
  Lemma zip_cases s : ascii s -> nesting_below 65536 s ->
    (forall c, zip_from_str p s = POk c <-> (s = txt "zip(dict)" /\ c = Zip ZDict) \/ (s = txt "zip(back)" /\ c = Zip ZBack)) /\ zip_from_str p s <> PPanic.
  Proof.
    intros Ha Hn. destruct (fun_call_spec p s Ha Hn) as [Spec NP]. unfold zip_from_str.
    assert (K : forall a, plainb a = true -> a <> [] -> s = txt "zip(" ++ a ++ txt ")" -> is_call s (txt "zip") [a]).
    { intros a Pa Na E. apply call_one; [discriminate|now apply plainb_ok|]. splits; auto. now apply plain_argument, plainb_ok. }
    assert (D : s = txt "zip(dict)" -> is_call s (txt "zip") [txt "dict"]) by (apply (K (txt "dict")); [reflexivity|discriminate]).
    assert (B : s = txt "zip(back)" -> is_call s (txt "zip") [txt "back"]) by (apply (K (txt "back")); [reflexivity|discriminate]).
    clear K. destruct (fun_call p s) as [[h args]| |] eqn:F; [| |congruence].
    - assert (C : is_call s h args) by now apply Spec. cbn [or_other pbind].
      assert (U : forall a, is_call s (txt "zip") [a] -> h = txt "zip" /\ args = [a]) by (intros a C'; apply (is_call_unique _ _ _ _ _ Ha Hn C C')).
      destruct (matches_fully h (lit (txt "zip"))) as [t|] eqn:M.
      + apply full_lit in M as [-> _]. cbn [opt_or pbind]. destruct args as [|a [|a2 args]]; cbn [length Nat.eqb negb].
        * split; [|discriminate]. intros c. split; [discriminate|]. intros [[E _]|[E _]]; [apply D in E|apply B in E]; apply U in E as [_ E]; discriminate.
        * assert (E : s = txt "zip" ++ LPAREN :: a ++ [RPAREN]) by (destruct C as (_ & _ & _ & ->); reflexivity).
          destruct (text_eqb a (txt "dict")) eqn:Q1; [|destruct (text_eqb a (txt "back")) eqn:Q2].
          -- apply text_eqb_eq in Q1. subst a. split; [|discriminate]. intros c. split.
             ++ intros Q. injection Q as <-. left. auto.
             ++ intros [[_ ->]|[E' _]]; [reflexivity|]. apply B in E'. apply U in E' as [_ E']. discriminate.
          -- apply text_eqb_eq in Q2. subst a. split; [|discriminate]. intros c. split.
             ++ intros Q. injection Q as <-. right. auto.
             ++ intros [[E' _]|[_ ->]]; [|reflexivity]. apply D in E'. apply U in E' as [_ E']. discriminate.
          -- split; [|discriminate]. intros c. split; [discriminate|].
             intros [[E' _]|[E' _]]; [apply D in E'|apply B in E']; apply U in E' as [_ E']; injection E' as ->; discriminate.
        * split; [|discriminate]. intros c. split; [discriminate|]. intros [[E _]|[E _]]; [apply D in E|apply B in E]; apply U in E as [_ E]; discriminate.
      + apply full_lit_none in M. cbn [opt_or pbind]. split; [|discriminate]. intros c. split; [discriminate|].
        intros [[E _]|[E _]]; [apply D in E|apply B in E]; apply U in E as [E _]; contradiction.
    - cbn [or_other pbind]. split; [|discriminate]. intros c. split; [discriminate|]. intros [[E _]|[E _]]; [apply D in E|apply B in E]; apply Spec in E; congruence.
  Qed.
End Plain.

Lemma Forall2_length {A B} (R : A -> B -> Prop) l l' : Forall2 R l l' -> length l = length l'.
Proof. induction 1; cbn; congruence. Qed.
(** ** All alternatives *)
Section All.
  Variables (p : profile) (d : N -> bool) (parse_f64 : text -> option f64).
  Hypothesis Hd : digit_class_ok d.

  Lemma delta_cases s : (forall c, delta_from_str s = POk c <-> s = txt "delta" /\ c = Delta) /\ delta_from_str s <> PPanic.
  Proof.
    unfold delta_from_str, expect_name. destruct (matches_fully s (lit (txt "delta"))) as [t|] eqn:M.
    - apply full_lit in M as [-> _]. cbn. split; [|discriminate]. intros c. split; [intros Q; injection Q as <-; auto|intros [_ ->]; reflexivity].
    - apply full_lit_none in M. cbn. split; [|discriminate]. intros c. split; [discriminate|]. intros [E _]. contradiction.
  Qed.
  Lemma hufman_cases s : (forall c, hufman_from_str s = POk c <-> Forall2 (fun c l => c = l \/ c + 32 = l)%N s (txt "hufman") /\ c = Hufman) /\ hufman_from_str s <> PPanic.
  Proof.
    unfold hufman_from_str. assert (I := ignore_case_lower s (txt "hufman")).
    assert (L : Forall (fun l => (97 <= l <= 122)%N) (txt "hufman")) by (repeat constructor; cbn; lia). specialize (I L).
    destruct (eq_ignore_ascii_case s (txt "hufman")).
    - split; [|discriminate]. intros c. split; [intros Q; injection Q as <-; split; [now apply I|reflexivity]|intros [_ ->]; reflexivity].
    - split; [|discriminate]. intros c. split; [discriminate|]. intros [H _]. apply I in H. discriminate.
  Qed.
  Lemma cluster_cases s : ascii s -> (forall c, cluster_from_str d s = POk c <-> exists n, numbered cluster_words s n /\ c = ClusterColors n) /\ cluster_from_str d s <> PPanic.
  Proof.
    intros Ha. destruct (number_in_spec d cluster_words (cluster_re d) Hd (cluster_number d) cluster_words_ok s Ha) as [S P]. unfold cluster_from_str.
    destruct (number_in (cluster_re d) s) as [n| |] eqn:Q; [| |congruence]; cbn [pbind]; (split; [|discriminate]); intros c.
    - split; [intros E; injection E as <-; exists n; split; [now apply S|reflexivity]|]. intros (n' & H & ->). apply S in H. now injection H as ->.
    - split; [discriminate|]. intros (n' & H & ->). apply S in H. discriminate.
  Qed.
  Lemma voronoi_cases s : ascii s -> (forall c, voronoi_from_str d s = POk c <-> exists n, numbered voronoi_words s n /\ c = VoronoiCluster n) /\ voronoi_from_str d s <> PPanic.
  Proof.
    intros Ha. destruct (number_in_spec d voronoi_words (voronoi_re d) Hd (voronoi_number d) voronoi_words_ok s Ha) as [S P]. unfold voronoi_from_str.
    destruct (number_in (voronoi_re d) s) as [n| |] eqn:Q; [| |congruence]; cbn [pbind]; (split; [|discriminate]); intros c.
    - split; [intros E; injection E as <-; exists n; split; [now apply S|reflexivity]|]. intros (n' & H & ->). apply S in H. now injection H as ->.
    - split; [discriminate|]. intros (n' & H & ->). apply S in H. discriminate.
  Qed.
  (** The order of the alternatives *)
  Lemma from_str_order s : any_codec_from_str p d parse_f64 s =
    match cluster_from_str d s with POk c => POk c | PPanic => PPanic | PErr e1 =>
    match voronoi_from_str d s with POk c => POk c | PPanic => PPanic | PErr e2 =>
    match delta_from_str s with POk c => POk c | PPanic => PPanic | PErr e3 =>
    match hilbert_from_str p parse_f64 s with POk c => POk c | PPanic => PPanic | PErr e4 =>
    match hufman_from_str s with POk c => POk c | PPanic => PPanic | PErr e5 =>
    match zip_from_str p s with POk c => POk c | PPanic => PPanic | PErr e6 =>
      PErr (AllFailed [(txt "ClusterColors", e1); (txt "VoronoiCluster", e2); (txt "Delta", e3); (txt "Hilbert", e4); (txt "Hufman", e5); (txt "Zip", e6)])
    end end end end end end.
  Proof.
    unfold any_codec_from_str, try_all, pure, alt_new. cbn [try_chain then_try al_res al_input alt_end app].
    destruct (cluster_from_str d s); [reflexivity| |reflexivity]. cbn [try_chain then_try al_res al_input alt_end app].
    destruct (voronoi_from_str d s); [reflexivity| |reflexivity]. cbn [try_chain then_try al_res al_input alt_end app].
    destruct (delta_from_str s); [reflexivity| |reflexivity]. cbn [try_chain then_try al_res al_input alt_end app].
    destruct (hilbert_from_str p parse_f64 s); [reflexivity| |reflexivity]. cbn [try_chain then_try al_res al_input alt_end app].
    destruct (hufman_from_str s); [reflexivity| |reflexivity]. cbn [try_chain then_try al_res al_input alt_end app].
    destruct (zip_from_str p s); reflexivity.
  Qed.
  Lemma hilbert_first c a s : s = txt "hilbert(" ++ a \/ s = txt "Hilbert(" ++ a -> hd_error s = Some c -> c = 104%N \/ c = 72%N.
  Proof. intros [->| ->]; cbn; intros Q; injection Q as <-; auto. Qed.
  Lemma from_str_spec s : ascii s -> nesting_below 65536 s ->
    (forall c, any_codec_from_str p d parse_f64 s = POk c <-> selects parse_f64 s c)
    /\ (any_codec_from_str p d parse_f64 s = PPanic <-> s = txt "hilbert(rle())" \/ s = txt "Hilbert(rle())").
  Proof.
    intros Ha Hn. destruct (cluster_cases s Ha) as [C1 P1]. destruct (voronoi_cases s Ha) as [C2 P2]. destruct (delta_cases s) as [C3 P3].
    destruct (hilbert_cases p parse_f64 s Ha Hn) as [C4 P4]. destruct (hufman_cases s) as [C5 P5]. destruct (zip_cases p s Ha Hn) as [C6 P6].
    assert (NR : s = txt "hilbert(rle())" \/ s = txt "Hilbert(rle())" -> (forall c, cluster_from_str d s <> POk c) /\ (forall c, voronoi_from_str d s <> POk c) /\ (forall c, delta_from_str s <> POk c)).
    { intros [->| ->]; splits; intros c Q; vm_compute in Q; discriminate. }
    rewrite from_str_order. destruct (cluster_from_str d s) as [c1|e1|] eqn:F1; [| |congruence].
    { split.
      - intros c. split.
        + intros Q. injection Q as <-. left. now apply C1.
        + intros [(n & H & ->)|[[N _]|[N _]]].
          * symmetry. f_equal. destruct (proj1 (C1 c1) eq_refl) as (n1 & H1 & ->). assert (Q : POk (ClusterColors n1) = POk (ClusterColors n)) by (apply C1; eauto). congruence.
          * destruct (proj1 (C1 c1) eq_refl) as (n1 & H1 & _). now destruct (N n1).
          * destruct (proj1 (C1 c1) eq_refl) as (n1 & H1 & _). now destruct (N n1).
      - split; [discriminate|]. intros E. destruct (NR E) as (N & _). now destruct (N c1). }
    assert (N1 : forall n, ~ numbered cluster_words s n) by (intros n H; assert (Q : @PErr any_codec e1 = POk (ClusterColors n)) by (apply C1; eauto); discriminate).
    destruct (voronoi_from_str d s) as [c2|e2|] eqn:F2; [| |congruence].
    { split.
      - intros c. split.
        + intros Q. injection Q as <-. right. left. split; [exact N1|]. now apply C2.
        + intros [(n & H & _)|[[_ (n & H & ->)]|[_ [N _]]]].
          * now destruct (N1 n).
          * symmetry. f_equal. destruct (proj1 (C2 c2) eq_refl) as (n2 & H2 & ->). assert (Q : POk (VoronoiCluster n2) = POk (VoronoiCluster n)) by (apply C2; eauto). congruence.
          * destruct (proj1 (C2 c2) eq_refl) as (n2 & H2 & _). now destruct (N n2).
      - split; [discriminate|]. intros E. destruct (NR E) as (_ & N & _). now destruct (N c2). }
    assert (N2 : forall n, ~ numbered voronoi_words s n) by (intros n H; assert (Q : @PErr any_codec e2 = POk (VoronoiCluster n)) by (apply C2; eauto); discriminate).
    assert (PL : forall c, selects parse_f64 s c <-> plain_codec parse_f64 s c).
    { intros c. unfold selects. split; [|now auto]. intros [(n & H & _)|[[_ (n & H & _)]|[_ [_ H]]]]; [now destruct (N1 n)|now destruct (N2 n)|exact H]. }
    (* the remaining alternatives exclude each other *)
    assert (X : forall c1 c2, plain_codec parse_f64 s c1 -> plain_codec parse_f64 s c2 -> hilbert_from_str p parse_f64 s <> POk c1 -> c1 = c2).
    { intros c1 c2 H1 H2 NH. unfold plain_codec in H1, H2.
      destruct H1 as [[E1 ->]|[H1|[[E1 ->]|[[E1 ->]|[E1 ->]]]]].
      - destruct H2 as [[_ ->]|[(a & m & [E|E] & _)|[[E _]|[[E _]|[E _]]]]]; try reflexivity; rewrite E1 in E; try discriminate.
        inversion E as [|? ? ? ? Hx _]. cbn in Hx. destruct Hx as [Hx|Hx]; vm_compute in Hx; discriminate.
      - apply C4 in H1. contradiction.
      - destruct H2 as [[E _]|[(a & m & E & _)|[[_ ->]|[[E _]|[E _]]]]]; try reflexivity.
        + rewrite E in E1. inversion E1 as [|? ? ? ? Hx _]. destruct Hx as [Hx|Hx]; vm_compute in Hx; discriminate.
        + apply Forall2_length in E1. destruct E as [E|E]; rewrite E, !app_length in E1; cbn in E1; lia.
        + rewrite E in E1. inversion E1 as [|? ? ? ? Hx _]. destruct Hx as [Hx|Hx]; vm_compute in Hx; discriminate.
        + rewrite E in E1. inversion E1 as [|? ? ? ? Hx _]. destruct Hx as [Hx|Hx]; vm_compute in Hx; discriminate.
      - destruct H2 as [[E _]|[(a & m & [E|E] & _)|[[E _]|[[_ ->]|[E _]]]]]; try reflexivity; rewrite E1 in E; try discriminate.
        inversion E as [|? ? ? ? Hx _]. destruct Hx as [Hx|Hx]; vm_compute in Hx; discriminate.
      - destruct H2 as [[E _]|[(a & m & [E|E] & _)|[[E _]|[[E _]|[_ ->]]]]]; try reflexivity; rewrite E1 in E; try discriminate.
        inversion E as [|? ? ? ? Hx _]. destruct Hx as [Hx|Hx]; vm_compute in Hx; discriminate. }
    destruct (delta_from_str s) as [c3|e3|] eqn:F3; [| |congruence].
    { pose proof (proj1 (C3 c3) eq_refl) as [E ->]. assert (D : plain_codec parse_f64 s Delta) by (left; auto).
      assert (NH : hilbert_from_str p parse_f64 s <> POk Delta) by (intros Q; apply C4 in Q as (a & m & _ & _ & Q); discriminate). split.
      - intros c. rewrite PL. split; [intros Q; injection Q as <-; exact D|]. intros H. f_equal. now apply X.
      - split; [discriminate|]. intros E'. destruct (NR E') as (_ & _ & N). now destruct (N Delta). }
    destruct (hilbert_from_str p parse_f64 s) as [c4|e4|] eqn:F4.
    { destruct (proj1 (C4 c4) eq_refl) as (a & m & E & Hm & ->).
      split.
      - intros c. rewrite PL. split; [intros Q; injection Q as <-; right; left; exists a, m; auto|]. intros H.
        assert (D : plain_codec parse_f64 s (Hilbert m)) by (right; left; exists a, m; auto).
        destruct H as [H|[H|H]]; [|now apply C4 in H|].
        + exfalso. apply C3 in H. discriminate.
        + exfalso. assert (Q : c = Hilbert m) by (apply X; [right; right; exact H|exact D|]; destruct H as [[_ ->]|[[_ ->]|[_ ->]]]; discriminate).
          subst c. destruct H as [[_ H]|[[_ H]|[_ H]]]; discriminate.
      - split; [discriminate|]. intros E'. apply P4 in E'. discriminate. }
    2: { split; [|split; [intros _; now apply P4|reflexivity]]. intros c. rewrite PL. split; [discriminate|]. intros H. exfalso.
         pose proof (proj1 P4 eq_refl) as E. destruct H as [[H _]|[H|[[H _]|[[H _]|[H _]]]]].
         - destruct E as [E|E]; rewrite E in H; discriminate.
         - apply C4 in H. discriminate.
         - apply Forall2_length in H. destruct E as [E|E]; rewrite E in H; discriminate.
         - destruct E as [E|E]; rewrite E in H; discriminate.
         - destruct E as [E|E]; rewrite E in H; discriminate. }
    assert (NP : ~ (s = txt "hilbert(rle())" \/ s = txt "Hilbert(rle())")) by (intros E; apply P4 in E; discriminate).
    destruct (hufman_from_str s) as [c5|e5|] eqn:F5; [| |congruence].
    { pose proof (proj1 (C5 c5) eq_refl) as [E ->]. assert (D : plain_codec parse_f64 s Hufman) by (right; right; left; auto). split.
      - intros c. rewrite PL. split; [intros Q; injection Q as <-; exact D|]. intros H. f_equal. apply X; auto. discriminate.
      - split; [discriminate|]. intros E'. contradiction. }
    destruct (zip_from_str p s) as [c6|e6|] eqn:F6; [| |congruence].
    { pose proof (proj1 (C6 c6) eq_refl) as E. assert (D : plain_codec parse_f64 s c6) by (right; right; right; exact E). split.
      - intros c. rewrite PL. split; [intros Q; injection Q as <-; exact D|]. intros H. f_equal. apply X; auto. discriminate.
      - split; [discriminate|]. intros E'. contradiction. }
    split; [|split; [discriminate|contradiction]]. intros c. rewrite PL. split; [discriminate|]. intros H. exfalso.
    destruct H as [H|[H|[H|H]]]; [apply C3 in H|apply C4 in H|apply C5 in H|apply C6 in H]; discriminate.
  Qed.
End All.
