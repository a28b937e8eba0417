(** * Proofs for C72. *)
From Coq Require Import String.
From Verif Require Import Base Prs PrsSpec PrsProofs PrsTop Regex RegexProofs Patterns PatternSpec.
Close Scope string_scope.
Open Scope list_scope.

Lemma plain_ways r : plain r = true -> forall st s t u,
  (exists w, In w (ways r st s) /\ wy_taken w = t /\ wy_rest w = u) <-> s = t ++ u /\ lang r t.
Proof.
  induction r as [|f|a IHa b IHb|a IHa|f|a IHa| |]; cbn [plain]; intros P st s t u; try discriminate.
  - cbn. split; [intros (w & [<-|[]] & <- & <-); split; [reflexivity|constructor]|].
    intros [-> L]. inversion L; subst. exists (mkWay [] u []). auto.
  - split.
    + intros (w & H & <- & <-). apply in_cls in H as (c & r & -> & F & ->). cbn. split; [reflexivity|now constructor].
    + intros [-> L]. inversion L as [|? c F| | | | |]; subst. exists (mkWay [c] u []). split; [|auto]. apply in_cls. exists c, u. auto.
  - apply andb_prop in P as [Pa Pb]. split.
    + intros (w & H & <- & <-). apply in_seq in H as (w1 & w2 & H1 & H2 & ->). cbn [wy_taken wy_rest].
      destruct (proj1 (IHa Pa st s _ _) (ex_intro _ w1 (conj H1 (conj eq_refl eq_refl)))) as [E1 L1].
      destruct (proj1 (IHb Pb _ _ _ _) (ex_intro _ w2 (conj H2 (conj eq_refl eq_refl)))) as [E2 L2].
      split; [|now constructor]. rewrite E1 at 1. rewrite E2 at 1. apply app_assoc.
    + intros [-> L]. inversion L as [| |? ? x y La Lb| | | |]; subst. rewrite <- app_assoc.
      destruct (proj2 (IHa Pa st (x ++ y ++ u) x (y ++ u)) (conj eq_refl La)) as (w1 & H1 & T1 & R1).
      destruct (proj2 (IHb Pb (st && match wy_taken w1 with [] => true | _ => false end) (y ++ u) y u) (conj eq_refl Lb)) as (w2 & H2 & T2 & R2).
      exists (mkWay (wy_taken w1 ++ wy_taken w2) (wy_rest w2) (wy_groups w1 ++ wy_groups w2)). split; [|cbn; split; congruence].
      apply in_seq. exists w1, w2. rewrite R1. auto.
  - cbn [ways]. split.
    + intros (w & H & <- & <-). apply in_app_or in H as [H|[<-|[]]].
      * destruct (proj1 (IHa P st s _ _) (ex_intro _ w (conj H (conj eq_refl eq_refl)))) as [E1 L1]. split; [exact E1|now constructor].
      * cbn. split; [reflexivity|constructor].
    + intros [-> L]. inversion L as [| | | |? ? La| |]; subst.
      * exists (mkWay [] u (repeat None (groups a))). split; [|auto]. apply in_or_app. right. now left.
      * destruct (proj2 (IHa P st (t ++ u) t u) (conj eq_refl La)) as (w & H & T & R). exists w. split; [|auto]. apply in_or_app. now left.
  - cbn [ways]. split.
    + intros (w & H & <- & <-). apply in_plus in H as (x & r & -> & N & A & ->). cbn. split; [reflexivity|now constructor].
    + intros [-> L]. inversion L; subst. exists (mkWay t u []). split; [|auto]. apply in_plus. exists t, u. auto.
  - split.
    + intros (w & H & <- & <-). apply in_grp in H as (w1 & H & ->). cbn.
      destruct (proj1 (IHa P st s _ _) (ex_intro _ w1 (conj H (conj eq_refl eq_refl)))) as [E1 L1]. split; [exact E1|now constructor].
    + intros [-> L]. inversion L as [| | | | | |? ? La]; subst.
      destruct (proj2 (IHa P st (t ++ u) t u) (conj eq_refl La)) as (w & H & T & R).
      exists (mkWay (wy_taken w) (wy_rest w) (Some (wy_taken w) :: wy_groups w)). split; [|auto]. apply in_grp. eauto.
Qed.

Lemma psearch_some l : forall s st w, pattern_search l st s = Some w ->
  exists pre rest, s = pre ++ rest /\ In w (pattern_ways l (at_start st pre) rest).
Proof.
  induction s as [|c s IH]; intros st w; cbn [pattern_search].
  - destruct (pattern_ways l st []) as [|w' k] eqn:W; [discriminate|]. intros E. injection E as ->. exists [], [].
    unfold at_start. rewrite andb_true_r, W. split; [reflexivity|now left].
  - destruct (pattern_ways l st (c :: s)) as [|w' k] eqn:W.
    + intros E. apply IH in E as (pre & rest & -> & H). exists (c :: pre), rest. split; [reflexivity|].
      unfold at_start in *. rewrite andb_false_r. exact H.
    + intros E. injection E as ->. exists [], (c :: s). unfold at_start. rewrite andb_true_r, W. split; [reflexivity|now left].
Qed.
Lemma psearch_none l : forall s st, pattern_search l st s = None -> forall pre rest, s = pre ++ rest -> pattern_ways l (at_start st pre) rest = [].
Proof.
  induction s as [|c s IH]; intros st; cbn [pattern_search].
  - destruct (pattern_ways l st []) eqn:W; [|discriminate]. intros _ pre rest E. symmetry in E. apply app_eq_nil in E as [-> ->]. unfold at_start. now rewrite andb_true_r.
  - destruct (pattern_ways l st (c :: s)) eqn:W; [|discriminate]. intros E [|c' pre] rest E'; cbn [app] in E'.
    + subst rest. unfold at_start. now rewrite andb_true_r.
    + injection E' as <- E'. specialize (IH false E pre rest E'). unfold at_start in *. now rewrite andb_false_r.
Qed.
Lemma psearch_iff l s : (exists w, pattern_search l true s = Some w) <->
  exists pre rest w, s = pre ++ rest /\ In w (pattern_ways l (at_start true pre) rest).
Proof.
  split.
  - intros [w E]. apply psearch_some in E as (pre & rest & E & H). eauto.
  - intros (pre & rest & w & E & H). destruct (pattern_search l true s) as [w'|] eqn:Q; [eauto|].
    rewrite (psearch_none _ _ _ Q _ _ E) in H. destruct H.
Qed.

(** One alternative: the model of Regex.v *)
Lemma one_search r s : forall st, pattern_search [r] st s = search r st s.
Proof.
  induction s as [|c s IH]; intros st; cbn [pattern_search search pattern_ways flat_map]; rewrite app_nil_r; [reflexivity|].
  destruct (ways r st (c :: s)); [apply IH|reflexivity].
Qed.
Lemma ways_groups r : forall st s w, In w (ways r st s) -> length (wy_groups w) = groups r.
Proof.
  induction r as [|f|a IHa b IHb|a IHa|f|a IHa| |]; intros st s w H.
  - destruct H as [<-|[]]. reflexivity.
  - apply in_cls in H as (c & r & _ & _ & ->). reflexivity.
  - apply in_seq in H as (w1 & w2 & H1 & H2 & ->). cbn. rewrite app_length. now rewrite (IHa _ _ _ H1), (IHb _ _ _ H2).
  - cbn [ways] in H. apply in_app_or in H as [H|[<-|[]]]; [exact (IHa _ _ _ H)|apply repeat_length].
  - apply in_plus in H as (t & r & _ & _ & _ & ->). reflexivity.
  - apply in_grp in H as (w1 & H & ->). cbn. now rewrite (IHa _ _ _ H).
  - cbn in H. destruct st; [|destruct H]. destruct H as [<-|[]]. reflexivity.
  - cbn in H. destruct s; [|destruct H]. destruct H as [<-|[]]. reflexivity.
Qed.
Lemma one_alternative s r : matches_fully_any s [r] = matches_fully s r.
Proof.
  unfold matches_fully_any, matches_fully, captures, captures_len. change (anchored [r]) with [Seq Bos (Seq r Eos)]. rewrite one_search.
  destruct (search (Seq Bos (Seq r Eos)) true s) as [w|] eqn:S; [|reflexivity].
  apply search_some in S as (pre & rest & l & _ & Hw & _).
  assert (I : In w (ways (Seq Bos (Seq r Eos)) (at_start true pre) rest)) by (rewrite Hw; now left).
  apply ways_groups in I. cbn [groups Nat.add] in I. cbn [map list_sum fold_right length]. rewrite I. reflexivity.
Qed.

(** [matches_fully] on a pattern without top-level alternatives *)
Lemma fully_one r s t : plain r = true -> groups r = 0%nat -> matches_fully_any s [r] = Some t <-> t = s /\ lang r s.
Proof.
  intros P G. rewrite one_alternative, full_some.
  - split.
    + intros [-> (w & H & R)]. split; [reflexivity|].
      destruct (proj1 (plain_ways r P true s _ _) (ex_intro _ w (conj H (conj eq_refl eq_refl)))) as [E L].
      rewrite R, app_nil_r in E. now rewrite <- E in L.
    + intros [-> L]. split; [reflexivity|].
      destruct (proj2 (plain_ways r P true s s []) (conj (eq_sym (app_nil_r s)) L)) as (w & H & _ & R). eauto.
  - intros st s' w H. apply ways_groups in H. rewrite G in H. now destruct (wy_groups w).
  - intros st s' w H. exact (proj1 (proj1 (plain_ways r P st s' _ _) (ex_intro _ w (conj H (conj eq_refl eq_refl))))).
Qed.
(** With capture groups it never matches. *)
Lemma fully_groups l s : (0 < list_sum (map groups l))%nat -> matches_fully_any s l = None.
Proof.
  intros G. unfold matches_fully_any, captures_len. destruct (pattern_search _ true s); [|reflexivity].
  destruct (Nat.eqb_spec (S (list_sum (map groups l))) 1); [lia|reflexivity].
Qed.
(** Two alternatives: the first only has to begin the text, the second only to end it. *)
Lemma fully_two a b s : plain a = true -> plain b = true -> groups a = 0%nat -> groups b = 0%nat ->
  ((exists t, matches_fully_any s [a; b] = Some t) <-> (exists u v, s = u ++ v /\ lang a u) \/ (exists u v, s = u ++ v /\ lang b v)).
Proof.
  intros Pa Pb Ga Gb. unfold matches_fully_any, captures_len. change (anchored [a; b]) with [Seq Bos a; Seq b Eos].
  cbn [map list_sum fold_right]. rewrite Ga, Gb. cbn [Nat.add Nat.eqb].
  assert (Q : (exists t, match pattern_search [Seq Bos a; Seq b Eos] true s with Some w => Some (wy_taken w) | None => None end = Some t)
     <-> (exists w, pattern_search [Seq Bos a; Seq b Eos] true s = Some w)).
  { destruct (pattern_search _ true s); split; intros [t E]; eauto; discriminate. }
  rewrite Q, psearch_iff. clear Q. split.
  - intros (pre & rest & w & -> & H). unfold pattern_ways in H. cbn [flat_map] in H. rewrite app_nil_r in H. apply in_app_or in H as [H|H].
    + apply in_seq in H as (w1 & w2 & H1 & H2 & ->). cbn [ways] in H1. destruct (at_start true pre) eqn:A; [|destruct H1].
      destruct H1 as [<-|[]]. destruct pre; [|discriminate A]. cbn [wy_rest] in H2. left.
      destruct (proj1 (plain_ways a Pa _ _ _ _) (ex_intro _ w2 (conj H2 (conj eq_refl eq_refl)))) as [E L]. cbn [app]. eauto.
    + apply in_seq in H as (w1 & w2 & H1 & H2 & ->). cbn [ways] in H2. destruct (wy_rest w1) eqn:R; [|destruct H2]. right.
      destruct (proj1 (plain_ways b Pb _ _ _ _) (ex_intro _ w1 (conj H1 (conj eq_refl eq_refl)))) as [E L].
      rewrite R, app_nil_r in E. rewrite E. eauto.
  - intros [(u & v & -> & L)|(u & v & -> & L)].
    + destruct (proj2 (plain_ways a Pa (at_start true []) (u ++ v) u v) (conj eq_refl L)) as (w & H & _ & _).
      exists [], (u ++ v), (mkWay (wy_taken w) (wy_rest w) (wy_groups w)). split; [reflexivity|].
      unfold pattern_ways. cbn [flat_map]. apply in_or_app. left. apply in_seq. exists (mkWay [] (u ++ v) []), w.
      split; [now left|]. split; [exact H|reflexivity].
    + destruct (proj2 (plain_ways b Pb (at_start true u) v v []) (conj (eq_sym (app_nil_r v)) L)) as (w & H & _ & R).
      exists u, v, (mkWay (wy_taken w ++ []) [] (wy_groups w ++ [])). split; [reflexivity|].
      unfold pattern_ways. cbn [flat_map]. apply in_or_app. right. apply in_or_app. left. apply in_seq. exists w, (mkWay [] [] []).
      split; [exact H|]. split; [|reflexivity]. rewrite R. now left.
Qed.
Lemma lang_lit l s : lang (lit l) s <-> s = l.
Proof.
  revert s. induction l as [|c l IH]; intros s; cbn [lit].
  - split; [intros H; now inversion H|intros ->; constructor].
  - split.
    + intros H. inversion H as [| |? ? x y Lx Ly| | | |]; subst. apply IH in Ly as ->. inversion Lx as [|? d F| | | | |]; subst.
      apply N.eqb_eq in F as ->. reflexivity.
    + intros ->. change (c :: l) with ([c] ++ l). constructor; [constructor; apply N.eqb_refl|now apply IH].
Qed.
Lemma fully_two_wrong : exists a b s t, plain a = true /\ plain b = true /\ groups a = 0%nat /\ groups b = 0%nat
  /\ ~ lang a s /\ ~ lang b s /\ t <> s /\ matches_fully_any s [a; b] = Some t.
Proof.
  exists (lit (txt "rle")), (lit (txt "zip")), (txt "rlex"), (txt "rle"). do 4 (split; [reflexivity|]).
  split; [rewrite lang_lit; discriminate|]. split; [rewrite lang_lit; discriminate|]. split; [discriminate|reflexivity].
Qed.

(** ** The unchecked access *)
Lemma no_undefined S T (self : @alternatives T) name (f : @parser S T) s :
  then_try_checked self name f s =
  match then_try self name f s with (POk x, s) => (Done x, s) | (_, s) => (Aborted_inside, s) end.
Proof.
  unfold then_try_checked, then_try. destruct (al_res self) as [x|v] eqn:R; [reflexivity|].
  destruct (f (al_input self) s) as [[x|e|] s1]; [| |reflexivity].
  - unfold into_success. now rewrite R.
  - unfold stack_error, unwrap_err_unchecked. now rewrite R.
Qed.
Lemma unchecked_safe S T (self : @alternatives T) name (f : @parser S T) s :
  fst (then_try_checked self name f s) <> Undefined /\ fst (then_try_checked self name f s) <> Assertion
  /\ (fst (then_try_checked self name f s) = Aborted_inside <-> (exists v, al_res self = inr v) /\ fst (f (al_input self) s) = PPanic).
Proof.
  rewrite no_undefined. unfold then_try. destruct (al_res self) as [x|v].
  - cbn. split; [discriminate|]. split; [discriminate|]. split; [discriminate|]. intros [[w E] _]. discriminate.
  - destruct (f (al_input self) s) as [[x|e|] s1]; cbn; (split; [discriminate|]); (split; [discriminate|]); split; try discriminate; try (intros [_ E]; discriminate).
    + intros _. split; [eauto|reflexivity].
    + reflexivity.
Qed.
Lemma guarded T (self : @alternatives T) name e : stack_error self name e <> Undefined
  /\ (stack_error self name e = Assertion <-> exists x, al_res self = inl x)
  /\ (forall v, al_res self = inr v -> stack_error self name e = Done (mkAlt (al_input self) (inr (v ++ [(name, e)])))).
Proof.
  unfold stack_error, unwrap_err_unchecked. destruct (al_res self) as [x|v].
  - split; [discriminate|]. split; [split; [eauto|reflexivity]|discriminate].
  - split; [discriminate|]. split; [split; [discriminate|intros [x D]; discriminate D]|]. now intros w [= <-].
Qed.
