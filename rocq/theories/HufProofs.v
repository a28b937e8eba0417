(** * Lemmas about the Huffman tree, its iterator, the encoder and the decoder. *)
From Verif Require Import Base Ser SerSpec SerProofs Bit BitSpec BitProofs Utils Huf HufSpec UtilsProofs.
From Coq Require Import ZifyBool ZifyNat ZifyN.
Set Implicit Arguments.
Arguments ho_of {E cmp H}. Arguments ho_push {E cmp H}. Arguments ho_none {E cmp H}. Arguments ho_some {E cmp H} _ _ {e h'}.

(** ** Codes of a tree, left to right *)
Fixpoint codes {A} (t : bintrie A) : list (list bool * A) :=
  match t with
  | Leaf v => [([], v)]
  | Branch l r => map (fun p => (false :: fst p, snd p)) (codes l)
                  ++ map (fun p => (true :: fst p, snd p)) (codes r)
  end.
Lemma codes_path {A} (t : bintrie A) bits v : In (bits, v) (codes t) <-> path t bits v.
Proof.
  revert bits. induction t as [u|l IHl r IHr]; intros bits; cbn [codes].
  - split.
    + intros [E|[]]. injection E as <- <-. constructor.
    + inversion 1; subst. now left.
  - rewrite in_app_iff, !in_map_iff. split.
    + intros [[[b w] [E H]]|[[b w] [E H]]]; cbn in E; injection E as <- <-; constructor.
      * now apply IHl. * now apply IHr.
    + inversion 1; subst.
      * left. exists (bits0, v). split; [reflexivity|]. now apply IHl.
      * right. exists (bits0, v). split; [reflexivity|]. now apply IHr.
Qed.
Lemma codes_leaves {A} (t : bintrie A) : map snd (codes t) = leaves t.
Proof.
  induction t as [u|l IHl r IHr]; cbn [codes leaves]; [reflexivity|].
  rewrite map_app, !map_map. cbn [snd]. now rewrite <- IHl, <- IHr.
Qed.
Lemma codes_length {A} (t : bintrie A) : length (codes t) = leaf_count t.
Proof.
  induction t as [u|l IHl r IHr]; cbn [codes leaf_count]; [reflexivity|].
  rewrite app_length, !map_length. lia.
Qed.
Lemma leaves_path {A} (t : bintrie A) v : In v (leaves t) <-> exists bits, path t bits v.
Proof.
  rewrite <- codes_leaves, in_map_iff. split.
  - intros [[b w] [<- H]]. exists b. now apply codes_path.
  - intros [b H]. exists (b, v). split; [reflexivity|]. now apply codes_path.
Qed.
(** Two paths through one tree, one a prefix of the other, end at the same leaf. *)
Lemma path_prefix {A} (t : bintrie A) : forall b1 v1 b2 v2,
  path t b1 v1 -> path t b2 v2 -> prefix b1 b2 -> b1 = b2 /\ v1 = v2.
Proof.
  induction t as [u|l IHl r IHr]; intros b1 v1 b2 v2 H1 H2 [p Hp].
  - inversion H1; inversion H2; subst. auto.
  - subst b2. inversion H1; subst; inversion H2; subst.
    + destruct (IHl bits v1 (bits ++ p) v2) as [E1 E2]; [assumption|assumption|exists p; reflexivity|]. split; [|exact E2].
      cbn [app]. now rewrite <- E1.
    + destruct (IHr bits v1 (bits ++ p) v2) as [E1 E2]; [assumption|assumption|exists p; reflexivity|]. split; [|exact E2].
      cbn [app]. now rewrite <- E1.
Qed.
Lemma path_unique {A} (t : bintrie A) b1 b2 v : NoDup (leaves t) -> path t b1 v -> path t b2 v -> b1 = b2.
Proof.
  revert b1 b2. induction t as [u|l IHl r IHr]; intros b1 b2 HN H1 H2.
  - inversion H1; inversion H2; subst. reflexivity.
  - cbn [leaves] in HN. apply NoDup_app_inv in HN as [HNl [HNr D]].
    inversion H1; subst; inversion H2; subst.
    + f_equal. auto.
    + exfalso. apply (D v); apply leaves_path; eauto.
    + exfalso. apply (D v); apply leaves_path; eauto.
    + f_equal. auto.
Qed.

(** ** The iterator visits the leaves in order *)
Definition pre {A} (p : list bool) (x : list bool * A) : list bool * A := (p ++ fst x, snd x).
Fixpoint ctx_rest {A} (anc : list (bintrie A)) (rep : list bool) : list (list bool * A) :=
  match rep, anc with
  | false :: rep, Branch l r :: anc => map (pre (rev rep ++ [true])) (codes r) ++ ctx_rest anc rep
  | true :: rep, _ :: anc => ctx_rest anc rep
  | _, _ => []
  end.
Definition ctx_wf {A} (anc : list (bintrie A)) (rep : list bool) : Prop :=
  Forall2 (fun t (_ : bool) => exists l r, t = Branch l r) anc rep.
Definition it_rest {A} (it : bt_iter A) : list (list bool * A) :=
  match bti_stack it with
  | [] => []
  | t :: anc => map (pre (rev (bti_rep it))) (codes t) ++ ctx_rest anc (bti_rep it)
  end.
Definition it_wf {A} (it : bt_iter A) : Prop :=
  match bti_stack it with
  | [] => True
  | t :: anc => (exists v, t = Leaf v) /\ ctx_wf anc (bti_rep it)
  end.

Lemma all_left_spec {A} (t : bintrie A) : forall anc rep, ctx_wf anc rep ->
  let it := all_left t (t :: anc) rep in
  it_wf it /\ bti_stack it <> [] /\ it_rest it = map (pre (rev rep)) (codes t) ++ ctx_rest anc rep.
Proof.
  induction t as [v|l IHl r IHr]; intros anc rep Hw; cbn zeta; cbn [all_left].
  - repeat split; [eauto|exact Hw|discriminate].
  - destruct (IHl (Branch l r :: anc) (false :: rep)) as [H1 [H2 H3]].
    { constructor; eauto. }
    cbn zeta in *. repeat split; [exact H1|exact H2|]. rewrite H3.
    cbn [codes ctx_rest rev]. rewrite map_app, !map_map, <- app_assoc. f_equal; [|f_equal];
      apply map_ext; intros [b w]; unfold pre; cbn [fst snd]; rewrite <- app_assoc; reflexivity.
Qed.

Lemma pop_while_spec {A} (rep : list bool) : forall (anc : list (bintrie A)), ctx_wf anc rep ->
  let it := pop_while anc rep in
  (bti_stack it = [] /\ ctx_rest anc rep = [])
  \/ exists l r anc', bti_stack it = Branch l r :: anc' /\ ctx_wf anc' (bti_rep it)
     /\ ctx_rest anc rep = map (pre (rev (bti_rep it) ++ [true])) (codes r) ++ ctx_rest anc' (bti_rep it).
Proof.
  induction rep as [|b rep IH]; intros anc Hw; cbn zeta.
  - inversion Hw; subst. left. auto.
  - inversion Hw as [|t ? anc' ? [l [r ->]] Hw']; subst. destruct b; cbn [pop_while tl ctx_rest].
    + apply IH. exact Hw'.
    + right. exists l, r, anc'. cbn [bti_stack bti_rep]. auto.
Qed.

Lemma bti_next_spec {A} (it : bt_iter A) : it_wf it ->
  match bti_stack it with
  | [] => bti_next it = Err
  | _ => exists x it', bti_next it = Ok (x, it') /\ it_wf it' /\ it_rest it = x :: it_rest it'
  end.
Proof.
  destruct it as [[|t anc] rep]; cbn [bti_stack]; [reflexivity|].
  intros [[v ->] Hw]. cbn [bti_rep] in Hw. unfold bti_next. cbn [bti_stack bti_rep].
  unfold pop_parents. cbn [bti_stack bti_rep tl].
  destruct (pop_while_spec Hw) as [[E1 E2]|[l [r [anc' [E1 [E2 E3]]]]]].
  - rewrite E1. exists (rev rep, v), (pop_while anc rep). split; [reflexivity|]. split.
    + unfold it_wf. now rewrite E1.
    + unfold it_rest. cbn [bti_stack bti_rep]. rewrite E1. cbn [codes map app].
      rewrite E2. unfold pre. cbn [fst snd]. now rewrite app_nil_r.
  - rewrite E1. unfold right_once. rewrite E1. cbn [res_bind]. unfold all_the_way_left. cbn [bti_stack bti_rep res_bind].
    destruct (@all_left_spec A r (Branch l r :: anc') (true :: bti_rep (pop_while anc rep))) as [H1 [H2 H3]].
    { constructor; eauto. }
    cbn zeta in *. eexists _, _. split; [reflexivity|]. split; [exact H1|].
    rewrite H3. unfold it_rest. cbn [bti_stack bti_rep codes map app].
    rewrite E3. unfold pre at 1. cbn [fst snd]. rewrite app_nil_r. cbn [rev ctx_rest]. reflexivity.
Qed.

Lemma bti_new_spec {A} (t : bintrie A) : exists it, bti_new t = Ok it /\ it_wf it /\ it_rest it = codes t.
Proof.
  unfold bti_new, all_the_way_left. cbn [bti_stack bti_rep].
  destruct (@all_left_spec A t [] [] (Forall2_nil _)) as [H1 [H2 H3]]. cbn zeta in *.
  eexists. split; [reflexivity|]. split; [exact H1|]. rewrite H3. cbn [ctx_rest rev]. rewrite app_nil_r.
  rewrite <- (map_id (codes t)) at 2. apply map_ext. intros [b w]. reflexivity.
Qed.

(** ** The encoder's map *)
Section Enc.
  Context {A : Type} (eqb : A -> A -> bool) (Heqb : eqb_ok eqb).

  Lemma enc_loop_spec fuel : forall it m, it_wf it -> (length (it_rest it) < fuel)%nat ->
    exists m', enc_loop eqb fuel it m = Ok m' /\
    forall x, ~ In x (map snd (it_rest it)) -> hm_get eqb x m' = hm_get eqb x m.
  Proof.
    induction fuel as [|fuel IH]; intros it m Hw Hf; [lia|].
    cbn [enc_loop]. pose proof (bti_next_spec it Hw) as Hn.
    destruct (bti_stack it) as [|t anc] eqn:Es.
    - rewrite Hn. exists m. auto.
    - destruct Hn as [[bits sym] [it' [E [Hw' Hr]]]]. rewrite E.
      destruct (from_slice_len bits MsbFirst) as [a [Ea _]]. rewrite Ea. cbn [res_bind].
      destruct (IH it' (hm_insert eqb sym a m) Hw') as [m' [E1 E2]].
      { rewrite Hr in Hf. cbn in Hf. lia. }
      exists m'. split; [exact E1|]. intros x Hx. rewrite Hr in Hx. cbn [map snd In] in Hx.
      rewrite E2 by tauto. rewrite (hm_get_insert Heqb).
      destruct (eqb_spec' Heqb x sym); [subst; tauto|reflexivity].
  Qed.

  Lemma enc_loop_get fuel : forall it m m', it_wf it -> enc_loop eqb fuel it m = Ok m' ->
    (length (it_rest it) < fuel)%nat -> NoDup (map snd (it_rest it)) ->
    forall bits x, In (bits, x) (it_rest it) ->
    exists a, ba_from_slice bits MsbFirst = Ok a /\ hm_get eqb x m' = Some a.
  Proof.
    induction fuel as [|fuel IH]; intros it m m' Hw E Hf HN bits x Hin; [discriminate|].
    cbn [enc_loop] in E. pose proof (bti_next_spec it Hw) as Hn.
    destruct (bti_stack it) as [|t anc] eqn:Es.
    - unfold it_rest in Hin. rewrite Es in Hin. contradiction.
    - destruct Hn as [[b s] [it' [En [Hw' Hr]]]]. rewrite En in E.
      destruct (from_slice_len b MsbFirst) as [a [Ea _]]. rewrite Ea in E. cbn [res_bind] in E.
      rewrite Hr in *. cbn [map snd length] in *. inversion HN as [|? ? Hs HN']; subst.
      destruct Hin as [Hin|Hin].
      + injection Hin as -> ->. exists a. split; [exact Ea|].
        destruct (@enc_loop_spec fuel it' (hm_insert eqb x a m) Hw' ltac:(lia)) as [m2 [E1 E2]].
        rewrite E in E1. injection E1 as <-. rewrite E2 by exact Hs.
        rewrite (hm_get_insert Heqb), (eqb_refl' Heqb). reflexivity.
      + apply (IH _ _ _ Hw' E); [lia|exact HN'|exact Hin].
  Qed.

  Lemma enc_from_spec (t : bintrie A) : NoDup (leaves t) ->
    exists m, enc_from eqb t = Ok m /\
    (forall bits x, path t bits x -> exists a, ba_from_slice bits MsbFirst = Ok a /\ hm_get eqb x m = Some a) /\
    (forall x, ~ In x (leaves t) -> hm_get eqb x m = None).
  Proof.
    intros HN. unfold enc_from. destruct (bti_new_spec t) as [it [E [Hw Hr]]]. rewrite E. cbn [res_bind].
    destruct (@enc_loop_spec (S (leaf_count t)) it [] Hw) as [m [E1 E2]].
    { rewrite Hr, codes_length. lia. }
    exists m. split; [exact E1|]. split.
    - intros bits x Hp. eapply enc_loop_get; eauto.
      + rewrite Hr, codes_length. lia.
      + now rewrite Hr, codes_leaves.
      + rewrite Hr. now apply codes_path.
    - intros x Hx. rewrite E2; [reflexivity|]. now rewrite Hr, codes_leaves.
  Qed.
End Enc.

(** ** Building the tree *)
Section Build.
  Context {A : Type} (H : heap (suffix A)) (HH : heap_ok suffix_cmp H).

  Definition all_leaves (l : list (suffix A)) : list A := flat_map (fun s => leaves (snd s)) l.
  Lemma all_leaves_perm l1 l2 : Permutation l1 l2 -> Permutation (all_leaves l1) (all_leaves l2).
  Proof. apply Permutation_flat_map. Qed.

  (** An invariant of the loop holds of the final tree. *)
  Lemma huf_loop_inv (P : list (suffix A) -> Prop) :
    (forall l1 l2, Permutation l1 l2 -> P l1 -> P l2) ->
    (forall a b rest, P (a :: b :: rest) ->
       (forall x, In x (b :: rest) -> (fst a <= fst x)%N) -> (forall x, In x rest -> (fst b <= fst x)%N) ->
       P ((fst a + fst b, Branch (snd a) (snd b))%N :: rest)) ->
    forall fuel h, P (hp_elems H h) -> hp_elems H h <> [] -> (length (hp_elems H h) <= S fuel)%nat ->
    exists h' s, huf_loop H fuel h = Ok h' /\ hp_elems H h' = [s] /\ P [s].
  Proof.
    intros Pperm Pstep. induction fuel as [|fuel IH]; intros h Ph Hne Hl.
    - cbn [huf_loop]. destruct (hp_elems H h) as [|s [|]] eqn:E; try contradiction; cbn in Hl; try lia.
      cbn. exists h, s. auto.
    - cbn [huf_loop]. destruct (Nat.ltb_spec 1 (length (hp_elems H h))) as [H1|H1].
      + destruct (hp_pop H h) as [[a h1]|] eqn:E1; [|apply (ho_none HH) in E1; contradiction].
        destruct (ho_some HH h E1) as [P1 M1].
        assert (L1 : length (hp_elems H h) = S (length (hp_elems H h1))) by (rewrite (Permutation_length P1); reflexivity).
        destruct (hp_pop H h1) as [[b h2]|] eqn:E2.
        2: { apply (ho_none HH) in E2. rewrite E2 in L1. cbn in L1. lia. }
        destruct (ho_some HH h1 E2) as [P2 M2].
        assert (L2 : length (hp_elems H h1) = S (length (hp_elems H h2))) by (rewrite (Permutation_length P2); reflexivity).
        pose proof (ho_push HH (fst a + fst b, Branch (snd a) (snd b))%N h2) as P3.
        apply IH.
        * apply (Pperm _ _ (Permutation_sym P3)). apply Pstep.
          -- apply (Pperm (hp_elems H h)); [|exact Ph]. rewrite P1. now apply perm_skip.
          -- intros x Hx. apply (Permutation_in x (Permutation_sym P2)) in Hx.
             specialize (M1 x Hx). unfold suffix_cmp in M1. rewrite N.compare_antisym in M1.
             rewrite CompOpp_involutive in M1. apply N.compare_ge_iff in M1. exact M1.
          -- intros x Hx. specialize (M2 x Hx). unfold suffix_cmp in M2. rewrite N.compare_antisym in M2.
             rewrite CompOpp_involutive in M2. apply N.compare_ge_iff in M2. exact M2.
        * intros E. rewrite E in P3. apply Permutation_nil in P3. discriminate.
        * rewrite (Permutation_length P3). cbn [length]. lia.
      + destruct (hp_elems H h) as [|s [|]] eqn:E; try contradiction; cbn in H1; try lia.
        exists h, s. auto.
  Qed.

  Lemma build_tree_inv (P : list (suffix A) -> Prop) freqs :
    (forall l1 l2, Permutation l1 l2 -> P l1 -> P l2) ->
    (forall a b rest, P (a :: b :: rest) ->
       (forall x, In x (b :: rest) -> (fst a <= fst x)%N) -> (forall x, In x rest -> (fst b <= fst x)%N) ->
       P ((fst a + fst b, Branch (snd a) (snd b))%N :: rest)) ->
    P (map suffix_from freqs) -> freqs <> [] ->
    exists s, build_tree H freqs = Ok (snd s) /\ P [s].
  Proof.
    intros Pperm Pstep P0 Hne. unfold build_tree. set (h0 := hp_of H (map suffix_from freqs)).
    pose proof (ho_of HH (map suffix_from freqs)) as P1. fold h0 in P1.
    assert (L : length (hp_elems H h0) = length freqs) by (rewrite (Permutation_length P1); apply map_length).
    assert (Lp : (0 < length freqs)%nat) by (destruct freqs; [contradiction|cbn; lia]).
    unfold assert_. destruct (Nat.ltb_spec 0 (length (hp_elems H h0))); [|lia]. cbn [res_bind].
    destruct (@huf_loop_inv P Pperm Pstep (length freqs) h0) as [h' [s [E1 [E2 Ps]]]].
    - apply (Pperm _ _ (Permutation_sym P1)). exact P0.
    - intros E. rewrite E in L. cbn in L. lia.
    - lia.
    - rewrite E1. cbn [res_bind]. destruct (hp_pop H h') as [[s' h'']|] eqn:E3.
      + destruct (ho_some HH h' E3) as [P3 _]. rewrite E2 in P3.
        apply Permutation_length_1_inv in P3. injection P3 as -> _. exists s. auto.
      + apply (ho_none HH) in E3. congruence.
  Qed.

  Lemma build_tree_leaves freqs : freqs <> [] ->
    exists t, build_tree H freqs = Ok t /\ Permutation (leaves t) (map fst freqs).
  Proof.
    intros Hne.
    destruct (@build_tree_inv (fun l => Permutation (all_leaves l) (map fst freqs)) freqs) as [s [E P]].
    - intros l1 l2 Hp H1. rewrite <- H1. apply all_leaves_perm. now symmetry.
    - intros a b rest H1 _ _. rewrite <- H1. unfold all_leaves. cbn [flat_map snd leaves]. now rewrite <- app_assoc.
    - unfold all_leaves. induction freqs as [|[x n] freqs IH]; [contradiction|].
      cbn [map flat_map suffix_from fst snd leaves app]. apply perm_skip.
      destruct freqs; [constructor|]. apply IH. discriminate.
    - exact Hne.
    - exists (snd s). split; [exact E|]. unfold all_leaves in P. cbn [flat_map] in P. now rewrite app_nil_r in P.
  Qed.
  Lemma build_tree_empty : build_tree H [] = Panic.
  Proof.
    unfold build_tree. pose proof (ho_of HH (map suffix_from [])) as P. cbn [map] in *.
    apply Permutation_sym, Permutation_nil in P. rewrite P. reflexivity.
  Qed.
End Build.

(** ** Serialized trees *)
Lemma concat_opt3 a b c l : concat_opt [a; b; c] = Some l ->
  exists x y z, a = Some x /\ b = Some y /\ c = Some z /\ l = x ++ y ++ z.
Proof.
  destruct a as [x|], b as [y|], c as [z|]; cbn; intros E; try discriminate.
  injection E as <-. exists x, y, z. rewrite app_nil_r. auto.
Qed.
Lemma concat_opt3_eq x y z : concat_opt [Some x; Some y; Some z] = Some (x ++ y ++ z).
Proof. cbn. now rewrite app_nil_r. Qed.

Section Trie.
  Context {A : Type} (P : A -> Prop) (fmt : A -> option (list N)) (da : deserializer A).
  Arguments da : clear implicits.

  Lemma ser_trie_ok (sa : A -> io unit) : ser_ok P fmt sa ->
    ser_ok (fun t => Forall P (leaves t)) (trie_format fmt) (ser_trie sa).
  Proof.
    intros [S1 S2].
    assert (G : forall t, Forall P (leaves t) ->
      (forall bs, trie_format fmt t = Some bs -> emits (ser_trie sa t) bs (Ok tt)) /\
      (trie_format fmt t = None -> exists bs, emits (ser_trie sa t) bs Err)).
    { induction t as [v|l IHl r IHr]; cbn [leaves trie_format ser_trie]; intros HP.
      - apply Forall_cons_iff in HP as [Pv _]. split.
        + intros bs Hf. apply app_opt_some in Hf as [x [y [[= <-] [Hf ->]]]].
          apply emits_bind with (a := tt); [apply emits_write|auto].
        + intros Hf. destruct (fmt v) as [y|] eqn:E; [discriminate|].
          destruct (S2 _ Pv E) as [b Hb]. exists ([0%N] ++ b).
          apply emits_bind with (a := tt); [apply emits_write|exact Hb].
      - apply Forall_app in HP as [Pl Pr]. destruct (IHl Pl) as [L1 L2], (IHr Pr) as [R1 R2]. split.
        + intros bs Hf. apply concat_opt3 in Hf as [x [y [z [[= <-] [Hy [Hz ->]]]]]].
          apply emits_bind with (a := tt); [apply emits_write|].
          apply emits_bind with (a := tt); auto.
        + intros Hf. destruct (trie_format fmt l) as [y|] eqn:El.
          * destruct (trie_format fmt r) as [z|] eqn:Er; [discriminate|].
            destruct (R2 eq_refl) as [b Hb]. exists ([1%N] ++ y ++ b).
            apply emits_bind with (a := tt); [apply emits_write|].
            apply emits_bind with (a := tt); auto.
          * destruct (L2 eq_refl) as [b Hb]. exists ([1%N] ++ b).
            apply emits_bind with (a := tt); [apply emits_write|]. now apply emits_bind_err. }
    split; intros t; intros; now apply G.
  Qed.

  Context (Hda : deser_ok P fmt da).
  Fixpoint depth (t : bintrie A) : nat :=
    match t with Leaf _ => 1 | Branch l r => S (Nat.max (depth l) (depth r)) end.

  Lemma deser_trie_rt t : forall bs fuel, Forall P (leaves t) -> trie_format fmt t = Some bs ->
    (depth t <= fuel)%nat ->
    forall S (next : nextf S N) s s', yields next s bs s' ->
    deser_trie da fuel next s = Some (Ok t, s').
  Proof.
    induction t as [v|l IHl r IHr]; intros bs fuel HP Hf Hfuel S next s s' Hy;
      (destruct fuel as [|fuel]; [cbn [depth] in Hfuel; lia|]); cbn [leaves trie_format depth] in *.
    - apply Forall_cons_iff in HP as [Pv _]. apply app_opt_some in Hf as [x [y [[= <-] [Hf ->]]]].
      apply yields_cons_inv in Hy as [s1 [H1 H2]]. cbn [deser_trie]. unfold deser_u8. rewrite H1.
      now rewrite (do_rt Hda v Pv Hf H2).
    - apply Forall_app in HP as [Pl Pr].
      apply concat_opt3 in Hf as [x [y [z [[= <-] [Hfy [Hfz ->]]]]]].
      apply yields_cons_inv in Hy as [s1 [H1 H2]]. apply yields_app_inv in H2 as [s2 [H2 H3]].
      cbn [deser_trie]. unfold deser_u8. rewrite H1.
      rewrite (IHl y fuel Pl Hfy) with (s' := s2); [|lia|exact H2].
      rewrite (IHr z fuel Pr Hfz) with (s' := s'); [reflexivity|lia|exact H3].
  Qed.

  Lemma deser_trie_canon fuel : forall S (next : nextf S N) s t s', byte_source next s ->
    deser_trie da fuel next s = Some (Ok t, s') ->
    Forall P (leaves t) /\ exists bs, trie_format fmt t = Some bs /\ yields next s bs s'.
  Proof.
    induction fuel as [|fuel IH]; intros S next s t s' Hb E; [discriminate|].
    cbn [deser_trie] in E. unfold deser_u8 in E. pose proof (source_step Hb) as Hs.
    destruct (next s) as [[b| |] s1] eqn:En; try discriminate. destruct Hs as [_ Hs].
    destruct b as [|[| |]]; try discriminate.
    - destruct (da S next s1) as [[v| |] s2] eqn:Ed; try discriminate. injection E as <- <-.
      destruct (do_canon Hda Hs Ed) as [Pv [y [Fy Yy]]]. cbn [leaves trie_format]. split; [auto|].
      exists ([0%N] ++ y). rewrite Fy, app_opt_eq. split; [reflexivity|]. econstructor; eauto.
    - destruct (deser_trie da fuel next s1) as [[[l| |] s2]|] eqn:E1; try discriminate.
      destruct (deser_trie da fuel next s2) as [[[r| |] s3]|] eqn:E2; try discriminate.
      injection E as <- <-. destruct (IH _ _ _ _ _ Hs E1) as [Pl [y [Fy Yy]]].
      destruct (IH _ _ _ _ _ (proj1 (source_yields Yy Hs)) E2) as [Pr [z [Fz Yz]]].
      cbn [leaves trie_format]. split; [now apply Forall_app|].
      exists ([1%N] ++ y ++ z). rewrite Fy, Fz, concat_opt3_eq. split; [reflexivity|].
      econstructor; [exact En|]. eapply yields_app; eauto.
  Qed.

  Lemma deser_trie_nopanic fuel : forall S (next : nextf S N) s s', byte_source next s ->
    deser_trie da fuel next s <> Some (Panic, s').
  Proof.
    induction fuel as [|fuel IH]; intros S next s s' Hb; [discriminate|].
    cbn [deser_trie]. unfold deser_u8. pose proof (source_step Hb) as Hs.
    destruct (next s) as [[b| |] s1] eqn:En; try discriminate; [|contradiction]. destruct Hs as [_ Hs].
    destruct b as [|[| |]]; try discriminate.
    - pose proof (do_nopanic Hda Hs). destruct (da S next s1) as [[v| |] s2]; cbn in *; congruence.
    - destruct (deser_trie da fuel next s1) as [[[l| |] s2]|] eqn:E1; try discriminate.
      + destruct (deser_trie_canon _ Hs E1) as [_ [y [_ Yy]]]. pose proof (proj1 (source_yields Yy Hs)) as Hs2.
        destruct (deser_trie da fuel next s2) as [[[r| |] s3]|] eqn:E2; try discriminate.
        exfalso. exact (IH _ _ _ _ Hs2 E2).
      + exfalso. exact (IH _ _ _ _ Hs E1).
  Qed.

  (** A truncated tree is rejected. *)
  Lemma deser_trie_trunc t : forall bs p fuel, Forall P (leaves t) -> trie_format fmt t = Some bs ->
    strict_prefix p bs -> (depth t <= fuel)%nat ->
    forall S (next : nextf S N) s s1 s2, yields next s p s1 -> next s1 = (Err, s2) ->
    deser_trie da fuel next s = Some (Err, s2).
  Proof.
    induction t as [v|l IHl r IHr]; intros bs p fuel HP Hf Hp Hfuel S next s s1 s2 Hy Hn;
      (destruct fuel as [|fuel]; [cbn [depth] in Hfuel; lia|]); cbn [leaves trie_format depth] in *;
      cbn [deser_trie]; unfold deser_u8.
    - apply Forall_cons_iff in HP as [Pv _]. apply app_opt_some in Hf as [x [y [[= <-] [Hf ->]]]].
      apply strict_prefix_cons in Hp as [->|[p' [-> Hp]]].
      + inversion Hy; subst. now rewrite Hn.
      + apply yields_cons_inv in Hy as [s0 [H1 H2]]. rewrite H1.
        now rewrite (do_trunc Hda v Pv Hf Hp H2 Hn).
    - apply Forall_app in HP as [Pl Pr].
      apply concat_opt3 in Hf as [x [y [z [[= <-] [Hfy [Hfz ->]]]]]].
      apply strict_prefix_cons in Hp as [->|[p' [-> Hp]]].
      + inversion Hy; subst. now rewrite Hn.
      + apply yields_cons_inv in Hy as [s0 [H1 H2]]. rewrite H1.
        apply strict_prefix_app in Hp as [Hp|[p'' [-> Hp]]].
        * now rewrite (IHl y p' fuel Pl Hfy Hp ltac:(lia) _ _ _ _ _ H2 Hn).
        * apply yields_app_inv in H2 as [s3 [H2 H3]].
          rewrite (@deser_trie_rt l y fuel Pl Hfy ltac:(lia) _ _ _ _ H2).
          now rewrite (IHr z p'' fuel Pr Hfz Hp ltac:(lia) _ _ _ _ _ H3 Hn).
  Qed.
End Trie.

(** ** Decoding *)
Lemma lookup_path {A} (t : bintrie A) bits v : path t bits v ->
  forall S (next : nextf S bool) s s', yields next s bits s' -> trie_lookup t next s = (Ok v, s').
Proof.
  induction 1 as [v|l r bits v Hp IH|l r bits v Hp IH]; intros S next s s' Hy; cbn [trie_lookup].
  - inversion Hy; subst. reflexivity.
  - apply yields_cons_inv in Hy as [s1 [H1 H2]]. rewrite H1. auto.
  - apply yields_cons_inv in Hy as [s1 [H1 H2]]. rewrite H1. auto.
Qed.
Lemma lookup_seq {A} (t : bintrie A) (code : A -> list bool) items :
  (forall x, In x items -> path t (code x) x) ->
  forall S (next : nextf S bool) s s', yields next s (flat_map code items) s' ->
  yields (fun s => trie_lookup t next s) s items s'.
Proof.
  induction items as [|x items IH]; intros Hc S next s s' Hy; cbn [flat_map] in Hy.
  - inversion Hy; subst. constructor.
  - apply yields_app_inv in Hy as [s1 [H1 H2]]. econstructor.
    + apply lookup_path with (bits := code x); [apply Hc; now left|exact H1].
    + apply IH; [intros y Hy; apply Hc; now right|exact H2].
Qed.

(** ** Encoding the payload *)
Definition emitsU {A} (m : io A) (bs : list N) (a : A) : Prop :=
  forall w, m w = io_unwrap (put bs (Ok a)) w.
Lemma emitsU_ret {A} (a : A) : emitsU (io_ret a) [] a.
Proof. intros w. unfold io_unwrap. rewrite <- (emits_ret a w). reflexivity. Qed.
Lemma emitsU_unwrap {A} (m : io A) bs a : emits m bs (Ok a) -> emitsU (io_unwrap m) bs a.
Proof. intros E w. unfold io_unwrap. now rewrite (E w). Qed.
Lemma emitsU_bind {A B} (m : io A) (f : A -> io B) b1 a b2 b :
  emitsU m b1 a -> emitsU (f a) b2 b -> emitsU (io_bind m f) (b1 ++ b2) b.
Proof.
  intros E1 E2 w. unfold io_bind at 1. rewrite (E1 w). unfold io_unwrap, put, io_bind, io_lift.
  rewrite write_all_app. unfold io_bind.
  destruct (write_all b1 w) as [[[]| |] w1]; cbn [unwrap]; try reflexivity.
  rewrite (E2 w1). unfold io_unwrap, put, io_bind, io_lift. reflexivity.
Qed.

Section Payload.
  Context {A : Type} (eqb : A -> A -> bool).
  Lemma payload_spec (m : list (A * bit_arr)) (code : A -> list bool) items : forall st,
    bw_inv st -> bw_order st = MsbFirst ->
    (forall x, In x items -> exists a, ba_from_slice (code x) MsbFirst = Ok a /\ hm_get eqb x m = Some a) ->
    exists bytes st',
      emitsU (bw_iter (fun symbol st => io_unwrap (enc_encode eqb m symbol st)) items st) bytes st'
      /\ bw_inv st' /\ bw_order st' = MsbFirst /\ Forall u8_ok bytes
      /\ pending st ++ flat_map code items = bytes_bits MsbFirst bytes ++ pending st'.
  Proof.
    induction items as [|x items IH]; intros st Hst Ho Hm; cbn [bw_iter flat_map].
    - exists [], st. split; [apply emitsU_ret|]. rewrite app_nil_r.
      split; [exact Hst|]. split; [exact Ho|]. split; [constructor|reflexivity].
    - destruct (Hm x (or_introl eq_refl)) as [a [Ea Ga]].
      assert (W : wrote (enc_encode eqb m x st) st (code x)).
      { unfold enc_encode. rewrite Ga. destruct (N.eqb_spec (ba_len a) 0) as [E|E].
        - destruct (from_slice_len (code x) MsbFirst) as [a' [Ea' La]]. rewrite Ea in Ea'. injection Ea' as <-.
          assert (code x = []) as -> by (destruct (code x); [reflexivity|cbn in La; lia]).
          now apply wrote_ret.
        - apply wrote_arr with (a := a); auto. now rewrite Ho. }
      destruct W as [b1 [st1 [E1 [I1 [O1 [U1 P1]]]]]].
      destruct (IH st1 I1) as [b2 [st2 [E2 [I2 [O2 [U2 P2]]]]]]; [congruence|intros y Hy; apply Hm; now right|].
      exists (b1 ++ b2), st2. split; [|split; [|split; [|split]]].
      + apply emitsU_bind with (a := st1); [now apply emitsU_unwrap|exact E2].
      + exact I2.
      + exact O2.
      + now apply Forall_app.
      + rewrite app_assoc, P1, <- app_assoc, P2. unfold bytes_bits. rewrite flat_map_app, <- app_assoc. now rewrite Ho.
  Qed.
End Payload.

(** ** The whole encoder *)
Section Encode.
  Context {A : Type} (eqb : A -> A -> bool) (Heqb : eqb_ok eqb).
  Context (P : A -> Prop) (fmt : A -> option (list N)) (sa : A -> io unit).
  Context (Hsa : ser_ok P fmt sa).
  Context (ord : list (A * N) -> list (A * N)) (Hord : ord_ok ord).
  Context (H : heap (suffix A)) (HH : heap_ok suffix_cmp H).

  Lemma encode_tree items : items <> [] ->
    exists t, build_tree H (ord (count_freqs eqb items)) = Ok t
      /\ NoDup (leaves t) /\ (forall x, In x (leaves t) <-> In x items)
      /\ Permutation (leaves t) (map fst (count_freqs eqb items)).
  Proof.
    intros Hne.
    destruct (@build_tree_leaves _ _ HH (ord (count_freqs eqb items))) as [t [E Pt]].
    { intros E. pose proof (Hord (count_freqs eqb items)) as Po. rewrite E in Po.
      apply Permutation_nil in Po. destruct items as [|x items]; [contradiction|].
      assert (Hin : In x (map fst (count_freqs eqb (x :: items)))) by (apply (count_freqs_keys Heqb); now left).
      rewrite Po in Hin. contradiction. }
    assert (Pt' : Permutation (leaves t) (map fst (count_freqs eqb items))).
    { rewrite Pt. apply Permutation_map, Hord. }
    exists t. split; [exact E|]. split; [|split; [|exact Pt']].
    - apply (Permutation_NoDup (Permutation_sym Pt')), (count_freqs_nodup Heqb).
    - intros x. rewrite <- (count_freqs_keys Heqb items x). split; apply Permutation_in; [exact Pt'|now symmetry].
  Qed.

  (** What [encode_all] does to any writer: header, payload (where an output error
      is a panic), last byte, flush. *)
  Definition code_in (t : bintrie A) (x : A) : list bool :=
    match find (fun p => eqb x (snd p)) (codes t) with Some p => fst p | None => [] end.
  Lemma code_in_path t x : In x (leaves t) -> path t (code_in t x) x.
  Proof.
    intros Hx. apply leaves_path in Hx as [b Hb]. unfold code_in.
    destruct (find (fun p => eqb x (snd p)) (codes t)) as [[b' y]|] eqn:E.
    - apply find_some in E as [E1 E2]. apply Heqb in E2. cbn in E2. subst y. now apply codes_path.
    - apply codes_path in Hb. apply (find_none _ _ E) in Hb. cbn in Hb. rewrite (eqb_refl' Heqb) in Hb. discriminate.
  Qed.

  Definition staged (hdr pay lastb : list N) : io unit :=
    io_bind (write_all hdr) (fun _ => io_bind (io_unwrap (write_all pay)) (fun _ =>
    io_bind (write_all lastb) (fun _ => flush))).

  Lemma pad_flush_eq st w :
    io_bind (bw_pad_and_flush st) (fun _ => io_ret tt) w = io_bind (write_all (pad_bytes st)) (fun _ => flush) w.
  Proof.
    unfold bw_pad_and_flush, pad_bytes. destruct (bit_count st =? 0)%N; unfold io_bind, io_ret.
    - rewrite write_all_nil. unfold flush. destruct (flush_fails w); reflexivity.
    - destruct (write_all _ w) as [[[]| |] w']; try reflexivity. unfold flush. destruct (flush_fails w'); reflexivity.
  Qed.

  Record enc_run (items : list A) (t : bintrie A) (pay lastb : list N) : Prop := {
    er_tree : build_tree H (ord (count_freqs eqb items)) = Ok t;
    er_nodup : NoDup (leaves t);
    er_leaves : forall x, In x (leaves t) <-> In x items;
    er_P : Forall P (leaves t);
    er_last : (length lastb <= 1)%nat;
    er_u8 : Forall u8_ok (pay ++ lastb);
    er_bits : exists k, (k < 8)%nat /\ bytes_bits MsbFirst (pay ++ lastb) = flat_map (code_in t) items ++ repeat false k;
    er_aligned : lastb = [] <-> (length (flat_map (code_in t) items) mod 8 = 0)%nat;
    er_ok : forall hdr, trie_format fmt t = Some hdr -> forall w,
            huf_encode_all eqb sa ord H items w = staged hdr pay lastb w;
    er_err : trie_format fmt t = None -> exists bs, emits (huf_encode_all eqb sa ord H items) bs Err;
  }.

  Lemma encode_run items : items <> [] -> Forall P items ->
    exists t pay lastb, enc_run items t pay lastb.
  Proof.
    intros Hne HP. destruct (encode_tree Hne) as [t [Et [HN [Hl Pl]]]].
    destruct (enc_from_spec Heqb t HN) as [m [Em [Hm _]]].
    assert (HPl : Forall P (leaves t)).
    { apply Forall_forall. intros x Hx. apply (proj1 (Forall_forall P items) HP), Hl, Hx. }
    destruct (@payload_spec A eqb m (code_in t) items (bw_new MsbFirst)) as [pay [st [E1 [I1 [O1 [U1 P1]]]]]].
    - apply bw_new_inv.
    - reflexivity.
    - intros x Hx. apply Hm, code_in_path, Hl, Hx.
    - assert (P0 : pending (bw_new MsbFirst) = []) by reflexivity. rewrite P0 in P1. cbn [app] in P1.
      destruct (pad_bits I1 O1) as [Up [k [Hk Hp]]].
      exists t, pay, (pad_bytes st). split; auto.
      + unfold pad_bytes. destruct (bit_count st =? 0)%N; cbn; lia.
      + now apply Forall_app.
      + exists k. split; [exact Hk|]. unfold bytes_bits in *. rewrite flat_map_app, Hp, app_assoc. now rewrite <- P1.
      + assert (L : (length (flat_map (code_in t) items) mod 8)%nat = N.to_nat (bit_count st)).
        { rewrite P1, app_length, bytes_bits_length. unfold pending. rewrite pend_length.
          rewrite Nat.add_comm, Nat.mul_comm, Nat.mod_add by lia. apply Nat.mod_small. destruct I1. lia. }
        rewrite L. unfold pad_bytes. destruct (N.eqb_spec (bit_count st) 0); split; intros E; try reflexivity; try lia; discriminate.
      + intros hdr Hhdr w. unfold huf_encode_all, staged. rewrite Et.
        unfold io_bind at 1, io_lift. rewrite Em. unfold io_bind at 1.
        unfold io_bind at 1. rewrite (so_ok (ser_trie_ok Hsa) t HPl Hhdr w).
        unfold put, io_lift. unfold io_bind at 1 4.
        destruct (write_all hdr w) as [[[]| |] w1]; try reflexivity.
        unfold io_bind at 1. rewrite (E1 w1). unfold io_bind at 2. unfold io_unwrap, put, io_lift. unfold io_bind at 1.
        destruct (write_all pay w1) as [[[]| |] w2]; try reflexivity. cbn [unwrap]. apply pad_flush_eq.
      + intros Hf. destruct (so_err (ser_trie_ok Hsa) t HPl Hf) as [bs Hbs].
        exists ([] ++ [] ++ bs). unfold huf_encode_all. rewrite Et.
        apply emits_bind with (a := t); [apply emits_lift|]. rewrite Em.
        apply emits_bind with (a := m); [apply emits_lift|]. now apply emits_bind_err.
  Qed.

  Lemma encode_empty w : huf_encode_all eqb sa ord H [] w = (Panic, w).
  Proof.
    unfold huf_encode_all. cbn [count_freqs fold_left].
    assert (ord [] = []) as -> by (apply Permutation_nil; symmetry; apply Hord).
    rewrite (build_tree_empty HH). reflexivity.
  Qed.
End Encode.
