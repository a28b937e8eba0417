(** * Proofs about what zip-back prints *)
From Coq Require Import Sorted.
From Verif Require Import Base Ser SerSpec SerProofs Bit BitSpec BitProofs Utils HufSpec UtilsProofs Dict DictSpec DictProofs DictEnc Back BackSpec BackProofs BackRing BackEnc Says BackSays BackSaysSpec.
From Coq Require Import ZifyBool ZifyNat ZifyN.
Set Implicit Arguments.

(** ** Erasing the output *)
Lemma erase_bind {M S A B} (m : says M S A) (m' : rd S A) (f : A -> says M S B) (f' : A -> rd S B) :
  (forall s, snd (m s) = m' s) -> (forall a s, snd (f a s) = f' a s) -> forall s, snd (says_bind m f s) = rd_bind m' f' s.
Proof.
  intros Hm Hf s. unfold says_bind, rd_bind. rewrite <- Hm. destruct (m s) as [o [[a| |] s']]; cbn [snd]; try reflexivity.
  rewrite <- Hf. destruct (f a s') as [o' r]. reflexivity.
Qed.
Lemma erase_utter {M S B} (k : M) (f : unit -> says M S B) s : snd (says_bind (utter k) f s) = snd (f tt s).
Proof. unfold says_bind, utter. now destruct (f tt s). Qed.
Lemma erase_get {M S A B} (g : benc S -> A) (f : A -> says M (benc S) B) e : snd (says_bind (hush (get g)) f e) = snd (f (g e) e).
Proof. unfold says_bind, hush, get. now destruct (f (g e) e). Qed.

Lemma rd_get {S A B} (g : benc S -> A) (f : A -> rd (benc S) B) e : rd_bind (get g) f e = f (g e) e.
Proof. reflexivity. Qed.

Section Erase.
  Context {T : Type} (next : nextf T N) (R : N) (pr : profile) (caps : nat -> nat).

  Lemma erase_buffered (e : benc T) : snd (buffered_says R pr e) = rd_bind (get (buffered_repetition R pr)) (fun r => rd_lift r) e.
  Proof.
    unfold buffered_says. rewrite erase_get. destruct (length (be_rep e) <? MIN_REP)%nat eqn:E.
    - unfold rd_bind, get, rd_lift, buffered_repetition. rewrite E. reflexivity.
    - rewrite erase_get, erase_utter, erase_get. reflexivity.
  Qed.
  Lemma erase_repetition : forall fuel e, snd (repetition_says next R pr caps fuel e) = repetition_loop next R pr caps fuel e.
  Proof.
    induction fuel as [|fuel IH]; intros e; [reflexivity|]. cbn [repetition_says repetition_loop].
    transitivity (rd_bind (rd_bind (get (buffered_repetition R pr)) (fun r => rd_lift r)) (fun lb =>
      match lb with
      | Some (len, back) =>
          rd_bind (get (fun e => length (be_rep e))) (fun prev_len =>
          if (len =? N.of_nat prev_len)%N then
            rd_bind (more_data next caps) (fun _ =>
            rd_bind (get (fun e => length (be_rep e))) (fun new_len =>
            if (new_len =? prev_len)%nat then rd_ret lb else repetition_loop next R pr caps fuel))
          else rd_ret lb)
      | None => rd_ret None
      end) e).
    - apply erase_bind; [apply erase_buffered|]. intros [[len back]|] s; [|reflexivity].
      rewrite erase_get, rd_get. destruct (len =? N.of_nat (length (be_rep s)))%N; [|reflexivity].
      apply erase_bind; [reflexivity|]. intros _ s2. rewrite erase_get, erase_utter, erase_get, rd_get.
      destruct (length (be_rep s2) =? length (be_rep s))%nat; [reflexivity|apply IH].
    - unfold rd_bind, get, rd_lift. destruct (buffered_repetition R pr e) as [lb| |]; reflexivity.
  Qed.
  Lemma erase_symbols : forall fuel lits e, snd (symbols_says next R pr caps fuel lits e) = symbols_loop next R pr caps fuel lits e.
  Proof.
    induction fuel as [|fuel IH]; intros lits e; [reflexivity|]. cbn [symbols_says symbols_loop].
    apply erase_bind.
    - intros s. unfold next_repetition_says, next_repetition. apply erase_bind; [reflexivity|]. intros _ s1.
      apply erase_bind; [reflexivity|]. intros _ s2. apply erase_repetition.
    - assert (HO : forall s, snd (says_bind (hush (extend_explicit next R lits)) (fun '(curr_explicit, must_return) =>
          if must_return : bool then hush (rd_ret (push_explicit curr_explicit)) else symbols_says next R pr caps fuel curr_explicit) s)
        = rd_bind (extend_explicit next R lits) (fun '(curr_explicit, must_return) =>
          if must_return : bool then rd_ret (push_explicit curr_explicit) else symbols_loop next R pr caps fuel curr_explicit) s).
      { intros s. apply erase_bind; [reflexivity|]. intros [lits' [|]] s1; [reflexivity|apply IH]. }
      intros [[len back]|] s; cbv zeta; [|apply HO]. destruct (N.of_nat MIN_REP <=? len)%N; [|apply HO].
      apply erase_bind; reflexivity.
  Qed.
  Lemma erase_after {M S A} (o : list M) (m : says M S A) s : snd (after o m s) = snd (m s).
  Proof. unfold after. now destruct (m s). Qed.
  Lemma erase_iter : forall l w, snd (says_iter ser_symbol_says l w) = io_iter ser_symbol l w.
  Proof.
    induction l as [|x l IH]; intros w; [reflexivity|]. cbn [says_iter io_iter].
    refine (@erase_bind _ _ _ _ _ (ser_symbol x) _ (fun _ => io_iter ser_symbol l) _ _ w).
    - intros s. unfold ser_symbol_says. now rewrite erase_utter.
    - intros _ s. apply IH.
  Qed.
  Lemma erase_encode : forall steps fuel e w, snd (encode_loop_says next R pr caps fuel steps e w) = back_encode_loop next R pr caps fuel steps e w.
  Proof.
    induction steps as [|steps IH]; intros fuel e w; [reflexivity|]. cbn [encode_loop_says back_encode_loop]. unfold next_symbols.
    pose proof (erase_symbols fuel [] e) as E. rewrite <- E. destruct (symbols_says next R pr caps fuel [] e) as [o [[[|x l]| |] e']]; cbn [snd].
    - now rewrite erase_after.
    - rewrite erase_after. refine (@erase_bind _ _ _ _ _ (io_iter ser_symbol (x :: l)) _ (fun _ => back_encode_loop next R pr caps fuel steps e') _ _ w).
      + apply erase_iter.
      + intros _ s. apply IH.
    - now rewrite erase_after.
    - now rewrite erase_after.
  Qed.
End Erase.

(** ** What is printed *)
Section Enc.
  Context {T : Type} (next : nextf T N).
  Variable R : N.
  Hypothesis HR : (0 < R)%N.
  Variable pr : profile.
  Variable caps : nat -> nat.
  Hypothesis Hcaps : forall i, (6 <= caps i)%nat.

  Notation enc_rep := (@enc_rep T next R).

  (** Somewhere in the window at least [n] bytes of the input are found *)
  Definition reach (h rest : list N) (n : N) : Prop := exists q, in_window R h q /\ (n <= match_at h rest q)%N.

  Lemma search_says hi h rest p : hist_rep R hi h -> (6 <= p <= length rest)%nat ->
    exists len back,
      best_of R pr (ih_data hi) (firstn p rest)
        (start_indices_for (ih_index hi) (firstn MIN_REP (firstn p rest)) (ih_data hi)) 0 0 = Ok (len, back)
      /\ (len <= N.of_nat p)%N
      /\ ((len < N.of_nat p)%N \/ p = length rest -> found R h rest (Some (len, back)))
      /\ N.of_nat (length (start_indices_for (ih_index hi) (firstn MIN_REP (firstn p rest)) (ih_data hi))) = places R h rest
      /\ (0 < len -> reach h rest len)%N.
  Proof.
    intros Hh Hp. destruct (@search R HR pr caps Hcaps hi h rest p Hh Hp) as (len & back & E & H1 & H2).
    exists len, back. split; [exact E|]. split; [exact H1|]. split; [exact H2|].
    destruct Hh as [Hr Hi]. revert E. unfold MIN_REP. rewrite firstn_firstn. replace (Nat.min 6 p) with 6%nat by lia.
    assert (HK : length (firstn 6 rest) = 6%nat) by (rewrite firstn_length; lia).
    rewrite (idx_lookup HR (firstn 6 rest) Hi Hr HK). intros E. split; [reflexivity|].
    intros Hl. destruct (@best_of_spec R HR pr (ih_data hi) h (firstn p rest) Hr (occurrences R h (firstn 6 rest)) 0 0) as (len' & back' & E' & D).
    { apply Forall_forall. intros i Hin%occurrences_in. apply Hin. }
    rewrite E in E'. injection E' as <- <-.
    destruct D as [(-> & _)|(l1 & i & l2 & Eo & -> & _)]; [lia|].
    assert (In i (occurrences R h (firstn 6 rest))) as Hin by (rewrite Eo; apply in_or_app; right; now left).
    exists i. split; [apply (proj1 (occurrences_in _ _ _ _) Hin)|]. unfold len_at, match_at. rewrite agree_firstn. lia.
  Qed.

  (** The output of the loop, [p] bytes being at hand *)
  Definition loop_marks (h rest : list N) (p : nat) (o : list mark) : Prop :=
    exists again last, o = Searched (places R h rest) :: concat (map (fun ac => [Extra (fst ac) (snd ac); Searched (places R h rest)]) again) ++ last
    /\ StronglySorted N.lt (map fst again)
    /\ Forall (fun ac => N.of_nat p <= fst ac /\ fst ac < N.of_nat (length rest) /\ reach h rest (fst ac))%N again
    /\ ((last = [] /\ (reach h rest (N.of_nat (length rest)) -> False)) \/ (exists c, last = [Extra (N.of_nat (length rest)) c]) /\ reach h rest (N.of_nat (length rest))).

  Lemma found_short h rest len back : found R h rest (Some (len, back)) -> (len < N.of_nat (length rest))%N ->
    (6 <= length rest)%nat -> reach h rest (N.of_nat (length rest)) -> False.
  Proof.
    cbn [found]. intros F Hl H6 (q & Hq & Hm). destruct (N.leb_spec 6 len) as [C|C].
    - destruct F as (pos & _ & _ & _ & _ & HM & _). specialize (HM q Hq). lia.
    - specialize (F q Hq). lia.
  Qed.

  Lemma repetition_says_spec h rest : forall fuel e p, enc_rep e h rest p -> be_rep e = firstn p rest ->
    ((6 <= p)%nat \/ p = length rest) -> (length rest - p < fuel)%nat ->
    exists o r e' p', repetition_says next R pr caps fuel e = (o, (Ok r, e')) /\ enc_rep e' h rest p' /\ found R h rest r
      /\ (if (6 <=? p)%nat then loop_marks h rest p o else o = []).
  Proof.
    induction fuel as [|fuel IH]; intros e p [Hh Hb] Hrep Hp Hf; [lia|].
    cbn [repetition_says]. unfold says_bind at 1. unfold buffered_says, says_bind at 1, hush at 1, get at 1.
    pose proof (buf_le HR caps Hcaps Hb) as Hle.
    assert (LP : length (be_rep e) = p) by (rewrite Hrep, firstn_length; lia).
    rewrite LP. unfold MIN_REP at 1. destruct (Nat.ltb_spec p 6) as [C|C].
    - replace (6 <=? p)%nat with false by lia. exists [], None, e, p. split; [reflexivity|]. split; [split; assumption|]. cbn [found].
      split; [|reflexivity]. intros q Hq. pose proof (match_at_bounds h rest q). lia.
    - replace (6 <=? p)%nat with true by lia.
      unfold says_bind at 1, hush at 1, get at 1, says_bind at 1, utter at 1, says_bind at 1, hush at 1, get at 1, hush at 1, rd_lift at 1, buffered_repetition at 1.
      rewrite LP. unfold MIN_REP at 1. replace (p <? 6)%nat with false by lia. cbv zeta.
      rewrite Hrep. destruct (@search_says (be_history e) h rest p Hh) as (len & back & -> & Hlen & Hfound & HP & Hpos); [lia|].
      cbn [res_bind app]. rewrite HP. unfold says_bind at 1, hush at 1, get at 1. rewrite LP.
      destruct (N.eqb_spec len (N.of_nat p)) as [E|E].
      + unfold says_bind at 1, hush at 1, more_data.
        destruct (@buf_take _ next R HR caps Hcaps rest (caps (be_calls e)) _ _ Hb) as [b' [-> Hb']].
        unfold says_bind, hush, get, utter. cbn [be_rep be_history be_input be_calls]. rewrite app_length, LP, firstn_length, skipn_length.
        pose proof (Hcaps (be_calls e)) as HC.
        assert (HRp : reach h rest (N.of_nat p)) by (rewrite <- E; apply Hpos; lia).
        destruct (Nat.eqb_spec (p + Nat.min (caps (be_calls e)) (length rest - p)) p) as [E2|E2].
        * assert (EP : p = length rest) by lia. eexists _, _, _, _. split; [reflexivity|].
          split; [split; cbn [be_history be_input]; eassumption|].
          split; [apply Hfound; right; lia|].
          exists [], [Extra (N.of_nat p) (N.of_nat (caps (S (be_calls e))))]. cbn [map concat app]. split; [reflexivity|].
          split; [constructor|]. split; [constructor|]. right. rewrite <- EP. eauto.
        * set (e1 := mkBE _ _ _ _).
          destruct (IH e1 (Nat.min (p + caps (be_calls e)) (length rest))) as (o & r & e' & p' & EQ & He' & HF' & HM).
          -- split; cbn [e1 be_history be_input]; [exact Hh|exact Hb'].
          -- cbn [e1 be_rep]. 
             assert (EX : firstn p rest ++ firstn (caps (be_calls e)) (skipn p rest) = firstn (p + caps (be_calls e)) rest).
             { clear. revert p. induction rest as [|x l IHl]; intros [|p]; cbn; try reflexivity.
               - now rewrite firstn_nil.
               - f_equal. apply IHl. }
             rewrite Hrep, EX. destruct (Nat.le_gt_cases (p + caps (be_calls e)) (length rest)).
             ++ now replace (Nat.min (p + caps (be_calls e)) (length rest)) with (p + caps (be_calls e))%nat by lia.
             ++ replace (Nat.min (p + caps (be_calls e)) (length rest)) with (length rest) by lia.
                rewrite firstn_all. apply firstn_all2. lia.
          -- lia.
          -- lia.
          -- replace (6 <=? Nat.min (p + caps (be_calls e)) (length rest))%nat with true in HM by lia.
             eexists _, r, e', p'. split; [rewrite EQ; reflexivity|]. split; [exact He'|]. split; [exact HF'|].
             destruct HM as (again & last & -> & HS & HA & HL). cbn [app].
             exists ((N.of_nat p, N.of_nat (caps (S (be_calls e)))) :: again), last. cbn [map concat app fst snd]. split; [reflexivity|].
             split.
             { constructor; [exact HS|]. rewrite Forall_map. eapply Forall_impl; [|exact HA]. cbn beta. intros ac Hac. lia. }
             split; [|exact HL]. constructor; [cbn [fst]; split; [lia|split; [lia|exact HRp]]|].
             eapply Forall_impl; [|exact HA]. cbn beta. intros ac (A1 & A2 & A3). split; [lia|split; assumption].
      + eexists _, _, _, _. split; [reflexivity|]. split; [split; eassumption|]. split; [apply Hfound; left; lia|].
        exists [], []. cbn [map concat app]. split; [reflexivity|]. split; [constructor|]. split; [constructor|]. left. split; [reflexivity|].
        assert (Hlt : (len < N.of_nat p)%N) by lia. apply (@found_short h rest len back (Hfound (or_introl Hlt))); lia.
  Qed.

  Lemma next_repetition_says_spec h rest fuel e : enc_rep e h rest 0 -> (length rest < fuel)%nat ->
    exists o r e' p', next_repetition_says next R pr caps fuel e = (o, (Ok r, e')) /\ enc_rep e' h rest p' /\ found R h rest r
      /\ (if (6 <=? length rest)%nat then loop_marks h rest 6 o else o = []).
  Proof.
    intros [Hh Hb] Hf. unfold next_repetition_says, says_bind at 1, hush at 1, clear_rep. unfold says_bind, hush, more_data. cbn [be_rep be_history be_input be_calls].
    destruct (@buf_take _ next R HR caps Hcaps rest (caps (be_calls e)) _ _ Hb) as [b' [-> Hb']]. pose proof (Hcaps (be_calls e)) as HC.
    set (e1 := mkBE _ _ _ _).
    destruct (@repetition_says_spec h rest fuel e1 (Nat.min (caps (be_calls e)) (length rest))) as (o & r & e' & p' & EQ & He' & HF' & HM).
    - split; cbn [e1 be_history be_input]; [exact Hh|exact Hb'].
    - cbn [e1 be_rep app skipn]. destruct (Nat.le_gt_cases (caps (be_calls e)) (length rest)).
      + f_equal. lia.
      + rewrite !firstn_all2; [reflexivity|lia|lia].
    - lia.
    - lia.
    - exists o, r, e', p'. split; [rewrite EQ; reflexivity|]. split; [exact He'|]. split; [exact HF'|].
      destruct (Nat.leb_spec 6 (length rest)) as [C|C].
      + replace (6 <=? Nat.min (caps (be_calls e)) (length rest))%nat with true in HM by lia.
        destruct HM as (again & last & E & HS & HA & HL). exists again, last. split; [exact E|]. split; [exact HS|]. split; [|exact HL].
        eapply Forall_impl; [|exact HA]. cbn beta. intros ac (A1 & A2 & A3). split; [lia|split; assumption].
      + replace (6 <=? Nat.min (caps (be_calls e)) (length rest))%nat with false in HM by lia. exact HM.
  Qed.

  Lemma marks_found h rest len back o : best_match R h rest len back -> loop_marks h rest 6 o ->
    found_marks (places R h rest) (N.of_nat (length rest)) len o.
  Proof.
    intros HB (again & last & -> & HS & HA & HL). exists again, last. split; [reflexivity|]. split; [exact HS|].
    pose proof (best_len HB) as [HB1 _]. pose proof HB as (pos & Hpos & _ & Elen & _ & HM & _).
    assert (HRe : forall n, reach h rest n -> (n <= len)%N) by (intros n (q & Hq & Hn); specialize (HM q Hq); lia).
    split.
    - eapply Forall_impl; [|exact HA]. cbn beta. intros ac (A1 & A2 & A3). apply HRe in A3. lia.
    - destruct HL as [[-> HL]|[[c ->] HL]].
      + destruct (N.eqb_spec len (N.of_nat (length rest))) as [E|E]; [|reflexivity]. exfalso. apply HL. exists pos. split; [exact Hpos|]. lia.
      + apply HRe in HL. replace (len =? N.of_nat (length rest))%N with true by lia. eauto.
  Qed.
  Lemma marks_missed h rest o : no_match R h rest -> (6 <= length rest)%nat -> loop_marks h rest 6 o -> o = [Searched 0].
  Proof.
    intros HN H6 (again & last & -> & HS & HA & HL).
    assert (HRe : forall n, reach h rest n -> (n < 6)%N) by (intros n (q & Hq & Hn); specialize (HN q Hq); lia).
    assert (again = []) as ->.
    { destruct again as [|ac again]; [reflexivity|]. inversion HA as [|? ? (A1 & A2 & A3) _]; subst. apply HRe in A3. lia. }
    assert (last = []) as -> by (destruct HL as [[-> _]|[_ HL]]; [reflexivity|apply HRe in HL; lia]).
    cbn [map concat app]. do 2 f_equal. unfold places. destruct (occurrences R h (firstn 6 rest)) as [|i l] eqn:E; [reflexivity|exfalso].
    assert (Hin : In i (occurrences R h (firstn 6 rest))) by (rewrite E; now left).
    apply occurrences_in in Hin as [Hw Hk]. specialize (HN i Hw). unfold match_at in HN.
    assert (6 <= agree rest (skipn (N.to_nat i) h))%nat; [|lia].
    assert (HK : length (firstn 6 rest) = 6%nat) by (rewrite firstn_length; lia).
    apply agree_prefix. split; [lia|]. split; [|exact Hk]. rewrite <- HK, <- Hk, firstn_length. lia.
  Qed.

  Lemma told_end h o : told R h [] [] o -> o = [].
  Proof.
    inversion 1 as [? ? ? len back ? ? [pos (_ & _ & E & H6 & _)]|? ? ? ? ? Hg|]; subst.
    - unfold match_at in H6. cbn in H6. lia.
    - cbn in Hg. lia.
    - reflexivity.
  Qed.

  (** Marks [o] of a call, then what is printed by the serialization of [chunk] *)
  Lemma symbols_says_spec : forall fuel h lits rest e, enc_rep e h rest 0 -> (length rest < fuel)%nat ->
    exists o chunk e' h' rest', symbols_says next R pr caps fuel lits e = (o, (Ok chunk, e')) /\ enc_rep e' h' rest' 0
    /\ (length rest' <= length rest)%nat
    /\ (chunk = [] -> lits = [] /\ rest = []) /\ (lits = [] -> chunk <> [] -> (length rest' < length rest)%nat)
    /\ (forall syms, parses R h' [] rest' syms -> parses R h lits rest (chunk ++ syms))
    /\ Forall (fun m => is_announcement m = false) o
    /\ (forall more, told R h' [] rest' more -> told R h lits rest (o ++ map announcement chunk ++ more)).
  Proof.
    assert (HLM : forall l, map announcement (literal l) = literal_marks l) by (intros [|x l]; reflexivity).
    assert (HQ : forall h rest o, (if (6 <=? length rest)%nat then loop_marks h rest 6 o else o = []) -> Forall (fun m => is_announcement m = false) o).
    { intros h rest o HM. destruct (6 <=? length rest)%nat; [|subst; constructor].
      destruct HM as (again & last & -> & _ & _ & HL). constructor; [reflexivity|]. apply Forall_app. split.
      - clear. induction again; cbn; repeat constructor; assumption.
      - destruct HL as [[-> _]|[[c ->] _]]; repeat constructor. }
    induction fuel as [|fuel IH]; intros h lits rest e He Hf; [lia|].
    cbn [symbols_says]. unfold says_bind at 1.
    destruct (@next_repetition_says_spec h rest (S fuel) e He Hf) as (o & r & e1 & p1 & -> & He1 & Hfound & HM).
    pose proof (HQ h rest o HM) as HO1.
    set (other := says_bind (hush (extend_explicit next R lits)) _).
    assert (HO : no_match R h rest -> exists o' chunk e' h' rest', (let '(o', r) := other e1 in (o ++ o', r)) = (o', (Ok chunk, e')) /\ enc_rep e' h' rest' 0
      /\ (length rest' <= length rest)%nat
      /\ (chunk = [] -> lits = [] /\ rest = []) /\ (lits = [] -> chunk <> [] -> (length rest' < length rest)%nat)
      /\ (forall syms, parses R h' [] rest' syms -> parses R h lits rest (chunk ++ syms))
      /\ Forall (fun m => is_announcement m = false) o'
      /\ (forall more, told R h' [] rest' more -> told R h lits rest (o' ++ map announcement chunk ++ more))).
    { intros HN. assert (EO : o = missed_marks rest).
      { unfold missed_marks. destruct (Nat.leb_spec 6 (length rest)) as [C|C]; [|exact HM]. now apply (marks_missed HN). }
      subst other. unfold says_bind at 1, hush at 1.
      destruct (@extend_spec _ next R HR caps Hcaps e1 h rest p1 lits He1) as [e2 [-> He2]].
      destruct (Nat.ltb_spec (length rest) (grow_by lits)) as [C|C].
      - rewrite firstn_all2, skipn_all2 in * by lia. rewrite push_literal. unfold hush, rd_ret. cbn [app]. rewrite app_nil_r.
        exists o, (literal (lits ++ rest)), e2, (h ++ rest), []. split; [reflexivity|]. split; [exact He2|].
        split; [cbn; lia|]. split.
        { intros E. destruct (lits ++ rest) eqn:E2; [|discriminate E]. now apply app_eq_nil in E2. }
        split.
        { intros -> Hc. cbn [app] in Hc. destruct rest; [destruct (Hc eq_refl)|cbn; lia]. }
        split.
        { intros syms Hs. apply (parses_end HR) in Hs. subst syms. rewrite app_nil_r. now apply parses_last. }
        split; [exact HO1|]. intros more Hm. apply told_end in Hm. subst more. rewrite app_nil_r, HLM, EO. now apply told_last.
      - assert (HG : (2 <= grow_by lits)%nat) by (unfold grow_by; lia).
        destruct (IH (h ++ firstn (grow_by lits) rest) (lits ++ firstn (grow_by lits) rest) (skipn (grow_by lits) rest) e2)
          as (o2 & chunk & e' & h' & rest' & -> & He' & HL & HC1 & HC2 & HP & HO2 & HT); [exact He2|rewrite skipn_length; lia|].
        rewrite skipn_length in HL. cbn [app].
        exists (o ++ o2), chunk, e', h', rest'. split; [reflexivity|]. split; [exact He'|]. split; [lia|]. split.
        { intros Hc. apply HC1 in Hc as [Hc _]. apply app_eq_nil in Hc as [-> Hc].
          destruct rest; [cbn in C; lia|]. cbn in Hc. discriminate Hc. }
        split; [lia|]. split; [intros syms Hs; apply parses_more; auto|].
        split; [apply Forall_app; auto|]. intros more Hm. rewrite <- app_assoc, EO. apply told_more; auto. }
    clearbody other. destruct r as [[len back]|]; cbn [found] in Hfound.
    2: { apply HO. exact Hfound. }
    change (N.of_nat MIN_REP) with 6%N. destruct (N.leb_spec 6 len) as [C|C]; [|apply HO; exact Hfound].
    clear HO other. unfold says_bind, hush. pose proof (best_len Hfound) as [HL HB].
    destruct (@commit_spec _ next R HR caps Hcaps e1 h rest p1 (N.to_nat len) He1) as [e2 [-> He2]]; [lia|].
    unfold rd_ret. eexists _, _, e2, _, _. split; [reflexivity|]. split; [exact He2|]. rewrite skipn_length.
    split; [lia|]. rewrite push_literal. split; [intros E; now apply app_eq_nil in E|]. split; [lia|].
    split; [intros syms Hs; rewrite <- app_assoc; cbn [app]; eapply parses_repeat; eassumption|].
    cbn [app]. rewrite app_nil_r. split; [exact HO1|]. intros more Hm. rewrite map_app, HLM, <- app_assoc. cbn [map app announcement].
    replace (6 <=? length rest)%nat with true in HM by lia. eapply told_repeat; [exact Hfound|exact (marks_found Hfound HM)|exact Hm].
  Qed.

  (** ** Output *)
  Hypothesis HR16 : (R <= 65535)%N.
  Lemma heard_quiet room o more : Forall (fun m => is_announcement m = false) o -> heard room (o ++ more) = o ++ heard room more.
  Proof. clear HR HR16. induction 1 as [|m o Hm _ IH]; [reflexivity|]. destruct m; try discriminate Hm; cbn; now rewrite IH. Qed.

  Lemma put_room (bs : list N) w : match put bs (Ok tt) w with
    | (Ok _, w') => match room w with None => room w' = None | Some k => (length bs <= k)%nat /\ room w' = Some (k - length bs)%nat end
    | (Err, _) => exists k, room w = Some k /\ (k < length bs)%nat
    | (Panic, _) => False end.
  Proof.
    clear. unfold put, io_bind, write_all, io_lift. destruct w as [o [k|] f]; cbn [room].
    - destruct (Nat.leb_spec (length bs) k); cbn [room]; eauto.
    - reflexivity.
  Qed.

  (** Serializing [chunk], then [f] *)
  Lemma iter_says chunk : forall (f : unit -> says mark writer unit) more w, Forall near chunk ->
    (forall w, fst (f tt w) = heard (room w) more) ->
    fst (says_bind (says_iter ser_symbol_says chunk) f w) = heard (room w) (map announcement chunk ++ more).
  Proof.
    clear HR16. induction chunk as [|s chunk IH]; intros f more w HN Hf.
    - cbn [says_iter map app]. unfold says_bind, hush. specialize (Hf w). destruct (f tt w) as [o r]. exact Hf.
    - inversion HN as [|? ? Hs HN']; subst. cbn [says_iter map app].
      assert (EA : fst (says_bind (says_bind (ser_symbol_says s) (fun _ => says_iter ser_symbol_says chunk)) f w)
        = announcement s :: match ser_symbol s w with (Ok _, w') => fst (says_bind (says_iter ser_symbol_says chunk) f w') | _ => [] end).
      { generalize (says_iter ser_symbol_says chunk). intros it. unfold says_bind, ser_symbol_says, utter, hush, says_bind.
        destruct (ser_symbol s w) as [[[]| |] w']; [|destruct s; reflexivity|destruct s; reflexivity].
        destruct (it w') as [o2 [[[]| |] w2]]; [|destruct s; reflexivity|destruct s; reflexivity].
        destruct (f tt w2) as [o3 r3]. destruct s; reflexivity. }
      rewrite EA. clear EA. destruct (N.leb_spec (symbol_len s) 32767) as [C|C].
      + rewrite (@ser_symbol_near R HR s Hs C w). pose proof (put_room (symbol_bytes s) w) as HP.
        destruct (put (symbol_bytes s) (Ok tt) w) as [[[]| |] w'].
        * rewrite (IH f more w' HN' Hf). destruct s as [data|len back]; cbn [announcement heard symbol_len] in *.
          -- replace (32767 <? N.of_nat (length data))%N with false by lia. f_equal.
             assert (EL : length (symbol_bytes (Explicit data)) = (2 + length data)%nat) by (cbn [symbol_bytes]; rewrite app_length; reflexivity).
             rewrite EL in HP. destruct (room w) as [k|]; [|now rewrite HP]. destruct HP as [HP ->].
             replace (2 + N.of_nat (length data) <=? N.of_nat k)%N with true by lia. f_equal. f_equal. lia.
          -- replace (32767 <? len)%N with false by lia. f_equal.
             change (length (symbol_bytes (LookBack len back))) with 4%nat in HP. destruct (room w) as [k|]; [|now rewrite HP]. destruct HP as [HP ->].
             replace (4 <=? k)%nat with true by lia. reflexivity.
        * destruct HP as (k & -> & HP). destruct s as [data|len back]; cbn [announcement heard symbol_len] in *.
          -- replace (32767 <? N.of_nat (length data))%N with false by lia. f_equal.
             assert (EL : length (symbol_bytes (Explicit data)) = (2 + length data)%nat) by (cbn [symbol_bytes]; rewrite app_length; reflexivity).
             rewrite EL in HP. replace (2 + N.of_nat (length data) <=? N.of_nat k)%N with false by lia. reflexivity.
          -- replace (32767 <? len)%N with false by lia. f_equal.
             change (length (symbol_bytes (LookBack len back))) with 4%nat in HP.
             replace (4 <=? k)%nat with false by lia. reflexivity.
        * destruct HP.
      + assert (EP : fst (ser_symbol s w) = Panic).
        { assert (HL : emits (ser_symbol s) [] Panic) by (apply ser_symbol_long; lia). rewrite (HL w).
          unfold put, io_bind, write_all, io_lift. destruct (room w) as [k|]; reflexivity. }
        destruct (ser_symbol s w) as [r w']. cbn [fst] in EP. subst r.
        destruct s as [data|len back]; cbn [announcement heard symbol_len] in *.
        * replace (32767 <? N.of_nat (length data))%N with true by lia. reflexivity.
        * replace (32767 <? len)%N with true by lia. reflexivity.
  Qed.

  Lemma encode_says_spec : forall steps fuel e h rest, enc_rep e h rest 0 -> (length rest < fuel)%nat -> (length rest < steps)%nat ->
    exists syms o, parses R h [] rest syms /\ told R h [] rest o /\ filter is_announcement o = map announcement syms /\
      forall w, fst (encode_loop_says next R pr caps fuel steps e w) = heard (room w) o.
  Proof.
    assert (HFN : forall o, Forall (fun m => is_announcement m = false) o -> filter is_announcement o = []).
    { induction 1 as [|m o Hm _ IH]; [reflexivity|]. cbn. now rewrite Hm. }
    assert (HFA : forall l, filter is_announcement (map announcement l) = map announcement l).
    { induction l as [|s l IH]; [reflexivity|]. cbn [map filter]. rewrite IH. now destruct s. }
    induction steps as [|steps IH]; intros fuel e h rest He Hf Hs; [lia|].
    cbn [encode_loop_says].
    destruct (@symbols_says_spec fuel h [] rest e He Hf) as (o & chunk & e' & h' & rest' & -> & He' & HL & HC1 & HC2 & HP & HQ & HT).
    destruct chunk as [|s chunk].
    - destruct (HC1 eq_refl) as [_ ->]. destruct rest' as [|x rest']; [|cbn in HL; lia].
      assert (HN' : no_match R h' []) by (intros q _; unfold match_at; cbn; lia).
      assert (HPE : parses R h' [] [] []) by (apply (@parses_last R h' [] []); [exact HN'|cbn; lia]).
      assert (HTE : told R h' [] [] []) by (apply (@told_last R h' [] []); [exact HN'|cbn; lia]).
      pose proof (HT _ HTE) as HTT. cbn [map app] in HTT. rewrite app_nil_r in HTT.
      exists [], o. split; [exact (HP _ HPE)|]. split; [exact HTT|]. split; [now apply HFN|].
      intros w. unfold after, hush, io_ret. rewrite app_nil_r. cbn [fst]. rewrite <- (app_nil_r o) at 2. now rewrite heard_quiet, app_nil_r.
    - assert (length rest' < length rest)%nat by (apply HC2; congruence).
      destruct (IH fuel e' h' rest' He') as (syms & more & Hp & Ht & Hm & Hem); [lia|lia|].
      exists ((s :: chunk) ++ syms), (o ++ map announcement (s :: chunk) ++ more). pose proof (HP _ Hp) as HPP. split; [exact HPP|].
      split; [exact (HT _ Ht)|]. split.
      + rewrite !filter_app, (HFN _ HQ), HFA, Hm, map_app. reflexivity.
      + intros w. unfold after. rewrite heard_quiet by exact HQ.
        assert (HNE : Forall near (s :: chunk)) by (apply (parses_near HR HR16) in HPP; now apply Forall_app in HPP).
        rewrite <- (@iter_says (s :: chunk) (fun _ => encode_loop_says next R pr caps fuel steps e') more w HNE Hem).
        destruct (says_bind (says_iter ser_symbol_says (s :: chunk)) (fun _ => encode_loop_says next R pr caps fuel steps e') w) as [o1 r1]. reflexivity.
  Qed.
End Enc.
