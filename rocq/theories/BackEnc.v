(** * The encoder of zip-back follows [parses]. *)
From Verif Require Import Base Ser SerSpec SerProofs Bit BitSpec BitProofs Utils HufSpec UtilsProofs Dict DictSpec DictProofs DictEnc Back BackSpec BackProofs BackRing.
From Coq Require Import ZifyBool ZifyNat ZifyN.
Set Implicit Arguments.

Lemma common_agree a : forall b, common a b = agree a b.
Proof. induction a as [|x a IH]; intros [|y b]; cbn; reflexivity. Qed.
Lemma agree_firstn rest : forall p from, agree (firstn p rest) from = Nat.min p (agree rest from).
Proof.
  induction rest as [|x rest IH]; intros [|p] [|y from]; cbn; try reflexivity; try lia.
  destruct (x =? y)%N; [rewrite IH; reflexivity|reflexivity].
Qed.
Lemma agree_le_l rest : forall from, (agree rest from <= length rest)%nat.
Proof. induction rest as [|x rest IH]; intros [|y from]; cbn; try lia. destruct (x =? y)%N; [specialize (IH from); lia|lia]. Qed.
Lemma agree_le_r rest : forall from, (agree rest from <= length from)%nat.
Proof. induction rest as [|x rest IH]; intros [|y from]; cbn; try lia. destruct (x =? y)%N; [specialize (IH from); lia|lia]. Qed.
Lemma agree_prefix rest : forall from n, (n <= agree rest from)%nat <-> (n <= length rest)%nat /\ (n <= length from)%nat /\ firstn n from = firstn n rest.
Proof.
  induction rest as [|x rest IH]; intros [|y from] [|n]; cbn [agree length firstn].
  all: try (split; [intros; try lia; repeat split; lia|intros (? & ? & ?); lia]).
  - destruct (N.eqb_spec x y) as [->|E].
    + transitivity (n <= agree rest from)%nat; [lia|]. rewrite IH. split.
      * intros (A & B & C). rewrite C. repeat split; lia.
      * intros (A & B & C). injection C as C. repeat split; try lia. exact C.
    + split; [lia|]. intros (_ & _ & [= -> _]). congruence.
Qed.

Lemma match_at_bounds h rest q : (match_at h rest q <= N.of_nat (length rest))%N /\ (match_at h rest q <= N.of_nat (length h) - q)%N.
Proof.
  unfold match_at. pose proof (agree_le_l rest (skipn (N.to_nat q) h)). pose proof (agree_le_r rest (skipn (N.to_nat q) h)) as H2.
  rewrite skipn_length in H2. lia.
Qed.

Section Enc.
  Context {T : Type} (next : nextf T N).
  Variable R : N.
  Hypothesis HR : (0 < R)%N.
  Variable pr : profile.
  Variable caps : nat -> nat.
  Hypothesis Hcaps : forall i, (6 <= caps i)%nat.

  (** ** Buffered input: unread logical input [rest], [p] bytes of it already read. *)
  Definition buf_rep (b : buffered T) (rest : list N) (p : nat) : Prop :=
    bf_pos b = p /\ (p <= length (bf_saved b))%nat /\ exists l, delivers next (bf_iter b) l /\ bf_saved b ++ l = rest.

  Lemma buf_le b rest p : buf_rep b rest p -> (p <= length rest)%nat.
  Proof. intros (_ & H & l & _ & <-). rewrite app_length. lia. Qed.
  Lemma buf_next b rest p : buf_rep b rest p ->
    match skipn p rest with
    | x :: _ => exists b', bf_next next b = (Ok x, b') /\ buf_rep b' rest (S p)
    | [] => exists b', bf_next next b = (Err, b') /\ buf_rep b' rest p
    end.
  Proof.
    intros (Hp & Hle & l & Hd & He). unfold bf_next. rewrite Hp.
    destruct (Nat.ltb_spec p (length (bf_saved b))) as [C|C].
    - rewrite <- He, skipn_app_l by lia. destruct (@skipn_cons_nth _ (bf_saved b) p C) as [y Ey]. rewrite Ey. cbn [app].
      rewrite Hp. destruct (Nat.ltb_spec p (length (bf_saved b))); [|lia].
      assert (EN : nth_error (bf_saved b) p = Some y).
      { clear - Ey. revert p Ey. induction (bf_saved b) as [|z l IH]; intros [|p] Ey; cbn in Ey; try discriminate; cbn.
        - now injection Ey as ->.
        - now apply IH. }
      rewrite EN. eexists; split; [reflexivity|]. unfold buf_rep. cbn [bf_pos bf_saved bf_iter].
      split; [reflexivity|]. split; [lia|]. exists l. auto.
    - assert (p = length (bf_saved b)) as -> by lia. rewrite <- He, skipn_app_l, skipn_all by lia. cbn [app].
      destruct l as [|x l].
      + destruct (delivers_nil Hd) as [s' [-> Hd']]. cbn [bf_pos bf_saved bf_iter]. rewrite Nat.ltb_irrefl.
        rewrite (proj2 (nth_error_None _ _)) by lia.
        eexists; split; [reflexivity|]. unfold buf_rep. cbn [bf_pos bf_saved bf_iter].
        repeat split; auto. exists []. auto.
      + destruct (delivers_cons Hd) as [s' [-> Hd']]. cbn [bf_pos bf_saved bf_iter].
        rewrite app_length. cbn [length]. replace (length (bf_saved b) <? length (bf_saved b) + 1)%nat with true by lia.
        rewrite nth_error_app2, Nat.sub_diag by lia. cbn [nth_error].
        eexists; split; [reflexivity|]. unfold buf_rep. cbn [bf_pos bf_saved bf_iter]. rewrite app_length. cbn [length].
        split; [reflexivity|]. split; [lia|]. exists l. rewrite <- app_assoc. auto.
  Qed.
  Lemma buf_take rest : forall k b p, buf_rep b rest p ->
    exists b', take_next (bf_next next) k b = (Ok (firstn k (skipn p rest)), b') /\ buf_rep b' rest (Nat.min (p + k) (length rest)).
  Proof.
    induction k as [|k IH]; intros b p Hb; cbn [take_next].
    - exists b. split; [reflexivity|]. pose proof (buf_le Hb). replace (Nat.min (p + 0) (length rest)) with p by lia. exact Hb.
    - pose proof (buf_next Hb) as H. pose proof (buf_le Hb). destruct (skipn p rest) as [|x r] eqn:E.
      + destruct H as [b' [-> Hb']]. exists b'. split; [reflexivity|].
        assert (HL := f_equal (@length N) E). rewrite skipn_length in HL. cbn in HL.
        replace (Nat.min (p + S k) (length rest)) with p by lia. exact Hb'.
      + destruct H as [b' [-> Hb']]. unfold rd_bind. destruct (IH _ _ Hb') as [b2 [-> Hb2]]. exists b2.
        assert (Er : skipn (S p) rest = r) by (rewrite <- tl_skipn, E; reflexivity).
        rewrite Er. split; [reflexivity|]. replace (p + S k)%nat with (S p + k)%nat by lia. exact Hb2.
  Qed.
  Lemma buf_restore b rest p : buf_rep b rest p -> buf_rep (bf_restore b) rest 0.
  Proof. intros (Hp & Hle & l & Hd & He). unfold buf_rep, bf_restore. cbn. split; [reflexivity|]. split; [lia|]. eauto. Qed.
  Lemma buf_accept b rest p n : buf_rep b rest p -> (n <= p)%nat ->
    exists b', bf_accept b n = Ok b' /\ buf_rep b' (skipn n rest) (p - n).
  Proof.
    intros (Hp & Hle & l & Hd & He) Hn. unfold bf_accept.
    replace (n <=? length (bf_saved b))%nat with true by lia. cbn [assert_ res_bind]. rewrite Hp.
    replace (n <=? p)%nat with true by lia. eexists; split; [reflexivity|]. unfold buf_rep. cbn [bf_pos bf_saved bf_iter].
    split; [reflexivity|]. split; [rewrite skipn_length; lia|]. exists l. split; [exact Hd|].
    rewrite <- He, skipn_app_l by lia. reflexivity.
  Qed.

  (** ** Best match *)
  Definition len_at (h rep : list N) (i : N) : N := N.of_nat (agree rep (skipn (N.to_nat i) h)).
  Lemma best_of_spec rb h rep : ring_rep R rb h -> forall idxs m b,
    Forall (in_window R h) idxs ->
    exists m' b', best_of R pr rb rep idxs m b = Ok (m', b') /\
    ((m' = m /\ b' = b /\ Forall (fun i => len_at h rep i <= m)%N idxs) \/
     exists l1 i l2, idxs = l1 ++ i :: l2 /\ m' = len_at h rep i /\ (m < m')%N /\ b' = (N.of_nat (length h) - i)%N /\
       Forall (fun j => len_at h rep j < m')%N l1 /\ Forall (fun j => len_at h rep j <= m')%N l2).
  Proof.
    intros Hr. induction idxs as [|i idxs IH]; intros m b HF; cbn [best_of].
    - exists m, b. split; [reflexivity|]. left. repeat split. constructor.
    - inversion HF as [|? ? Hi HF']; subst.
      rewrite (ring_iter HR pr Hr) by (unfold in_window in Hi; lia). cbn [res_bind].
      rewrite (ring_lookback HR pr Hr Hi). cbn [res_bind]. rewrite common_agree. fold (len_at h rep i).
      destruct (N.ltb_spec m (len_at h rep i)) as [C|C].
      + destruct (IH (len_at h rep i) (N.of_nat (length h) - i)%N HF') as (m' & b' & -> & D). exists m', b'. split; [reflexivity|].
        right. destruct D as [(-> & -> & D)|(l1 & j & l2 & -> & E & Hm & Eb & D1 & D2)].
        * exists [], i, idxs. repeat split; auto.
        * exists (i :: l1), j, l2. split; [reflexivity|]. split; [exact E|]. split; [lia|]. split; [exact Eb|].
          split; [|exact D2]. constructor; [lia|exact D1].
      + destruct (IH m b HF') as (m' & b' & -> & D). exists m', b'. split; [reflexivity|].
        destruct D as [(-> & -> & D)|(l1 & j & l2 & -> & E & Hm & Eb & D1 & D2)].
        * left. repeat split; auto.
        * right. exists (i :: l1), j, l2. split; [reflexivity|]. split; [exact E|]. split; [lia|]. split; [exact Eb|].
          split; [|exact D2]. constructor; [lia|exact D1].
  Qed.

  Lemma occurrences_in h key i : In i (occurrences R h key) <-> in_window R h i /\ firstn 6 (skipn (N.to_nat i) h) = key.
  Proof.
    clear Hcaps caps HR. unfold occurrences. rewrite filter_In, in_map_iff. pose proof (key_eqb_ok (firstn 6 (skipn (N.to_nat i) h)) key) as HE. rewrite HE. split.
    - intros [[q [<- Hq%in_seq]] E]. split; [unfold in_window; lia|exact E].
    - intros [Hw E]. split; [|exact E]. exists (N.to_nat i). split; [lia|]. apply in_seq. unfold in_window in Hw. lia.
  Qed.
  Lemma occurrences_sorted h key l1 i l2 : occurrences R h key = l1 ++ i :: l2 ->
    Forall (fun j => j < i)%N l1 /\ Forall (fun j => i < j)%N l2.
  Proof.
    unfold occurrences. set (f := fun pos => _). generalize (length h - (length h - N.to_nat R))%nat as n.
    intros n. revert l1. generalize (length h - N.to_nat R)%nat as a. clearbody f.
    induction n as [|n IH]; intros a l1 E; cbn [seq map filter] in E.
    - destruct l1; discriminate.
    - destruct (f (N.of_nat a)) eqn:Ef.
      + destruct l1 as [|y l1].
        * injection E as <- <-. split; [constructor|]. apply Forall_forall. intros j Hj.
          apply filter_In in Hj as [Hj _]. apply in_map_iff in Hj as [q [<- Hq%in_seq]]. lia.
        * injection E as <- E. destruct (IH _ _ E) as [H1 H2]. split; [|exact H2]. constructor; [|exact H1].
          assert (In i (filter f (map N.of_nat (seq (S a) n)))) as Hj by (rewrite E; apply in_or_app; right; now left).
          apply filter_In in Hj as [Hj _]. apply in_map_iff in Hj as [q [<- Hq%in_seq]]. lia.
      + apply (IH _ _ E).
  Qed.

  Lemma match_key h rest q : (6 <= match_at h rest q)%N -> firstn 6 (skipn (N.to_nat q) h) = firstn 6 rest.
  Proof.
    unfold match_at. intros H. apply (agree_prefix rest (skipn (N.to_nat q) h) 6). lia.
  Qed.

  Definition found (h rest : list N) (o : option (N * N)) : Prop :=
    match o with
    | Some (len, back) => if (6 <=? len)%N then best_match R h rest len back else no_match R h rest
    | None => no_match R h rest
    end.

  (** the search over the index with the first [p] bytes of the input at hand *)
  Lemma search hi h rest p : hist_rep R hi h -> (6 <= p <= length rest)%nat ->
    exists len back,
      best_of R pr (ih_data hi) (firstn p rest)
        (start_indices_for (ih_index hi) (firstn MIN_REP (firstn p rest)) (ih_data hi)) 0 0 = Ok (len, back)
      /\ (len <= N.of_nat p)%N
      /\ ((len < N.of_nat p)%N \/ p = length rest -> found h rest (Some (len, back))).
  Proof.
    intros [Hr Hi] Hp. unfold MIN_REP. rewrite firstn_firstn. replace (Nat.min 6 p) with 6%nat by lia.
    assert (HK : length (firstn 6 rest) = 6%nat) by (rewrite firstn_length; lia).
    rewrite (idx_lookup HR (firstn 6 rest) Hi Hr HK).
    destruct (best_of_spec (firstn p rest) Hr (idxs := occurrences R h (firstn 6 rest)) 0 0) as (len & back & E & D).
    { apply Forall_forall. intros i Hin%occurrences_in. apply Hin. }
    exists len, back. split; [exact E|].
    assert (LA : forall i, len_at h (firstn p rest) i = N.min (N.of_nat p) (match_at h rest i)).
    { intros i. unfold len_at, match_at. rewrite agree_firstn. lia. }
    destruct D as [(-> & -> & D)|(l1 & i & l2 & Eo & -> & Hm & -> & D1 & D2)].
    - split; [lia|]. intros _. cbn [found]. change (6 <=? 0)%N with false. cbn iota. intros q Hq.
      destruct (N.lt_ge_cases (match_at h rest q) 6) as [C|C]; [exact C|exfalso].
      assert (In q (occurrences R h (firstn 6 rest))) as Hin.
      { apply occurrences_in. split; [exact Hq|]. now apply match_key. }
      rewrite Forall_forall in D. specialize (D _ Hin). rewrite LA in D. lia.
    - rewrite LA in *. split; [lia|]. intros Hlt.
      assert (In i (occurrences R h (firstn 6 rest))) as Hin by (rewrite Eo; apply in_or_app; right; now left).
      assert (Hw := proj1 (proj1 (occurrences_in _ _ _) Hin)).
      assert (Hk := proj2 (proj1 (occurrences_in _ _ _) Hin)).
      assert (H6 : (6 <= match_at h rest i)%N).
      { unfold match_at. assert (6 <= agree rest (skipn (N.to_nat i) h))%nat; [|lia].
        apply agree_prefix. split; [lia|]. split; [|exact Hk].
        rewrite <- HK, <- Hk, firstn_length. lia. }
      pose proof (match_at_bounds h rest i) as [HB _].
      assert (EM : N.min (N.of_nat p) (match_at h rest i) = match_at h rest i) by lia.
      rewrite EM in *. cbn [found]. destruct (N.leb_spec 6 (match_at h rest i)); [|lia].
      destruct (@occurrences_sorted _ _ _ _ _ Eo) as [S1 S2].
      assert (HA : forall q, in_window R h q -> (match_at h rest q <= match_at h rest i)%N
                    /\ ((q < i)%N -> (match_at h rest q < match_at h rest i)%N)).
      { intros q Hq. destruct (N.lt_ge_cases (match_at h rest q) 6) as [C|C]; [split; intros; lia|].
        assert (In q (occurrences R h (firstn 6 rest))) as Hqi.
        { apply occurrences_in. split; [exact Hq|]. now apply match_key. }
        rewrite Eo in Hqi. pose proof (match_at_bounds h rest q) as [HBq _].
        rewrite Forall_forall in D1, D2, S1, S2. apply in_app_or in Hqi as [Hqi|[<-|Hqi]].
        - specialize (D1 _ Hqi). rewrite LA in D1. lia.
        - lia.
        - specialize (D2 _ Hqi). specialize (S2 _ Hqi). rewrite LA in D2. lia. }
      exists i. split; [exact Hw|]. split; [reflexivity|]. split; [reflexivity|]. split; [lia|].
      split; intros q Hq; [|intros Hqi]; now apply HA.
  Qed.

  (** ** Encoder state: history [h], input [rest], [p] bytes of it looked at *)
  Definition enc_rep (e : benc T) (h rest : list N) (p : nat) : Prop :=
    hist_rep R (be_history e) h /\ buf_rep (be_input e) rest p.

  Lemma repetition_loop_spec h rest : forall fuel e p, enc_rep e h rest p -> be_rep e = firstn p rest ->
    ((6 <= p)%nat \/ p = length rest) -> (length rest - p < fuel)%nat ->
    exists o e' p', repetition_loop next R pr caps fuel e = (Ok o, e') /\ enc_rep e' h rest p' /\ found h rest o.
  Proof.
    induction fuel as [|fuel IH]; intros e p [Hh Hb] Hrep Hp Hf; [lia|].
    cbn [repetition_loop]. unfold rd_bind, get, rd_lift, buffered_repetition.
    pose proof (buf_le Hb) as Hle.
    assert (LP : length (be_rep e) = p) by (rewrite Hrep, firstn_length; lia).
    rewrite LP. unfold MIN_REP at 1. destruct (Nat.ltb_spec p 6) as [C|C].
    - exists None, e, p. split; [reflexivity|]. split; [split; assumption|]. cbn [found]. intros q Hq.
      pose proof (match_at_bounds h rest q). lia.
    - rewrite Hrep. destruct (@search (be_history e) h rest p Hh) as (len & back & -> & Hlen & Hfound); [lia|].
      cbn [res_bind]. rewrite LP.
      destruct (N.eqb_spec len (N.of_nat p)) as [E|E].
      + unfold more_data. cbv beta. destruct (@buf_take rest (caps (be_calls e)) _ _ Hb) as [b' [-> Hb']].
        cbn [be_rep be_history be_input be_calls]. rewrite app_length, LP, firstn_length, skipn_length.
        pose proof (Hcaps (be_calls e)) as HC.
        destruct (Nat.eqb_spec (p + Nat.min (caps (be_calls e)) (length rest - p)) p) as [E2|E2].
        * eexists _, _, _. split; [reflexivity|]. split; [split; cbn [be_history be_input]; eassumption|].
          apply Hfound. right. lia.
        * eapply IH.
          -- split; cbn [be_history be_input]; [exact Hh|exact Hb'].
          -- cbn [be_rep]. rewrite Hrep.
             assert (EX : firstn p rest ++ firstn (caps (be_calls e)) (skipn p rest) = firstn (p + caps (be_calls e)) rest).
             { clear. revert p. induction rest as [|x l IHl]; intros [|p]; cbn; try reflexivity.
               - now rewrite firstn_nil.
               - f_equal. apply IHl. }
             rewrite EX. destruct (Nat.le_gt_cases (p + caps (be_calls e)) (length rest)).
             ++ now replace (Nat.min (p + caps (be_calls e)) (length rest)) with (p + caps (be_calls e))%nat by lia.
             ++ replace (Nat.min (p + caps (be_calls e)) (length rest)) with (length rest) by lia.
                rewrite firstn_all. apply firstn_all2. lia.
          -- lia.
          -- lia.
      + eexists _, _, _. split; [reflexivity|]. split; [split; eassumption|]. apply Hfound. left. lia.
  Qed.

  Lemma next_repetition_spec h rest fuel e : enc_rep e h rest 0 -> (length rest < fuel)%nat ->
    exists o e' p', next_repetition next R pr caps fuel e = (Ok o, e') /\ enc_rep e' h rest p' /\ found h rest o.
  Proof.
    intros [Hh Hb] Hf. unfold next_repetition, rd_bind, clear_rep, more_data. cbn [be_rep be_history be_input be_calls].
    destruct (@buf_take rest (caps (be_calls e)) _ _ Hb) as [b' [-> Hb']]. pose proof (Hcaps (be_calls e)) as HC.
    eapply repetition_loop_spec.
    - split; cbn [be_history be_input]; eassumption.
    - cbn [be_rep app skipn Nat.add]. destruct (Nat.le_gt_cases (caps (be_calls e)) (length rest)).
      + f_equal. lia.
      + rewrite !firstn_all2; [reflexivity|lia|lia].
    - lia.
    - lia.
  Qed.

  Lemma commit_loop_spec rest : forall n e h p, enc_rep e h rest p -> (p + n <= length rest)%nat ->
    exists e', commit_loop next R n e = (Ok tt, e') /\ enc_rep e' (h ++ firstn n (skipn p rest)) rest (p + n).
  Proof.
    induction n as [|n IH]; intros e h p [Hh Hb] Hn; cbn [commit_loop].
    - exists e. split; [reflexivity|]. cbn [firstn]. rewrite app_nil_r, Nat.add_0_r. split; assumption.
    - pose proof (buf_next Hb) as H. destruct (skipn p rest) as [|x r] eqn:E.
      { assert (HL := f_equal (@length N) E). rewrite skipn_length in HL. cbn in HL. lia. }
      destruct H as [b' [Eb Hb']]. unfold rd_bind, rd_unwrap, lift_in. rewrite Eb. cbn [unwrap].
      unfold set_hist. cbn [be_history]. destruct (hist_write HR x Hh) as [h' [-> Hh']]. cbn [be_input be_rep be_calls].
      destruct (IH (mkBE h' b' (be_rep e) (be_calls e)) (h ++ [x]) (S p)) as [e' [-> He]]; [split; assumption|lia|].
      exists e'. split; [reflexivity|]. assert (Er : skipn (S p) rest = r) by (rewrite <- tl_skipn, E; reflexivity).
      rewrite Er, <- app_assoc in He. cbn [firstn]. replace (p + S n)%nat with (S p + n)%nat by lia. exact He.
  Qed.
  Lemma commit_spec e h rest p n : enc_rep e h rest p -> (n <= length rest)%nat ->
    exists e', commit_bytes next R n e = (Ok tt, e') /\ enc_rep e' (h ++ firstn n rest) (skipn n rest) 0.
  Proof.
    intros [Hh Hb] Hn. unfold commit_bytes, rd_bind, set_in at 1.
    set (e1 := mkBE _ _ _ _).
    destruct (@commit_loop_spec rest n e1 h 0) as [e2 [-> [Hh2 Hb2]]].
    { split; [exact Hh|]. eapply buf_restore; eassumption. }
    { lia. }
    unfold set_in. destruct (@buf_accept _ _ _ n Hb2) as [b' [-> Hb3]]; [lia|].
    eexists; split; [reflexivity|]. split; cbn [be_history be_input]; [exact Hh2|].
    replace (0 + n - n)%nat with O in Hb3 by lia. exact Hb3.
  Qed.
  Lemma extend_spec e h rest p lits : enc_rep e h rest p ->
    exists e', extend_explicit next R lits e =
      (Ok (lits ++ firstn (grow_by lits) rest, (length rest <? grow_by lits)%nat), e')
    /\ enc_rep e' (h ++ firstn (grow_by lits) rest) (skipn (grow_by lits) rest) 0.
  Proof.
    intros [Hh Hb]. unfold extend_explicit, rd_bind, set_in at 1. cbn zeta. fold (grow_by lits).
    unfold lift_in. cbn [be_input be_history be_rep be_calls].
    destruct (@buf_take rest (grow_by lits) _ 0 (buf_restore Hb)) as [b' [-> Hb']]. cbn [skipn Nat.add] in *.
    unfold set_in. cbn [be_input be_history be_rep be_calls].
    assert (LN : length (firstn (grow_by lits) rest) = Nat.min (grow_by lits) (length rest)) by apply firstn_length.
    destruct (@buf_accept _ _ _ (length (firstn (grow_by lits) rest)) Hb') as [b2 [-> Hb2]]; [lia|].
    unfold set_hist. cbn [be_input be_history be_rep be_calls].
    destruct (hist_write_all HR (firstn (grow_by lits) rest) Hh) as [h' [-> Hh']].
    eexists; split.
    { unfold rd_ret. replace (length (firstn (grow_by lits) rest) <? grow_by lits)%nat with (length rest <? grow_by lits)%nat
        by (rewrite LN; lia). reflexivity. }
    split; cbn [be_history be_input]; [exact Hh'|]. rewrite LN, Nat.sub_diag in Hb2.
    destruct (Nat.le_gt_cases (grow_by lits) (length rest)).
    - replace (Nat.min (grow_by lits) (length rest)) with (grow_by lits) in Hb2 by lia. exact Hb2.
    - replace (Nat.min (grow_by lits) (length rest)) with (length rest) in Hb2 by lia.
      rewrite skipn_all2 by lia. rewrite skipn_all in Hb2. exact Hb2.
  Qed.

  Lemma push_literal lits : push_explicit lits = literal lits.
  Proof. destruct lits; reflexivity. Qed.
  Lemma parses_end h syms : parses R h [] [] syms -> syms = [].
  Proof.
    inversion 1 as [? ? ? len back ? [pos (_ & _ & E & H6 & _)]|? ? ? ? ? Hg|]; subst.
    - unfold match_at in H6. cbn in H6. lia.
    - cbn in Hg. lia.
    - reflexivity.
  Qed.
  Lemma best_len h rest len back : best_match R h rest len back ->
    (6 <= len <= N.of_nat (length rest))%N /\ (len <= back <= R)%N /\ (back <= N.of_nat (length h))%N.
  Proof.
    intros (pos & [W1 W2] & -> & -> & H6 & _). pose proof (match_at_bounds h rest pos). clear HR. lia.
  Qed.

  Lemma symbols_loop_spec : forall fuel h lits rest e, enc_rep e h rest 0 -> (length rest < fuel)%nat ->
    exists chunk e' h' rest', symbols_loop next R pr caps fuel lits e = (Ok chunk, e') /\ enc_rep e' h' rest' 0
    /\ (length rest' <= length rest)%nat
    /\ (chunk = [] -> lits = [] /\ rest = []) /\ (lits = [] -> chunk <> [] -> (length rest' < length rest)%nat)
    /\ forall syms, parses R h' [] rest' syms -> parses R h lits rest (chunk ++ syms).
  Proof.
    induction fuel as [|fuel IH]; intros h lits rest e He Hf; [lia|].
    cbn [symbols_loop]. unfold rd_bind at 1.
    destruct (@next_repetition_spec h rest (S fuel) e He Hf) as (o & e1 & p1 & -> & He1 & Hfound).
    set (other := rd_bind (extend_explicit next R lits) _).
    assert (HO : no_match R h rest -> exists chunk e' h' rest', other e1 = (Ok chunk, e') /\ enc_rep e' h' rest' 0
      /\ (length rest' <= length rest)%nat
      /\ (chunk = [] -> lits = [] /\ rest = []) /\ (lits = [] -> chunk <> [] -> (length rest' < length rest)%nat)
      /\ forall syms, parses R h' [] rest' syms -> parses R h lits rest (chunk ++ syms)).
    { intros HN. subst other. unfold rd_bind.
      destruct (@extend_spec e1 h rest p1 lits He1) as [e2 [-> He2]].
      destruct (Nat.ltb_spec (length rest) (grow_by lits)) as [C|C].
      - rewrite firstn_all2, skipn_all2 in * by lia. rewrite push_literal.
        exists (literal (lits ++ rest)), e2, (h ++ rest), []. split; [reflexivity|]. split; [exact He2|].
        split; [cbn; lia|]. split.
        { intros E. destruct (lits ++ rest) eqn:E2; [|discriminate]. now apply app_eq_nil in E2. }
        split.
        { intros -> Hc. cbn [app] in Hc. destruct rest; [destruct (Hc eq_refl)|cbn; lia]. }
        intros syms Hs. apply parses_end in Hs. subst syms. rewrite app_nil_r. now apply parses_last.
      - assert (HG : (2 <= grow_by lits)%nat) by (unfold grow_by; lia).
        destruct (IH (h ++ firstn (grow_by lits) rest) (lits ++ firstn (grow_by lits) rest) (skipn (grow_by lits) rest) e2)
          as (chunk & e' & h' & rest' & -> & He' & HL & HC1 & HC2 & HP); [exact He2|rewrite skipn_length; lia|].
        rewrite skipn_length in HL.
        exists chunk, e', h', rest'. split; [reflexivity|]. split; [exact He'|]. split; [lia|]. split.
        { intros Hc. apply HC1 in Hc as [Hc _]. apply app_eq_nil in Hc as [-> Hc].
          destruct rest; [cbn in C; lia|]. cbn in Hc. discriminate. }
        split; [lia|]. intros syms Hs. apply parses_more; auto. }
    clearbody other. destruct o as [[len back]|]; cbn [found] in Hfound.
    2: { apply HO. exact Hfound. }
    change (N.of_nat MIN_REP) with 6%N. destruct (N.leb_spec 6 len) as [C|C]; [|apply HO; exact Hfound].
    clear HO other. unfold rd_bind. pose proof (best_len Hfound) as [HL HB].
    destruct (@commit_spec e1 h rest p1 (N.to_nat len) He1) as [e2 [-> He2]]; [lia|].
    unfold rd_ret. eexists _, e2, _, _. split; [reflexivity|]. split; [exact He2|]. rewrite skipn_length.
    split; [lia|]. rewrite push_literal. split; [intros E; now apply app_eq_nil in E|]. split; [lia|].
    intros syms Hs. rewrite <- app_assoc. cbn [app]. eapply parses_repeat; eassumption.
  Qed.

  (** ** Output *)
  Fixpoint serialized (syms : list symbol) : list N * res unit :=
    match syms with
    | [] => ([], Ok tt)
    | s :: syms => if (symbol_len s <=? 32767)%N
                   then let '(bs, r) := serialized syms in (symbol_bytes s ++ bs, r) else ([], Panic)
    end.
  Definition near (s : symbol) : Prop := match s with Explicit _ => True | LookBack _ back => (back <= 65535)%N end.
  Lemma ser_symbol_near s : near s -> (symbol_len s <= 32767)%N -> emits (ser_symbol s) (symbol_bytes s) (Ok tt).
  Proof.
    destruct s as [data|len back]; intros H1 H2; cbn [near symbol_len] in *; unfold ser_symbol, symbol_bytes.
    - rewrite compress_explicit. destruct (N.leb_spec (N.of_nat (length data)) 32767); [|lia].
      rewrite <- (app_nil_l (le16 _ ++ data)). eapply emits_bind; [apply emits_lift|].
      eapply emits_bind; [|apply ser_bytes_emits].
      unfold ser_u16. rewrite le16_eq by (unfold u16_ok; lia). apply emits_write.
    - apply (@ser_symbol_ok (LookBack len back)). split; assumption.
  Qed.
  Lemma emits_symbols chunk : forall syms (f : unit -> io unit), Forall near chunk ->
    emits (f tt) (fst (serialized syms)) (snd (serialized syms)) ->
    emits (io_bind (io_iter ser_symbol chunk) f) (fst (serialized (chunk ++ syms))) (snd (serialized (chunk ++ syms))).
  Proof.
    induction chunk as [|s chunk IH]; intros syms f HF Hf; cbn [io_iter app serialized].
    - intros w. exact (Hf w).
    - inversion HF as [|? ? Hs HF']; subst.
      assert (EX : forall w, io_bind (io_bind (ser_symbol s) (fun _ => io_iter ser_symbol chunk)) f w
                   = io_bind (ser_symbol s) (fun _ => io_bind (io_iter ser_symbol chunk) f) w).
      { intros w. unfold io_bind. destruct (ser_symbol s w) as [[| |] w']; reflexivity. }
      intros w. rewrite EX. revert w.
      destruct (N.leb_spec (symbol_len s) 32767) as [C|C].
      + specialize (IH syms f HF' Hf). destruct (serialized (chunk ++ syms)) as [bs r]. cbn [fst snd] in *.
        eapply emits_bind; [apply ser_symbol_near; assumption|exact IH].
      + cbn [fst snd]. apply emits_bind_panic, ser_symbol_long. lia.
  Qed.
  Hypothesis HR16 : (R <= 65535)%N.
  Lemma parses_near h lits rest syms : parses R h lits rest syms -> Forall near syms.
  Proof.
    induction 1 as [h lits rest len back syms Hb _ IH| |].
    - apply Forall_app. split; [destruct lits; repeat constructor|]. constructor; [|exact IH]. cbn. pose proof (best_len Hb). lia.
    - assumption.
    - destruct (lits ++ rest); repeat constructor.
  Qed.

  Lemma encode_loop_spec : forall steps fuel e h rest, enc_rep e h rest 0 -> (length rest < fuel)%nat -> (length rest < steps)%nat ->
    exists syms, parses R h [] rest syms /\
      emits (back_encode_loop next R pr caps fuel steps e) (fst (serialized syms)) (snd (serialized syms)).
  Proof.
    induction steps as [|steps IH]; intros fuel e h rest He Hf Hs; [lia|].
    cbn [back_encode_loop]. unfold next_symbols.
    destruct (@symbols_loop_spec fuel h [] rest e He Hf) as (chunk & e' & h' & rest' & -> & He' & HL & HC1 & HC2 & HP).
    destruct chunk as [|s chunk].
    - destruct (HC1 eq_refl) as [_ ->]. exists []. split.
      + rewrite <- (app_nil_l []). apply HP. destruct rest' as [|x rest']; [|cbn in HL; lia].
        change [] with (literal ([] ++ [])) at 3. apply parses_last; [|cbn; lia].
        intros q _. unfold match_at. cbn. lia.
      + cbn. apply emits_ret.
    - assert (length rest' < length rest)%nat by (apply HC2; congruence).
      destruct (IH fuel e' h' rest' He') as [syms [Hp Hem]]; [lia|lia|].
      exists ((s :: chunk) ++ syms). pose proof (HP _ Hp) as HPP. split; [exact HPP|].
      apply emits_symbols; [|exact Hem]. apply parses_near in HPP. now apply Forall_app in HPP.
  Qed.

  Lemma encode_spec fuel s l : delivers next s l -> (length l < fuel)%nat ->
    exists syms, parses R [] [] l syms /\
      emits (back_encode next R pr caps fuel s) (fst (serialized syms)) (snd (serialized syms)).
  Proof.
    intros Hd Hf. apply encode_loop_spec; auto. split; cbn; [apply hist_new|].
    split; [reflexivity|]. split; [cbn; lia|]. exists l. auto.
  Qed.
End Enc.

(** ** [parses] is a function of the input *)
Lemma best_unique R h rest len back len' back' : best_match R h rest len back -> best_match R h rest len' back' -> len = len' /\ back = back'.
Proof.
  intros (p & Wp & -> & -> & _ & Hp1 & Hp2) (q & Wq & -> & -> & _ & Hq1 & Hq2).
  pose proof (Hp1 _ Wq). pose proof (Hq1 _ Wp). split; [lia|].
  destruct (N.lt_trichotomy p q) as [C|[C|C]].
  - specialize (Hq2 _ Wp C). lia.
  - now subst.
  - specialize (Hp2 _ Wq C). lia.
Qed.
Lemma best_no R h rest len back : best_match R h rest len back -> no_match R h rest -> False.
Proof. intros (p & Wp & -> & -> & H6 & _) Hn. specialize (Hn _ Wp). lia. Qed.
Lemma parses_fun R h lits rest syms : parses R h lits rest syms -> forall syms', parses R h lits rest syms' -> syms = syms'.
Proof.
  induction 1 as [h lits rest len back syms Hb _ IH|h lits rest syms Hn Hg _ IH|h lits rest Hn Hg]; intros syms' H'; inversion H'; subst.
  - destruct (best_unique Hb H) as [<- <-]. do 2 f_equal. now apply IH.
  - exfalso. eapply best_no; eassumption.
  - exfalso. eapply best_no; eassumption.
  - exfalso. eapply best_no; eassumption.
  - now apply IH.
  - lia.
  - exfalso. eapply best_no; eassumption.
  - lia.
  - reflexivity.
Qed.
