(** * The ring buffer and the index of zip-back. *)
From Verif Require Import Base Ser SerSpec SerProofs Utils HufSpec UtilsProofs Dict DictProofs Back BackSpec.
From Coq Require Import ZifyBool ZifyNat ZifyN.
Set Implicit Arguments.

Lemma firstn_set_nth {X} (l : list X) : forall i x, firstn i (set_nth l i x) = firstn i l.
Proof. induction l as [|y l IH]; intros [|i] x; cbn; try reflexivity. now rewrite IH. Qed.
Lemma firstn_S_set_nth {X} (l : list X) : forall i x, (i < length l)%nat -> firstn (S i) (set_nth l i x) = firstn i l ++ [x].
Proof.
  induction l as [|y l IH]; intros [|i] x H; cbn in H; try lia; [reflexivity|].
  cbn [set_nth]. rewrite firstn_cons, IH by lia. reflexivity.
Qed.
Lemma skipn_S_set_nth {X} (l : list X) : forall i x, skipn (S i) (set_nth l i x) = skipn (S i) l.
Proof. induction l as [|y l IH]; intros [|i] x; cbn [set_nth]; try reflexivity. rewrite !skipn_cons. apply IH. Qed.
Lemma tl_skipn {X} (l : list X) : forall i, tl (skipn i l) = skipn (S i) l.
Proof. induction l as [|y l IH]; intros [|i]; try reflexivity. rewrite !skipn_cons. apply IH. Qed.
Lemma skipn_cons_nth {X} (l : list X) : forall i, (i < length l)%nat -> exists y, skipn i l = y :: skipn (S i) l.
Proof.
  induction l as [|y l IH]; intros [|i] H; cbn in H; try lia; [now exists y|].
  rewrite !skipn_cons. apply IH. lia.
Qed.
Lemma skipn_app_l {X} (a b : list X) i : (i <= length a)%nat -> skipn i (a ++ b) = skipn i a ++ b.
Proof. intros H. rewrite skipn_app. replace (i - length a)%nat with O by lia. reflexivity. Qed.
Lemma firstn_app_l {X} (a b : list X) i : (i <= length a)%nat -> firstn i (a ++ b) = firstn i a.
Proof. intros H. rewrite firstn_app. replace (i - length a)%nat with O by lia. cbn. apply app_nil_r. Qed.
Lemma skipn_skipn' {X} (l : list X) : forall i j, skipn i (skipn j l) = skipn (j + i) l.
Proof. induction l as [|y l IH]; intros i [|j]; cbn [Nat.add]; [reflexivity|now rewrite !skipn_nil|reflexivity|]. rewrite !skipn_cons. apply IH. Qed.

Section R.
  Variable R : N.
  Hypothesis HR : (0 < R)%N.
  Notation r := (N.to_nat R).

  Definition ring_rep (rb : ring) (h : list N) : Prop :=
    length (rb_data rb) = r /\
    ((rb_start rb = 0%N /\ rb_wpos rb = N.of_nat (length h) /\ (length h <= r)%nat /\ firstn (length h) (rb_data rb) = h) \/
     (r < length h)%nat /\ rb_start rb = (N.of_nat (length h) - R)%N /\ (1 <= rb_wpos rb <= R)%N /\
       skipn (N.to_nat (rb_wpos rb)) (rb_data rb) ++ firstn (N.to_nat (rb_wpos rb)) (rb_data rb) = window R h).

  Lemma ring_new : ring_rep (rb_default R) [].
  Proof.
    split; [apply repeat_length|]. left. cbn. auto using Nat.le_0_l.
  Qed.

  Lemma window_length h : length (window R h) = Nat.min (length h) r.
  Proof. unfold window. rewrite skipn_length. lia. Qed.
  Lemma window_snoc h x : (r <= length h)%nat -> window R (h ++ [x]) = tl (window R h) ++ [x].
  Proof.
    intros H. unfold window. rewrite app_length. cbn [length].
    replace (length h + 1 - r)%nat with (S (length h - r)) by lia.
    rewrite skipn_app_l by lia. now rewrite tl_skipn.
  Qed.
  Lemma window_all h : (length h <= r)%nat -> window R h = h.
  Proof. intros H. unfold window. replace (length h - r)%nat with O by lia. reflexivity. Qed.

  Lemma ring_write rb h x : ring_rep rb h -> exists rb', rb_write R rb x = Ok rb' /\ ring_rep rb' (h ++ [x]).
  Proof.
    intros [HL D]. unfold rb_write.
    assert (LS : length (h ++ [x]) = S (length h)) by (rewrite app_length; cbn; lia).
    destruct D as [(Hs & Hw & Hn & Hd)|(Hn & Hs & Hw & Hd)].
    - rewrite Hs, Hw. change (0 <? 0)%N with false. change (0 =? 0)%N with true. rewrite andb_true_r. cbn [orb].
      destruct (N.eqb_spec (N.of_nat (length h)) R) as [E|E].
      + replace (0 <? N.of_nat (length (rb_data rb)))%N with true by lia. eexists; split; [reflexivity|].
        split; cbn [rb_data rb_start rb_wpos]; [now rewrite set_nth_length|]. right.
        split; [lia|]. split; [lia|]. split; [lia|].
        change (N.to_nat (0 + 1)) with 1%nat. change (N.to_nat 0) with O.
        rewrite window_snoc, window_all by lia. rewrite skipn_S_set_nth, firstn_S_set_nth by lia.
        rewrite <- Hd. replace (length h) with (length (rb_data rb)) by lia. rewrite firstn_all.
        rewrite <- tl_skipn. reflexivity.
      + replace (N.of_nat (length h) <? N.of_nat (length (rb_data rb)))%N with true by lia. eexists; split; [reflexivity|].
        split; cbn [rb_data rb_start rb_wpos]; [now rewrite set_nth_length|]. left.
        split; [reflexivity|]. split; [lia|]. split; [lia|]. rewrite LS, Nat2N.id, firstn_S_set_nth by lia.
        now rewrite Hd.
    - rewrite Hs. replace (0 <? N.of_nat (length h) - R)%N with true by lia. cbn [orb].
      destruct (N.eqb_spec (rb_wpos rb) R) as [E|E].
      + replace (0 <? N.of_nat (length (rb_data rb)))%N with true by lia. eexists; split; [reflexivity|].
        split; cbn [rb_data rb_start rb_wpos]; [now rewrite set_nth_length|]. right.
        split; [lia|]. split; [lia|]. split; [lia|].
        change (N.to_nat (0 + 1)) with 1%nat. change (N.to_nat 0) with O.
        rewrite window_snoc by lia. rewrite skipn_S_set_nth, firstn_S_set_nth by lia.
        rewrite <- Hd, E, <- HL, skipn_all, firstn_all. cbn [app firstn]. rewrite <- tl_skipn. reflexivity.
      + replace (rb_wpos rb <? N.of_nat (length (rb_data rb)))%N with true by lia. eexists; split; [reflexivity|].
        split; cbn [rb_data rb_start rb_wpos]; [now rewrite set_nth_length|]. right.
        split; [lia|]. split; [lia|]. split; [lia|].
        replace (N.to_nat (rb_wpos rb + 1)) with (S (N.to_nat (rb_wpos rb))) by lia.
        rewrite window_snoc by lia. rewrite skipn_S_set_nth, firstn_S_set_nth by lia.
        rewrite <- Hd. destruct (@skipn_cons_nth _ (rb_data rb) (N.to_nat (rb_wpos rb))) as [y ->]; [lia|].
        cbn [app tl]. now rewrite app_assoc.
  Qed.
  Lemma ring_write_all xs : forall rb h, ring_rep rb h -> exists rb', rb_write_all R rb xs = Ok rb' /\ ring_rep rb' (h ++ xs).
  Proof.
    induction xs as [|x xs IH]; intros rb h H; cbn [rb_write_all].
    - exists rb. rewrite app_nil_r. auto.
    - destruct (ring_write x H) as [rb1 [-> H1]]. cbn [res_bind]. destruct (IH _ _ H1) as [rb2 [-> H2]].
      exists rb2. rewrite <- app_assoc in H2. auto.
  Qed.

  Lemma ring_wrapped rb h : ring_rep rb h -> wrapped_around rb = (R <? N.of_nat (length h))%N.
  Proof. unfold wrapped_around. intros [_ [(Hs & Hw & Hn & _)|(Hn & Hs & Hw & _)]]; lia. Qed.
  Lemma ring_start rb h : ring_rep rb h -> rb_start rb = (N.of_nat (length h) - R)%N.
  Proof. intros [_ [(Hs & Hw & Hn & _)|(Hn & Hs & Hw & _)]]; lia. Qed.
  Lemma ring_len rb h : ring_rep rb h -> rb_len R rb = N.min (N.of_nat (length h)) R.
  Proof.
    intros H. unfold rb_len. rewrite (ring_wrapped H). destruct H as [_ [(Hs & Hw & Hn & _)|(Hn & Hs & Hw & _)]].
    - destruct (N.ltb_spec R (N.of_nat (length h))); lia.
    - destruct (N.ltb_spec R (N.of_nat (length h))); lia.
  Qed.
  Lemma ring_read_pos rb h : ring_rep rb h -> read_pos R rb = N.of_nat (length h).
  Proof. intros H. unfold read_pos. rewrite (ring_start H), (ring_len H). lia. Qed.
  Lemma ring_contains rb h pos : ring_rep rb h -> (pos < N.of_nat (length h))%N ->
    rb_contains rb pos = true <-> in_window R h pos.
  Proof.
    intros H Hp. unfold rb_contains, in_window. rewrite (ring_wrapped H), (ring_start H).
    destruct (N.ltb_spec R (N.of_nat (length h))); [lia|].
    destruct H as [_ [(Hs & Hw & Hn & _)|(Hn & Hs & Hw & _)]]; lia.
  Qed.
  Lemma ring_slices rb h : ring_rep rb h -> fst (as_slices rb) ++ snd (as_slices rb) = window R h.
  Proof.
    intros H. unfold as_slices. rewrite (ring_wrapped H). destruct H as [HL [(Hs & Hw & Hn & Hd)|(Hn & Hs & Hw & Hd)]].
    - destruct (N.ltb_spec R (N.of_nat (length h))); [lia|]. cbn [fst snd]. rewrite app_nil_r, window_all by lia.
      unfold valid_slice, wrapped_around. rewrite Hs. change (0 <? 0)%N with false. cbn iota. now rewrite Hw, Nat2N.id.
    - destruct (N.ltb_spec R (N.of_nat (length h))); [|lia]. exact Hd.
  Qed.
  Lemma ring_iter pr rb h pos : ring_rep rb h -> (N.of_nat (length h) - R <= pos <= N.of_nat (length h))%N ->
    iter_starting pr rb pos = Ok (skipn (N.to_nat pos) h).
  Proof.
    intros H Hp. unfold iter_starting. pose proof (ring_slices H) as HS.
    destruct (as_slices rb) as [l rt]. cbn [fst snd] in HS.
    assert (HL := f_equal (@length N) HS). rewrite app_length, window_length in HL.
    rewrite (ring_start H). unfold usub. replace (N.of_nat (length h) - R <=? pos)%N with true by lia. cbn [res_bind].
    replace (skipn (N.to_nat pos) h) with (skipn (N.to_nat (pos - (N.of_nat (length h) - R))) (window R h)).
    2: { unfold window. rewrite skipn_skipn'. f_equal. lia. }
    rewrite <- HS. unfold slice_from.
    destruct (N.leb_spec (pos - (N.of_nat (length h) - R)) (N.of_nat (length l))) as [C|C].
    - cbn [res_bind]. rewrite skipn_app_l by lia. reflexivity.
    - replace (N.of_nat (length l) <=? pos - (N.of_nat (length h) - R))%N with true by lia. cbn [res_bind].
      replace (pos - (N.of_nat (length h) - R) - N.of_nat (length l) <=? N.of_nat (length rt))%N with true by lia.
      rewrite skipn_app. rewrite (skipn_all2 l) by lia. cbn [app]. do 2 f_equal. lia.
  Qed.
  Lemma ring_lookback pr rb h pos : ring_rep rb h -> in_window R h pos ->
    lookback_value R pr rb pos = Ok (N.of_nat (length h) - pos)%N.
  Proof.
    intros H [H1 H2]. unfold lookback_value, usub. rewrite (ring_start H), (ring_len H).
    replace (N.of_nat (length h) - R <=? pos)%N with true by lia. cbn [res_bind].
    destruct (N.leb_spec (pos - (N.of_nat (length h) - R)) (N.min (N.of_nat (length h)) R)); [f_equal; lia|lia].
  Qed.
  Lemma ring_sequence pr rb h len back : ring_rep rb h -> (N.of_nat (length h) < 2 ^ 64)%N ->
    (back <= R)%N -> (back <= N.of_nat (length h))%N ->
    lookback_sequence R pr rb len back = Ok (firstn (N.to_nat len) (skipn (length h - N.to_nat back) h)).
  Proof.
    intros H HB H1 H2. unfold lookback_sequence, lookback_pos, usub, ufit. rewrite (ring_len H), (ring_start H).
    destruct (N.leb_spec back (N.min (N.of_nat (length h)) R)); [|lia]. cbn [res_bind].
    match goal with |- context [(?a <? ?b)%N] => destruct (N.ltb_spec a b); [|lia] end. cbn [res_bind].
    rewrite ring_iter with (h := h); [|exact H|lia]. cbn [res_bind]. do 3 f_equal. lia.
  Qed.
  (** distances the ring cannot resolve *)
  Lemma ring_sequence_far rb h len back : ring_rep rb h -> (N.min (N.of_nat (length h)) R < back)%N ->
    lookback_sequence R Debug rb len back = Panic.
  Proof.
    intros H H1. unfold lookback_sequence, lookback_pos, usub. rewrite (ring_len H).
    destruct (N.leb_spec back (N.min (N.of_nat (length h)) R)); [lia|]. reflexivity.
  Qed.

  (** ** Index *)
  Lemma key_eqb_ok : eqb_ok key_eqb.
  Proof. intros a b. unfold key_eqb. destruct (list_eq_dec N.eq_dec a b); split; congruence. Qed.
  Definition lookup (m : list (list N * list N)) (k : list N) : list N :=
    match hm_get key_eqb k m with Some v => v | None => [] end.
  Lemma lookup_upsert m k pos k' :
    lookup (hm_upsert key_eqb k (fun v => v ++ [pos]) [pos] m) k' =
    if key_eqb k' k then lookup m k' ++ [pos] else lookup m k'.
  Proof.
    unfold lookup. rewrite (hm_get_upsert key_eqb_ok). destruct (key_eqb k' k) eqn:E; [|reflexivity].
    apply key_eqb_ok in E. subst k'. destruct (hm_get key_eqb k m); reflexivity.
  Qed.
  Definition at_key (h key : list N) (p : nat) : bool := key_eqb (firstn 6 (skipn p h)) key.
  Definition between (h key : list N) (a b : nat) : list N := map N.of_nat (filter (at_key h key) (seq a (b - a))).
  Definition idx_rep (ix : bindex) (h : list N) : Prop := exists a b,
    (a <= b)%nat /\ (b <= length h - 5)%nat /\ (a <= length h - r)%nat /\ (b <= r * ((length h - 1) / r) + 1)%nat /\
    (forall key, lookup (ix_old ix) key = between h key a b) /\
    (forall key, lookup (ix_new ix) key = between h key b (length h - 5)) /\
    ix_incomplete ix = map (fun p => (N.of_nat p, skipn p h)) (seq (length h - 5) (length h - (length h - 5))).

  Lemma idx_new : idx_rep index_new [].
  Proof. exists O, O. cbn. repeat split; auto with arith. all: lia. Qed.

  Lemma between_snoc h x key a b : (b <= length h - 5)%nat -> between (h ++ [x]) key a b = between h key a b.
  Proof.
    intros H. unfold between. f_equal. apply filter_ext_in. intros p Hp%in_seq. unfold at_key. f_equal.
    rewrite skipn_app_l by lia. rewrite firstn_app_l; [reflexivity|]. rewrite skipn_length. lia.
  Qed.
  Lemma between_end h key b c : (b <= c)%nat ->
    between h key b (S c) = between h key b c ++ (if at_key h key c then [N.of_nat c] else []).
  Proof.
    intros H. unfold between. replace (S c - b)%nat with (S (c - b)) by lia. rewrite seq_S, filter_app, map_app.
    f_equal. cbn [filter]. replace (b + (c - b))%nat with c by lia. destruct (at_key h key c); reflexivity.
  Qed.

  Lemma inc_write ix h x : idx_rep ix h ->
    update_incomplete_keys (ix_incomplete ix) x (N.of_nat (length h)) =
    Ok (if (5 <=? length h)%nat then Some (N.of_nat (length h - 5), firstn 6 (skipn (length h - 5) (h ++ [x]))) else None,
        map (fun p => (N.of_nat p, skipn p (h ++ [x]))) (seq (S (length h) - 5) (S (length h) - (S (length h) - 5)))).
  Proof.
    intros (a & b & _ & _ & _ & _ & _ & _ & ->). unfold update_incomplete_keys.
    set (c := (length h - 5)%nat).
    assert (E : map (fun pk : N * list N => (fst pk, snd pk ++ [x]))
                  (map (fun p => (N.of_nat p, skipn p h)) (seq c (length h - c)) ++ [(N.of_nat (length h), [])])
                = map (fun p => (N.of_nat p, skipn p (h ++ [x]))) (seq c (S (length h) - c))).
    { replace (S (length h) - c)%nat with (S (length h - c)) by lia. rewrite seq_S, !map_app, map_map. f_equal.
      - apply map_ext_in. intros p Hp%in_seq. cbn [fst snd]. now rewrite skipn_app_l by lia.
      - cbn [map fst snd]. replace (c + (length h - c))%nat with (length h) by lia.
        rewrite skipn_app_l, skipn_all by lia. reflexivity. }
    rewrite E. clear E.
    assert (E2 : (S (length h) - c = S (length h - c))%nat) by lia. rewrite E2. cbn [seq map].
    rewrite skipn_length, app_length. cbn [length]. unfold MIN_REP.
    destruct (Nat.leb_spec 5 (length h)).
    - replace (length h + 1 - c =? 6)%nat with true by lia.
      rewrite (firstn_all2 (skipn c (h ++ [x]))) by (rewrite skipn_length, app_length; cbn; lia).
      replace (S (length h) - 5)%nat with (S c) by lia. replace (S (length h) - S c)%nat with (length h - c)%nat by lia.
      reflexivity.
    - replace (length h + 1 - c =? 6)%nat with false by lia.
      replace (S (length h) - 5)%nat with c by lia. rewrite E2. reflexivity.
  Qed.

  Lemma idx_write ix h x : idx_rep ix h ->
    exists ix', index_update R ix x (N.of_nat (length h)) = Ok ix' /\ idx_rep ix' (h ++ [x]).
  Proof.
    intros H. unfold index_update. rewrite (inc_write x H). destruct H as (a & b & Hab & Hbc & Ha & Hb & Ho & Hn & _).
    cbn [res_bind]. set (nw := match _ with Some _ => _ | None => _ end).
    assert (LS : length (h ++ [x]) = S (length h)) by (rewrite app_length; cbn; lia).
    assert (Hnw : forall key, lookup nw key = between (h ++ [x]) key b (S (length h) - 5)).
    { intros key. subst nw. destruct (Nat.leb_spec 5 (length h)) as [C|C].
      - rewrite lookup_upsert, Hn. replace (S (length h) - 5)%nat with (S (length h - 5)) by lia.
        rewrite between_end by lia. rewrite between_snoc by lia. unfold at_key.
        destruct (key_eqb key (firstn 6 (skipn (length h - 5) (h ++ [x])))) eqn:E.
        + apply key_eqb_ok in E. rewrite <- E. replace (key_eqb key key) with true; [reflexivity|].
          symmetry. now apply key_eqb_ok.
        + destruct (key_eqb (firstn 6 (skipn (length h - 5) (h ++ [x]))) key) eqn:E2; [|now rewrite app_nil_r].
          apply key_eqb_ok in E2. subst key. exfalso. apply Bool.not_true_iff_false in E. apply E. now apply key_eqb_ok.
      - rewrite Hn. replace (length h - 5)%nat with O by lia. replace (S (length h) - 5)%nat with O by lia.
        unfold between. replace (0 - b)%nat with O by lia. reflexivity. }
    clearbody nw.
    assert (M : (r * ((length h - 1) / r) <= length h - 1)%nat) by (apply Nat.mul_div_le; lia).
    assert (Mm : (r * ((length h - 1) / r) <= r * (length h / r))%nat).
    { apply Nat.mul_le_mono_l, Nat.div_le_mono; lia. }
    destruct (N.eqb_spec (N.of_nat (length h) mod R) 0) as [C|C]; cbn [andb].
    - assert (Cn : (length h mod r = 0)%nat).
      { apply Nat2N.inj. rewrite Nat2N.inj_mod, N2Nat.id. exact C. }
      assert (D : (length h = r * (length h / r))%nat) by (apply Nat.div_exact; [lia|exact Cn]).
      assert (Hb' : (b <= S (length h) - r)%nat).
      { destruct (length h) as [|n] eqn:En; [lia|]. 
        replace (S n - 1)%nat with n in * by lia.
        assert (Q : (S n / r)%nat = S (n / r)).
        { assert (Hq : (0 < S n / r)%nat) by (destruct (S n / r)%nat; lia).
          destruct (S n / r)%nat as [|q] eqn:Eq; [lia|]. f_equal.
          apply (Nat.div_unique n r q (r - 1)); lia. }
        rewrite Q in D. lia. }
      destruct (negb (is_nil nw)).
      + eexists; split; [reflexivity|]. exists b, (S (length h) - 5)%nat. rewrite LS.
        replace (S (length h) - 1)%nat with (length h) by lia.
        cbn [ix_old ix_new ix_incomplete]. repeat split; auto; try lia.
        intros key. unfold between. rewrite Nat.sub_diag. reflexivity.
      + eexists; split; [reflexivity|]. exists a, b. rewrite LS.
        replace (S (length h) - 1)%nat with (length h) by lia.
        cbn [ix_old ix_new ix_incomplete]. repeat split; auto; try lia.
        intros key. rewrite between_snoc by lia. apply Ho.
    - eexists; split; [reflexivity|]. exists a, b. rewrite LS.
      replace (S (length h) - 1)%nat with (length h) by lia.
      cbn [ix_old ix_new ix_incomplete]. repeat split; auto; try lia.
      intros key. rewrite between_snoc by lia. apply Ho.
  Qed.

  Lemma between_app h key a b c : (a <= b)%nat -> (b <= c)%nat -> between h key a b ++ between h key b c = between h key a c.
  Proof.
    intros H1 H2. unfold between. rewrite <- map_app, <- filter_app. do 2 f_equal.
    replace (c - a)%nat with ((b - a) + (c - b))%nat by lia. rewrite seq_app. do 2 f_equal. lia.
  Qed.
  Lemma filter_map_comm {X Y} (f : X -> Y) (p : Y -> bool) l : filter p (map f l) = map f (filter (fun x => p (f x)) l).
  Proof. induction l as [|x l IH]; [reflexivity|]. cbn. destruct (p (f x)); cbn; now rewrite IH. Qed.
  Lemma filter_nil {X} (p : X -> bool) l : (forall x, In x l -> p x = false) -> filter p l = [].
  Proof. induction l as [|x l IH]; [reflexivity|]. intros H. cbn. rewrite (H x) by now left. apply IH. intros y Hy. apply H. now right. Qed.
  Lemma filter_all {X} (p : X -> bool) l : (forall x, In x l -> p x = true) -> filter p l = l.
  Proof. induction l as [|x l IH]; [reflexivity|]. intros H. cbn. rewrite (H x) by now left. f_equal. apply IH. intros y Hy. apply H. now right. Qed.

  Lemma occurrences_between h key : length key = 6%nat ->
    occurrences R h key = between h key (length h - r) (Nat.max (length h - r) (length h - 5)).
  Proof.
    intros HK. unfold occurrences. rewrite filter_map_comm. unfold between. f_equal.
    set (s := (length h - r)%nat). set (c := Nat.max s (length h - 5)).
    rewrite (filter_ext _ (at_key h key)). 2: { intros p. now rewrite Nat2N.id. }
    replace (length h - s)%nat with ((c - s) + (length h - c))%nat by lia. rewrite seq_app, filter_app.
    rewrite (filter_nil _ (seq (s + (c - s)) (length h - c))); [apply app_nil_r|].
    intros p Hp%in_seq. unfold at_key. apply Bool.not_true_iff_false. intros E%key_eqb_ok.
    assert (HL := f_equal (@length N) E). rewrite firstn_length, skipn_length in HL. lia.
  Qed.

  Lemma idx_lookup ix rb h key : idx_rep ix h -> ring_rep rb h -> length key = 6%nat ->
    start_indices_for ix key rb = occurrences R h key.
  Proof.
    intros (a & b & Hab & Hbc & Ha & Hb & Ho & Hn & _) Hr HK. unfold start_indices_for.
    change (match hm_get key_eqb key (ix_old ix) with Some v => v | None => [] end) with (lookup (ix_old ix) key).
    change (match hm_get key_eqb key (ix_new ix) with Some v => v | None => [] end) with (lookup (ix_new ix) key).
    rewrite Ho, Hn, <- filter_app, between_app by lia. rewrite occurrences_between by exact HK.
    set (s := (length h - r)%nat) in *. set (c := (length h - 5)%nat) in *.
    destruct (Nat.le_gt_cases s c) as [C|C].
    - rewrite <- (@between_app h key a s c) by lia. rewrite filter_app.
      replace (Nat.max s c) with c by lia. rewrite filter_nil; [|intros p Hp].
      + cbn [app]. apply filter_all. intros p Hp. unfold between in Hp. apply in_map_iff in Hp as [q [<- Hq]].
        apply filter_In in Hq as [Hq%in_seq _]. apply (ring_contains Hr); [lia|]. unfold in_window. lia.
      + unfold between in Hp. apply in_map_iff in Hp as [q [<- Hq]].
        apply filter_In in Hq as [Hq%in_seq _]. apply Bool.not_true_iff_false. intros E.
        apply (ring_contains Hr) in E; [|lia]. unfold in_window in E. lia.
    - replace (Nat.max s c) with s by lia. unfold between at 2. rewrite Nat.sub_diag. cbn [seq filter map].
      apply filter_nil. intros p Hp. unfold between in Hp. apply in_map_iff in Hp as [q [<- Hq]].
      apply filter_In in Hq as [Hq%in_seq _]. apply Bool.not_true_iff_false. intros E.
      apply (ring_contains Hr) in E; [|lia]. unfold in_window in E. lia.
  Qed.

  (** ** Indexed history *)
  Definition hist_rep (hi : ihist) (h : list N) : Prop := ring_rep (ih_data hi) h /\ idx_rep (ih_index hi) h.
  Lemma hist_new : hist_rep (ih_new R) [].
  Proof. split; [apply ring_new|apply idx_new]. Qed.
  Lemma hist_write hi h x : hist_rep hi h -> exists hi', ih_write R hi x = Ok hi' /\ hist_rep hi' (h ++ [x]).
  Proof.
    intros [H1 H2]. unfold ih_write. rewrite (ring_read_pos H1).
    destruct (ring_write x H1) as [rb [-> H1']]. cbn [res_bind].
    destruct (idx_write x H2) as [ix [-> H2']]. cbn [res_bind].
    eexists; split; [reflexivity|]. split; assumption.
  Qed.
  Lemma hist_write_all xs : forall hi h, hist_rep hi h -> exists hi', ih_write_all R hi xs = Ok hi' /\ hist_rep hi' (h ++ xs).
  Proof.
    induction xs as [|x xs IH]; intros hi h H; cbn [ih_write_all].
    - exists hi. rewrite app_nil_r. auto.
    - destruct (hist_write x H) as [h1 [-> H1]]. cbn [res_bind]. destruct (IH _ _ H1) as [h2 [-> H2]].
      exists h2. rewrite <- app_assoc in H2. auto.
  Qed.
End R.
