(** * Proofs about what the Huffman encoder prints (C93). *)
From Verif Require Import Base Ser SerSpec SerProofs Bit BitSpec BitProofs Utils UtilsProofs Huf HufSpec HufProofs HufTop Img Says HufSays.
From Coq Require Import Lia.

(** ** Printing changes nothing *)
Lemma erase_bind {M A B} (m : says M writer A) (f : A -> says M writer B) (m' : io A) (f' : A -> io B) :
  (forall w, snd (m w) = m' w) -> (forall a w, snd (f a w) = f' a w) -> forall w, snd (says_bind m f w) = io_bind m' f' w.
Proof.
  intros E F w. unfold says_bind, io_bind. rewrite <- (E w). destruct (m w) as [o [[a| |] w1]]; cbn [snd]; try reflexivity.
  rewrite <- (F a w1). now destruct (f a w1).
Qed.
Section Any.
  Context {A : Type} (eqb : A -> A -> bool).
  Lemma erase_sym codes x st w : snd (says_unwrap (enc_encode_says eqb codes x st) w) = io_unwrap (enc_encode eqb codes x st) w.
  Proof.
    unfold says_unwrap, enc_encode_says, io_unwrap, enc_encode, cry_on_error, hush. destruct (hm_get eqb x codes) as [code|]; [|reflexivity].
    destruct (ba_len code =? 0)%N; [reflexivity|]. now destruct (bw_write_arr code st w) as [[a| |] w1].
  Qed.
  Lemma erase_payload codes items : forall st w,
    snd (payload_says eqb codes items st w) = bw_iter (fun symbol st => io_unwrap (enc_encode eqb codes symbol st)) items st w.
  Proof.
    induction items as [|x items IH]; intros st w; cbn [payload_says bw_iter]; [reflexivity|].
    apply erase_bind; [apply erase_sym|exact IH].
  Qed.
  Context (sa : A -> io unit) (ord : list (A * N) -> list (A * N)) (H : heap (suffix A)).
  Lemma erase_huf items w : snd (huf_encode_says eqb sa ord H items w) = huf_encode_all eqb sa ord H items w.
  Proof.
    unfold huf_encode_says, huf_encode_all. revert w. apply erase_bind; [reflexivity|intros t]. apply erase_bind; [reflexivity|intros enc].
    apply erase_bind; [reflexivity|intros _]. apply erase_bind; [apply erase_payload|reflexivity].
  Qed.

  (** ** At most one line, and then the program aborts *)
  Definition once {B} (m : says cry writer B) : Prop := forall w, fst (m w) = [] \/ exists w', m w = ([CodeLost], (Panic, w')).
  Lemma once_hush {B} (m : io B) : once (hush m).
  Proof. intros w. now left. Qed.
  Lemma once_bind {B D} (m : says cry writer B) (f : B -> says cry writer D) : once m -> (forall b, once (f b)) -> once (says_bind m f).
  Proof.
    intros E F w. unfold says_bind. destruct (E w) as [E1|[w' E1]]; [|rewrite E1; right; eauto].
    destruct (m w) as [o [[b| |] w1]]; cbn [fst] in E1; subst o; try now left.
    destruct (F b w1) as [F1|[w' F1]]; [|rewrite F1; right; eexists; reflexivity].
    left. destruct (f b w1) as [o r]. exact F1.
  Qed.
  Lemma once_sym codes x st : once (says_unwrap (enc_encode_says eqb codes x st)).
  Proof.
    intros w. unfold says_unwrap, enc_encode_says, cry_on_error, hush. destruct (hm_get eqb x codes) as [code|]; [|now left].
    destruct (ba_len code =? 0)%N; [now left|]. destruct (bw_write_arr code st w) as [[a| |] w1]; [now left| |now left].
    right. eexists. reflexivity.
  Qed.
  Lemma once_payload codes items : forall st, once (payload_says eqb codes items st).
  Proof.
    induction items as [|x items IH]; intros st; cbn [payload_says]; [apply once_hush|].
    apply once_bind; [apply once_sym|exact IH].
  Qed.
  Lemma once_huf items : once (huf_encode_says eqb sa ord H items).
  Proof.
    unfold huf_encode_says. apply once_bind; [apply once_hush|intros t]. apply once_bind; [apply once_hush|intros enc].
    apply once_bind; [apply once_hush|intros _]. apply once_bind; [apply once_payload|intros st; apply once_hush].
  Qed.

End Any.
Section Cries.
  Context {A : Type} (eqb : A -> A -> bool).
  (** ** An abort of the symbols is never silent *)
  Lemma payload_cries (m : list (A * bit_arr)) (code : A -> list bool) items : forall st,
    bw_inv st -> bw_order st = MsbFirst ->
    (forall x, In x items -> exists a, ba_from_slice (code x) MsbFirst = Ok a /\ hm_get eqb x m = Some a) ->
    forall w w', snd (payload_says eqb m items st w) = (Panic, w') -> fst (payload_says eqb m items st w) = [CodeLost].
  Proof.
    induction items as [|x items IH]; intros st Hst Ho Hm w w' HP; cbn [payload_says] in *; [discriminate|].
    destruct (Hm x (or_introl eq_refl)) as [a [Ea Ga]].
    assert (W : wrote (enc_encode eqb m x st) st (code x)).
    { unfold enc_encode. rewrite Ga. destruct (N.eqb_spec (ba_len a) 0) as [E|E].
      - destruct (from_slice_len (code x) MsbFirst) as [a' [Ea' La]]. rewrite Ea in Ea'. injection Ea' as <-.
        assert (code x = []) as -> by (destruct (code x); [reflexivity|cbn in La; lia]).
        now apply wrote_ret.
      - apply wrote_arr with (a := a); auto. now rewrite Ho. }
    destruct W as [b1 [st1 [E1 [I1 [O1 _]]]]]. specialize (E1 w).
    unfold says_bind in *. unfold says_unwrap, enc_encode_says, enc_encode in *. rewrite Ga in *.
    destruct (ba_len a =? 0)%N.
    - unfold hush, io_ret in *. cbn [unwrap] in *. unfold put, io_bind, io_lift in E1.
      destruct (write_all b1 w) as [[[]| |] w1]; [|discriminate|discriminate]. injection E1 as E1 Ew. subst st1 w1.
      pose proof (IH st I1 Ho (fun y Hy => Hm y (or_intror Hy)) w w') as IH'.
      destruct (payload_says eqb m items st w) as [o r]. cbn [fst snd app] in *. now apply IH'.
    - unfold cry_on_error in *. rewrite E1 in *. unfold put, io_bind, io_lift in *.
      destruct (write_all b1 w) as [[[]| |] w1] eqn:EW; cbn [unwrap fst snd] in *.
      + assert (Ho1 : bw_order st1 = MsbFirst) by congruence.
        pose proof (IH st1 I1 Ho1 (fun y Hy => Hm y (or_intror Hy)) w1 w') as IH'.
        destruct (payload_says eqb m items st1 w1) as [o r]. cbn [fst snd app] in *. now apply IH'.
      + reflexivity.
      + exfalso. unfold write_all in EW. destruct (room w) as [k|]; [destruct (length b1 <=? k)%nat|]; discriminate.
  Qed.
End Cries.
Lemma write_all_no_panic bs w : fst (write_all bs w) <> Panic.
Proof. unfold write_all. destruct (room w) as [k|]; [destruct (length bs <=? k)%nat|]; discriminate. Qed.

Section Typed.
  Context (t : ty) (eqb : val t -> val t -> bool) (Heqb : eqb_ok eqb).
  Context (ord : list (val t * N) -> list (val t * N)) (Hord : ord_ok ord).
  Context (H : heap (suffix (val t))) (HH : heap_ok suffix_cmp H).

  Lemma huf_cries items : items <> [] -> Forall (encodable t) items -> forall w,
    fst (huf_encode_all eqb (ser t) ord H items w) = Panic -> fst (huf_encode_says eqb (ser t) ord H items w) = [CodeLost].
  Proof.
    intros Hne HE w. rewrite <- erase_huf. unfold huf_encode_says.
    destruct (@encode_tree _ eqb Heqb ord Hord H HH items Hne) as [tr [Et [HN [Hl _]]]].
    destruct (enc_from_spec Heqb tr HN) as [m [Em [Hm _]]]. rewrite Et. unfold says_bind at 1 5. unfold hush at 1 5. unfold io_lift at 1 3.
    cbn [app]. rewrite Em.
    assert (Hw : Forall (wf t) (leaves tr)).
    { apply Forall_forall. intros x Hx. apply Hl in Hx. now destruct (proj1 (Forall_forall _ _) HE x Hx). }
    destruct (@trie_encodable t tr) as [hdr Eh].
    { apply Forall_forall. intros x Hx. apply Hl in Hx. now apply (proj1 (Forall_forall _ _) HE). }
    unfold says_bind, hush, io_lift. rewrite (so_ok (ser_trie_ok (ser_ty_ok t)) tr Hw Eh w).
    unfold put, io_lift. unfold io_bind at 1 3. pose proof (write_all_no_panic hdr w) as NP.
    destruct (write_all hdr w) as [[[]| |] w1]; cbn [fst snd] in *; [|discriminate|congruence].
    assert (Hc : forall w', snd (payload_says eqb m items (bw_new MsbFirst) w1) = (Panic, w') -> fst (payload_says eqb m items (bw_new MsbFirst) w1) = [CodeLost]).
    { intros w'. apply (@payload_cries _ eqb m (code_in eqb tr)); [apply bw_new_inv|reflexivity|].
      intros x Hx. apply Hm, (code_in_path Heqb), Hl, Hx. }
    destruct (payload_says eqb m items (bw_new MsbFirst) w1) as [o [[st| |] w2]]; cbn [fst snd app] in *.
    - intros P. exfalso. revert P. rewrite pad_flush_eq. unfold io_bind. pose proof (write_all_no_panic (pad_bytes st) w2) as NP2.
      destruct (write_all (pad_bytes st) w2) as [[[]| |] w3]; cbn [fst snd] in *; try congruence.
      unfold flush. destruct (flush_fails w3); discriminate.
    - discriminate.
    - intros _. now rewrite (Hc w2 eq_refl).
  Qed.

  Lemma huf_says_when items : items <> [] -> Forall (encodable t) items ->
    exists tree code hdr pay lastb,
      build_tree H (ord (count_freqs eqb items)) = Ok tree
      /\ (forall x, In x items -> path tree (code x) x)
      /\ trie_format (format t) tree = Some hdr
      /\ N.of_nat (length pay) = (total_bits items code / 8)%N
      /\ run_vec (huf_encode_all eqb (ser t) ord H items) = Ok (hdr ++ pay ++ lastb)
      /\ forall w, fst (huf_encode_says eqb (ser t) ord H items w) =
           match room w with
           | Some k => if ((length hdr <=? k) && (k <? length hdr + length pay))%nat then [CodeLost] else []
           | None => []
           end.
  Proof.
    intros Hne HE. destruct (@huf_crash t eqb Heqb ord Hord H HH items Hne HE) as (tree & code & hdr & pay & lastb & H1 & H2 & H3 & H4 & H5 & H6 & H7).
    exists tree, code, hdr, pay, lastb. split; [exact H1|]. split; [exact H2|]. split; [exact H3|]. split; [exact H4|]. split; [exact H5|].
    intros w.
    assert (Dec : forall b : bool, (fst (huf_encode_all eqb (ser t) ord H items w) = Panic <-> b = true) ->
                  fst (huf_encode_says eqb (ser t) ord H items w) = if b then [CodeLost] else []).
    { intros b Hb. destruct b.
      - apply huf_cries; auto. now apply Hb.
      - destruct (once_huf eqb (ser t) ord H items w) as [E|[w' E]]; [exact E|].
        exfalso. pose proof (erase_huf eqb (ser t) ord H items w) as Er. rewrite E in Er. cbn [snd] in Er.
        rewrite <- Er in Hb. cbn [fst] in Hb. destruct Hb as [Hb _]. now discriminate Hb. }
    destruct (run_of_encodable Heqb Hord HH Hne HE) as [tr [pay' [lb' [hdr' [R Eh]]]]].
    rewrite (er_tree R) in H1. injection H1 as <-. rewrite Eh in H3. injection H3 as <-.
    assert (Hp : length pay' = length pay).
    { assert (Q : forall k, fst (staged hdr' pay' lb' (short_writer k)) = (if (k <? length hdr')%nat then Err
                     else if (k <? length hdr' + length pay)%nat then Panic
                     else if (k <? length hdr' + length pay + length lastb)%nat then Err else Ok tt)).
      { intros k. rewrite <- (er_ok R Eh). apply (H6 k). }
      destruct (Nat.lt_trichotomy (length pay') (length pay)) as [L|[L|L]]; [exfalso|exact L|exfalso].
      - specialize (Q (length hdr' + length pay')%nat). rewrite (proj2 (staged_short hdr' pay' lb' _)) in Q.
        repeat match type of Q with context [(?a <? ?b)%nat] => destruct (Nat.ltb_spec a b) end; try lia; discriminate.
      - specialize (Q (length hdr' + length pay)%nat). rewrite (proj2 (staged_short hdr' pay' lb' _)) in Q.
        repeat match type of Q with context [(?a <? ?b)%nat] => destruct (Nat.ltb_spec a b) end; try lia; discriminate. }
    rewrite (er_ok R Eh w) in Dec.
    assert (Hs : forall k, room w = Some k -> fst (staged hdr' pay' lb' w) = Panic <-> ((length hdr' <=? k) && (k <? length hdr' + length pay'))%nat = true).
    { intros k Hk. unfold staged, io_bind, io_unwrap. unfold write_all at 1. rewrite Hk.
      destruct (Nat.leb_spec (length hdr') k) as [L1|L1]; [|cbn; split; discriminate].
      unfold write_all at 1. cbn [room written flush_fails].
      destruct (Nat.leb_spec (length pay') (k - length hdr')) as [L2|L2]; cbn [unwrap].
      - replace ((k <? length hdr' + length pay')%nat) with false by (symmetry; apply Nat.ltb_ge; lia). cbn [andb].
        split; [|discriminate]. unfold write_all. cbn [room written flush_fails].
        destruct (Nat.leb_spec (length lb') (k - length hdr' - length pay')); [|discriminate].
        unfold flush. cbn [flush_fails]. destruct (flush_fails w); discriminate.
      - replace ((k <? length hdr' + length pay')%nat) with true by (symmetry; apply Nat.ltb_lt; lia). cbn. tauto. }
    destruct (room w) as [k|] eqn:Ek.
    - rewrite <- Hp. apply Dec. now apply Hs.
    - apply (Dec false). split; [|discriminate]. unfold staged, io_bind, io_unwrap, write_all. rewrite Ek. cbn.
      unfold flush. cbn [flush_fails]. destruct (flush_fails w); discriminate.
  Qed.
End Typed.
