(** * Lemmas about zip-back: symbols, ring buffer, index. *)
From Verif Require Import Base Ser SerSpec SerProofs Bit BitSpec BitProofs Utils UtilsProofs Huf HufSpec Dict DictSpec DictProofs DictEnc Back BackSpec.
From Coq Require Import ZifyBool ZifyNat ZifyN.
Set Implicit Arguments.

(** ** Symbols *)
Lemma lor_high len : (len < 32768)%N -> N.lor len 32768 = (32768 + len)%N.
Proof.
  intros H. rewrite <- N.lxor_lor, <- N.add_nocarry_lxor; [lia| |].
  all: change 32768%N with (2 ^ 15)%N; apply N.bits_inj_0; intros i; rewrite N.land_spec, N.pow2_bits_eqb.
  all: destruct (N.eqb_spec 15 i) as [<-|]; [|apply andb_false_r].
  all: rewrite andb_true_r; destruct (N.eq_dec len 0) as [->|]; [apply N.bits_0|].
  all: apply N.bits_above_log2, N.log2_lt_pow2; lia.
Qed.
Lemma compress_explicit len : compress_len len ENUM_CODE_EXPLICIT = if (len <=? 32767)%N then Ok len else Panic.
Proof.
  unfold compress_len. change (N.shiftr 65535 1) with 32767%N. change (mask ENUM_CODE_EXPLICIT) with 0%N.
  destruct (len <=? 32767)%N; cbn; [now rewrite N.lor_0_r|reflexivity].
Qed.
Lemma compress_lookback len : compress_len len ENUM_CODE_LOOKBACK = if (len <=? 32767)%N then Ok (32768 + len)%N else Panic.
Proof.
  unfold compress_len. change (N.shiftr 65535 1) with 32767%N. change (mask ENUM_CODE_LOOKBACK) with 32768%N.
  destruct (N.leb_spec len 32767); cbn [assert_ res_bind]; [|reflexivity]. now rewrite lor_high by lia.
Qed.
Lemma decompress_spec c : u16_ok c ->
  decompress_len c = if (c <? 32768)%N then (0, c)%N else (1, c - 32768)%N.
Proof.
  intros Hc. unfold u16_ok in Hc. unfold decompress_len. change (mask 1) with 32768%N.
  change (65535 - 32768)%N with (N.ones 15). rewrite N.land_ones. change (2 ^ 15)%N with 32768%N.
  assert (HA : N.land c 32768 = if (c <? 32768)%N then 0%N else 32768%N).
  { change 32768%N with (2 ^ 15)%N at 1 3. apply N.bits_inj. intros i. rewrite N.land_spec, N.pow2_bits_eqb.
    destruct (N.eqb_spec 15 i) as [<-|Hi].
    - rewrite andb_true_r. destruct (N.ltb_spec c 32768) as [H|H].
      + rewrite N.bits_0. destruct (N.eq_dec c 0) as [->|]; [apply N.bits_0|].
        apply N.bits_above_log2, N.log2_lt_pow2; lia.
      + rewrite N.pow2_bits_true. rewrite <- (N.sub_add 32768 c) by exact H.
        rewrite N.add_comm, <- lor_high by lia. rewrite N.lor_spec.
        change 32768%N with (2 ^ 15)%N. rewrite N.pow2_bits_true. apply orb_true_r.
    - rewrite andb_false_r. destruct (c <? 32768)%N; [now rewrite N.bits_0|].
      rewrite N.pow2_bits_false by congruence. reflexivity. }
  rewrite HA. destruct (N.ltb_spec c 32768).
  - change (rol16 0 mod 256)%N with 0%N. rewrite N.mod_small by lia. reflexivity.
  - change (rol16 32768 mod 256)%N with 1%N. f_equal.
    rewrite <- (N.mod_unique c 32768 1 (c - 32768)); lia.
Qed.

Lemma ser_bytes_emits data : emits (io_iter ser_u8 data) data (Ok tt).
Proof.
  pose proof (@emits_iter N ser_u8 (fun b => [b]) data) as H.
  replace (concat (map (fun b => [b]) data)) with data in H.
  - apply H. intros x _. unfold ser_u8. apply emits_write.
  - clear. induction data; cbn; congruence.
Qed.

Lemma ser_symbol_ok s : symbol_ok s -> emits (ser_symbol s) (symbol_bytes s) (Ok tt).
Proof.
  destruct s as [data|len back]; intros [H1 H2]; unfold ser_symbol, symbol_bytes.
  - rewrite compress_explicit. destruct (N.leb_spec (N.of_nat (length data)) 32767); [|lia].
    rewrite <- (app_nil_l (le16 _ ++ data)). eapply emits_bind; [apply emits_lift|].
    eapply emits_bind; [|apply ser_bytes_emits].
    unfold ser_u16. rewrite le16_eq by (unfold u16_ok; lia). apply emits_write.
  - rewrite compress_lookback. destruct (N.leb_spec len 32767); [|lia].
    rewrite <- (app_nil_l (le16 _ ++ _)). eapply emits_bind; [apply emits_lift|].
    eapply emits_bind; [unfold ser_u16; rewrite le16_eq by (unfold u16_ok; lia); apply emits_write|].
    destruct (N.leb_spec back 65535); [|lia]. rewrite <- (app_nil_l (le16 back)).
    eapply emits_bind; [apply emits_lift|]. unfold ser_u16. rewrite le16_eq by (unfold u16_ok; lia). apply emits_write.
Qed.
Lemma ser_symbol_long s : (32767 < symbol_len s)%N -> emits (ser_symbol s) [] Panic.
Proof.
  destruct s as [data|len back]; intros H; cbn [symbol_len] in H; unfold ser_symbol.
  - rewrite compress_explicit. destruct (N.leb_spec (N.of_nat (length data)) 32767); [lia|].
    apply emits_bind_panic, emits_lift.
  - rewrite compress_lookback. destruct (N.leb_spec len 32767); [lia|].
    apply emits_bind_panic, emits_lift.
Qed.

Lemma take_yields {S A} (next : nextf S A) l : forall s s', yields next s l s' ->
  take_next next (length l) s = (Ok l, s').
Proof.
  induction l as [|x l IH]; intros s s' H.
  - inversion H; subst. reflexivity.
  - apply yields_cons_inv in H as [s1 [H1 H2]]. cbn [length take_next]. rewrite H1. unfold rd_bind.
    rewrite (IH _ _ H2). reflexivity.
Qed.
Lemma take_short {S A} (next : nextf S A) l : forall s s1 s2 n, (length l < n)%nat ->
  yields next s l s1 -> next s1 = (Err, s2) -> take_next next n s = (Ok l, s2).
Proof.
  induction l as [|x l IH]; intros s s1 s2 [|n] HL Hy He; cbn in HL; try lia.
  - inversion Hy; subst. cbn [take_next]. now rewrite He.
  - apply yields_cons_inv in Hy as [s3 [H1 H2]]. cbn [take_next]. rewrite H1. unfold rd_bind.
    rewrite (IH s3 s1 s2 n); [reflexivity|lia|exact H2|exact He].
Qed.
Lemma take_source {S} (next : nextf S N) n : forall s, byte_source next s ->
  exists l s', take_next next n s = (Ok l, s') /\ Forall u8_ok l /\ byte_source next s'
  /\ ((length l = n /\ yields next s l s') \/
      ((length l < n)%nat /\ exists s1, yields next s l s1 /\ next s1 = (Err, s'))).
Proof.
  induction n as [|n IH]; intros s Hs.
  - exists [], s. split; [reflexivity|]. split; [constructor|]. split; [exact Hs|]. left. split; [reflexivity|constructor].
  - cbn [take_next]. pose proof (source_step Hs) as H. destruct (next s) as [[x| |] s'] eqn:E.
    + destruct H as [Hx Hs']. destruct (IH s' Hs') as [l [s2 [E2 [HF [Hs2 D]]]]].
      unfold rd_bind. rewrite E2. exists (x :: l), s2. split; [reflexivity|]. split; [now constructor|].
      split; [exact Hs2|]. destruct D as [[HL Hy]|[HL [s3 [Hy He]]]].
      * left. split; [cbn; congruence|]. econstructor; eassumption.
      * right. split; [cbn; lia|]. exists s3. split; [econstructor; eassumption|exact He].
    + exists [], s'. split; [reflexivity|]. split; [constructor|]. split; [exact H|].
      right. split; [cbn; lia|]. exists s. split; [constructor|exact E].
    + contradiction.
Qed.

Lemma le16_u8 n : u16_ok n -> Forall u8_ok (le16 n).
Proof. intros H. unfold u16_ok in H. unfold le16. repeat constructor; unfold u8_ok; [apply N.mod_lt; lia|]. apply N.div_lt_upper_bound; lia. Qed.
Lemma read_le16 {S} (next : nextf S N) s n r s' : u16_ok n -> yields next s (le16 n ++ r) s' ->
  exists s1, deser_u16 S next s = (Ok n, s1) /\ yields next s1 r s'.
Proof.
  intros Hn H. apply yields_app_inv in H as [s1 [H1 H2]]. exists s1. split; [|exact H2].
  apply (do_rt (deser_ty_ok TU16) n Hn eq_refl H1).
Qed.

Lemma deser_symbol_rt s : symbol_ok s -> forall S (next : nextf S N) st st',
  yields next st (symbol_bytes s) st' -> deser_symbol S next st = (Ok s, st').
Proof.
  destruct s as [data|len back]; intros [H1 H2] S next st st' Hy; unfold symbol_bytes in Hy; unfold deser_symbol, rd_bind.
  - apply read_le16 in Hy as [s1 [-> Hy]]; [|unfold u16_ok; lia].
    rewrite decompress_spec by (unfold u16_ok; lia). destruct (N.ltb_spec (N.of_nat (length data)) 32768); [|lia].
    change (0 =? ENUM_CODE_EXPLICIT)%N with true. cbn iota. rewrite Nat2N.id, (take_yields Hy).
    unfold rd_lift. rewrite N.eqb_refl. reflexivity.
  - apply read_le16 in Hy as [s1 [-> Hy]]; [|unfold u16_ok; lia].
    rewrite decompress_spec by (unfold u16_ok; lia). destruct (N.ltb_spec (32768 + len) 32768); [lia|].
    change (1 =? ENUM_CODE_EXPLICIT)%N with false. change (1 =? ENUM_CODE_LOOKBACK)%N with true. cbn iota.
    rewrite <- (app_nil_r (le16 back)) in Hy. apply read_le16 in Hy as [s2 [-> Hy]]; [|unfold u16_ok; lia].
    inversion Hy; subst. unfold rd_ret. repeat f_equal. lia.
Qed.

(** every outcome of the symbol reader *)
Lemma deser_symbol_cases S (next : nextf S N) st : byte_source next st ->
  (exists s st', deser_symbol S next st = (Ok s, st') /\ symbol_ok s /\ yields next st (symbol_bytes s) st')
  \/ (exists st', deser_symbol S next st = (Err, st') /\
      exists p st1, yields next st p st1 /\ next st1 = (Err, st') /\
        ((length p < 2)%nat \/ ((length p < 4)%nat /\ exists len q, (len <= 32767)%N /\ p = le16 (32768 + len) ++ q)))
  \/ (exists st', deser_symbol S next st = (Panic, st') /\
      exists n d st1, (n <= 32767)%N /\ (N.of_nat (length d) < n)%N /\
        yields next st (le16 n ++ d) st1 /\ next st1 = (Err, st')).
Proof.
  intros Hs. unfold deser_symbol, rd_bind.
  assert (SH : forall t, byte_source next t -> forall t', deser_u16 S next t = (Err, t') ->
          exists p t1, (length p < 2)%nat /\ yields next t p t1 /\ next t1 = (Err, t')).
  { intros t Ht t' E. unfold deser_u16 in E. cbn [deser_le] in E. unfold rd_bind in E.
    pose proof (source_step Ht) as H1. destruct (next t) as [[x| |] t1] eqn:E1; [|injection E as <-|contradiction].
    - destruct H1 as [_ H1]. pose proof (source_step H1) as H2. destruct (next t1) as [[y| |] t2] eqn:E2; try discriminate.
      injection E as <-. exists [x], t1. split; [cbn; lia|]. split; [econstructor; [exact E1|constructor]|exact E2].
    - exists [], t. split; [cbn; lia|]. split; [constructor|exact E1]. }
  destruct (deser_u16 S next st) as [[clen| |] st1] eqn:E.
  - destruct (do_canon (deser_ty_ok TU16) Hs E) as [Hc [bs [[= <-] Hy]]]. cbn in Hc.
    assert (Hs1 : byte_source next st1) by (eapply source_yields; eassumption).
    rewrite decompress_spec by exact Hc. unfold u16_ok in Hc. destruct (N.ltb_spec clen 32768).
    + change (0 =? ENUM_CODE_EXPLICIT)%N with true. cbn iota.
      destruct (take_source (N.to_nat clen) Hs1) as [l [s2 [E2 [HF [_ D]]]]]. rewrite E2. unfold rd_lift.
      destruct D as [[HL Hy2]|[HL [s3 [Hy2 He]]]].
      * left. exists (Explicit l), s2. replace (N.of_nat (length l) =? clen)%N with true by lia. cbn [assert_].
        split; [reflexivity|]. split; [split; [lia|exact HF]|]. unfold symbol_bytes.
        replace (N.of_nat (length l)) with clen by lia. eapply yields_app; eassumption.
      * right. right. exists s2. replace (N.of_nat (length l) =? clen)%N with false by lia. cbn [assert_].
        split; [reflexivity|]. exists clen, l, s3. split; [lia|]. split; [lia|]. split; [|exact He].
        eapply yields_app; eassumption.
    + change (1 =? ENUM_CODE_EXPLICIT)%N with false. change (1 =? ENUM_CODE_LOOKBACK)%N with true. cbn iota.
      destruct (deser_u16 S next st1) as [[back| |] st2] eqn:E2.
      * destruct (do_canon (deser_ty_ok TU16) Hs1 E2) as [Hb [bs [[= <-] Hy2]]]. cbn in Hb. unfold u16_ok in Hb.
        left. exists (LookBack (clen - 32768) back), st2. split; [now rewrite E2|]. split; [split; lia|].
        unfold symbol_bytes. replace (32768 + (clen - 32768))%N with clen by lia. eapply yields_app; eassumption.
      * destruct (SH _ Hs1 _ E2) as [p [t1 [HL [Hy2 He]]]]. right. left. exists st2. split; [now rewrite E2|].
        exists (le16 clen ++ p), t1. split; [eapply yields_app; eassumption|]. split; [exact He|]. right.
        split; [rewrite app_length; change (length (le16 clen)) with 2%nat; lia|].
        exists (clen - 32768)%N, p. split; [lia|]. replace (32768 + (clen - 32768))%N with clen by lia. reflexivity.
      * exfalso. apply (do_nopanic (deser_ty_ok TU16) Hs1). unfold deser. now rewrite E2.
  - destruct (SH _ Hs _ E) as [p [t1 [HL [Hy2 He]]]]. right. left. exists st1. split; [reflexivity|].
    exists p, t1. auto.
  - exfalso. apply (do_nopanic (deser_ty_ok TU16) Hs). unfold deser. now rewrite E.
Qed.
