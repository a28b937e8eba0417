(** * zip-back: decoding of arbitrary bytes. *)
From Verif Require Import Base Ser SerSpec SerProofs Bit BitSpec BitProofs Utils HufSpec UtilsProofs Dict DictSpec DictProofs DictEnc Back BackSpec BackProofs BackRing BackEnc BackDec ForeignSpec.
From Coq Require Import ZifyBool ZifyNat ZifyN.
Set Implicit Arguments.

Section Far.
  Variable R : N.
  Hypothesis HR : (0 < R)%N.
  Hypothesis HR2 : (R <= 65535)%N.
  Lemma ring_sequence_far' pr rb h len back : ring_rep R rb h -> (N.of_nat (length h) < 2 ^ 63)%N -> (back <= 65535)%N -> (N.min (N.of_nat (length h)) R < back)%N ->
    lookback_sequence R pr rb len back = Panic.
  Proof.
    intros H Hh Hb H1. destruct pr; [exact (ring_sequence_far HR len H H1)|].
    unfold lookback_sequence, lookback_pos, usub, ufit. rewrite (ring_len HR H), (ring_start HR H).
    destruct (N.leb_spec back (N.min (N.of_nat (length h)) R)); [lia|]. cbn [res_bind].
    set (L := N.min (N.of_nat (length h)) R) in *. set (st := (N.of_nat (length h) - R)%N).
    assert (E1 : ((L + 2 ^ 64 - back) mod 2 ^ 64 = L + 2 ^ 64 - back)%N) by (apply N.mod_small; lia).
    rewrite E1. change (2 ^ 64)%N with 18446744073709551616%N in *. change (2 ^ 63)%N with 9223372036854775808%N in *.
    pose proof (ring_slices HR H) as HS.
    assert (G : forall g, (if (g =? L + 18446744073709551616 - back + st)%N then true else (g + 18446744073709551616 =? L + 18446744073709551616 - back + st)%N) = true ->
            (g < 18446744073709551616)%N -> iter_starting Release rb g = Panic).
    { intros g Hg Hg2. unfold iter_starting. destruct (as_slices rb) as [l rt]. cbn [fst snd] in HS.
      assert (HL := f_equal (@length N) HS). rewrite app_length, (window_length HR) in HL. rewrite (ring_start HR H). fold st. unfold usub.
      change (2 ^ 64)%N with 18446744073709551616%N.
      assert (E : exists r, (if (st <=? g)%N then Ok (g - st)%N else Ok ((g + 18446744073709551616 - st) mod 18446744073709551616)%N) = Ok r /\ (r = L + 18446744073709551616 - back)%N).
      { destruct (N.leb_spec st g); eexists; (split; [reflexivity|]).
        - destruct (N.eqb_spec g (L + 18446744073709551616 - back + st)); lia.
        - rewrite N.mod_small by lia. destruct (N.eqb_spec g (L + 18446744073709551616 - back + st)); lia. }
      destruct E as [r [-> Hr]]. cbn [res_bind].
      destruct (N.leb_spec r (N.of_nat (length l))); [lia|].
      destruct (N.leb_spec (N.of_nat (length l)) r); [|lia]. cbn [res_bind]. unfold slice_from.
      destruct (N.leb_spec (r - N.of_nat (length l)) (N.of_nat (length rt))); [lia|]. reflexivity. }
    match goal with |- context [(?a <? ?b)%N] => destruct (N.ltb_spec a b) as [Q|Q] end.
    - cbn [res_bind]. rewrite G; [reflexivity| |exact Q]. now rewrite N.eqb_refl.
    - cbn [res_bind]. rewrite G; [reflexivity| |apply N.mod_lt; lia].
      assert (E2 : ((L + 18446744073709551616 - back + st) mod 18446744073709551616 = L + 18446744073709551616 - back + st - 18446744073709551616)%N).
      { replace (L + 18446744073709551616 - back + st)%N with ((L + st - back) + 1 * 18446744073709551616)%N by lia.
        rewrite N.mod_add by lia. rewrite N.mod_small by lia. lia. }
      rewrite E2. destruct (_ =? _)%N eqn:E3; [reflexivity|]. lia.
  Qed.
End Far.

Lemma window_size : MAX_RING_BUFFER_SIZE = 65535%N. Proof. reflexivity. Qed.

Section Foreign.
  Context {T : Type} (next : nextf T N).
  Variable pr : profile.
  Let dec := bd_next next MAX_RING_BUFFER_SIZE pr.

  Definition ends_so (e : ending) : res N := match e with Finished => Err | Aborted => Panic end.

  Lemma symbol_text_len h x : symbol_ok x -> (N.of_nat (length (symbol_text h x)) <= 32767)%N.
  Proof. destruct x as [data|len back]; intros [H1 H2]; cbn [symbol_text]; [lia|]. rewrite firstn_length. lia. Qed.
  Lemma decode_sym h hist s s' x : ring_rep MAX_RING_BUFFER_SIZE hist h -> (N.of_nat (length h) < 2 ^ 63)%N -> symbol_ok x ->
    yields next s (symbol_bytes x) s' ->
    (reaches h x -> exists hist', decode_next next MAX_RING_BUFFER_SIZE pr (mkBD s hist []) = Ok (mkBD s' hist' (symbol_text h x))
                  /\ ring_rep MAX_RING_BUFFER_SIZE hist' (h ++ symbol_text h x))
    /\ (~ reaches h x -> decode_next next MAX_RING_BUFFER_SIZE pr (mkBD s hist []) = Panic).
  Proof.
    intros Hr Hb Hx Hy. unfold decode_next. cbn [bd_iter bd_history bd_decoded]. rewrite (deser_symbol_rt _ Hx Hy).
    destruct x as [data|len back]; cbn [reaches symbol_text] in *.
    - split; [|intros []; exact I]. intros _. destruct (ring_write_all max_pos data Hr) as [h1 [-> H1]]. exists h1. auto.
    - destruct Hx as [Hl Hk]. split; intros H1.
      + rewrite (ring_sequence max_pos pr len Hr) by (rewrite ?window_size; lia). cbn [res_bind].
        destruct (ring_write_all max_pos (firstn (N.to_nat len) (skipn (length h - N.to_nat back) h)) Hr) as [h1 [-> H3]]. exists h1. auto.
      + rewrite (ring_sequence_far' max_pos max_16 pr len Hr Hb Hk) by (rewrite window_size; lia). reflexivity.
  Qed.

  Lemma short_header s s1 s2 p : (length p < 2)%nat -> yields next s p s1 -> next s1 = (Err, s2) -> exists s', deser_symbol T next s = (Err, s').
  Proof.
    intros HL Hy He. unfold deser_symbol, deser_u16, rd_bind. cbn [deser_le]. unfold rd_bind.
    destruct p as [|a [|b p]]; cbn in HL; try lia.
    - inversion Hy; subst. rewrite He. eauto.
    - apply yields_cons_inv in Hy as [s3 [H1 H2]]. inversion H2; subst. rewrite H1, He. eauto.
  Qed.

  Theorem unpacks_decodes h bs out e : unpacks h bs out e -> forall hist s, ring_rep MAX_RING_BUFFER_SIZE hist h ->
    (N.of_nat (length h) + 32767 * N.of_nat (length bs) < 2 ^ 63)%N -> yields_all next s bs ->
    exists st, yields dec (mkBD s hist []) out st /\ fst (dec st) = ends_so e.
  Proof.
    induction 1 as [h bs HL|h x bs out e Hx Hre Hne Hu IH|h x bs Hx Hre He|h x bs Hx Hre|h n d Hn Hd|h len q Hl Hq]; intros hist s Hr Hb (s1 & s2 & Hy & Hend).
    - destruct (short_header HL Hy Hend) as [s' E]. exists (mkBD s hist []). split; [constructor|].
      unfold dec, bd_next, decode_next. cbn [bd_decoded bd_iter bd_history]. rewrite E. reflexivity.
    - apply yields_app_inv in Hy as [s3 [Hy1 Hy2]].
      assert (Hb1 : (N.of_nat (length h) < 2 ^ 63)%N) by lia.
      destruct (decode_sym x Hr Hb1 Hx Hy1) as [D _]. destruct (D Hre) as [hist' [D' Hr']].
      assert (Hlen : (1 <= length (symbol_bytes x))%nat) by (destruct x; cbn; lia).
      pose proof (symbol_text_len h x Hx). rewrite app_length in Hb.
      destruct (IH hist' s3 Hr') as [st [Hy3 Hst]]; [rewrite app_length; lia|now exists s1, s2|].
      exists st. split; [|exact Hst]. eapply yields_app; [|exact Hy3].
      destruct (symbol_text h x) as [|y t]; [congruence|].
      econstructor; [|apply pop_all]. unfold dec, bd_next. cbn [bd_decoded]. rewrite D'. reflexivity.
    - apply yields_app_inv in Hy as [s3 [Hy1 Hy2]].
      assert (Hb1 : (N.of_nat (length h) < 2 ^ 63)%N) by lia.
      destruct (decode_sym x Hr Hb1 Hx Hy1) as [D _]. destruct (D Hre) as [hist' [D' _]]. rewrite He in D'.
      exists (mkBD s hist []). split; [constructor|]. unfold dec, bd_next. cbn [bd_decoded]. rewrite D'. reflexivity.
    - apply yields_app_inv in Hy as [s3 [Hy1 Hy2]].
      assert (Hb1 : (N.of_nat (length h) < 2 ^ 63)%N) by lia.
      destruct (decode_sym x Hr Hb1 Hx Hy1) as [_ D]. specialize (D Hre).
      exists (mkBD s hist []). split; [constructor|]. unfold dec, bd_next. cbn [bd_decoded]. rewrite D. reflexivity.
    - exists (mkBD s hist []). split; [constructor|]. unfold dec, bd_next, decode_next. cbn [bd_decoded bd_iter bd_history].
      unfold deser_symbol, rd_bind. apply read_le16 in Hy as [s3 [-> Hy]]; [|unfold u16_ok; lia].
      rewrite decompress_spec by (unfold u16_ok; lia). destruct (N.ltb_spec n 32768); [|lia].
      change (0 =? ENUM_CODE_EXPLICIT)%N with true. cbn iota. cbv beta iota.
      rewrite (@take_short _ _ next d s3 s1 s2 (N.to_nat n)) by (auto; lia). unfold rd_lift.
      replace (N.of_nat (length d) =? n)%N with false by lia. reflexivity.
    - exists (mkBD s hist []). split; [constructor|]. unfold dec, bd_next, decode_next. cbn [bd_decoded bd_iter bd_history].
      unfold deser_symbol, rd_bind. apply read_le16 in Hy as [s3 [-> Hy]]; [|unfold u16_ok; lia].
      rewrite decompress_spec by (unfold u16_ok; lia). destruct (N.ltb_spec (32768 + len) 32768); [lia|].
      change (1 =? ENUM_CODE_EXPLICIT)%N with false. change (1 =? ENUM_CODE_LOOKBACK)%N with true. cbn iota. cbv beta iota.
      unfold deser_u16. cbn [deser_le]. unfold rd_bind. destruct q as [|a [|b q]]; cbn in Hq; try lia.
      + inversion Hy; subst. rewrite Hend. reflexivity.
      + apply yields_cons_inv in Hy as [s4 [H1 H2]]. inversion H2; subst. rewrite H1, Hend. reflexivity.
  Qed.
End Foreign.

Lemma unpacks_exists n : forall bs h, (length bs <= n)%nat -> Forall u8_ok bs -> exists out e, unpacks h bs out e.
Proof.
  induction n as [|n IH]; intros bs h HL HF.
  { exists [], Finished. apply unpacks_end. lia. }
  assert (SH : forall c, Forall u8_ok c -> (length c < 2)%nat \/ exists m r, u16_ok m /\ c = le16 m ++ r).
  { intros [|a [|b c]] F; try (left; cbn; lia). right.
    exists (a + 256 * b)%N, c. inversion F as [|? ? Fa F']; subst. inversion F' as [|? ? Fb _]; subst. unfold u8_ok in Fa, Fb.
    split; [unfold u16_ok; lia|]. unfold le16. cbn [app]. f_equal; [|f_equal].
    - rewrite N.mul_comm, N.mod_add by lia. now rewrite N.mod_small.
    - rewrite N.mul_comm, N.div_add by lia. rewrite N.div_small by lia. lia. }
  destruct (SH bs HF) as [S1|(m & r & Hm & ->)]; [exists [], Finished; now apply unpacks_end|].
  assert (Hlr : (2 + length r <= S n)%nat) by (rewrite app_length in HL; exact HL).
  pose proof HF as HFa. apply Forall_app in HF as [_ HF]. unfold u16_ok in Hm.
  assert (GO : forall x b, symbol_ok x -> le16 m ++ r = symbol_bytes x ++ b -> (length b <= length r)%nat -> exists out e, unpacks h (le16 m ++ r) out e).
  { intros x b Hx E Hb. rewrite E.
    assert (Dr : reaches h x \/ ~ reaches h x).
    { destruct x as [d|l k]; cbn [reaches]; [now left|]. destruct (N.le_gt_cases k (N.min (N.of_nat (length h)) 65535)); [now left|right; lia]. }
    destruct Dr as [Hre|Hre]; [|exists [], Aborted; now apply unpacks_far].
    assert (Fb : Forall u8_ok b).
    { rewrite E in HFa. apply Forall_app in HFa. apply HFa. }
    assert (De : symbol_text h x = [] \/ symbol_text h x <> []) by (destruct (symbol_text h x); [now left|right; discriminate]).
    destruct De as [He|He]; [exists [], Finished; now apply unpacks_empty|].
    destruct (IH b (h ++ symbol_text h x)) as (out & e & Hu); [lia|exact Fb|].
    exists (symbol_text h x ++ out), e. now apply unpacks_symbol. }
  destruct (N.lt_ge_cases m 32768) as [Hlt|Hge].
  - destruct (N.le_gt_cases m (N.of_nat (length r))) as [Hd|Hd].
    + apply (GO (Explicit (firstn (N.to_nat m) r)) (skipn (N.to_nat m) r)).
      * assert (EL : length (firstn (N.to_nat m) r) = N.to_nat m) by (rewrite firstn_length; lia).
        split; [lia|]. rewrite <- (firstn_skipn (N.to_nat m) r) in HF. apply Forall_app in HF. apply HF.
      * cbn [symbol_bytes]. rewrite firstn_length, <- app_assoc, firstn_skipn. do 2 f_equal. lia.
      * rewrite skipn_length. lia.
    + exists [], Aborted. apply unpacks_cut_literal; lia.
  - replace m with (32768 + (m - 32768))%N in * by lia.
    destruct (SH r HF) as [S1|(k & r' & Hk & ->)]; [exists [], Finished; apply unpacks_cut_distance; lia|].
    apply (GO (LookBack (m - 32768) k) r').
    + unfold u16_ok in Hk. split; lia.
    + cbn [symbol_bytes]. now rewrite <- app_assoc.
    + rewrite app_length. lia.
Qed.

Lemma yields_end_det {S A} (next : nextf S A) l : forall s l' st st', yields next s l st -> yields next s l' st' ->
  (forall x, fst (next st) <> Ok x) -> (forall x, fst (next st') <> Ok x) -> l = l' /\ st = st'.
Proof.
  induction l as [|x l IH]; intros s l' st st' H1 H2 E1 E2.
  - inversion H1; subst. inversion H2 as [|? y s1 l2 ? Hn]; subst; [auto|]. exfalso. apply (E1 y). now rewrite Hn.
  - apply yields_cons_inv in H1 as [s1 [N1 H1]]. inversion H2 as [|? y s2 l2 ? N2 H2']; subst.
    + exfalso. apply (E2 x). now rewrite N1.
    + rewrite N1 in N2. injection N2 as <- <-. destruct (IH _ _ _ _ H1 H2' E1 E2) as [-> ->]. auto.
Qed.

Theorem back_foreign : forall T (next : nextf T N) s bs pr, yields_all next s bs -> Forall u8_ok bs -> (N.of_nat (length bs) < 2 ^ 48)%N ->
  exists out e, unpacks [] bs out e
  /\ (forall out' e', unpacks [] bs out' e' -> out' = out /\ e' = e)
  /\ exists st, yields (bd_next next MAX_RING_BUFFER_SIZE pr) (zip_back_decode s) out st
     /\ fst (bd_next next MAX_RING_BUFFER_SIZE pr st) = match e with Finished => Err | Aborted => Panic end.
Proof.
  intros T next s bs pr Hy HF HL. destruct (unpacks_exists [] (le_n _) HF) as (out & e & Hu). exists out, e.
  assert (HB : (N.of_nat (length (@nil N)) + 32767 * N.of_nat (length bs) < 2 ^ 63)%N) by (cbn [length]; lia).
  split; [exact Hu|]. destruct (unpacks_decodes pr Hu (ring_new MAX_RING_BUFFER_SIZE) HB Hy) as [st [H1 H2]]. split.
  - intros out' e' Hu'. destruct (unpacks_decodes pr Hu' (ring_new MAX_RING_BUFFER_SIZE) HB Hy) as [st' [H1' H2']].
    destruct (yields_end_det H1' H1) as [-> ->].
    + intros x. rewrite H2'. now destruct e'.
    + intros x. rewrite H2. now destruct e.
    + split; [reflexivity|]. rewrite H2 in H2'. destruct e, e'; cbn in H2'; congruence.
  - exists st. auto.
Qed.
