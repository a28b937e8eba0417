(** * zip-back: decoding, and when encoding aborts. *)
From Verif Require Import Base Ser SerSpec SerProofs Bit BitSpec BitProofs Utils HufSpec UtilsProofs Dict DictSpec DictProofs DictEnc Back BackSpec BackProofs BackRing BackEnc.
From Coq Require Import ZifyBool ZifyNat ZifyN.
Set Implicit Arguments.

Section Text.
  Variable R : N.

  Lemma text_app h a b : text h (a ++ b) = text h a ++ text (h ++ text h a) b.
  Proof.
    revert h. induction a as [|s a IH]; intros h; cbn [app text]; [now rewrite app_nil_r|].
    rewrite IH, <- !app_assoc. reflexivity.
  Qed.
  Lemma text_literal h lits : text h (literal lits) = lits.
  Proof. destruct lits; cbn; [reflexivity|]. now rewrite app_nil_r. Qed.
  Lemma best_text h rest len back : best_match R h rest len back ->
    firstn (N.to_nat len) (skipn (length h - N.to_nat back) h) = firstn (N.to_nat len) rest.
  Proof.
    intros (pos & [W1 W2] & -> & -> & H6 & _). replace (length h - N.to_nat (N.of_nat (length h) - pos))%nat with (N.to_nat pos) by lia.
    unfold match_at. rewrite Nat2N.id. apply (agree_prefix rest (skipn (N.to_nat pos) h)). lia.
  Qed.
  Lemma parses_text h lits rest syms : parses R h lits rest syms -> forall h0, h = h0 ++ lits -> text h0 syms = lits ++ rest.
  Proof.
    induction 1 as [h lits rest len back syms Hb _ IH|h lits rest syms Hn Hg _ IH|h lits rest Hn Hg]; intros h0 ->.
    - rewrite text_app, text_literal. cbn [text symbol_text]. rewrite (best_text Hb).
      rewrite (IH (_ ++ firstn (N.to_nat len) rest)) by now rewrite app_nil_r. cbn [app]. now rewrite firstn_skipn.
    - rewrite (IH h0) by now rewrite app_assoc. rewrite <- app_assoc. now rewrite firstn_skipn.
    - apply text_literal.
  Qed.

  (** symbols that make sense after history [h] *)
  Fixpoint fits (h : list N) (syms : list symbol) : Prop :=
    match syms with
    | [] => True
    | s :: syms => symbol_text h s <> [] /\
                   match s with
                   | Explicit _ => True
                   | LookBack len back => (len <= back <= R)%N /\ (back <= N.of_nat (length h))%N
                   end /\ fits (h ++ symbol_text h s) syms
    end.
  Lemma fits_literal h lits syms : fits (h ++ lits) syms -> fits h (literal lits ++ syms).
  Proof. destruct lits as [|x l]; cbn; [now rewrite app_nil_r|]. intros H. repeat split; auto. discriminate. Qed.
  Lemma parses_fits h lits rest syms : parses R h lits rest syms -> forall h0, h = h0 ++ lits -> fits h0 syms.
  Proof.
    induction 1 as [h lits rest len back syms Hb _ IH|h lits rest syms Hn Hg _ IH|h lits rest Hn Hg]; intros h0 ->.
    - apply fits_literal. cbn [fits symbol_text]. rewrite (best_text Hb). pose proof (best_len Hb).
      repeat split; try lia.
      + destruct rest; [cbn in *; lia|]. destruct (N.to_nat len) eqn:E; [lia|]. discriminate.
      + apply IH. now rewrite app_nil_r.
    - apply IH. now rewrite app_assoc.
    - rewrite <- (app_nil_r (literal _)). apply fits_literal. exact I.
  Qed.
  Lemma Forall_text h syms (P : N -> Prop) : Forall P (text h syms) -> forall data, In (Explicit data) syms -> Forall P data.
  Proof.
    revert h. induction syms as [|s syms IH]; intros h H data Hin; [contradiction|].
    cbn [text] in H. apply Forall_app in H as [H1 H2]. destruct Hin as [->|Hin]; [exact H1|]. eapply IH; eassumption.
  Qed.
  Lemma symbol_len_text h s syms : fits h (s :: syms) -> symbol_len s = N.of_nat (length (symbol_text h s)).
  Proof.
    destruct s as [data|len back]; cbn [fits symbol_len symbol_text]; [reflexivity|]. intros (_ & H & _).
    rewrite firstn_length, skipn_length. lia.
  Qed.
  Lemma fits_app a : forall h b, fits h (a ++ b) -> fits h a /\ fits (h ++ text h a) b.
  Proof.
    induction a as [|s a IH]; intros h b; cbn [app fits text]; [now rewrite app_nil_r|].
    intros (H1 & H2 & H3). destruct (IH _ _ H3) as [H4 H5]. rewrite <- app_assoc in H5. auto.
  Qed.
  Lemma symbol_len_le h syms s : fits h syms -> In s syms -> (symbol_len s <= N.of_nat (length (text h syms)))%N.
  Proof.
    intros HF Hin. apply in_split in Hin as (a & b & ->). apply fits_app in HF as [_ HF].
    rewrite (symbol_len_text HF). rewrite text_app. cbn [text]. rewrite !app_length. lia.
  Qed.

  (** every repetition is the best match where it is emitted *)
  Lemma parses_best h lits rest syms : parses R h lits rest syms -> forall h0, h = h0 ++ lits ->
    forall a len back b, syms = a ++ LookBack len back :: b ->
    best_match R (h0 ++ text h0 a) (skipn (length (text h0 a)) (lits ++ rest)) len back.
  Proof.
    induction 1 as [h lits rest len back syms Hb Hp IH|h lits rest syms Hn Hg _ IH|h lits rest Hn Hg]; intros h0 -> a len' back' b E.
    - assert (C : (a = literal lits /\ len' = len /\ back' = back) \/
                  exists a', a = literal lits ++ LookBack len back :: a' /\ syms = a' ++ LookBack len' back' :: b).
      { destruct lits as [|x lits].
        - cbn [literal app] in *. destruct a as [|y a]; cbn [app] in E.
          + injection E as <- <- <-. auto.
          + injection E as <- E. right. exists a. auto.
        - cbn [literal app] in *. destruct a as [|y a]; cbn [app] in E; [discriminate|].
          injection E as <- E. destruct a as [|z a]; cbn [app] in E.
          + injection E as <- <- <-. auto.
          + injection E as <- E. right. exists a. auto. }
      destruct C as [(-> & -> & ->)|(a' & -> & Es)].
      + rewrite text_literal, skipn_app_l, skipn_all by lia. exact Hb.
      + specialize (IH ((h0 ++ lits) ++ firstn (N.to_nat len) rest)). rewrite app_nil_r in IH.
        specialize (IH eq_refl _ _ _ _ Es).
        rewrite text_app, text_literal. cbn [text symbol_text]. rewrite (best_text Hb). cbn [app] in IH.
        rewrite !app_assoc in *. 
        replace (skipn (length ((lits ++ firstn (N.to_nat len) rest) ++ text ((h0 ++ lits) ++ firstn (N.to_nat len) rest) a')) (lits ++ rest))
          with (skipn (length (text ((h0 ++ lits) ++ firstn (N.to_nat len) rest) a')) (skipn (N.to_nat len) rest)).
        { exact IH. }
        rewrite !app_length, firstn_length. pose proof (best_len Hb) as [HB _].
        replace (Nat.min (N.to_nat len) (length rest)) with (N.to_nat len) by lia.
        rewrite skipn_skipn'. rewrite skipn_app. rewrite (skipn_all2 lits) by lia. cbn [app]. f_equal. lia.
    - specialize (IH h0). rewrite app_assoc in IH. specialize (IH eq_refl _ _ _ _ E).
      rewrite <- app_assoc, firstn_skipn in IH. exact IH.
    - destruct (lits ++ rest); cbn [literal] in E; destruct a as [|x [|y a]]; discriminate.
  Qed.
End Text.

(** ** Decoding *)
Section Dec.
  Context {T : Type} (next : nextf T N).
  Variable R : N.
  Hypothesis HR : (0 < R)%N.
  Variable pr : profile.

  Lemma pop_all hist s : forall l, yields (bd_next next R pr) (mkBD s hist l) l (mkBD s hist []).
  Proof. induction l as [|x l IH]; [constructor|]. econstructor; [reflexivity|exact IH]. Qed.

  Lemma decode_symbols syms : forall h hist s s', ring_rep R hist h -> fits R h syms -> Forall symbol_ok syms ->
    (N.of_nat (length h + length (text h syms)) < 2 ^ 64)%N ->
    yields next s (concat (map symbol_bytes syms)) s' ->
    exists hist', yields (bd_next next R pr) (mkBD s hist []) (text h syms) (mkBD s' hist' [])
      /\ ring_rep R hist' (h ++ text h syms).
  Proof.
    induction syms as [|x syms IH]; intros h hist s s' Hr Hf Hok Hb Hy.
    - cbn in Hy. inversion Hy; subst. exists hist. split; [constructor|]. cbn. now rewrite app_nil_r.
    - cbn [map concat] in Hy. apply yields_app_inv in Hy as [s1 [Hy1 Hy2]].
      inversion Hok as [|? ? Hx Hok']; subst. cbn [fits] in Hf. destruct Hf as (Hne & Hlb & Hf).
      cbn [text] in Hb |- *. rewrite app_length in Hb.
      assert (D : exists hist1, decode_next next R pr (mkBD s hist []) = Ok (mkBD s1 hist1 (symbol_text h x))
                  /\ ring_rep R hist1 (h ++ symbol_text h x)).
      { unfold decode_next. cbn [bd_iter bd_history bd_decoded]. rewrite (deser_symbol_rt _ Hx Hy1).
        destruct x as [data|len back].
        - cbn [symbol_text] in *. destruct (ring_write_all HR data Hr) as [h1 [-> H1]]. exists h1. auto.
        - destruct Hlb as [H1 H2]. rewrite (ring_sequence HR pr len Hr) by lia. cbn [res_bind symbol_text].
          destruct (ring_write_all HR (firstn (N.to_nat len) (skipn (length h - N.to_nat back) h)) Hr) as [h1 [-> H3]].
          exists h1. auto. }
      destruct D as [hist1 [D Hr1]].
      destruct (IH (h ++ symbol_text h x) hist1 s1 s' Hr1 Hf Hok') as [hist2 [Hy3 Hr2]]; [rewrite app_length; lia|exact Hy2|].
      exists hist2. rewrite app_assoc. split; [|exact Hr2]. eapply yields_app; [|exact Hy3].
      destruct (symbol_text h x) as [|y t]; [congruence|].
      econstructor; [|apply pop_all]. unfold bd_next. cbn [bd_decoded]. rewrite D. reflexivity.
  Qed.
  Lemma decode_stop hist s s' : next s = (Err, s') -> bd_next next R pr (mkBD s hist []) = (Err, mkBD s' hist []).
  Proof.
    intros E. unfold bd_next, decode_next. cbn [bd_decoded bd_iter bd_history].
    unfold deser_symbol, deser_u16. unfold rd_bind at 1. cbn [deser_le]. unfold rd_bind at 1. rewrite E. reflexivity.
  Qed.
  Lemma decode_end hist s : ended next s -> ended (bd_next next R pr) (mkBD s hist []).
  Proof.
    intros [I [Hs HI]]. exists (fun d => I (bd_iter d) /\ bd_decoded d = []). split; [split; [exact Hs|reflexivity]|].
    intros [t hi de] [Ht Hd]. cbn in Ht, Hd. subst de. destruct (HI t Ht) as [t' [E Ht']].
    rewrite (decode_stop _ E). eexists; split; [reflexivity|]. split; [exact Ht'|reflexivity].
  Qed.
End Dec.

Lemma serialized_ok syms : Forall (fun s => symbol_len s <= 32767)%N syms -> serialized syms = (concat (map symbol_bytes syms), Ok tt).
Proof.
  induction 1 as [|s syms H _ IH]; [reflexivity|]. cbn [serialized map concat]. rewrite IH.
  destruct (N.leb_spec (symbol_len s) 32767); [reflexivity|lia].
Qed.
Lemma serialized_panic syms : Exists (fun s => 32767 < symbol_len s)%N syms -> snd (serialized syms) = Panic.
Proof.
  induction 1 as [s syms H|s syms _ IH]; cbn [serialized].
  - destruct (N.leb_spec (symbol_len s) 32767); [lia|reflexivity].
  - destruct (symbol_len s <=? 32767)%N; [|reflexivity]. destruct (serialized syms). exact IH.
Qed.
Lemma len_dec syms : Forall (fun s => symbol_len s <= 32767)%N syms \/ Exists (fun s => 32767 < symbol_len s)%N syms.
Proof.
  induction syms as [|s syms IH]; [left; constructor|]. destruct (N.le_gt_cases (symbol_len s) 32767) as [H|H].
  - destruct IH; [left|right]; auto.
  - right. now constructor.
Qed.

Lemma max_pos : (0 < MAX_RING_BUFFER_SIZE)%N. Proof. reflexivity. Qed.
Lemma max_16 : (MAX_RING_BUFFER_SIZE <= 65535)%N. Proof. discriminate. Qed.
Opaque MAX_RING_BUFFER_SIZE.

Unset Implicit Arguments.
Lemma back_spec T (next : nextf T N) s l pr caps fuel : delivers next s l -> caps_ok caps -> (length l < fuel)%nat ->
  exists syms, parses MAX_RING_BUFFER_SIZE [] [] l syms /\ emits (zip_back_encode next pr caps fuel s) (fst (serialized syms)) (snd (serialized syms)).
Proof. intros Hd Hc Hf. unfold zip_back_encode. apply (encode_spec max_pos pr caps Hc max_16 Hd Hf). Qed.

Lemma back_total T (next : nextf T N) s l pr caps fuel : delivers next s l -> caps_ok caps -> (length l < fuel)%nat ->
  exists syms, parses MAX_RING_BUFFER_SIZE [] [] l syms /\ run_vec (zip_back_encode next pr caps fuel s) =
    if forallb (fun x => symbol_len x <=? 32767)%N syms then Ok (concat (map symbol_bytes syms)) else Panic.
Proof.
  intros Hd Hc Hf. destruct (back_spec _ next s l pr caps fuel Hd Hc Hf) as [syms [Hp Hem]]. exists syms. split; [exact Hp|].
  rewrite (emits_run_vec Hem). destruct (len_dec syms) as [H|H].
  - rewrite (serialized_ok H). cbn [fst snd]. replace (forallb _ syms) with true; [reflexivity|].
    symmetry. apply forallb_forall. intros x Hx. rewrite Forall_forall in H. specialize (H x Hx). lia.
  - rewrite (serialized_panic H). replace (forallb _ syms) with false; [reflexivity|].
    symmetry. apply Bool.not_true_iff_false. rewrite forallb_forall. intros HF.
    apply Exists_exists in H as [x [Hx H]]. specialize (HF x Hx). lia.
Qed.

Lemma back_ok_inv T (next : nextf T N) s l pr caps fuel out : delivers next s l -> caps_ok caps -> (length l < fuel)%nat ->
  run_vec (zip_back_encode next pr caps fuel s) = Ok out ->
  exists syms, parses MAX_RING_BUFFER_SIZE [] [] l syms /\ Forall (fun x => symbol_len x <= 32767)%N syms
    /\ out = concat (map symbol_bytes syms).
Proof.
  intros Hd Hc Hf E. destruct (back_total _ next s l pr caps fuel Hd Hc Hf) as [syms [Hp E2]]. exists syms. split; [exact Hp|].
  rewrite E in E2. destruct (forallb _ syms) eqn:F; [|discriminate]. injection E2 as ->. split; [|reflexivity].
  apply Forall_forall. intros x Hx. rewrite forallb_forall in F. specialize (F x Hx). lia.
Qed.

Lemma back_roundtrip T (next : nextf T N) s l pr caps fuel out :
  delivers next s l -> Forall u8_ok l -> (N.of_nat (length l) < 2 ^ 64)%N -> caps_ok caps -> (length l < fuel)%nat ->
  run_vec (zip_back_encode next pr caps fuel s) = Ok out ->
  forall S (next2 : nextf S N) s2 pr2,
  (forall s2', yields next2 s2 out s2' ->
     exists st, yields (bd_next next2 MAX_RING_BUFFER_SIZE pr2) (zip_back_decode s2) l st /\ bd_iter st = s2')
  /\ (yields_all next2 s2 out -> yields_all (bd_next next2 MAX_RING_BUFFER_SIZE pr2) (zip_back_decode s2) l)
  /\ (delivers next2 s2 out -> delivers (bd_next next2 MAX_RING_BUFFER_SIZE pr2) (zip_back_decode s2) l).
Proof.
  intros Hd Hu H64 Hc Hf E S next2 s2 pr2.
  destruct (back_ok_inv _ next s l pr caps fuel out Hd Hc Hf E) as (syms & Hp & Hlen & ->).
  pose proof (parses_text Hp [] eq_refl) as Ht. cbn [app] in Ht.
  pose proof (parses_fits Hp [] eq_refl) as Hfit.
  assert (Hok : Forall symbol_ok syms).
  { pose proof (parses_near max_pos max_16 Hp) as Hn. apply Forall_forall. intros x Hx.
    rewrite Forall_forall in Hn, Hlen. specialize (Hn x Hx). specialize (Hlen x Hx).
    destruct x as [data|len back]; split; try assumption. rewrite <- Ht in Hu. eapply Forall_text; eassumption. }
  assert (HY : forall s2', yields next2 s2 (concat (map symbol_bytes syms)) s2' ->
    exists hist, yields (bd_next next2 MAX_RING_BUFFER_SIZE pr2) (zip_back_decode s2) l (mkBD s2' hist [])).
  { intros s2' Hy. destruct (@decode_symbols S next2 _ max_pos pr2 syms [] _ s2 s2' (ring_new _) Hfit Hok) as [hist [H1 _]].
    - rewrite Ht. exact H64.
    - exact Hy.
    - exists hist. rewrite Ht in H1. exact H1. }
  split; [|split].
  - intros s2' Hy. destruct (HY s2' Hy) as [hist H]. exists (mkBD s2' hist []). auto.
  - intros (s2' & s3 & Hy & He). destruct (HY s2' Hy) as [hist H]. do 2 eexists. split; [exact H|].
    apply decode_stop. exact He.
  - intros (s2' & Hy & He). destruct (HY s2' Hy) as [hist H]. eexists. split; [exact H|].
    apply decode_end. exact He.
Qed.

Lemma back_abort T (next : nextf T N) s l pr caps fuel : delivers next s l -> caps_ok caps -> (length l < fuel)%nat ->
  exists syms, parses MAX_RING_BUFFER_SIZE [] [] l syms
  /\ run_vec (zip_back_encode next pr caps fuel s) <> Err
  /\ (run_vec (zip_back_encode next pr caps fuel s) = Panic <-> exists x, In x syms /\ (32767 < symbol_len x)%N).
Proof.
  intros Hd Hc Hf. destruct (back_total _ next s l pr caps fuel Hd Hc Hf) as [syms [Hp ->]]. exists syms.
  split; [exact Hp|]. destruct (forallb _ syms) eqn:F.
  - split; [discriminate|]. split; [discriminate|]. intros (x & Hx & H). rewrite forallb_forall in F. specialize (F x Hx). lia.
  - split; [discriminate|]. split; [|reflexivity]. intros _. destruct (len_dec syms) as [H|H].
    + exfalso. apply Bool.not_true_iff_false in F. apply F. apply forallb_forall. intros x Hx.
      rewrite Forall_forall in H. specialize (H x Hx). lia.
    + now apply Exists_exists in H.
Qed.

Lemma back_short T (next : nextf T N) s l pr caps fuel : delivers next s l -> caps_ok caps -> (length l < fuel)%nat ->
  (N.of_nat (length l) <= 32767)%N -> exists out, run_vec (zip_back_encode next pr caps fuel s) = Ok out.
Proof.
  intros Hd Hc Hf Hl. destruct (back_total _ next s l pr caps fuel Hd Hc Hf) as [syms [Hp ->]].
  replace (forallb _ syms) with true; [eauto|]. symmetry. apply forallb_forall. intros x Hx.
  pose proof (@symbol_len_le _ _ _ x (parses_fits Hp [] eq_refl) Hx) as H. rewrite (parses_text Hp [] eq_refl) in H.
  cbn [app] in H. lia.
Qed.

Lemma back_independent T (next : nextf T N) s T2 (next2 : nextf T2 N) s2 l pr pr2 caps caps2 fuel fuel2 w :
  delivers next s l -> delivers next2 s2 l -> caps_ok caps -> caps_ok caps2 -> (length l < fuel)%nat -> (length l < fuel2)%nat ->
  zip_back_encode next pr caps fuel s w = zip_back_encode next2 pr2 caps2 fuel2 s2 w.
Proof.
  intros Hd Hd2 Hc Hc2 Hf Hf2.
  destruct (back_spec _ next s l pr caps fuel Hd Hc Hf) as [syms [Hp Hem]].
  destruct (back_spec _ next2 s2 l pr2 caps2 fuel2 Hd2 Hc2 Hf2) as [syms2 [Hp2 Hem2]].
  rewrite (parses_fun Hp Hp2) in Hem. rewrite (Hem w), (Hem2 w). reflexivity.
Qed.
