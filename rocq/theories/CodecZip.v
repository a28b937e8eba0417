(** * Lemmas for the zip codecs and truncated compressed streams. *)
From Verif Require Import Base Ser SerSpec SerProofs Bit BitSpec BitProofs Utils Huf HufSpec UtilsProofs HufProofs HufTop Dict DictSpec DictProofs DictEnc
  Back BackSpec BackProofs BackRing BackEnc BackDec BackLong Img Float HilbertC CodecSpec CodecBytes.
From Coq Require Import ZifyBool ZifyNat ZifyN.

(** ** Iterators that end or panic too early *)
Definition stops {S A} (next : nextf S A) (s : S) (l : list A) (r : res A) : Prop :=
  exists s1 s2, yields next s l s1 /\ next s1 = (r, s2).
Lemma le_panic k : forall S (next : nextf S N) s acc p, stops next s p Panic -> (length p < k)%nat ->
  fst (deser_le k next acc s) = Panic.
Proof.
  induction k as [|k IH]; intros S next s acc p [s1 [s2 [Hy Hn]]] HL; [lia|].
  cbn [deser_le]. unfold rd_bind. destruct p as [|x p].
  - inversion Hy; subst. now rewrite Hn.
  - apply yields_cons_inv in Hy as [s3 [E Hy]]. rewrite E. apply (IH _ _ _ _ p); [exists s1, s2; auto|cbn in HL; lia].
Qed.
Lemma dims_panic w h p : u32_ok w -> u32_ok h -> strict_prefix p (le32 w ++ le32 h) ->
  forall S (next : nextf S N) s, stops next s p Panic -> fst (deser (TPair TU32 TU32) S next s) = Panic.
Proof.
  intros Hw Hh Hp S next s Hs. cbn [deser]. unfold deser_pair, rd_bind. apply strict_prefix_app in Hp as [Hp|[p' [-> Hp]]].
  - assert (E : fst (deser_u32 S next s) = Panic) by (apply (le_panic 4 _ _ _ _ p Hs); apply strict_prefix_len in Hp; exact Hp).
    destruct (deser_u32 S next s) as [r s']. cbn in E. now subst r.
  - destruct Hs as [s1 [s2 [Hy Hn]]]. apply yields_app_inv in Hy as [s3 [Hy1 Hy2]].
    assert (E1 : deser_u32 S next s = (Ok w, s3)) by exact (do_rt (deser_ty_ok TU32) w Hw eq_refl Hy1). rewrite E1.
    assert (E : fst (deser_u32 S next s3) = Panic).
    { apply (le_panic 4 _ _ _ _ p'); [exists s1, s2; auto|]. apply strict_prefix_len in Hp. exact Hp. }
    destruct (deser_u32 S next s3) as [r s']. cbn in E. now subst r.
Qed.
Lemma pixel_panic c p : rgb_ok c -> strict_prefix p (pixel_bytes c) -> forall S (next : nextf S N) s,
  stops next s p Panic -> fst (deser (TRgb TU8) S next s) = Panic.
Proof.
  intros Hc Hp S next s Hs. destruct c as [[r g] b]. cbn [deser]. unfold deser_rgb, deser_vec, rd_bind, deser_usize.
  change (pixel_bytes (r, g, b)) with (le64 3 ++ [r; g; b]) in Hp. apply strict_prefix_app in Hp as [Hp|[p' [-> Hp]]].
  - assert (E : fst (deser_u64 S next s) = Panic) by (apply (le_panic 8 _ _ _ _ p Hs); apply strict_prefix_len in Hp; exact Hp).
    destruct (deser_u64 S next s) as [v s']. cbn in E. now subst v.
  - destruct Hs as [s1 [s2 [Hy Hn]]]. apply yields_app_inv in Hy as [s3 [Hy1 Hy2]].
    assert (E1 : deser_u64 S next s = (Ok 3%N, s3)).
    { refine (do_rt (deser_ty_ok TU64) 3%N _ eq_refl Hy1). cbn. unfold u64_ok. lia. }
    rewrite E1, rd_repeat_times. apply strict_prefix_len in Hp. cbn [length] in Hp.
    rewrite (times_short (deser_u8 S next) s3 p' s1 s2 Panic Hy2 Hn) by (try discriminate; change (N.to_nat 3) with 3%nat; lia).
    reflexivity.
Qed.

(** [n] whole pixels and a part of one *)
Lemma pixels_cut l : forall p, strict_prefix p (concat (map pixel_bytes l)) ->
  exists a c b q, l = a ++ c :: b /\ p = concat (map pixel_bytes a) ++ q /\ strict_prefix q (pixel_bytes c).
Proof.
  induction l as [|c l IH]; intros p Hp; cbn [map concat] in Hp.
  - now apply strict_prefix_nil in Hp.
  - apply strict_prefix_app in Hp as [Hp|[p' [-> Hp]]].
    + exists [], c, l, p. auto.
    + destruct (IH _ Hp) as (a & d & b & q & -> & -> & Hq). exists (c :: a), d, b, q. split; [reflexivity|].
      split; [cbn [map concat]; now rewrite app_assoc|exact Hq].
Qed.
Lemma pixels_yield l : Forall rgb_ok l -> forall S (next : nextf S N) s s', yields next s (concat (map pixel_bytes l)) s' ->
  yields (fun s => deser (TRgb TU8) S next s) s l s'.
Proof.
  induction 1 as [|c l Hc Hl IH]; intros S next s s' Hy; cbn [map concat] in Hy.
  - inversion Hy; subst. constructor.
  - apply yields_app_inv in Hy as [s1 [Hy1 Hy2]]. econstructor; [|apply IH; exact Hy2]. now apply pixel_deser.
Qed.
Lemma pixels_stop l p r : Forall rgb_ok l -> strict_prefix p (concat (map pixel_bytes l)) -> (r = Err \/ r = Panic) ->
  forall S (next : nextf S N) s, stops next s p r ->
  exists a c b, l = a ++ c :: b /\ length a = (length p / 11)%nat /\
  exists s1 s2, yields (fun s => deser (TRgb TU8) S next s) s a s1
    /\ deser (TRgb TU8) S next s1 = (match r with Panic => Panic | _ => Err end, s2).
Proof.
  intros Hl Hp Hr S next s [s1 [s2 [Hy Hn]]]. destruct (pixels_cut l p Hp) as (a & c & b & q & E & -> & Hq).
  exists a, c, b. split; [exact E|]. subst l. apply Forall_app in Hl as [Ha Hc]. apply Forall_inv in Hc. split.
  { rewrite app_length. assert (L : length (concat (map pixel_bytes a)) = (length a * 11)%nat).
    { clear. induction a as [|[[x y] z] a IH]; [reflexivity|]. cbn [map concat length]. rewrite app_length, IH. reflexivity. }
    apply strict_prefix_len in Hq. destruct c as [[x y] z]. cbn [pixel_bytes length] in Hq.
    rewrite L, Nat.div_add_l by lia. rewrite Nat.div_small; [symmetry; apply Nat.add_0_r|]. exact Hq. }
  apply yields_app_inv in Hy as [s3 [Hy1 Hy2]]. exists s3. destruct Hr as [-> | ->].
  - exists s2. split; [now apply pixels_yield|]. now apply (pixel_trunc c q) with (s1 := s1).
  - assert (Ep : fst (deser (TRgb TU8) S next s3) = Panic) by (apply (pixel_panic c q Hc Hq); exists s1, s2; auto).
    destruct (deser (TRgb TU8) S next s3) as [v s4] eqn:Ed. exists s4. split; [now apply pixels_yield|]. cbn in Ep. now subst v.
Qed.

(** ** The bytes fed to the compressors *)
Lemma ss_err {A} (sa : A -> io unit) s s' : ss_next sa s = (Err, s') -> s' = mkSS [] [].
Proof.
  unfold ss_next. destruct (ss_extra s); [|discriminate].
  assert (F : forall it r s1, ss_fill sa it = (r, s1) -> match r with Ok l => l <> [] | Err => s1 = mkSS [] [] | Panic => True end).
  { induction it as [|x it IH]; intros r s1; cbn [ss_fill].
    - intros [= <- <-]. reflexivity.
    - destruct (run_vec (sa x)) as [[|b l]| |].
      + apply IH.
      + intros [= <- <-]. discriminate.
      + intros [= <- <-]. exact I.
      + intros [= <- <-]. exact I. }
  destruct (ss_fill sa (ss_iter s)) as [r s1] eqn:E. apply F in E. destruct r as [[|b l]| |]; try discriminate.
  - now destruct E.
  - intros [= <-]. exact E.
Qed.
Lemma ss_delivers t (l : list (val t)) bs : Forall (wf t) l -> concat_opt (map (format t) l) = Some bs ->
  delivers (ss_next (ser t)) (ss_from_iter l) bs.
Proof.
  intros Hl Hf. destruct (stream_of_values t Hl Hf) as [s1 [s2 [Hy Hn]]]. exists s1. split; [exact Hy|].
  exists (fun s => s = s1 \/ s = mkSS [] []). split; [now left|]. intros s [->| ->].
  - exists s2. split; [exact Hn|]. right. eapply ss_err; exact Hn.
  - exists (mkSS [] []). split; [reflexivity|now right].
Qed.
Lemma chain_delivers {SA SB A} (na : nextf SA A) (nb : nextf SB A) a b la lb :
  delivers na a la -> delivers nb b lb -> delivers (chain_next na nb) (Some a, b) (la ++ lb).
Proof.
  intros [a' [Ya Ea]] [b' [Yb Eb]].
  assert (Y1 : yields (chain_next na nb) (Some a, b) la (Some a', b)).
  { clear Ea. induction Ya as [a|a x a1 l a2 Hn Ya IH]; [constructor|]. econstructor; [|exact IH]. cbn. now rewrite Hn. }
  assert (N2 : forall c, yields nb c lb b' \/ True -> forall l c', yields nb c l c' -> yields (chain_next na nb) (None, c) l (None, c')).
  { intros c _ l c' Y. induction Y as [c|c x c1 l c2 Hn Y IH]; [constructor|]. econstructor; [|exact IH]. cbn. now rewrite Hn. }
  assert (EndN : forall c, ended nb c -> ended (chain_next na nb) (None, c)).
  { intros c [I [Hc HI]]. exists (fun st => fst st = None /\ I (snd st)). split; [auto|].
    intros [o d] [Ho Hd]. cbn in Ho, Hd. subst o. destruct (HI d Hd) as [d' [E Hd']]. exists (None, d'). cbn. rewrite E. auto. }
  pose proof Ea as [J [Ja HJ]]. destruct (HJ a' Ja) as [a'' [Na _]].
  destruct lb as [|x lb].
  - exists (Some a', b). rewrite app_nil_r. split; [exact Y1|]. inversion Yb; subst b'.
    destruct Eb as [I [Hb HI]].
    exists (fun st => st = (Some a', b) \/ (fst st = None /\ I (snd st))). split; [now left|].
    intros st [->|[Ho Hd]].
    + destruct (HI b Hb) as [b2 [E Hb2]]. exists (None, b2). cbn. rewrite Na, E. auto.
    + destruct st as [o d]. cbn in Ho, Hd. subst o. destruct (HI d Hd) as [d' [E Hd']]. exists (None, d'). cbn. rewrite E. auto.
  - apply yields_cons_inv in Yb as [b1 [Nb Yb]]. exists (None, b'). split; [|now apply EndN].
    eapply yields_app; [exact Y1|]. econstructor; [cbn; rewrite Na, Nb; reflexivity|].
    apply (N2 b1); [now right|exact Yb].
Qed.
Lemma pixels_deliver l : Forall rgb_ok l -> delivers (ss_next (ser (TRgb TU8))) (ss_from_iter l) (concat (map pixel_bytes l)).
Proof. intros Hl. exact (ss_delivers (TRgb TU8) l _ (pixels_wf _ Hl) (pixels_format l)). Qed.
Lemma zip_bytes_deliver im : img_ok im ->
  delivers zip_bytes_next (zip_bytes im) (image_bytes (im_w im) (im_h im) (map to_rgb (im_px im))).
Proof.
  intros Hi. pose proof Hi as (Hw & Hh & _). unfold image_bytes. rewrite app_assoc.
  apply chain_delivers; [|apply pixels_deliver, img_rgb, Hi].
  apply (ss_delivers (TPair TU32 TU32) [(im_w im, im_h im)]); [constructor; [split; assumption|constructor]|].
  cbn [map concat_opt]. rewrite dims_format. now rewrite app_nil_r.
Qed.
Lemma zip_input_u8 im : img_ok im -> Forall u8_ok (zip_input im).
Proof. intros Hi. pose proof Hi as (Hw & Hh & _). apply image_u8; auto using img_rgb. Qed.
Lemma zip_input_len im : img_ok im -> N.of_nat (length (zip_input im)) = (8 + 11 * (im_w im * im_h im))%N.
Proof.
  intros Hi. unfold zip_input. rewrite image_length. pose proof (img_len _ Hi) as E. unfold rgb in *. rewrite E. lia.
Qed.

(** ** Rebuilding the image *)
Lemma rebuild_ok im : img_ok im -> forall S (next : nextf S N) s s', yields next s (zip_input im) s' ->
  rebuild_image next s = Ok (opaque im).
Proof.
  intros Hi S next s s' Hy. pose proof Hi as (Hw & Hh & _). unfold zip_input, image_bytes in Hy. rewrite app_assoc in Hy.
  apply yields_app_inv in Hy as [s1 [Hy1 Hy2]]. unfold rebuild_image.
  rewrite (dims_deser _ _ Hw Hh _ _ _ _ Hy1), (buffer_ok _ Hi), rd_repeat_times, <- (img_len _ Hi).
  rewrite (times_yields _ _ _ _ (pixels_yield _ (img_rgb _ Hi) _ _ _ _ Hy2)). cbn [app]. now rewrite opaque_from.
Qed.
Lemma rebuild_stop im p r : img_ok im -> strict_prefix p (zip_input im) -> (r = Err \/ r = Panic) ->
  forall S (next : nextf S N) s, stops next s p r ->
  rebuild_image next s = match r with Panic => Panic | _ => Err end.
Proof.
  intros Hi Hp Hr S next s Hs. pose proof Hi as (Hw & Hh & _). unfold zip_input, image_bytes in Hp. rewrite app_assoc in Hp.
  unfold rebuild_image. apply strict_prefix_app in Hp as [Hp|[q [-> Hp]]].
  - destruct Hr as [-> | ->].
    + destruct Hs as [s1 [s2 [Hy Hn]]]. now rewrite (dims_trunc _ _ _ Hw Hh Hp _ _ _ _ _ Hy Hn).
    + pose proof (dims_panic _ _ _ Hw Hh Hp _ _ _ Hs) as E.
      destruct (deser (TPair TU32 TU32) S next s) as [v s']. cbn in E. now subst v.
  - destruct Hs as [s1 [s2 [Hy Hn]]]. apply yields_app_inv in Hy as [s3 [Hy1 Hy2]].
    rewrite (dims_deser _ _ Hw Hh _ _ _ _ Hy1), (buffer_ok _ Hi), rd_repeat_times, <- (img_len _ Hi).
    destruct (pixels_stop _ _ r (img_rgb _ Hi) Hp Hr S next s3 (ex_intro _ s1 (ex_intro _ s2 (conj Hy2 Hn))))
      as (a & c & b & E & _ & t1 & t2 & Y & N1).
    rewrite (times_short _ _ _ _ _ _ Y N1).
    + destruct Hr as [-> | ->]; reflexivity.
    + destruct Hr as [-> | ->]; discriminate.
    + rewrite E, app_length. cbn. lia.
Qed.

(** ** zip(dict) *)
Lemma zip_encode_dict pr caps fuel im : zip_encode pr caps fuel ZDict im = zip_dict_encode zip_bytes_next fuel (zip_bytes im).
Proof. reflexivity. Qed.
Lemma zip_encode_back pr caps fuel im : zip_encode pr caps fuel ZBack im = zip_back_encode zip_bytes_next pr caps fuel (zip_bytes im).
Proof. reflexivity. Qed.
Lemma zip_dict_lossless pr caps im fuel stack : img_ok im -> (length (zip_input im) < fuel)%nat -> (2 <= stack)%nat ->
  exists out, run_vec (zip_encode pr caps fuel ZDict im) = Ok out /\
  forall S (next : nextf S N) s s' pr2, yields next s out s' -> zip_decode pr2 stack ZDict next s = Ok (opaque im).
Proof.
  intros Hi Hf Hst. rewrite zip_encode_dict.
  destruct (dict_encodes _ zip_bytes_next (zip_bytes im) (zip_input im) fuel (zip_bytes_deliver _ Hi) (zip_input_u8 _ Hi) Hf) as [out [E _]].
  exists out. split; [exact E|]. intros S next s s' pr2 Hy. unfold zip_decode.
  destruct (dict_roundtrip _ zip_bytes_next (zip_bytes im) (zip_input im) fuel out (zip_bytes_deliver _ Hi) (zip_input_u8 _ Hi) Hf E
             S next s stack Hst) as [H _].
  destruct (H s' Hy) as [st [Y _]]. now apply rebuild_ok with (s' := st).
Qed.

Lemma greedy_cut {T} (next : nextf T N) d l syms : greedy d l syms ->
  forall st p s' s'' k, dict_ok d -> dec_rep st d -> dd_prev st = [] -> strict_prefix p (words syms) ->
  yields next (dd_stream st) p s' -> next s' = (Err, s'') ->
  exists l', strict_prefix l' l /\ expands d (firstn (2 * (length p / 4)) syms) l' Finished /\
    stops (dd_next next (S (S k))) st l' (if (length p mod 4 <? 2)%nat then Err else Panic).
Proof.
  assert (CS : forall d rest c s, dict_ok d -> longest d rest c s -> code_string d c = Some s /\ (c < 65535)%N).
  { intros d0 rest c s Hd HL. unfold code_string. pose proof (longest_u16 Hd HL).
    destruct (N.eqb_spec c 65535); [lia|]. split; [apply HL|assumption]. }
  assert (LE : forall c, (c mod 256 + 256 * (c / 256) = c)%N) by (intros c; pose proof (N.div_mod c 256); lia).
  (* fewer than four bytes left *)
  assert (Short : forall d l syms st p s' s'' k, l <> [] -> dd_prev st = [] -> (length p < 4)%nat ->
            yields next (dd_stream st) p s' -> next s' = (Err, s'') ->
            exists l', strict_prefix l' l /\ expands d (firstn (2 * (length p / 4)) syms) l' Finished /\
              stops (dd_next next (S (S k))) st l' (if (length p mod 4 <? 2)%nat then Err else Panic)).
  { intros d0 l0 syms0 st p s' s'' k Hl Hp HL Hy He. exists []. split.
    { destruct l0 as [|x l0]; [congruence|]. exists x, l0. reflexivity. }
    rewrite Nat.div_small, Nat.mod_small by lia. split; [constructor|].
    exists st. destruct p as [|b1 [|b2 p]].
    - eexists. split; [constructor|]. cbn [dd_next]. rewrite Hp.
      rewrite (@read_short T next (dd_stream st) [] s' s''); [reflexivity|cbn; lia|exact Hy|exact He].
    - eexists. split; [constructor|]. cbn [dd_next]. rewrite Hp.
      rewrite (@read_short T next (dd_stream st) [b1] s' s''); [reflexivity|cbn; lia|exact Hy|exact He].
    - eexists. split; [constructor|]. cbn [dd_next]. rewrite Hp.
      apply read_word in Hy as [t1 [R1 Hy]]. rewrite R1.
      rewrite (@read_short T next t1 p s' s''); [reflexivity|cbn in HL; lia|exact Hy|exact He]. }
  induction 1 as [d|d rest c HL Hne|d c1 s1 c2 s2 rest syms HL1 Hn1 HL2 Hn2 Hnin Hg IH]; intros st p s' s'' k Hd Hr Hp Hpre Hy He.
  - now apply strict_prefix_nil in Hpre.
  - apply Short with (s' := s') (s'' := s''); auto. apply strict_prefix_len in Hpre. exact Hpre.
  - assert (Hne : s1 ++ s2 ++ rest <> []) by (destruct s1; [congruence|discriminate]).
    unfold words in Hpre. cbn [flat_map] in Hpre. rewrite app_assoc in Hpre. fold (words syms) in Hpre.
    apply strict_prefix_app in Hpre as [Hpre|[q [-> Hpre]]].
    { apply Short with (s' := s') (s'' := s''); auto. apply strict_prefix_len in Hpre. exact Hpre. }
    destruct (CS _ _ _ _ Hd HL1) as [C1 B1]. destruct (CS _ _ _ _ Hd HL2) as [C2 B2].
    unfold le16 in Hy. cbn [app] in Hy.
    destruct (@dd_pair T next st d (c1 mod 256) (c1 / 256) (c2 mod 256) (c2 / 256) q s' s1 s2)
      as [st1 [En [Hr1 [Hp1 Hy1]]]]; try assumption.
    { rewrite LE. exact C1. }
    { rewrite LE. exact C2. }
    set (st2 := mkDD (dd_stream st1) [] (dd_mapping st1) (dd_abbrev st1)).
    assert (Hr2 : dec_rep st2 (grow d (s1 ++ s2))) by (destruct Hr1; split; assumption).
    destruct (IH st2 q s' s'' k) as (l' & Hl' & Hx & [t1 [t2 [Y1 N1]]]); try assumption; [|reflexivity|].
    { unfold grow. destruct (N.ltb_spec (N.of_nat (length d)) 65535); [|exact Hd].
      destruct HL1 as [Q1 _]. destruct HL2 as [Q2 _]. apply nth_error_In in Q1, Q2.
      pose proof (dk_key Hd) as HK. rewrite Forall_forall in HK. destruct (HK _ Q1) as [_ K1]. destruct (HK _ Q2) as [_ K2].
      split; [apply nodup_snoc; [apply Hd|exact Hnin]| |rewrite app_length; cbn; lia].
      apply Forall_app. split; [apply Hd|]. constructor; [|constructor].
      split; [destruct s1; [congruence|discriminate]|]. apply Forall_app. auto. }
    assert (L4 : length ((le16 c1 ++ le16 c2) ++ q) = (length q + 1 * 4)%nat).
    { rewrite app_length. change (length (le16 c1 ++ le16 c2)) with 4%nat. lia. }
    rewrite L4, Nat.mod_add, Nat.div_add by lia.
    exists (s1 ++ s2 ++ l'). split; [|split].
    + destruct Hl' as [x [r ->]]. exists x, r. now rewrite <- !app_assoc.
    + replace (2 * (length q / 4 + 1))%nat with (S (S (2 * (length q / 4)))) by lia. cbn [firstn].
      econstructor; eassumption.
    + exists t1, t2. split; [|exact N1]. destruct s1 as [|x s1]; [congruence|]. cbn [app] in *.
      econstructor; [rewrite En; apply dd_prev_next; exact Hp1|]. rewrite app_assoc.
      eapply yields_app; [|exact Y1].
      apply (@dd_drain T next (S k) (s1 ++ s2) (mkDD _ _ _ _) []). cbn. now rewrite app_nil_r.
Qed.
Lemma dict_cut T (next : nextf T N) s l fuel out p : delivers next s l -> Forall u8_ok l -> (length l < fuel)%nat ->
  run_vec (zip_dict_encode next fuel s) = Ok out -> strict_prefix p out ->
  forall S (next2 : nextf S N) s2 stack, (2 <= stack)%nat -> yields_all next2 s2 p ->
  exists syms l', greedy initial_dict l syms /\ expands initial_dict (firstn (2 * (length p / 4)) syms) l' Finished /\ strict_prefix l' l
  /\ stops (dd_next next2 stack) (zip_dict_decode s2) l' (if (length p mod 4 <? 2)%nat then Err else Panic).
Proof.
  intros Hs H8 Hf E Hp S next2 s2 stack Hst [s3 [s4 [Hy He]]].
  destruct (dict_encode_out _ _ _ _ _ _ Hs H8 Hf E) as [syms [Hg ->]]. clear E.
  destruct stack as [|[|k]]; try lia.
  destruct (greedy_cut next2 _ _ _ Hg (zip_dict_decode s2) p s3 s4 k initial_ok (dec_new_rep s2) eq_refl Hp Hy He) as (l' & H1 & H2 & H3).
  exists syms, l'. auto.
Qed.
Lemma zip_dict_truncated pr caps im fuel stack out p : img_ok im -> (length (zip_input im) < fuel)%nat -> (2 <= stack)%nat ->
  run_vec (zip_encode pr caps fuel ZDict im) = Ok out -> strict_prefix p out ->
  forall S (next : nextf S N) s pr2, yields_all next s p ->
  zip_decode pr2 stack ZDict next s = if (length p mod 4 <? 2)%nat then Err else Panic.
Proof.
  intros Hi Hf Hst E Hp S next s pr2 Hy. rewrite zip_encode_dict in E. unfold zip_decode.
  destruct (dict_cut _ zip_bytes_next (zip_bytes im) (zip_input im) fuel out p (zip_bytes_deliver _ Hi) (zip_input_u8 _ Hi) Hf E Hp
              S next s stack Hst Hy) as (syms & l' & _ & _ & Hl & Hs).
  rewrite (rebuild_stop im l' _ Hi Hl) with (s := zip_dict_decode s) (2 := Hs).
  - destruct (_ <? 2)%nat; reflexivity.
  - destruct (_ <? 2)%nat; auto.
Qed.

(** ** zip(back) *)
Lemma zip_back_lossless pr caps im fuel out : img_ok im -> (11 * (im_w im * im_h im) + 8 < 2 ^ 64)%N -> caps_ok caps ->
  (length (zip_input im) < fuel)%nat -> run_vec (zip_encode pr caps fuel ZBack im) = Ok out ->
  forall S (next : nextf S N) s s' pr2 stack, yields next s out s' -> zip_decode pr2 stack ZBack next s = Ok (opaque im).
Proof.
  intros Hi H64 Hc Hf E S next s s' pr2 stack Hy. rewrite zip_encode_back in E. unfold zip_decode.
  assert (HL : (N.of_nat (length (zip_input im)) < 2 ^ 64)%N) by (rewrite zip_input_len by exact Hi; rewrite N.add_comm; exact H64).
  destruct (back_roundtrip _ zip_bytes_next (zip_bytes im) (zip_input im) pr caps fuel out (zip_bytes_deliver _ Hi) (zip_input_u8 _ Hi)
             HL Hc Hf E S next s pr2) as [H _].
  destruct (H s' Hy) as [st [Y _]]. now apply rebuild_ok with (s' := st).
Qed.
Lemma zip_back_outcome pr caps im fuel : img_ok im -> caps_ok caps -> (length (zip_input im) < fuel)%nat ->
  run_vec (zip_encode pr caps fuel ZBack im) <> Err.
Proof.
  intros Hi Hc Hf. rewrite zip_encode_back. destruct (back_abort _ zip_bytes_next (zip_bytes im) (zip_input im) pr caps fuel (zip_bytes_deliver _ Hi) Hc Hf)
    as [syms [_ [H _]]]. exact H.
Qed.

Lemma symbols_cut syms : forall p, strict_prefix p (concat (map symbol_bytes syms)) ->
  exists a x b q, syms = a ++ x :: b /\ p = concat (map symbol_bytes a) ++ q /\ strict_prefix q (symbol_bytes x).
Proof.
  induction syms as [|x syms IH]; intros p Hp; cbn [map concat] in Hp.
  - now apply strict_prefix_nil in Hp.
  - apply strict_prefix_app in Hp as [Hp|[p' [-> Hp]]].
    + exists [], x, syms, p. auto.
    + destruct (IH _ Hp) as (a & y & b & q & -> & -> & Hq). exists (x :: a), y, b, q. split; [reflexivity|].
      split; [cbn [map concat]; now rewrite app_assoc|exact Hq].
Qed.
Lemma back_cut T (next : nextf T N) s l pr caps fuel out p :
  delivers next s l -> Forall u8_ok l -> (N.of_nat (length l) < 2 ^ 64)%N -> caps_ok caps -> (length l < fuel)%nat ->
  run_vec (zip_back_encode next pr caps fuel s) = Ok out -> strict_prefix p out ->
  forall S (next2 : nextf S N) s2 pr2, yields_all next2 s2 p ->
  exists syms a x b q, parses MAX_RING_BUFFER_SIZE [] [] l syms /\ out = concat (map symbol_bytes syms)
    /\ syms = a ++ x :: b /\ p = concat (map symbol_bytes a) ++ q /\ strict_prefix q (symbol_bytes x)
    /\ strict_prefix (text [] a) l
    /\ stops (bd_next next2 MAX_RING_BUFFER_SIZE pr2) (zip_back_decode s2) (text [] a) (cut_outcome x q).
Proof.
  intros Hd H8 H64 Hc Hf E Hp S next2 s2 pr2 [e1 [e2 [Hy He]]].
  destruct (back_ok_inv _ _ _ _ _ _ _ _ Hd Hc Hf E) as (syms & HP & HL & ->). clear E.
  destruct (symbols_cut _ _ Hp) as (a & x & b & q & Es & -> & Hq). exists syms, a, x, b, q.
  split; [exact HP|]. split; [reflexivity|]. split; [exact Es|]. split; [reflexivity|]. split; [exact Hq|].
  pose proof (parses_text HP [] eq_refl) as Ht. cbn [app] in Ht.
  pose proof (parses_fits HP [] eq_refl) as HF.
  assert (Hok : Forall symbol_ok syms).
  { pose proof (parses_near max_pos max_16 HP) as Hn. apply Forall_forall. intros y Hx.
    rewrite Forall_forall in Hn, HL. specialize (Hn y Hx). specialize (HL y Hx).
    destruct y as [data|len back]; split; try assumption. rewrite <- Ht in H8. eapply Forall_text; eassumption. }
  rewrite Es in Ht, HF, Hok. rewrite text_app in Ht. cbn [text] in Ht. apply fits_app in HF as [HF1 HF2].
  apply Forall_app in Hok as [Ho1 Ho2]. apply Forall_inv in Ho2. cbn [fits app] in HF2. destruct HF2 as [Hne _]. cbn [app] in Ht. split.
  { rewrite <- Ht. destruct (symbol_text (text [] a) x) as [|y t]; [congruence|]. do 2 eexists. reflexivity. }
  apply yields_app_inv in Hy as [s3 [Hy1 Hy2]].
  destruct (@decode_symbols S next2 _ max_pos pr2 a [] _ s2 s3 (ring_new _) HF1 Ho1) as [hist [H1 _]].
  { rewrite <- Ht in H64. rewrite app_length in H64. cbn [length Nat.add]. lia. }
  { exact Hy1. }
  pose proof (symbol_truncated x q Ho2 Hq S next2 s3 e1 e2 Hy2 He) as Ed.
  exists (mkBD s3 hist []). unfold bd_next at 2, decode_next. cbn [bd_decoded bd_iter bd_history].
  unfold cut_outcome. rewrite Ed. destruct x as [data|len back].
  - destruct (2 <=? length q)%nat; eexists; (split; [exact H1|reflexivity]).
  - eexists; split; [exact H1|reflexivity].
Qed.
Lemma zip_back_truncated pr caps im fuel stack out p : img_ok im -> (11 * (im_w im * im_h im) + 8 < 2 ^ 64)%N -> caps_ok caps ->
  (length (zip_input im) < fuel)%nat -> run_vec (zip_encode pr caps fuel ZBack im) = Ok out -> strict_prefix p out ->
  forall S (next : nextf S N) s pr2, yields_all next s p ->
  exists syms a x b q, parses MAX_RING_BUFFER_SIZE [] [] (zip_input im) syms /\ out = concat (map symbol_bytes syms)
    /\ syms = a ++ x :: b /\ p = concat (map symbol_bytes a) ++ q /\ strict_prefix q (symbol_bytes x)
    /\ zip_decode pr2 stack ZBack next s = cut_outcome x q.
Proof.
  intros Hi H64 Hc Hf E Hp S next s pr2 Hy. rewrite zip_encode_back in E. unfold zip_decode.
  assert (HL : (N.of_nat (length (zip_input im)) < 2 ^ 64)%N) by (rewrite zip_input_len by exact Hi; rewrite N.add_comm; exact H64).
  destruct (back_cut _ zip_bytes_next (zip_bytes im) (zip_input im) pr caps fuel out p (zip_bytes_deliver _ Hi) (zip_input_u8 _ Hi)
              HL Hc Hf E Hp S next s pr2 Hy) as (syms & a & x & b & q & H1 & H2 & H3 & H4 & H5 & H6 & H7).
  exists syms, a, x, b, q. split; [exact H1|]. split; [exact H2|]. split; [exact H3|]. split; [exact H4|]. split; [exact H5|].
  assert (Ho : @cut_outcome N x q = Err \/ @cut_outcome N x q = Panic).
  { unfold cut_outcome. destruct x; [destruct (2 <=? length q)%nat|]; auto. }
  rewrite (rebuild_stop im _ _ Hi H6 Ho _ _ _ H7). unfold cut_outcome. destruct x; [destruct (2 <=? length q)%nat|]; reflexivity.
Qed.
