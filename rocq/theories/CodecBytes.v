(** * Lemmas for the image codecs: bytes of an image, Hufman, Zip. *)
From Verif Require Import Base Ser SerSpec SerProofs Bit BitSpec BitProofs Utils Huf HufSpec HufProofs HufTop Dict DictSpec DictProofs DictEnc
  Back BackSpec BackProofs BackDec BackLong Img Float HilbertC CodecSpec.
From Coq Require Import ZifyBool ZifyNat ZifyN.

Lemma ok_inj {A} (a b : A) : Ok a = Ok b -> a = b.
Proof. congruence. Qed.

(** ** Formats *)
Lemma dims_format w h : format (TPair TU32 TU32) (w, h) = Some (le32 w ++ le32 h).
Proof. cbn [format fst snd]. now rewrite app_opt_eq. Qed.
Lemma dims_emits w h : u32_ok w -> u32_ok h -> emits (ser (TPair TU32 TU32) (w, h)) (le32 w ++ le32 h) (Ok tt).
Proof. intros Hw Hh. refine (so_ok (ser_ty_ok (TPair TU32 TU32)) (w, h) _ (dims_format w h)). split; assumption. Qed.
Lemma dims_deser w h : u32_ok w -> u32_ok h -> forall S (next : nextf S N) s s', yields next s (le32 w ++ le32 h) s' ->
  deser (TPair TU32 TU32) S next s = (Ok (w, h), s').
Proof.
  intros Hw Hh S next s s' Hy. refine (do_rt (deser_ty_ok (TPair TU32 TU32)) (w, h) _ (dims_format w h) Hy). split; assumption.
Qed.
Lemma dims_trunc w h p : u32_ok w -> u32_ok h -> strict_prefix p (le32 w ++ le32 h) ->
  forall S (next : nextf S N) s s1 s2, yields next s p s1 -> next s1 = (Err, s2) ->
  deser (TPair TU32 TU32) S next s = (Err, s2).
Proof.
  intros Hw Hh Hp S next s s1 s2 Hy Hn.
  refine (do_trunc (deser_ty_ok (TPair TU32 TU32)) (w, h) _ (dims_format w h) Hp Hy Hn). split; assumption.
Qed.

Lemma pixel_format c : format (TRgb TU8) c = Some (pixel_bytes c).
Proof. destruct c as [[r g] b]. reflexivity. Qed.
Lemma rgb_wf c : rgb_ok c <-> wf (TRgb TU8) c.
Proof. destruct c as [[r g] b]. reflexivity. Qed.
Lemma pixel_emits c : rgb_ok c -> emits (ser (TRgb TU8) c) (pixel_bytes c) (Ok tt).
Proof. intros Hc. exact (so_ok (ser_ty_ok (TRgb TU8)) c (proj1 (rgb_wf c) Hc) (pixel_format c)). Qed.
Lemma pixel_deser c : rgb_ok c -> forall S (next : nextf S N) s s', yields next s (pixel_bytes c) s' ->
  deser (TRgb TU8) S next s = (Ok c, s').
Proof. intros Hc S next s s' Hy. exact (do_rt (deser_ty_ok (TRgb TU8)) c (proj1 (rgb_wf c) Hc) (pixel_format c) Hy). Qed.
Lemma pixel_trunc c p : rgb_ok c -> strict_prefix p (pixel_bytes c) -> forall S (next : nextf S N) s s1 s2,
  yields next s p s1 -> next s1 = (Err, s2) -> deser (TRgb TU8) S next s = (Err, s2).
Proof.
  intros Hc Hp S next s s1 s2 Hy Hn.
  exact (do_trunc (deser_ty_ok (TRgb TU8)) c (proj1 (rgb_wf c) Hc) (pixel_format c) Hp Hy Hn).
Qed.
Lemma pixels_format l : concat_opt (map (format (TRgb TU8)) l) = Some (concat (map pixel_bytes l)).
Proof. induction l as [|c l IH]; [reflexivity|]. cbn [map concat_opt concat]. now rewrite pixel_format, IH. Qed.
Lemma pixels_wf l : Forall rgb_ok l -> Forall (wf (TRgb TU8)) l.
Proof. apply Forall_impl. intros c. apply rgb_wf. Qed.

Lemma le32_u8 n : u32_ok n -> Forall u8_ok (le32 n).
Proof. intros H. rewrite <- le32_eq by exact H. apply le_bytes_u8. Qed.
Lemma pixel_u8 c : rgb_ok c -> Forall u8_ok (pixel_bytes c).
Proof. destruct c as [[r g] b]. intros (Hr & Hg & Hb). unfold pixel_bytes. repeat constructor; try assumption; unfold u8_ok; lia. Qed.
Lemma pixels_u8 l : Forall rgb_ok l -> Forall u8_ok (concat (map pixel_bytes l)).
Proof.
  induction 1 as [|c l Hc Hl IH]; [constructor|]. cbn [map concat]. apply Forall_app. split; [now apply pixel_u8|exact IH].
Qed.
Lemma image_u8 w h px : u32_ok w -> u32_ok h -> Forall rgb_ok px -> Forall u8_ok (image_bytes w h px).
Proof.
  intros Hw Hh Hp. unfold image_bytes. repeat (apply Forall_app; split); auto using le32_u8, pixels_u8.
Qed.

(** ** Images *)
Lemma img_rgb im : img_ok im -> Forall rgb_ok (map to_rgb (im_px im)).
Proof. intros (_ & _ & _ & _ & H). apply Forall_map. eapply Forall_impl; [|exact H]. intros p [Hp _]. exact Hp. Qed.
Lemma img_len im : img_ok im -> length (map to_rgb (im_px im)) = N.to_nat (im_w im * im_h im).
Proof. intros (_ & _ & _ & H & _). rewrite map_length. lia. Qed.
Lemma opaque_from im : from_rgb (im_w im) (im_h im) (map to_rgb (im_px im)) = opaque im.
Proof. unfold from_rgb, opaque. now rewrite map_map. Qed.
Lemma buffer_ok im : img_ok im -> buffer_new (im_w im) (im_h im) = Ok (repeat black (N.to_nat (im_w im * im_h im))).
Proof. intros (_ & _ & H & _). unfold buffer_new. apply N.ltb_lt in H. now rewrite H. Qed.
Lemma opaque_id im : opaque im = im <-> is_opaque im.
Proof.
  unfold opaque, is_opaque. destruct im as [w h px]. cbn. split.
  - intros [= E]. induction px as [|[c a] px IH]; [constructor|]. cbn in E. injection E as E1 E2. constructor; [now symmetry|auto].
  - intros H. f_equal. induction H as [|[c a] px Ha H IH]; [reflexivity|]. cbn in *. rewrite IH. now subst.
Qed.

Lemma rgb_eqb_ok : eqb_ok rgb_eqb.
Proof.
  intros [[a b] c] [[d e] f]. unfold rgb_eqb. rewrite !Bool.andb_true_iff, !N.eqb_eq. split.
  - intros [[-> ->] ->]. reflexivity.
  - intros [= -> -> ->]. auto.
Qed.

(** ** rd_times of an iterator *)
Lemma times_yields {S A} (next : nextf S A) s l s' : yields next s l s' -> forall acc,
  rd_times next (length l) acc s = (Ok (acc ++ l), s').
Proof.
  induction 1 as [s|s x s1 l s2 Hn Hy IH]; intros acc; cbn [length rd_times].
  - unfold rd_ret. now rewrite app_nil_r.
  - unfold rd_bind. rewrite Hn, IH, <- app_assoc. reflexivity.
Qed.
Lemma times_short {S A} (next : nextf S A) s l s' s'' r : yields next s l s' -> next s' = (r, s'') -> (forall x, r <> Ok x) ->
  forall acc k, (length l < k)%nat -> rd_times next k acc s = (match r with Panic => Panic | _ => Err end, s'').
Proof.
  intros Hy Hn Hr. induction Hy as [s|s x s1 l s2 Hx Hy IH]; intros acc k Hk; (destruct k as [|k]; [cbn in Hk; lia|]);
    cbn [rd_times]; unfold rd_bind.
  - rewrite Hn. destruct r as [x| |]; [now destruct (Hr x)|reflexivity|reflexivity].
  - rewrite Hx. apply IH; [exact Hn|]. cbn in Hk. lia.
Qed.

(** ** Hufman *)
Lemma staged_append w hdr pay lastb : room w = None -> flush_fails w = false ->
  staged hdr pay lastb w = (Ok tt, mkW (written w ++ hdr ++ pay ++ lastb) None false).
Proof.
  destruct w as [o r f]. cbn [room flush_fails written]. intros -> ->.
  unfold staged, io_bind, io_unwrap, write_all, flush. cbn. now rewrite <- !app_assoc.
Qed.
Lemma vec_append w hdr pay lastb bs : written w = bs -> room w = None -> flush_fails w = false ->
  (let '(r, w) := staged hdr pay lastb w in match r with Ok _ => Ok (written w) | Err => Err | Panic => Panic end)
  = Ok (bs ++ hdr ++ pay ++ lastb).
Proof. intros <- Hr Hf. rewrite staged_append by assumption. reflexivity. Qed.

Lemma hufman_run ord H im : img_ok im -> ord_ok ord -> heap_ok suffix_cmp H -> im_px im <> [] ->
  exists tree pay lastb hdr,
    enc_run rgb_eqb (wf (TRgb TU8)) (format (TRgb TU8)) (ser (TRgb TU8)) ord H (map to_rgb (im_px im)) tree pay lastb
    /\ trie_format (format (TRgb TU8)) tree = Some hdr.
Proof.
  intros Hi Ho HH Hne. apply (@run_of_encodable (TRgb TU8) rgb_eqb rgb_eqb_ok ord Ho H HH).
  - destruct (im_px im); [contradiction|discriminate].
  - apply Forall_forall. intros c Hc. split.
    + apply rgb_wf. exact (proj1 (Forall_forall _ _) (img_rgb _ Hi) c Hc).
    + exists (pixel_bytes c). apply pixel_format.
Qed.
Lemma hufman_out ord H im tree pay lastb hdr : img_ok im ->
  enc_run rgb_eqb (wf (TRgb TU8)) (format (TRgb TU8)) (ser (TRgb TU8)) ord H (map to_rgb (im_px im)) tree pay lastb ->
  trie_format (format (TRgb TU8)) tree = Some hdr ->
  run_vec (hufman_encode ord H im) = Ok ((le32 (im_w im) ++ le32 (im_h im)) ++ hdr ++ pay ++ lastb).
Proof.
  intros (Hw & Hh & _) R Eh. unfold run_vec, hufman_encode, io_bind. rewrite (dims_emits _ _ Hw Hh).
  unfold put, io_bind, write_all, vec_writer, io_lift. cbn [room written flush_fails].
  rewrite (er_ok R Eh). now apply vec_append.
Qed.

Lemma create_ok im : img_ok im -> forall S (next : nextf S N) s s', yields next s (le32 (im_w im) ++ le32 (im_h im)) s' ->
  create_image_buffer_standard next s = (Ok (im_w im, im_h im, repeat black (N.to_nat (im_w im * im_h im))), s').
Proof.
  intros Hi S next s s' Hy. pose proof Hi as (Hw & Hh & _).
  unfold create_image_buffer_standard, rd_bind. rewrite (dims_deser _ _ Hw Hh _ _ _ _ Hy). cbn [fst snd].
  unfold rd_lift. rewrite (buffer_ok _ Hi). reflexivity.
Qed.
Lemma create_trunc im p : img_ok im -> strict_prefix p (le32 (im_w im) ++ le32 (im_h im)) ->
  forall S (next : nextf S N) s, yields_all next s p -> fst (create_image_buffer_standard next s) = Err.
Proof.
  intros (Hw & Hh & _) Hp S next s [s1 [s2 [Hy Hn]]]. unfold create_image_buffer_standard, rd_bind.
  now rewrite (dims_trunc _ _ p Hw Hh Hp _ _ _ _ _ Hy Hn).
Qed.

Lemma hufman_lossless ord H im : img_ok im -> ord_ok ord -> heap_ok suffix_cmp H -> im_px im <> [] ->
  exists out, run_vec (hufman_encode ord H im) = Ok out /\
  forall S (next : nextf S N) s s', yields next s out s' ->
  exists f0, forall fuel, (f0 <= fuel)%nat -> hufman_decode fuel next s = Some (Ok (opaque im)).
Proof.
  intros Hi Ho HH Hne. destruct (hufman_run ord H im Hi Ho HH Hne) as [tr [pay [lb [hdr [R Eh]]]]].
  exists ((le32 (im_w im) ++ le32 (im_h im)) ++ hdr ++ pay ++ lb). split; [eapply hufman_out; eassumption|].
  intros S next s s' Hy. apply yields_app_inv in Hy as [s1 [Hy1 Hy2]]. apply yields_app_inv in Hy2 as [s2 [Hy2 Hy3]].
  exists (depth tr). intros fuel Hf. unfold hufman_decode. rewrite (create_ok _ Hi _ _ _ _ Hy1).
  unfold huf_decode_all. rewrite (deser_trie_rt (deser_ty_ok (TRgb TU8)) tr (er_P R) Eh Hf Hy2).
  destruct (er_bits R) as [k [Hk Hbits]].
  pose proof (br_prefix MsbFirst Hy3) as Hbr. rewrite Hbits in Hbr. apply yields_app_inv in Hbr as [br1 [Hbr _]].
  assert (Y : yields (dec_next tr next) (bit_reader s2) (map to_rgb (im_px im)) br1).
  { unfold dec_next. apply lookup_seq with (code := code_in rgb_eqb tr); [|exact Hbr].
    intros x Hx. apply (code_in_path rgb_eqb_ok), (er_leaves R), Hx. }
  rewrite rd_repeat_times, <- (img_len _ Hi), (times_yields _ _ _ _ Y). cbn [app]. now rewrite opaque_from.
Qed.

(** ** A Huffman payload cut short *)
Lemma lookup_short {A} (t : bintrie A) bits v : path t bits v -> forall c, strict_prefix c bits ->
  forall S (next : nextf S bool) s s1 s2, yields next s c s1 -> next s1 = (Err, s2) -> trie_lookup t next s = (Err, s2).
Proof.
  induction 1 as [v|l r bits v Hp IH|l r bits v Hp IH]; intros c Hc S next s s1 s2 Hy Hn; cbn [trie_lookup].
  - now apply strict_prefix_nil in Hc.
  - apply strict_prefix_cons in Hc as [->|[c' [-> Hc]]].
    + inversion Hy; subst. now rewrite Hn.
    + apply yields_cons_inv in Hy as [s3 [H1 H2]]. rewrite H1. eauto.
  - apply strict_prefix_cons in Hc as [->|[c' [-> Hc]]].
    + inversion Hy; subst. now rewrite Hn.
    + apply yields_cons_inv in Hy as [s3 [H1 H2]]. rewrite H1. eauto.
Qed.
Lemma cut_codes {A} (code : A -> list bool) items : forall b, strict_prefix b (flat_map code items) ->
  exists l x r c, items = l ++ x :: r /\ b = flat_map code l ++ c /\ strict_prefix c (code x).
Proof.
  induction items as [|x items IH]; intros b Hb; cbn [flat_map] in Hb.
  - now apply strict_prefix_nil in Hb.
  - apply strict_prefix_app in Hb as [Hb|[b' [-> Hb]]].
    + exists [], x, items, b. auto.
    + destruct (IH _ Hb) as (l & y & r & c & -> & -> & Hc). exists (x :: l), y, r, c.
      split; [reflexivity|]. split; [|exact Hc]. cbn [flat_map]. now rewrite app_assoc.
Qed.
Lemma total_flat {A} (code : A -> list bool) items : total_bits items code = N.of_nat (length (flat_map code items)).
Proof.
  unfold total_bits. induction items as [|x items IH]; [reflexivity|]. cbn [map fold_right flat_map]. rewrite IH, app_length. lia.
Qed.
Lemma strict_prefix_len {A} (p l : list A) : strict_prefix p l -> (length p < length l)%nat.
Proof. intros [x [r ->]]. rewrite app_length. cbn. lia. Qed.
Lemma strict_prefix_of_app {A} (a b r c : list A) : a ++ r = b ++ c -> (length a < length b)%nat -> strict_prefix a b.
Proof.
  revert b. induction a as [|x a IH]; intros b E L.
  - destruct b as [|y b]; [cbn in L; lia|]. exists y, b. reflexivity.
  - destruct b as [|y b]; [cbn in L; lia|]. cbn in E. injection E as -> E. cbn in L.
    destruct (IH b E ltac:(lia)) as [z [t ->]]. exists z, t. reflexivity.
Qed.

Section Cut.
  Context {A : Type} (eqb : A -> A -> bool) (P : A -> Prop) (fmt : A -> option (list N)) (sa : A -> io unit)
    (ord : list (A * N) -> list (A * N)) (H : heap (suffix A)) (items : list A) (tr : bintrie A) (pay lastb : list N).
  Hypothesis Heqb : eqb_ok eqb.
  Hypothesis R : enc_run eqb P fmt sa ord H items tr pay lastb.

  Lemma payload_cut q S (next : nextf S N) s : strict_prefix q (pay ++ lastb) -> yields_all next s q ->
    exists l x r b1 b2, items = l ++ x :: r
      /\ (total_bits l (code_in eqb tr) <= 8 * N.of_nat (length q) < total_bits (l ++ [x]) (code_in eqb tr))%N
      /\ yields (dec_next tr next) (bit_reader s) l b1
      /\ dec_next tr next b1 = (Err, b2) /\ dec_next tr next b2 = (Err, b2).
  Proof using Heqb R.
    intros Hq [s1 [s2 [Hy Hn]]]. destruct (er_bits R) as [k [Hk Hbits]].
    assert (Hp : forall x, In x items -> path tr (code_in eqb tr x) x).
    { intros x Hx. apply (code_in_path Heqb), (er_leaves R), Hx. }
    assert (Hs : strict_prefix (bytes_bits MsbFirst q) (flat_map (code_in eqb tr) items)).
    { destruct Hq as [y [t Eq]]. rewrite Eq in Hbits. unfold bytes_bits in Hbits |- *. rewrite flat_map_app in Hbits.
      apply (strict_prefix_of_app _ _ _ _ Hbits).
      apply (f_equal (@length _)) in Hbits. rewrite !app_length, repeat_length in Hbits.
      assert (L8 : (8 <= length (flat_map (byte_bits MsbFirst) (y :: t)))%nat).
      { cbn [flat_map]. rewrite app_length. change 8%nat with (length (byte_bits MsbFirst y)). lia. }
      lia. }
    destruct (cut_codes _ _ _ Hs) as (l & x & r & c & E & Eb & Hc).
    exists l, x, r. pose proof (br_prefix MsbFirst Hy) as Hbr. rewrite Eb in Hbr.
    apply yields_app_inv in Hbr as [b1 [Y1 Y2]].
    exists b1, (mkBR [] s2 true).
    assert (Nx : br_next next MsbFirst (mkBR [] s1 false) = (Err, mkBR [] s2 true)).
    { unfold br_next. cbn [br_buf br_done br_src]. now rewrite Hn. }
    split; [exact E|]. split.
    { rewrite !total_flat, flat_map_app. cbn [flat_map]. rewrite !app_length. cbn [length].
      assert (L : (8 * length q = length (flat_map (code_in eqb tr) l) + length c)%nat).
      { rewrite <- bytes_bits_length with (bo := MsbFirst), Eb, app_length. reflexivity. }
      apply strict_prefix_len in Hc. lia. }
    split; [|split].
    - unfold dec_next. apply lookup_seq with (code := code_in eqb tr); [|exact Y1].
      intros y Hin. apply Hp. rewrite E. apply in_or_app. now left.
    - unfold dec_next. apply (lookup_short tr (code_in eqb tr x) x) with (c := c) (s1 := mkBR [] s1 false); auto.
      apply Hp. rewrite E. apply in_or_app. right. now left.
    - unfold dec_next. apply (lookup_short tr (code_in eqb tr x) x) with (c := []) (s1 := mkBR [] s2 true).
      + apply Hp. rewrite E. apply in_or_app. right. now left.
      + destruct Hc as [y [t ->]]. destruct c as [|z c]; [exists y, t|exists z, (c ++ y :: t)]; reflexivity.
      + constructor.
      + reflexivity.
  Qed.
End Cut.

Lemma hufman_truncated ord H im out p : img_ok im -> ord_ok ord -> heap_ok suffix_cmp H -> im_px im <> [] ->
  run_vec (hufman_encode ord H im) = Ok out -> strict_prefix p out ->
  forall S (next : nextf S N) s, yields_all next s p ->
  exists f0, forall fuel, (f0 <= fuel)%nat -> hufman_decode fuel next s = Some Err.
Proof.
  intros Hi Ho HH Hne Eo Hp S next s Hy. destruct (hufman_run ord H im Hi Ho HH Hne) as [tr [pay [lb [hdr [R Eh]]]]].
  rewrite (hufman_out _ _ _ _ _ _ _ Hi R Eh) in Eo. apply ok_inj in Eo. subst out.
  exists (depth tr). intros fuel Hf. unfold hufman_decode. apply strict_prefix_app in Hp as [Hp|[p' [-> Hp]]].
  - pose proof (create_trunc _ p Hi Hp _ _ _ Hy) as E.
    destruct (create_image_buffer_standard next s) as [[[[w h] b]| |] s']; cbn in E; try discriminate. reflexivity.
  - destruct Hy as [e1 [e2 [Hy He]]]. apply yields_app_inv in Hy as [s1 [Hy1 Hy2]].
    rewrite (create_ok _ Hi _ _ _ _ Hy1). unfold huf_decode_all. apply strict_prefix_app in Hp as [Hp|[q [-> Hp]]].
    + now rewrite (deser_trie_trunc (deser_ty_ok (TRgb TU8)) tr (er_P R) Eh Hp Hf Hy2 He).
    + apply yields_app_inv in Hy2 as [s2 [Hy2 Hy3]].
      rewrite (deser_trie_rt (deser_ty_ok (TRgb TU8)) tr (er_P R) Eh Hf Hy2).
      destruct (payload_cut _ _ _ _ _ _ _ _ _ _ rgb_eqb_ok R q _ next s2 Hp (ex_intro _ e1 (ex_intro _ e2 (conj Hy3 He))))
        as (l & x & r & b1 & b2 & E & _ & Y1 & N1 & N2).
      rewrite rd_repeat_times.
      rewrite (times_short _ _ _ _ _ _ Y1 N1).
      * cbn [val] in *. now rewrite N2.
      * discriminate.
      * rewrite <- (img_len _ Hi), E, app_length. cbn. lia.
Qed.
Lemma hufman_empty ord H im : im_px im = [] -> u32_ok (im_w im) -> u32_ok (im_h im) -> ord_ok ord -> heap_ok suffix_cmp H ->
  run_vec (hufman_encode ord H im) = Panic.
Proof.
  intros E Hw Hh Ho HH. unfold run_vec, hufman_encode, io_bind. rewrite (dims_emits _ _ Hw Hh).
  unfold put, io_bind, write_all, vec_writer, io_lift. cbn [room written flush_fails]. rewrite E. cbn [map].
  now rewrite (@huf_empty (TRgb TU8) rgb_eqb ord Ho H HH).
Qed.
