(** * The Hilbert and Delta codecs: outputs, decoding, truncated data. *)
From Verif Require Import Base Ser SerSpec SerProofs Bit BitSpec BitProofs Utils UtilsProofs Huf HufSpec HufProofs HufTop
  Dict DictSpec DictProofs DictEnc Back BackSpec Img Float HilbertC CodecSpec CodecBytes CodecZip CodecHilbert.
From Coq Require Import ZifyBool ZifyNat ZifyN.

(** ** hilbert(rle) *)
Definition blank (im : img) : list (rgb N) := repeat black (N.to_nat (im_w im * im_h im)).
Lemma dims_length im : length (dims im) = 8%nat.
Proof. reflexivity. Qed.

Lemma firstn_exact {A} (a b : list A) : firstn (length a) (a ++ b) = a.
Proof. rewrite firstn_app, Nat.sub_diag, firstn_all. cbn. apply app_nil_r. Qed.
Lemma rle_encode_out scan fuel d im out : img_ok im -> Forall (inside (im_w im) (im_h im)) (scan (im_w im) (im_h im)) ->
  (if feq d (f64_of_N 0) then yields_all rle_next (rle_exact rgb_eqb (colours im (scan (im_w im) (im_h im)))) out
   else yields_all rle_next (rle_approx (colours im (scan (im_w im) (im_h im))) d) out) ->
  Forall run_ok out -> (length out < fuel)%nat ->
  run_vec (hilbert_encode scan fuel (RLE d) im) = Ok (dims im ++ runs_bytes out).
Proof.
  intros Hi Hs Hout Hr Hf. pose proof Hi as (Hw & Hh & _). refine (emits_run_vec (r := Ok tt) _).
  unfold hilbert_encode. eapply emits_bind; [now apply dims_emits|].
  rewrite (linearize_ok _ _ Hi Hs). change (runs_bytes out) with ([] ++ runs_bytes out).
  eapply emits_bind; [apply emits_lift|]. rewrite map_map. fold (colours im (scan (im_w im) (im_h im))).
  destruct (feq d (f64_of_N 0)); now apply rle_write_emits.
Qed.
Lemma rle_decode_out scan stack d im runs : img_ok im -> Forall (inside (im_w im) (im_h im)) (scan (im_w im) (im_h im)) ->
  Forall run_ok runs -> length (expand runs) = length (scan (im_w im) (im_h im)) ->
  forall S (next : nextf S N) s s', yields next s (dims im ++ runs_bytes runs) s' ->
  hilbert_decode scan stack (RLE d) next s = Ok (from_rgb (im_w im) (im_h im) (painted (im_w im) (scan (im_w im) (im_h im)) (expand runs) (blank im))).
Proof.
  intros Hi Hs Hr HL S next s s' Hy. pose proof Hi as (Hw & Hh & _). apply yields_app_inv in Hy as [s1 [Hy1 Hy2]].
  unfold hilbert_decode. rewrite (dims_deser _ _ Hw Hh _ _ _ _ Hy1). unfold decode_any. rewrite (buffer_ok _ Hi).
  cbn [res_bind]. destruct (rle_dec_yields next runs Hr s1 s' black Hy2) as [c Y].
  now rewrite (paint_yields _ _ _ _ _ _ _ _ Hs Y) by lia.
Qed.
Lemma rle_decode_cut scan stack d im runs p : img_ok im -> Forall (inside (im_w im) (im_h im)) (scan (im_w im) (im_h im)) ->
  Forall run_ok runs -> length (expand runs) = length (scan (im_w im) (im_h im)) -> strict_prefix p (dims im ++ runs_bytes runs) ->
  forall S (next : nextf S N) s, yields_all next s p ->
  hilbert_decode scan stack (RLE d) next s =
  if (length p <? 8)%nat then Err
  else if ((length p - 8) mod 12 =? 0)%nat
       then Ok (from_rgb (im_w im) (im_h im)
                 (painted (im_w im) (scan (im_w im) (im_h im)) (expand (firstn ((length p - 8) / 12) runs)) (blank im)))
       else Panic.
Proof.
  intros Hi Hs Hr HL Hp S next s Hy. pose proof Hi as (Hw & Hh & _). unfold hilbert_decode.
  destruct Hy as [e1 [e2 [Hy He]]]. apply strict_prefix_app in Hp as [Hp|[q [-> Hp]]].
  - rewrite (dims_trunc _ _ p Hw Hh Hp _ _ _ _ _ Hy He). apply strict_prefix_len in Hp. rewrite dims_length in Hp.
    destruct (Nat.ltb_spec (length p) 8); [reflexivity|lia].
  - apply yields_app_inv in Hy as [s1 [Hy1 Hy2]]. rewrite (dims_deser _ _ Hw Hh _ _ _ _ Hy1).
    rewrite app_length, dims_length. replace (8 + length q - 8)%nat with (length q) by lia.
    destruct (Nat.ltb_spec (8 + length q) 8); [lia|].
    destruct (rle_dec_stops next runs q Hr Hp s1 (ex_intro _ e1 (ex_intro _ e2 (conj Hy2 He)))) as (a & x & b & E & La & St).
    unfold decode_any. rewrite (buffer_ok _ Hi). cbn [res_bind].
    assert (Ea : firstn (length q / 12) runs = a) by (rewrite <- La, E; apply firstn_exact).
    assert (Lt : (length (expand a) < length (scan (im_w im) (im_h im)))%nat).
    { rewrite <- HL, E. rewrite expand_app, app_length. rewrite E in Hr. apply Forall_app in Hr as [_ Hr].
      apply expand_length in Hr. cbn [length] in Hr. lia. }
    rewrite (paint_stops _ _ _ _ _ _ _ _ Hs St); [|destruct (length q mod 12 =? 0)%nat; discriminate|exact Lt].
    rewrite Ea. now destruct (length q mod 12 =? 0)%nat.
Qed.

Lemma exact_coded l : Forall rgb_ok l -> exists runs, greedy_runs (joins_exact rgb_eqb) l runs
  /\ yields_all rle_next (rle_exact rgb_eqb l) (coded (hd black) runs)
  /\ Forall run_ok (coded (hd black) runs)
  /\ (length runs <= length l)%nat
  /\ forall k, expand (firstn k (coded (hd black) runs)) = firstn (length (concat (firstn k runs))) l.
Proof.
  intros Hl. destruct (exact_runs rgb_eqb black l rgb_eqb_ok) as (runs & G & Y & F). exists runs.
  split; [exact G|]. split; [exact Y|]. pose proof (runs_count _ _ _ G) as HL. destruct G as (G1 & G2 & _). repeat split.
  - apply Forall_forall. intros [n c] H. unfold coded in H. apply in_map_iff in H as [r [E H]]. injection E as <- <-.
    pose proof (proj1 (Forall_forall _ _) G2 r H) as Lr. unfold run_ok. cbn [fst snd]. split; [unfold rgb in *; lia|].
    destruct r as [|c r]; [cbn in Lr; lia|]. cbn [hd]. apply (proj1 (Forall_forall _ _) Hl). rewrite <- G1.
    apply in_concat. exists (c :: r). split; [exact H|now left].
  - exact HL.
  - intros k. unfold coded. rewrite firstn_map. fold (coded (hd black) (firstn k runs)).
    rewrite expand_exact.
    + pose proof (firstn_skipn k runs) as Es. apply (f_equal (@concat _)) in Es. rewrite concat_app, G1 in Es.
      rewrite <- Es at 1. now rewrite firstn_exact.
    + apply Forall_forall. intros r Hr. apply (proj1 (Forall_forall _ _) F). rewrite <- (firstn_skipn k runs). apply in_or_app. now left.
Qed.
Lemma greedy_total {T} (joins : list T -> T -> bool) l runs : greedy_runs joins l runs -> length (concat runs) = length l.
Proof. now intros [-> _]. Qed.
Lemma expand_all runs l : greedy_runs (joins_exact rgb_eqb) l runs ->
  (forall k, expand (firstn k (coded (hd black) runs)) = firstn (length (concat (firstn k runs))) l) ->
  expand (coded (hd black) runs) = l.
Proof.
  intros [G _] H. specialize (H (length runs)). unfold coded in *. rewrite <- map_length with (f := fun r => (N.of_nat (length r), hd black r)) in H at 1.
  rewrite firstn_all in H. rewrite H, firstn_all, G. apply firstn_all.
Qed.

Lemma rle_exact_codec scan im fuel stack d : img_ok im ->
  Forall (inside (im_w im) (im_h im)) (scan (im_w im) (im_h im)) ->
  feq d (f64_of_N 0) = true -> (length (scan (im_w im) (im_h im)) < fuel)%nat ->
  exists runs, let ps := scan (im_w im) (im_h im) in let out := dims im ++ runs_bytes (coded (hd black) runs) in
  greedy_runs (joins_exact rgb_eqb) (colours im ps) runs
  /\ run_vec (hilbert_encode scan fuel (RLE d) im) = Ok out
  /\ (forall S (next : nextf S N) s s', yields next s out s' ->
     hilbert_decode scan stack (RLE d) next s = Ok (only_at ps im))
  /\ (forall S (next : nextf S N) s p, strict_prefix p out -> yields_all next s p ->
     hilbert_decode scan stack (RLE d) next s =
     if (length p <? 8)%nat then Err
     else if ((length p - 8) mod 12 =? 0)%nat
          then Ok (only_at (firstn (length (concat (firstn ((length p - 8) / 12) runs))) ps) im)
          else Panic).
Proof.
  intros Hi Hs Hd Hf. cbv zeta. set (ps := scan (im_w im) (im_h im)) in *.
  destruct (exact_coded (colours im ps) (colours_ok _ _ Hi)) as (runs & G & Y & R & L & X).
  exists runs. split; [exact G|].
  assert (Lc : length (colours im ps) = length ps) by apply map_length.
  pose proof (expand_all _ _ G X) as E.
  assert (Le : length (expand (coded (hd black) runs)) = length ps) by now rewrite E.
  split; [|split].
  - apply rle_encode_out; [exact Hi|exact Hs|now rewrite Hd|exact R|]. unfold coded. rewrite map_length. lia.
  - intros S next s s' Hy. rewrite (rle_decode_out scan stack d im _ Hi Hs R Le _ _ _ _ Hy). f_equal.
    rewrite E. fold ps. rewrite <- (firstn_all ps) at 3. rewrite <- (painted_only_at im ps _ Hi Hs).
    unfold blank. now rewrite <- Lc, firstn_all.
  - intros S next s p Hp Hy. rewrite (rle_decode_cut scan stack d im _ p Hi Hs R Le Hp _ _ _ Hy). rewrite X.
    fold ps. now rewrite <- (painted_only_at im ps _ Hi Hs).
Qed.

(** ** hilbert(zip) *)
Lemma pixels_len (l : list (rgb N)) : length (concat (map pixel_bytes l)) = (11 * length l)%nat.
Proof.
  induction l as [|[[r g] b] l IH]; [reflexivity|]. cbn [map concat]. rewrite app_length, IH. cbn. lia.
Qed.
Lemma hzip_codec scan im fuel stack : img_ok im ->
  Forall (inside (im_w im) (im_h im)) (scan (im_w im) (im_h im)) ->
  (11 * length (scan (im_w im) (im_h im)) < fuel)%nat -> (2 <= stack)%nat ->
  exists syms, let ps := scan (im_w im) (im_h im) in let out := dims im ++ words syms in
  greedy initial_dict (concat (map pixel_bytes (colours im ps))) syms
  /\ run_vec (hilbert_encode scan fuel MZip im) = Ok out
  /\ (forall S (next : nextf S N) s s', yields next s out s' ->
     hilbert_decode scan stack MZip next s = Ok (only_at ps im))
  /\ (forall S (next : nextf S N) s p, strict_prefix p out -> yields_all next s p ->
     exists l, expands initial_dict (firstn (2 * ((length p - 8) / 4)) syms) l Finished /\
     hilbert_decode scan stack MZip next s =
     if (length p <? 8)%nat then Err
     else if ((length p - 8) mod 4 <? 2)%nat
          then Ok (only_at (firstn (length l / 11) ps) im)
          else Panic).
Proof.
  intros Hi Hs Hf Hst. cbv zeta. set (ps := scan (im_w im) (im_h im)) in *. pose proof Hi as (Hw & Hh & _).
  pose proof (colours_ok im ps Hi) as Hc. set (bs := concat (map pixel_bytes (colours im ps))).
  assert (Lc : length (colours im ps) = length ps) by apply map_length.
  assert (Lb : (length bs < fuel)%nat) by (unfold bs; rewrite pixels_len, Lc; exact Hf).
  pose proof (pixels_u8 _ Hc) as H8. fold bs in H8. pose proof (pixels_deliver _ Hc) as Hd. fold bs in Hd.
  destruct (dict_encode_spec Hd H8 Lb) as [syms [Hg He]].
  pose proof (emits_run_vec He) as Ev; cbv iota in Ev. exists syms. split; [exact Hg|].
  split; [|split].
  - refine (emits_run_vec (r := Ok tt) _). unfold hilbert_encode. eapply emits_bind; [now apply dims_emits|].
    rewrite (linearize_ok _ _ Hi Hs). change (words syms) with ([] ++ words syms).
    eapply emits_bind; [apply emits_lift|]. rewrite map_map. exact He.
  - intros S next s s' Hy. apply yields_app_inv in Hy as [s1 [Hy1 Hy2]].
    destruct (proj1 (dict_roundtrip _ _ _ _ _ _ Hd H8 Lb Ev _ next s1 stack Hst) s' Hy2) as [st [Y _]].
    unfold hilbert_decode. rewrite (dims_deser _ _ Hw Hh _ _ _ _ Hy1). unfold decode_any. rewrite (buffer_ok _ Hi).
    cbn [res_bind]. pose proof (pixels_yield _ Hc _ _ _ _ Y) as YP. fold ps.
    rewrite (paint_yields _ _ _ _ _ _ _ _ Hs YP) by lia. cbn [res_bind]. f_equal.
    rewrite <- (firstn_all ps) at 3. rewrite <- (painted_only_at im ps _ Hi Hs). now rewrite <- Lc, firstn_all.
  - intros S next s p Hp Hy. destruct Hy as [e1 [e2 [Hy En]]]. apply strict_prefix_app in Hp as [Hp|[q [-> Hp]]].
    + exists []. apply strict_prefix_len in Hp as Hl. rewrite dims_length in Hl. split.
      * replace (length p - 8)%nat with O by lia. cbn. constructor.
      * unfold hilbert_decode. rewrite (dims_trunc _ _ p Hw Hh Hp _ _ _ _ _ Hy En).
        destruct (Nat.ltb_spec (length p) 8); [reflexivity|lia].
    + apply yields_app_inv in Hy as [s1 [Hy1 Hy2]].
      destruct stack as [|[|stack]]; try lia.
      destruct (greedy_cut next _ _ _ Hg (zip_dict_decode s1) q e1 e2 stack initial_ok (dec_new_rep s1) eq_refl Hp Hy2 En)
        as (l & Hl & Hx & St).
      rewrite app_length, dims_length. replace (8 + length q - 8)%nat with (length q) by lia.
      exists l. split; [exact Hx|].
      destruct (Nat.ltb_spec (8 + length q) 8); [lia|].
      unfold hilbert_decode. rewrite (dims_deser _ _ Hw Hh _ _ _ _ Hy1). unfold decode_any. rewrite (buffer_ok _ Hi).
      cbn [res_bind]. fold ps.
      assert (Hor : forall A, (if (length q mod 4 <? 2)%nat then Err else Panic) = @Err A \/ (if (length q mod 4 <? 2)%nat then Err else Panic) = @Panic A) by (intros A; destruct (length q mod 4 <? 2)%nat; auto).
      destruct (pixels_stop _ l _ Hc Hl (Hor _) _ _ _ St) as (a & c & b & E & La & s3 & s4 & Ya & Ea).
      assert (St' : stops (deser_stream (deser (TRgb TU8)) (dd_next next (Datatypes.S (Datatypes.S stack)))) (zip_dict_decode s1) a
         (match (if (length q mod 4 <? 2)%nat then Err else Panic : res (rgb N)) with Panic => Panic | _ => Err end)).
      { exists s3, s4. split; [exact Ya|]. unfold deser_stream. rewrite Ea. now destruct (length q mod 4 <? 2)%nat. }
      rewrite (paint_stops _ _ _ _ _ _ _ _ Hs St').
      * destruct (length q mod 4 <? 2)%nat; [|reflexivity]. cbn [res_bind]. f_equal. rewrite <- La.
        rewrite <- (painted_only_at im ps _ Hi Hs). rewrite E, firstn_exact. reflexivity.
      * destruct (length q mod 4 <? 2)%nat; discriminate.
      * rewrite <- Lc, E, app_length. cbn. lia.
Qed.

(** A traversal that misses a position loses the colour there. *)
Lemma only_at_missing im ps p : img_ok im -> inside (im_w im) (im_h im) p -> ~ In p ps -> to_rgb (pixel_at im p) <> black ->
  only_at ps im <> opaque im.
Proof.
  intros Hi Hp Hn Hb E. apply Hb. pose proof Hi as (_ & _ & _ & HL & _). destruct p as [x y].
  destruct (get_pixel_ok im (x, y) Hi Hp) as [_ Hx]. destruct Hp as [Hx1 Hy1]. cbn [fst snd] in *.
  assert (E' : im_px (only_at ps im) = im_px (opaque im)) by now rewrite E.
  apply (f_equal (fun l => nth_error l (px_index (im_w im) x y))) in E'. unfold only_at, opaque in E'. cbn [im_px] in E'.
  rewrite !nth_error_map in E'. rewrite (nth_combine _ _ _ _ _ (row_major_nth _ _ _ _ Hx1 Hy1) Hx) in E'. rewrite Hx in E'.
  cbn [option_map fst snd] in E'. destruct (existsb (pos_eqb (x, y)) ps) eqn:Ee; [apply existsb_pos in Ee; contradiction|].
  injection E' as E'. unfold to_rgb. congruence.
Qed.
Lemma covers_iff ps w h : Forall (inside w h) ps -> u32_ok w -> u32_ok h -> (3 * w * h < 2 ^ 63)%N ->
  (forall im, img_ok im -> im_w im = w -> im_h im = h -> only_at ps im = opaque im)
  <-> (forall x y, (x < w)%N -> (y < h)%N -> In (x, y) ps).
Proof.
  intros Hs Hw Hh Hb. split.
  - intros H x y Hx Hy. destruct (existsb (pos_eqb (x, y)) ps) eqn:E; [now apply existsb_pos|].
    assert (Hn : ~ In (x, y) ps) by (rewrite <- existsb_pos, E; discriminate).
    set (white := ((255, 255, 255), 255)%N : rgba). set (im := mkImg w h (repeat white (N.to_nat (w * h)))).
    assert (Hi : img_ok im).
    { unfold img_ok, im. cbn [im_w im_h im_px]. rewrite repeat_length, N2Nat.id. repeat split; try assumption.
      apply Forall_forall. intros p Hp. apply repeat_spec in Hp. subst p. repeat split; reflexivity. }
    exfalso. apply (only_at_missing im ps (x, y) Hi (conj Hx Hy) Hn); [|now apply H].
    destruct (get_pixel_ok im (x, y) Hi (conj Hx Hy)) as [_ Hp]. apply nth_error_In, repeat_spec in Hp. rewrite Hp. discriminate.
  - intros H im Hi <- <-. now apply only_at_all.
Qed.

(** ** delta *)
Lemma fit_ok p z : (-32768 <= z < 32768)%Z -> i16_fit p z = Ok z.
Proof. intros H. unfold i16_fit. destruct (Z.leb_spec (-32768) z), (Z.ltb_spec z 32768); try lia. reflexivity. Qed.
Lemma diff1_ok a b : rgb_ok a -> rgb_ok b -> diff_ok (diff1 a b).
Proof.
  destruct a as [[r g] u], b as [[r' g'] u']. unfold rgb_ok, u8_ok, diff_ok, diff1. intros (H1 & H2 & H3) (H4 & H5 & H6).
  split; [reflexivity|]. repeat constructor; lia.
Qed.
Lemma sub_ok p a b : rgb_ok a -> rgb_ok b -> sc_sub p (signed_of a) (signed_of b) = Ok (diff1 a b).
Proof.
  destruct a as [[r g] u], b as [[r' g'] u']. unfold rgb_ok, u8_ok. intros (H1 & H2 & H3) (H4 & H5 & H6).
  unfold sc_sub, signed_of, rgb_list. cbn [map zip_fit]. rewrite !fit_ok by lia. reflexivity.
Qed.
Lemma add_ok p a b : rgb_ok a -> rgb_ok b -> sc_add p (signed_of b) (diff1 a b) = Ok (signed_of a).
Proof.
  destruct a as [[r g] u], b as [[r' g'] u']. unfold rgb_ok, u8_ok. intros (H1 & H2 & H3) (H4 & H5 & H6).
  unfold sc_add, signed_of, rgb_list, diff1. cbn [map zip_fit].
  replace (Z.of_N r' + (Z.of_N r - Z.of_N r'))%Z with (Z.of_N r) by lia.
  replace (Z.of_N g' + (Z.of_N g - Z.of_N g'))%Z with (Z.of_N g) by lia.
  replace (Z.of_N u' + (Z.of_N u - Z.of_N u'))%Z with (Z.of_N u) by lia.
  rewrite !fit_ok by lia. reflexivity.
Qed.
Lemma signed_rt a : rgb_ok a -> rgb_of_signed (signed_of a) = Ok a.
Proof.
  destruct a as [[r g] u]. unfold rgb_ok, u8_ok. intros (H1 & H2 & H3). unfold rgb_of_signed, signed_of, rgb_list. cbn [map].
  destruct (Z.leb_spec 0 (Z.of_N r)), (Z.ltb_spec (Z.of_N r) 256), (Z.leb_spec 0 (Z.of_N g)), (Z.ltb_spec (Z.of_N g) 256),
    (Z.leb_spec 0 (Z.of_N u)), (Z.ltb_spec (Z.of_N u) 256); try lia. cbn [andb]. now rewrite !N2Z.id.
Qed.
Lemma diff_stream_ok p l : Forall rgb_ok l -> forall last, rgb_ok last -> diff_stream p (signed_of last) l = Ok (diffs last l).
Proof.
  induction 1 as [|c l Hc HL IH]; intros last Hl; [reflexivity|]. cbn [diff_stream diffs]. rewrite (sub_ok _ _ _ Hc Hl). cbn [res_bind].
  now rewrite (IH c Hc).
Qed.
Lemma diffs_ok l : Forall rgb_ok l -> forall last, rgb_ok last -> Forall diff_ok (diffs last l).
Proof.
  induction 1 as [|c l Hc HL IH]; intros last Hl; constructor; [now apply diff1_ok|auto].
Qed.
Lemma diffs_length l : forall last, length (diffs last l) = length l.
Proof. induction l; intros last; [reflexivity|]. cbn. now rewrite IHl. Qed.
Lemma diffs_firstn n : forall l last, firstn n (diffs last l) = diffs last (firstn n l).
Proof. induction n as [|n IH]; intros [|c l] last; try reflexivity. cbn. now rewrite IH. Qed.
Lemma undiff p {S} (nextd : nextf S signed_color) l : Forall rgb_ok l -> forall last s s', rgb_ok last ->
  yields nextd s (diffs last l) s' ->
  exists c, yields (from_diff_next p nextd) (s, signed_of last) l (s', c).
Proof.
  induction 1 as [|c l Hc HL IH]; intros last s s' Hl Hy; cbn [diffs] in Hy.
  - inversion Hy; subst. eexists. constructor.
  - apply yields_cons_inv in Hy as [s1 [E Hy]]. destruct (IH c s1 s' Hc Hy) as [c' Y]. exists c'. econstructor; [|exact Y].
    unfold from_diff_next. rewrite E, (add_ok _ _ _ Hc Hl), (signed_rt _ Hc). reflexivity.
Qed.
Lemma undiff_stop p {S} (nextd : nextf S signed_color) l : Forall rgb_ok l -> forall last s, rgb_ok last ->
  stops nextd s (diffs last l) Err -> stops (from_diff_next p nextd) (s, signed_of last) l Err.
Proof.
  intros HL last s Hl (s1 & s2 & Hy & He). destruct (undiff p nextd l HL last s s1 Hl Hy) as [c Y].
  exists (s1, c), (s2, c). split; [exact Y|]. unfold from_diff_next. now rewrite He.
Qed.
Lemma black_ok : rgb_ok black. Proof. repeat split; reflexivity. Qed.
Lemma sc_eqb_ok : eqb_ok sc_eqb.
Proof. intros a b. unfold sc_eqb. destruct (list_eq_dec Z.eq_dec a b); split; congruence. Qed.
Lemma diff_encodable d : diff_ok d -> encodable sc_ty d.
Proof.
  intros [HL HF]. destruct d as [|a [|b [|c [|]]]]; try discriminate. apply Forall_cons_iff in HF as [Ha HF].
  apply Forall_cons_iff in HF as [Hb HF]. apply Forall_cons_iff in HF as [Hc _].
  split.
  - cbn. split; [reflexivity|]. repeat constructor; unfold i16_ok; lia.
  - eexists. reflexivity.
Qed.
Lemma delta_codec p scan ord H im : img_ok im -> Forall (inside (im_w im) (im_h im)) (scan (im_w im) (im_h im)) ->
  scan (im_w im) (im_h im) <> [] -> ord_ok ord -> heap_ok suffix_cmp H ->
  exists tree hdr pay, let ps := scan (im_w im) (im_h im) in let ds := diffs black (colours im ps) in
  let out := dims im ++ hdr ++ pay in let code := code_in sc_eqb tree in
  Forall diff_ok ds
  /\ (forall d, In d ds -> path tree (code d) d) /\ trie_format (format sc_ty) tree = Some hdr
  /\ run_vec (delta_encode p scan ord H im) = Ok out
  /\ (forall p2 S (next : nextf S N) s s', yields next s out s' -> forall fuel, (depth tree <= fuel)%nat ->
        delta_decode p2 scan fuel next s = Some (Ok (only_at ps im)))
  /\ (forall p2 S (next : nextf S N) s q, strict_prefix q out -> yields_all next s q -> forall fuel, (depth tree <= fuel)%nat ->
        if (length q <? 8)%nat then delta_decode p2 scan fuel next s = Some Err
        else if (length q <? 8 + length hdr)%nat then delta_decode p2 scan fuel next s = Some Panic
        else exists n, (n < length ps)%nat
             /\ (total_bits (firstn n ds) code <= 8 * N.of_nat (length q - 8 - length hdr) < total_bits (firstn (n + 1) ds) code)%N
             /\ delta_decode p2 scan fuel next s = Some (Ok (only_at (firstn n ps) im))).
Proof.
  intros Hi Hs Hne Ho HH. pose proof Hi as (Hw & Hh & _). cbv zeta. set (ps := scan (im_w im) (im_h im)) in *.
  pose proof (colours_ok im ps Hi) as Hc. set (cs := colours im ps) in *.
  assert (Lc : length cs = length ps) by apply map_length.
  pose proof (diffs_ok cs Hc black black_ok) as Hd. set (ds := diffs black cs) in *.
  assert (Ld : length ds = length cs) by apply diffs_length.
  assert (Hn : ds <> []) by (destruct ds; [destruct ps; [contradiction|cbn in *; lia]|discriminate]).
  assert (HE : Forall (encodable sc_ty) ds) by (eapply Forall_impl; [|exact Hd]; apply diff_encodable).
  destruct (@run_of_encodable sc_ty sc_eqb sc_eqb_ok ord Ho H HH ds Hn HE) as [tr [pay [lb [hdr [R Eh]]]]].
  assert (Hp : forall d, In d ds -> path tr (code_in sc_eqb tr d) d).
  { intros d Hin. apply (code_in_path sc_eqb_ok), (er_leaves R), Hin. }
  exists tr, hdr, (pay ++ lb).
  split; [exact Hd|]. split; [exact Hp|]. split; [exact Eh|]. split; [|split].
  - unfold run_vec, delta_encode, io_bind. rewrite (dims_emits _ _ Hw Hh).
    unfold put, io_bind, write_all, vec_writer, io_lift. cbn [room written flush_fails].
    rewrite (linearize_ok _ _ Hi Hs), map_map. fold ps. fold (colours im ps). fold cs.
    change START with (signed_of black). rewrite (diff_stream_ok p cs Hc black black_ok). fold ds.
    rewrite (er_ok R Eh). now apply vec_append.
  - intros p2 S next s s' Hy fuel Hf. apply yields_app_inv in Hy as [s1 [Hy1 Hy2]]. apply yields_app_inv in Hy2 as [s2 [Hy2 Hy3]].
    unfold delta_decode. rewrite (create_ok _ Hi _ _ _ _ Hy1).
    unfold huf_decode_all. rewrite (deser_trie_rt (deser_ty_ok sc_ty) tr (er_P R) Eh Hf Hy2).
    destruct (er_bits R) as [k [Hk Hbits]].
    pose proof (br_prefix MsbFirst Hy3) as Hbr. rewrite Hbits in Hbr. apply yields_app_inv in Hbr as [br1 [Hbr _]].
    assert (Y : yields (dec_next tr next) (bit_reader s2) ds br1) by (unfold dec_next; now apply lookup_seq with (code := code_in sc_eqb tr)).
    destruct (undiff p2 (dec_next tr next) cs Hc black _ _ black_ok Y) as [c YD]. fold ps.
    change START with (signed_of black).
    rewrite (paint_yields _ _ _ _ _ _ _ _ Hs YD) by (rewrite Lc; apply le_n). cbn [res_bind]. do 2 f_equal.
    rewrite <- (firstn_all ps) at 2. rewrite <- (painted_only_at im ps _ Hi Hs). fold cs. now rewrite <- Lc, firstn_all.
  - intros p2 S next s q Hq Hy fuel Hf. unfold delta_decode. apply strict_prefix_app in Hq as [Hq|[q1 [-> Hq]]].
    + pose proof (create_trunc _ q Hi Hq _ _ _ Hy) as E. apply strict_prefix_len in Hq. rewrite dims_length in Hq.
      destruct (Nat.ltb_spec (length q) 8); [|lia].
      destruct (create_image_buffer_standard next s) as [[[[w h] b]| |] s']; cbn in E; try discriminate. reflexivity.
    + destruct Hy as [e1 [e2 [Hy He]]]. apply yields_app_inv in Hy as [s1 [Hy1 Hy2]].
      rewrite app_length, dims_length. destruct (Nat.ltb_spec (8 + length q1) 8); [lia|].
      rewrite (create_ok _ Hi _ _ _ _ Hy1). unfold huf_decode_all. apply strict_prefix_app in Hq as [Hq|[q [-> Hq]]].
      * rewrite (deser_trie_trunc (deser_ty_ok sc_ty) tr (er_P R) Eh Hq Hf Hy2 He). apply strict_prefix_len in Hq.
        destruct (Nat.ltb_spec (8 + length q1) (8 + length hdr)); [reflexivity|lia].
      * rewrite app_length. destruct (Nat.ltb_spec (8 + (length hdr + length q)) (8 + length hdr)); [lia|].
        replace (8 + (length hdr + length q) - 8 - length hdr)%nat with (length q) by lia.
        apply yields_app_inv in Hy2 as [s2 [Hy2 Hy3]].
        rewrite (deser_trie_rt (deser_ty_ok sc_ty) tr (er_P R) Eh Hf Hy2).
        destruct (payload_cut _ _ _ _ _ _ _ _ _ _ sc_eqb_ok R q _ next s2 Hq (ex_intro _ e1 (ex_intro _ e2 (conj Hy3 He))))
          as (l & x & r & b1 & b2 & E & B & Y1 & N1 & N2).
        assert (E' : ds = (l ++ [x]) ++ r) by (rewrite <- app_assoc; exact E).
        exists (length l).
        assert (Ll : (length l < length ps)%nat) by (rewrite <- Lc, <- Ld, E', !app_length; cbn; lia).
        split; [exact Ll|].
        assert (F1 : firstn (length l) ds = l) by (rewrite E; apply firstn_exact).
        assert (F2 : firstn (length l + 1) ds = l ++ [x]).
        { rewrite E'. replace (length l + 1)%nat with (length (l ++ [x])) by (rewrite app_length; reflexivity). apply firstn_exact. }
        split; [rewrite F1, F2; exact B|].
        assert (Ecs : l = diffs black (firstn (length l) cs)).
        { rewrite <- F1 at 1. unfold ds. apply diffs_firstn. }
        assert (St : stops (dec_next tr next) (bit_reader s2) (diffs black (firstn (length l) cs)) Err).
        { rewrite <- Ecs. exists b1, b2. split; [exact Y1|exact N1]. }
        assert (Hcl : Forall rgb_ok (firstn (length l) cs)).
        { apply Forall_forall. intros z Hz. apply (proj1 (Forall_forall _ _) Hc). rewrite <- (firstn_skipn (length l) cs). apply in_or_app. now left. }
        apply (undiff_stop p2 _ _ Hcl black _ black_ok) in St. fold ps. change START with (signed_of black).
        rewrite (paint_stops _ _ _ _ _ _ _ _ Hs St); [|discriminate|rewrite firstn_length, Lc; lia].
        cbn [res_bind]. do 2 f_equal. rewrite <- (painted_only_at im ps _ Hi Hs). reflexivity.
Qed.
Lemma delta_empty p scan ord H im : img_ok im -> scan (im_w im) (im_h im) = [] -> ord_ok ord -> heap_ok suffix_cmp H ->
  run_vec (delta_encode p scan ord H im) = Panic.
Proof.
  intros (Hw & Hh & _) E Ho HH. unfold run_vec, delta_encode, io_bind. rewrite (dims_emits _ _ Hw Hh).
  unfold put, io_bind, write_all, vec_writer, io_lift, linearize_rect. cbn [room written flush_fails]. rewrite E. cbn [map res_mapM diff_stream].
  now rewrite (@huf_empty sc_ty sc_eqb ord Ho H HH).
Qed.
