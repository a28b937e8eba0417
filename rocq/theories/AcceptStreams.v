(** * The data that the image decoders accept: hilbert and delta. *)
From Coq Require Import ZifyBool ZifyNat ZifyN.
From Verif Require Import Base Ser SerSpec SerProofs Bit BitSpec BitProofs Utils Huf HufSpec HufProofs Dict DictSpec DictProofs DictEnc Back BackSpec Img Float HilbertC
  CodecSpec CodecBytes CodecTop CodecFinal CodecZip CodecHilbert Kmeans ClusterC ClusterSpec VoronoiProofs Prs Select Bench ForeignSpec ForeignKeeps ForeignTop ForeignZip AcceptSpec AcceptProofs AcceptPaint.

(** ** Runs *)
Lemma pixel_cases bs : u8s bs ->
  (exists c rest, rgb_ok c /\ bs = pixel_bytes c ++ rest /\ u8s rest /\ deser (TRgb TU8) _ list_next bs = (Ok c, rest))
  \/ (no_pixel bs /\ exists s, deser (TRgb TU8) _ list_next bs = (Err, s)).
Proof.
  intros HF. destruct (deser (TRgb TU8) _ list_next bs) as [[c| |] s] eqn:E.
  - left. destruct (do_canon (deser_ty_ok (TRgb TU8)) (list_byte_source HF) E) as [Hc [p [Hp Hy]]]. rewrite pixel_format in Hp. apply (f_equal (fun o => match o with Some x => x | None => [] end)) in Hp. cbv beta iota in Hp. subst p.
    apply yields_list_inv in Hy. subst bs. exists c, s. split; [now apply rgb_wf|]. split; [reflexivity|]. split; [|reflexivity]. now apply Forall_app in HF.
  - right. split; [|eauto]. intros c rest Hc ->. rewrite (pixel_deser c Hc _ list_next _ rest (yields_list _ _)) in E. discriminate.
  - exfalso. apply (never_panics (TRgb TU8) (list_byte_source HF)). now rewrite E.
Qed.
Lemma run_text_total k : forall bs, (length bs <= k)%nat -> u8s bs -> exists cs e, run_text bs cs e.
Proof.
  induction k as [|k IH]; intros [|n bs] HL HF; try (cbn in HL; lia); try (exists [], Finished; constructor).
  apply Forall_cons_iff in HF as [Hn HF]. destruct (N.eq_dec n 0) as [->|Hz]; [exists [], Aborted; constructor|].
  assert (H1 : (1 <= n <= 255)%N) by (unfold u8_ok in Hn; lia).
  destruct (pixel_cases bs HF) as [(c & rest & Hc & -> & Hr & _)|[H _]]; [|exists [], Aborted; now constructor].
  destruct (IH rest) as (cs & e & G); [cbn [length] in HL; rewrite app_length in HL; lia|exact Hr|].
  exists (repeat c (N.to_nat n) ++ cs), e. change (n :: pixel_bytes c ++ rest) with (run_bytes (n, c) ++ rest). now constructor.
Qed.
Lemma run_text_stops bs cs e : run_text bs cs e -> u8s bs -> Forall rgb_ok cs /\ forall c0, stops (rle_dec_next list_next) (mkRD bs c0 0) cs (end_res e).
Proof.
  induction 1 as [|n c bs cs e Hn Hc H IH|bs|n bs Hn H]; intros HF.
  - split; [constructor|]. intros c0. eexists _, _. split; [constructor|]. unfold rle_dec_next. cbn. reflexivity.
  - apply Forall_app in HF as [_ HF]. destruct (IH HF) as [H1 H2]. split.
    + apply Forall_app. split; [|exact H1]. apply Forall_forall. intros x Hx. apply repeat_spec in Hx as ->. exact Hc.
    + intros c0. destruct (rle_dec_yields list_next [(n, c)]) with (s := run_bytes (n, c) ++ bs) (s' := bs) (c := c0) as [c' Y].
      * constructor; [|constructor]. split; auto.
      * unfold runs_bytes. cbn [map concat]. rewrite app_nil_r. apply yields_list.
      * unfold expand in Y. cbn [map concat fst snd] in Y. rewrite app_nil_r in Y. destruct (H2 c') as (s1 & s2 & Y2 & E). exists s1, s2. split; [|exact E].
        eapply yields_app; [exact Y|exact Y2].
  - split; [constructor|]. intros c0. eexists _, _. split; [constructor|]. unfold rle_dec_next. cbn. reflexivity.
  - split; [constructor|]. intros c0. apply Forall_cons_iff in HF as [_ HF].
    destruct (pixel_cases bs HF) as [(c & rest & Hc & -> & _)|[_ [s E]]]; [now destruct (H c rest Hc)|].
    eexists _, _. split; [constructor|]. unfold rle_dec_next. cbn [rd_count rd_bytes rd_color]. change (0 =? 0)%N with true. cbv iota. unfold deser_u8, list_next at 1.
    destruct (N.ltb_spec 0 n); [|lia]. rewrite E. reflexivity.
Qed.

Lemma dims_inj w h im r body data : u32_ok w -> u32_ok h -> data = le32 w ++ le32 h ++ body -> img_ok im -> data = dims im ++ r -> im_w im = w /\ im_h im = h /\ r = body.
Proof.
  intros Hw Hh -> (Iw & Ih & _) E. unfold dims in E. rewrite <- app_assoc in E.
  assert (D : forall a b r0, u32_ok a -> u32_ok b -> deser (TPair TU32 TU32) _ list_next (le32 a ++ le32 b ++ r0) = (Ok (a, b), r0)).
  { intros a b r0 Ha Hb'. apply dims_deser; auto. rewrite app_assoc. apply yields_list. }
  pose proof (D w h body Hw Hh) as D1. rewrite E, (D _ _ r Iw Ih) in D1. injection D1 as -> -> ->. auto.
Qed.
Lemma dims_from w h data body im : data = le32 w ++ le32 h ++ body -> im_w im = w -> im_h im = h -> data = dims im ++ body.
Proof. intros -> <- <-. unfold dims. now rewrite <- app_assoc. Qed.
Lemma file_large im data r : img_ok im -> data = dims im ++ r -> (8 <= length data)%nat /\ ~ too_large data.
Proof.
  intros (Hw & Hh & H3 & _) ->. split; [rewrite app_length; cbn; lia|]. unfold dims. rewrite <- app_assoc. rewrite too_large_dims by auto. lia.
Qed.

Theorem rle_accepts : forall scan stack d data, Forall u8_ok data -> (forall w h, visits_all w h (scan w h)) ->
  (hilbert_decode scan stack (RLE d) list_next data = Err <-> (length data < 8)%nat)
  /\ forall im, hilbert_decode scan stack (RLE d) list_next data = Ok im <-> rle_file scan im data.
Proof.
  intros scan stack d data HF HV. unfold hilbert_decode.
  destruct (create_cases data HF) as [[H1 (s & _ & ->)]|[[H1 (w & h & s & _ & -> & HB)]|(w & h & body & HB & Hd & Hb & Hn & -> & HBN & _)]].
  - split; [tauto|]. intros im. split; [discriminate|]. intros (Hi & _ & b & cs & e & E & _). apply file_large in E; [lia|exact Hi].
  - unfold decode_any. rewrite HB. cbn [res_bind]. split; [split; [discriminate|]; intros H; now apply short_not_large in H1|].
    intros im. split; [discriminate|]. intros (Hi & _ & b & cs & e & E & _). apply file_large in E; [tauto|exact Hi].
  - unfold decode_any. rewrite HBN. cbn [res_bind]. fold (blank w h).
    assert (Long : ~ (length data < 8)%nat) by (rewrite Hd, !app_length; cbn; lia).
    assert (P : forall cs e, run_text body cs e -> drawn w h (scan w h) cs e (res_bind (paint (rle_dec_next list_next) w h (scan w h) (rle_dec_new body) (blank w h)) (fun buf => Ok (from_rgb w h buf)))) by (intros cs e G; destruct (run_text_stops _ _ _ G Hb) as [G1 G2];
      exact (paint_any (rle_dec_next list_next) w h (scan w h) (rle_dec_new body) cs e HB (HV w h) G1 (or_introl (G2 black)))).
    split.
    + split; [|contradiction]. destruct (run_text_total _ body (le_n _) Hb) as (cs & e & G). intros H. now apply (proj1 (P cs e G)) in H.
    + intros im. split.
      * destruct (run_text_total _ body (le_n _) Hb) as (cs & e & G). intros H. apply (proj2 (P cs e G)) in H as (Hi & Ho & Ew & Eh & H1 & H2).
        split; [exact Hi|]. split; [exact Ho|]. exists body, cs, e. split; [now apply (dims_from w h)|]. rewrite Ew, Eh. auto.
      * intros (Hi & Ho & b & cs & e & E & G & H1 & H2). destruct HB as (Hw & Hh & H3). destruct (dims_inj w h im b body data Hw Hh Hd Hi E) as (Ew & Eh & ->).
        apply (proj2 (P cs e G)). rewrite Ew, Eh in *. auto 10.
Qed.

(** ** Differences *)
Lemma diff_step p last d : rgb_ok last -> wf sc_ty d ->
  (exists c, rgb_ok c /\ d = diff1 c last)
  \/ ((forall c, rgb_ok c -> d <> diff1 c last) /\ match sc_add p (signed_of last) d with Ok n => unwrap (rgb_of_signed n) | _ => Panic end = Panic).
Proof.
  intros Hl [HL HW]. destruct d as [|x [|y [|z [|? ?]]]]; try discriminate HL. clear HL.
  apply Forall_cons_iff in HW as [Hx HW]. apply Forall_cons_iff in HW as [Hy HW]. apply Forall_cons_iff in HW as [Hz _].
  destruct last as [[r g] b]. unfold rgb_ok, u8_ok in Hl. cbn [wf] in Hx, Hy, Hz. unfold i16_ok in *.
  assert (F : forall u v, (u < 256)%N -> (-32768 <= v <= 32767)%Z -> i16_fit p (Z.of_N u + v) = Panic /\ (256 <= Z.of_N u + v)%Z
              \/ exists q, i16_fit p (Z.of_N u + v) = Ok q /\ ((0 <= q < 256)%Z \/ (0 <= Z.of_N u + v < 256)%Z -> q = (Z.of_N u + v)%Z)).
  { intros u v Hu Hv. unfold i16_fit. destruct (Z.leb_spec (-32768) (Z.of_N u + v)); [|lia]. destruct (Z.ltb_spec (Z.of_N u + v) 32768).
    - right. eexists. split; [reflexivity|]. auto.
    - cbn [andb]. destruct p; [left; split; [reflexivity|lia]|right]. eexists. split; [reflexivity|].
      rewrite Zdiv.Zmod_eq by lia. intros G. assert ((Z.of_N u + v + 32768) / 65536 = 1)%Z by (symmetry; apply Z.div_unique with (Z.of_N u + v + 32768 - 65536)%Z; lia). lia. }
  set (ok := fun q : Z => ((0 <=? q) && (q <? 256))%Z).
  destruct (ok (Z.of_N r + x)%Z && ok (Z.of_N g + y)%Z && ok (Z.of_N b + z)%Z) eqn:E.
  - left. exists (Z.to_N (Z.of_N r + x), Z.to_N (Z.of_N g + y), Z.to_N (Z.of_N b + z)). unfold ok in E. unfold rgb_ok, u8_ok, diff1. split; [lia|]. f_equal; [lia|]. f_equal; [lia|]. f_equal. lia.
  - right. split.
    + intros [[r' g'] b'] Hc [= -> -> ->]. unfold rgb_ok, u8_ok, ok in *. lia.
    + unfold sc_add, signed_of, rgb_list. cbn [map zip_fit].
      destruct (F r x ltac:(tauto) ltac:(lia)) as [[-> _]|(q1 & -> & H1)]; [reflexivity|]. destruct (F g y ltac:(tauto) ltac:(lia)) as [[-> _]|(q2 & -> & H2)]; [reflexivity|].
      destruct (F b z ltac:(tauto) ltac:(lia)) as [[-> _]|(q3 & -> & H3)]; [reflexivity|]. cbn [res_bind rgb_of_signed].
      fold (ok q1) (ok q2) (ok q3). destruct (ok q1 && ok q2 && ok q3) eqn:E2; [|reflexivity]. exfalso. unfold ok in *. 
      rewrite H1, H2, H3 in E2 by lia. rewrite E2 in E. discriminate.
Qed.
Lemma sums_total t (p : profile) : Forall (wf sc_ty) (leaves t) -> forall n last bits, rgb_ok last -> exists cs e, sums t n last bits cs e.
Proof.
  intros HT. induction n as [|n IH]; intros last bits Hl; [exists [], Finished; constructor|].
  destruct (lookup_cases list_next t bits bits) as [(code & d & rest & s' & H1 & -> & _)|[H _]].
  { exists [], []. split; [|reflexivity]. rewrite <- (app_nil_r bits) at 1. apply yields_list. }
  - assert (Hd : wf sc_ty d) by (assert (I : In d (leaves t)) by (apply leaves_path; eauto); rewrite Forall_forall in HT; auto).
    destruct (diff_step p last d Hl Hd) as [(c & Hc & ->)|[H _]].
    + destruct (IH c rest Hc) as (cs & e & G). exists (c :: cs), e. now constructor.
    + exists [], Aborted. now apply sums_outside with d.
  - exists [], Finished. now constructor.
Qed.
Lemma sums_stops p t : Forall (wf sc_ty) (leaves t) -> forall n last bits cs e, sums t n last bits cs e -> rgb_ok last ->
  forall st, yields_all (br_next list_next MsbFirst) st bits ->
  Forall rgb_ok cs /\ (stops (from_diff_next p (dec_next t list_next)) (st, signed_of last) cs (end_res e)
    \/ e = Finished /\ exists s', yields (from_diff_next p (dec_next t list_next)) (st, signed_of last) cs s' /\ (n <= length cs)%nat).
Proof.
  intros HT n last bits cs e H. induction H as [last bits|n last bits H|n last code c bits cs e Hc Hp H IH|n last code d bits Hp H]; intros Hl st Hy.
  - split; [constructor|]. right. split; [reflexivity|]. eexists. split; [constructor|cbn; lia].
  - split; [constructor|]. left. destruct (lookup_cases _ t st bits Hy) as [(code & d & rest & s' & H1 & E & _)|[_ [s' E]]]; [now destruct (H code d rest H1)|].
    eexists _, _. split; [constructor|]. unfold from_diff_next, dec_next. rewrite E. reflexivity.
  - destruct (lookup_cases _ t st (code ++ bits) Hy) as [(code' & d & rest & s' & H1 & E & L & Y)|[N _]]; [|now destruct (N code (diff1 c last) bits Hp)].
    destruct (symbol_unique t _ _ _ _ _ _ Hp H1 E) as (<- & <- & <-).
    assert (Step : from_diff_next p (dec_next t list_next) (st, signed_of last) = (Ok c, (s', signed_of c))).
    { unfold from_diff_next, dec_next. rewrite L, (add_ok p c last Hc Hl), (signed_rt c Hc). reflexivity. }
    destruct (IH Hc s' Y) as [H2 [(s1 & s2 & Y2 & E2)|(-> & s2 & Y2 & HL)]]; (split; [now constructor|]).
    + left. exists s1, s2. split; [|exact E2]. econstructor; eauto.
    + right. split; [reflexivity|]. exists s2. split; [econstructor; eauto|cbn; lia].
  - split; [constructor|]. left. destruct (lookup_cases _ t st (code ++ bits) Hy) as [(code' & d' & rest & s' & H1 & E & L & Y)|[N _]]; [|now destruct (N code d bits Hp)].
    destruct (symbol_unique t _ _ _ _ _ _ Hp H1 E) as (<- & <- & <-).
    assert (Hd : wf sc_ty d) by (assert (I : In d (leaves t)) by (apply leaves_path; eauto); rewrite Forall_forall in HT; auto).
    destruct (diff_step p last d Hl Hd) as [(c & Hc & ->)|[_ G]]; [now destruct (H c Hc)|].
    exists (st, signed_of last). cbn [end_res]. unfold from_diff_next, dec_next. rewrite L. destruct (sc_add p (signed_of last) d) as [ns| |].
    + eexists. split; [constructor|]. now rewrite G.
    + eexists. split; [constructor|]. reflexivity.
    + eexists. split; [constructor|]. reflexivity.
Qed.

Theorem delta_accepts : forall p scan fuel data, Forall u8_ok data -> (length data < fuel)%nat -> (forall w h, visits_all w h (scan w h)) ->
  exists got, delta_decode p scan fuel list_next data = Some got
  /\ (got = Err <-> (length data < 8)%nat) /\ forall im, got = Ok im <-> delta_file scan im data.
Proof.
  intros p scan fuel data HF HL HV. unfold delta_decode.
  destruct (create_cases data HF) as [[H1 (s & -> & _)]|[[H1 (w & h & s & -> & _)]|(w & h & body & HB & Hd & Hb & Hn & _ & _ & ->)]].
  - exists Err. split; [reflexivity|]. split; [tauto|]. intros im. split; [discriminate|]. intros (Hi & _ & t & hdr & b & cs & E & _). apply file_large in E; [lia|exact Hi].
  - exists Panic. split; [reflexivity|]. split; [split; [discriminate|]; intros H; now apply short_not_large in H1|].
    intros im. split; [discriminate|]. intros (Hi & _ & t & hdr & b & cs & E & _). apply file_large in E; [tauto|exact Hi].
  - assert (Long : ~ (length data < 8)%nat) by (rewrite Hd, !app_length; cbn; lia). pose proof HB as (Hw & Hh & H3). unfold huf_decode_all. fold (blank w h).
    destruct (tree_cases sc_ty fuel body Hb) as [(t & hdr & rest & -> & Hr & HT & ->)|[HT [s ->]]].
    { rewrite Hd in HL. cbn in HL. lia. }
    + eexists. split; [reflexivity|]. pose proof HT as [HT1 HT2]. pose proof (br_all MsbFirst (list_all rest)) as Y.
      assert (P : forall cs e, sums t (length (scan w h)) black (bytes_bits MsbFirst rest) cs e ->
        drawn w h (scan w h) cs e (res_bind (paint (from_diff_next p (dec_next t list_next)) w h (scan w h) (bit_reader rest, START) (blank w h)) (fun buf => Ok (from_rgb w h buf)))).
      { intros cs e G. destruct (sums_stops p t HT1 _ _ _ _ _ G black_ok (bit_reader rest) Y) as [G1 G2].
        refine (paint_any (from_diff_next p (dec_next t list_next)) w h (scan w h) (bit_reader rest, START) cs e HB (HV w h) G1 _).
        destruct G2 as [G2|(_ & s' & G2 & G3)]; [left; exact G2|right; exists s'; split; [exact G2|exact G3]]. }
      assert (Suf : forall n last bits cs e, sums t n last bits cs e -> suffices n cs e -> e = Finished).
      { intros n last bits cs e G. induction G as [| |n last code c bits cs e Hc Hp G IH|n last code d bits Hp H]; intros [S|S]; auto; cbn [length] in S; [|lia].
        apply IH. right. lia. }
      destruct (sums_total t p HT1 (length (scan w h)) black (bytes_bits MsbFirst rest) black_ok) as (cs & e & G). split.
      * split; [|contradiction]. intros H. now apply (proj1 (P cs e G)) in H.
      * intros im. split.
        -- intros H. apply (proj2 (P cs e G)) in H as (Hi & Ho & Ew & Eh & H1 & H2). rewrite (Suf _ _ _ _ _ G H1) in G.
           split; [exact Hi|]. split; [exact Ho|]. exists t, hdr, rest, cs. split; [now apply (dims_from w h)|]. rewrite Ew, Eh. auto.
        -- intros (Hi & Ho & t' & hdr' & rest' & cs' & E & HT' & G' & H2). destruct (dims_inj w h im _ _ data Hw Hh Hd Hi E) as (Ew & Eh & E3).
           destruct (tree_unique _ _ _ _ _ _ _ HT' HT E3) as (-> & -> & ->). rewrite Ew, Eh in *. apply (proj2 (P cs' Finished G')). 
           repeat (split; [assumption|]). split; [now left|exact H2].
    + exists Panic. split; [reflexivity|]. split; [split; [discriminate|contradiction]|]. intros im. split; [discriminate|].
      intros (Hi & Ho & t' & hdr' & rest' & cs' & E & HT' & _). destruct (dims_inj w h im _ _ data Hw Hh Hd Hi E) as (_ & _ & E3). exfalso. exact (HT _ _ _ HT' (eq_sym E3)).
Qed.
