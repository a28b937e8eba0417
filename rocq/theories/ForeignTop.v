(** * Image decoders on arbitrary bytes. *)
From Coq Require Import ZifyBool ZifyNat ZifyN.
From Verif Require Import Base Ser SerSpec SerProofs Bit Utils Huf HufSpec Dict Back BackSpec Img Float HilbertC CodecSpec CodecBytes CodecTop CodecFinal Kmeans ClusterC ClusterSpec Prs Select Bench ForeignSpec ForeignKeeps.

Definition u8s : list N -> Prop := Forall u8_ok.

Lemma made_ok w h l : u32_ok w -> u32_ok h -> (3 * w * h < 2 ^ 63)%N -> N.of_nat (length l) = (w * h)%N -> Forall rgb_ok l -> img_ok (from_rgb w h l) /\ is_opaque (from_rgb w h l).
Proof.
  intros H1 H2 H3 H4 H5. split; [|apply from_rgb_opaque]. repeat split; cbn [from_rgb im_w im_h im_px]; auto; try (rewrite map_length; exact H4).
  apply Forall_map. eapply Forall_impl; [|exact H5]. intros c Hc. split; [exact Hc|reflexivity].
Qed.
Lemma buffer_inv w h b : buffer_new w h = Ok b -> (3 * w * h < 2 ^ 63)%N /\ N.of_nat (length b) = (w * h)%N /\ Forall rgb_ok b.
Proof.
  unfold buffer_new. destruct (N.ltb_spec (3 * w * h) (2 ^ 63)) as [H|H]; [|discriminate]. intros [= <-]. split; [exact H|].
  rewrite repeat_length, N2Nat.id. split; [reflexivity|]. apply Forall_forall. intros c Hc. apply repeat_spec in Hc as ->. exact black_ok.
Qed.
Lemma dims_list data w h s : u8s data -> deser (TPair TU32 TU32) _ list_next data = (Ok (w, h), s) ->
  u32_ok w /\ u32_ok h /\ data = le32 w ++ le32 h ++ s /\ u8s s.
Proof.
  intros HF H. destruct (do_canon (deser_ty_ok (TPair TU32 TU32)) (list_byte_source HF) H) as [[Hw Hh] [bs [Hf Hy]]].
  rewrite dims_format in Hf. apply (f_equal (fun o => match o with Some x => x | None => [] end)) in Hf. cbv beta iota in Hf. subst bs. apply yields_list_inv in Hy. rewrite <- app_assoc in Hy. subst data.
  repeat split; auto. apply Forall_app in HF as [_ HF]. apply Forall_app in HF. apply HF.
Qed.

(** ** Painting *)
Lemma paint_keeps {T} (I : T -> Prop) (nextc : nextf T (rgb N)) w h : keeps rgb_ok I nextc -> forall ps s buf buf',
  I s -> Forall rgb_ok buf -> paint nextc w h ps s buf = Ok buf' -> Forall rgb_ok buf' /\ length buf' = length buf.
Proof.
  intros Hn. induction ps as [|p ps IH]; intros s buf buf' Hs Hb H; cbn [paint] in H; [injection H as <-; auto|].
  destruct (nextc s) as [[c| |] s1] eqn:E; try discriminate.
  - destruct (Hn _ _ _ Hs E) as [Hc H1]. unfold set_pixel in H. destruct p as [x y]. destruct (_ && _); cbn [res_bind] in H; [|discriminate].
    apply IH in H; auto using set_nth_Forall. destruct H as [H2 H3]. split; [exact H2|]. now rewrite H3, set_nth_length.
  - injection H as <-. auto.
Qed.
Lemma decode_any_keeps {T} (I : T -> Prop) (nextc : nextf T (rgb N)) scan w h s im : keeps rgb_ok I nextc -> I s -> u32_ok w -> u32_ok h ->
  decode_any scan w h nextc s = Ok im -> im_w im = w /\ im_h im = h /\ img_ok im /\ is_opaque im.
Proof.
  intros Hn Hs Hw Hh H. unfold decode_any in H. destruct (buffer_new w h) as [buf| |] eqn:B; try discriminate.
  apply buffer_inv in B as (B1 & B2 & B3). cbn [res_bind] in H. destruct (paint nextc w h (scan w h) s buf) as [buf'| |] eqn:P; try discriminate.
  cbn [res_bind] in H. injection H as <-. destruct (paint_keeps I nextc w h Hn _ _ _ _ Hs B3 P) as [H1 H2].
  split; [reflexivity|]. split; [reflexivity|]. apply made_ok; auto. now rewrite H2.
Qed.

(** ** Trees *)
Lemma deser_trie_keeps {T A} (I : T -> Prop) (P : A -> Prop) (da : deserializer A) (next : nextf T N) :
  keeps u8_ok I next -> keeps P I (da T next) -> forall fuel s t s', I s -> deser_trie da fuel next s = Some (Ok t, s') -> Forall P (leaves t) /\ I s'.
Proof.
  intros Hn Hd. induction fuel as [|fuel IH]; intros s t s' Hs H; cbn [deser_trie] in H; [discriminate|].
  unfold deser_u8 in H. destruct (next s) as [[b| |] s1] eqn:E; try discriminate. destruct (Hn _ _ _ Hs E) as [_ H1].
  destruct b as [|[p|p|]]; try discriminate.
  - destruct (da T next s1) as [[v| |] s2] eqn:E2; try discriminate. injection H as <- <-. destruct (Hd _ _ _ H1 E2). split; [cbn; auto|auto].
  - destruct (deser_trie da fuel next s1) as [[[l| |] s2]|] eqn:E2; try discriminate. destruct (IH _ _ _ H1 E2) as [H3 H4].
    destruct (deser_trie da fuel next s2) as [[[r| |] s3]|] eqn:E3; try discriminate. destruct (IH _ _ _ H4 E3) as [H5 H6].
    injection H as <- <-. split; [cbn [leaves]; apply Forall_app; auto|auto].
Qed.
Lemma lookup_leaf {T A} (P : A -> Prop) (t : bintrie A) (next : nextf T bool) : Forall P (leaves t) -> forall s x s', trie_lookup t next s = (Ok x, s') -> P x.
Proof.
  induction t as [v|l IHl r IHr]; intros HP s x s' H; cbn [trie_lookup leaves] in *.
  - injection H as <- <-. now apply Forall_inv in HP.
  - apply Forall_app in HP as [H1 H2]. destruct (next s) as [[[|]| |] s1]; try discriminate; eauto.
Qed.
Lemma keeps_dec {T A} (P : A -> Prop) (t : bintrie A) (next : nextf T N) : Forall P (leaves t) -> keeps P (fun _ => True) (dec_next t next).
Proof. intros HP s x s' _ H. split; [|exact I]. unfold dec_next in H. eapply lookup_leaf; eauto. Qed.

(** ** The codecs *)
Definition made_from (data : list N) (im : img) : Prop := img_ok im /\ is_opaque im /\ exists rest, data = dims im ++ rest.

Lemma create_inv data w h b s : u8s data -> create_image_buffer_standard list_next data = (Ok (w, h, b), s) ->
  u32_ok w /\ u32_ok h /\ (3 * w * h < 2 ^ 63)%N /\ N.of_nat (length b) = (w * h)%N /\ Forall rgb_ok b /\ data = (le32 w ++ le32 h) ++ s /\ u8s s.
Proof.
  intros HF H. unfold create_image_buffer_standard, rd_bind in H. destruct (deser (TPair TU32 TU32) _ list_next data) as [[[w' h']| |] s1] eqn:E; try discriminate.
  apply dims_list in E as (Hw & Hh & Hd & Hs); [|exact HF]. cbn [fst snd] in H. unfold rd_lift in H.
  destruct (buffer_new w' h') as [b'| |] eqn:B; try discriminate. unfold rd_ret in H. injection H as <- <- <- <-.
  apply buffer_inv in B as (B1 & B2 & B3). rewrite app_assoc in Hd. auto 10.
Qed.
Lemma hufman_made fuel data im : u8s data -> hufman_decode fuel list_next data = Some (Ok im) -> made_from data im.
Proof.
  intros HF H. unfold hufman_decode in H. destruct (create_image_buffer_standard list_next data) as [[[[w h] b]| |] s] eqn:E; try discriminate.
  apply create_inv in E as (Hw & Hh & H3 & _ & _ & Hd & Hs); [|exact HF]. unfold huf_decode_all in H.
  destruct (deser_trie (deser (TRgb TU8)) fuel list_next s) as [[[t| |] s1]|] eqn:T; try discriminate.
  destruct (deser_trie_keeps u8s (wf (TRgb TU8)) _ _ keeps_list (keeps_deser _ _ keeps_list (TRgb TU8)) _ _ _ _ Hs T) as [HL _].
  destruct (rd_repeat (dec_next t list_next) (w * h) (bit_reader s1)) as [[l| |] s2] eqn:R; try discriminate.
  - injection H as <-. destruct (keeps_repeat (fun _ => True) _ _ (w * h)%N (keeps_dec _ t list_next HL) _ _ _ I R) as [[H1 H2] _].
    destruct (made_ok w h l Hw Hh H3 H2) as [H4 H5]; [eapply Forall_impl; [|exact H1]; intros c; apply rgb_wf|].
    split; [exact H4|]. split; [exact H5|]. exists s. exact Hd.
  - destruct (dec_next t list_next s2) as [[?| |] ?]; discriminate.
Qed.
Lemma rgb_of_signed_ok c x : rgb_of_signed c = Ok x -> rgb_ok x.
Proof.
  unfold rgb_of_signed. destruct c as [|r [|g [|b [|? ?]]]]; try discriminate.
  destruct (_ && _) eqn:E; [|discriminate]. intros [= <-]. unfold rgb_ok, u8_ok. lia.
Qed.
Lemma keeps_from_diff p {T} (nextd : nextf T signed_color) : keeps rgb_ok (fun _ => True) (from_diff_next p nextd).
Proof.
  intros [s last] x s' _ H. split; [|exact I]. unfold from_diff_next in H. destruct (nextd s) as [[d| |] s1]; try discriminate.
  destruct (sc_add p last d) as [n| |]; try discriminate. injection H as H _. destruct (rgb_of_signed n) as [c| |] eqn:E; try discriminate.
  injection H as <-. exact (rgb_of_signed_ok _ _ E).
Qed.
Lemma delta_made p scan fuel data im : u8s data -> delta_decode p scan fuel list_next data = Some (Ok im) -> made_from data im.
Proof.
  intros HF H. unfold delta_decode in H. destruct (create_image_buffer_standard list_next data) as [[[[w h] b]| |] s] eqn:E; try discriminate.
  apply create_inv in E as (Hw & Hh & H3 & H4 & H5 & Hd & Hs); [|exact HF].
  destruct (huf_decode_all (deser sc_ty) fuel list_next s) as [[[[t bits]| |] s1]|]; try discriminate.
  destruct (paint (from_diff_next p (dec_next t list_next)) w h (scan w h) (bits, START) b) as [buf| |] eqn:P; try discriminate.
  cbn [res_bind] in H. injection H as <-.
  destruct (paint_keeps (fun _ => True) _ w h (keeps_from_diff p _) _ _ _ _ I H5 P) as [H6 H7].
  destruct (made_ok w h buf Hw Hh H3) as [? ?]; [now rewrite H7|exact H6|]. split; [auto|]. split; [auto|]. now exists s.
Qed.
Lemma keeps_rle {T} (I : T -> Prop) (next : nextf T N) : keeps u8_ok I next -> keeps rgb_ok (fun d => I (rd_bytes d) /\ rgb_ok (rd_color d)) (rle_dec_next next).
Proof.
  intros Hn d x s' [H1 H2] H. unfold rle_dec_next in H. destruct (rd_count d =? 0)%N.
  - unfold deser_u8 in H. destruct (next (rd_bytes d)) as [[c| |] s] eqn:E; try discriminate. destruct (Hn _ _ _ H1 E) as [_ H3].
    destruct (0 <? c)%N; [|discriminate]. destruct (deser (TRgb TU8) T next s) as [[q| |] s1] eqn:E2; try discriminate.
    injection H as <- <-. destruct (keeps_deser I next Hn (TRgb TU8) _ _ _ H3 E2) as [Hq H4]. apply rgb_wf in Hq. cbn. auto.
  - injection H as <- <-. cbn. auto.
Qed.
Lemma hilbert_made scan stack m data im : u8s data -> hilbert_decode scan stack m list_next data = Ok im -> made_from data im.
Proof.
  intros HF H. unfold hilbert_decode in H. destruct (deser (TPair TU32 TU32) _ list_next data) as [[[w h]| |] s] eqn:E; try discriminate.
  apply dims_list in E as (Hw & Hh & Hd & Hs); [|exact HF].
  assert (G : im_w im = w /\ im_h im = h /\ img_ok im /\ is_opaque im).
  { destruct m as [d|].
    - refine (decode_any_keeps _ _ scan w h _ im (keeps_rle u8s list_next keeps_list) _ Hw Hh H). split; [exact Hs|exact black_ok].
    - refine (decode_any_keeps (dict_kept u8s) _ scan w h _ im _ _ Hw Hh H).
      + eapply keeps_imp; [|exact (keeps_deser _ _ (keeps_dict u8s list_next keeps_list stack) (TRgb TU8))]. intros c; apply rgb_wf.
      + now apply dict_kept_new. }
  destruct G as (<- & <- & G1 & G2). split; [auto|]. split; [auto|]. exists s. unfold dims. now rewrite <- app_assoc.
Qed.
Lemma rebuild_made {T} (I : T -> Prop) (next : nextf T N) s im : keeps u8_ok I next -> I s -> rebuild_image next s = Ok im -> img_ok im /\ is_opaque im.
Proof.
  intros Hn Hs H. unfold rebuild_image in H. destruct (deser (TPair TU32 TU32) T next s) as [[[w h]| |] s1] eqn:E; try discriminate.
  destruct (keeps_deser I next Hn (TPair TU32 TU32) _ _ _ Hs E) as [[Hw Hh] H1]. cbn [fst snd] in Hw, Hh.
  destruct (buffer_new w h) as [b| |] eqn:B; try discriminate. apply buffer_inv in B as (B1 & _ & _).
  destruct (rd_repeat (deser (TRgb TU8) T next) (w * h) s1) as [[l| |] s2] eqn:R; try discriminate. injection H as <-.
  destruct (keeps_repeat I _ _ (w * h)%N (keeps_deser I next Hn (TRgb TU8)) _ _ _ H1 R) as [[H2 H3] _].
  apply made_ok; auto.
Qed.
Lemma zip_made p stack k data im : u8s data -> zip_decode p stack k list_next data = Ok im -> img_ok im /\ is_opaque im.
Proof.
  intros HF H. destruct k.
  - exact (rebuild_made _ _ _ im (keeps_dict u8s list_next keeps_list stack) (dict_kept_new u8s _ HF) H).
  - exact (rebuild_made _ _ _ im (keeps_back u8s list_next MAX_RING_BUFFER_SIZE p keeps_list) (back_kept_new u8s _ _ HF) H).
Qed.
Lemma mapM_length {A B} (f : A -> res B) l : forall r, res_mapM f l = Ok r -> length r = length l /\ forall P : B -> Prop, (forall a b, In a l -> f a = Ok b -> P b) -> Forall P r.
Proof.
  induction l as [|a l IH]; intros r H; cbn [res_mapM] in H; [injection H as <-; auto|].
  destruct (f a) as [b| |] eqn:E; cbn [res_bind] in H; try discriminate. destruct (res_mapM f l) as [r'| |] eqn:E2; cbn [res_bind] in H; try discriminate.
  injection H as <-. destruct (IH _ eq_refl) as [H1 H2]. split; [cbn; lia|]. intros P HP. constructor; [eapply HP; [now left|exact E]|].
  apply H2. intros x y Hx. apply HP. now right.
Qed.
Lemma min_by_in {A} (key : A -> res N) l : forall best a, min_by key best l = Ok a -> In a (fst best :: l).
Proof.
  induction l as [|x l IH]; intros best a H; cbn [min_by] in H; [injection H as <-; now left|].
  destruct (key x) as [k| |]; cbn [res_bind] in H; try discriminate. destruct (k <? snd best)%N; apply IH in H; cbn in *; tauto.
Qed.
Lemma keeps_color_pos {T} (I : T -> Prop) (next : nextf T N) : keeps u8_ok I next -> keeps (fun c => rgb_ok (cp_color c)) I (deser_color_pos T next).
Proof.
  intros Hn. unfold deser_color_pos. apply (keeps_bind _ _ _ _ _ (keeps_deser I next Hn TU32)). intros x _.
  apply (keeps_bind _ _ _ _ _ (keeps_deser I next Hn TU32)). intros y _. apply (keeps_bind _ _ _ _ _ (keeps_deser I next Hn (TRgb TU8))).
  intros c Hc. apply keeps_ret. now apply rgb_wf.
Qed.
Lemma voronoi_made p data im : u8s data -> voronoi_decode p list_next data = Ok im -> made_from data im.
Proof.
  intros HF H. unfold voronoi_decode in H. destruct (create_image_buffer_standard list_next data) as [[[[w h] b]| |] s] eqn:E; try discriminate.
  apply create_inv in E as (Hw & Hh & H3 & _ & _ & Hd & Hs); [|exact HF].
  destruct (deser TUsize (list N) list_next s) as [[n| |] s1] eqn:E2; try discriminate.
  destruct (keeps_deser u8s _ keeps_list TUsize _ _ _ Hs E2) as [_ Hs1].
  destruct (rd_repeat (deser_color_pos (list N) list_next) n s1) as [[cs| |] s2] eqn:R; try discriminate.
  destruct (keeps_repeat u8s _ _ n (keeps_color_pos u8s list_next keeps_list) _ _ _ Hs1 R) as [[H1 _] _].
  match type of H with res_map _ ?m = _ => destruct m as [l| |] eqn:M; try discriminate end. cbn [res_map] in H. injection H as <-.
  apply mapM_length in M as [M1 M2].
  destruct (made_ok w h l Hw Hh H3) as [? ?].
  - rewrite M1, prod_length, !seq_length. lia.
  - apply M2. intros q c _ Hq. destruct (min_by_key _ cs) as [a| |] eqn:K; try discriminate. cbn in Hq. injection Hq as <-.
    unfold min_by_key in K. destruct cs as [|c0 cs]; [discriminate|].
    destruct (voronoi_key _ _ _ c0) as [k0| |]; cbn [res_bind] in K; try discriminate. apply min_by_in in K. cbn [fst] in K.
    rewrite Forall_forall in H1. now apply H1.
  - split; [auto|]. split; [auto|]. now exists s.
Qed.

Theorem decoded_is_image : forall E c data im, Forall u8_ok data -> any_decode E c data = Some (Ok im) ->
  img_ok im /\ is_opaque im /\ (is_zip c = false -> exists rest, data = dims im ++ rest).
Proof.
  intros E c data im HF H.
  assert (G : made_from data im -> img_ok im /\ is_opaque im /\ (is_zip c = false -> exists rest, data = dims im ++ rest)).
  { intros (G1 & G2 & G3). auto. }
  destruct c as [n|n| |m| |k]; cbn [any_decode] in H.
  - exact (G (hufman_made _ _ _ HF H)).
  - apply G. apply (voronoi_made (e_profile E)); [exact HF|congruence].
  - exact (G (delta_made _ _ _ _ _ HF H)).
  - apply G. apply (hilbert_made (e_scan E) (e_stack E) m); [exact HF|congruence].
  - exact (G (hufman_made _ _ _ HF H)).
  - destruct (zip_made (e_profile E) (e_stack E) k data im HF) as [? ?]; [congruence|]. split; [auto|]. split; [auto|discriminate].
Qed.

Lemma header_cases data : u8s data -> match deser (TPair TU32 TU32) _ list_next data with
  | (Ok (w, h), s) => u32_ok w /\ u32_ok h /\ data = le32 w ++ le32 h ++ s
  | (Err, _) => (length data < 8)%nat
  | (Panic, _) => False end.
Proof.
  intros HF. destruct (deser (TPair TU32 TU32) _ list_next data) as [[[w h]| |] s] eqn:E.
  - apply dims_list in E as (? & ? & ? & _); auto.
  - destruct (Nat.lt_ge_cases (length data) 8) as [H|H]; [exact H|]. exfalso.
    destruct data as [|a [|b [|c [|d [|e [|f [|g [|i data]]]]]]]]; cbn in H; try lia. cbn in E. discriminate E.
  - apply (never_panics (TPair TU32 TU32) (list_byte_source HF)). now rewrite E.
Qed.
Theorem short_data : forall E c data, Forall u8_ok data -> is_zip c = false -> (length data < 8)%nat -> any_decode E c data = Some Err.
Proof.
  intros E c data HF Hz HL. pose proof (header_cases data HF) as H.
  assert (G : exists s, deser (TPair TU32 TU32) _ list_next data = (Err, s)).
  { destruct (deser (TPair TU32 TU32) _ list_next data) as [[[w h]| |] s]; [|eauto|easy]. destruct H as (_ & _ & ->). cbn in HL. lia. }
  clear H. destruct G as [s G].
  assert (GC : create_image_buffer_standard list_next data = (Err, s)) by (unfold create_image_buffer_standard, rd_bind; now rewrite G).
  destruct c as [n|n| |m| |k]; cbn [any_decode] in *; try discriminate.
  - unfold cluster_colors_decode, hufman_decode. now rewrite GC.
  - unfold voronoi_decode. now rewrite GC.
  - unfold delta_decode. now rewrite GC.
  - unfold hilbert_decode. now rewrite G.
  - unfold hufman_decode. now rewrite GC.
Qed.
Theorem huge_dims : forall E c w h rest, u32_ok w -> u32_ok h -> (2 ^ 63 <= 3 * w * h)%N -> is_zip c = false ->
  any_decode E c (le32 w ++ le32 h ++ rest) = Some Panic.
Proof.
  intros E c w h rest Hw Hh HB Hz.
  assert (G : deser (TPair TU32 TU32) _ list_next (le32 w ++ le32 h ++ rest) = (Ok (w, h), rest)).
  { apply dims_deser; auto. rewrite app_assoc. apply yields_list. }
  assert (GB : buffer_new w h = Panic) by (unfold buffer_new; destruct (N.ltb_spec (3 * w * h) (2 ^ 63)); [lia|reflexivity]).
  assert (GC : create_image_buffer_standard list_next (le32 w ++ le32 h ++ rest) = (Panic, rest)).
  { unfold create_image_buffer_standard, rd_bind. rewrite G. cbn [fst snd]. unfold rd_lift. now rewrite GB. }
  destruct c as [n|n| |m| |k]; cbn [any_decode] in *; try discriminate.
  - unfold cluster_colors_decode, hufman_decode. now rewrite GC.
  - unfold voronoi_decode. now rewrite GC.
  - unfold delta_decode. now rewrite GC.
  - unfold hilbert_decode. rewrite G. destruct m; unfold decode_any; now rewrite GB.
  - unfold hufman_decode. now rewrite GC.
Qed.
