(** * Lemmas for C92: images *)
From Verif Require Import Base Ser SerSpec SerProofs HufSpec Dict DictSpec DictEnc Back BackSpec Img HilbertC CodecSpec CodecBytes CodecZip CodecHilbert CodecTop BackSaysTop TrieStats TrieSpec Says DictSays DictSaysSpec DictSaysProofs DictSaysTop DictImgSays HilbertSays BackSaysProofs HilbertSaysProofs.

Lemma dict_image_says im fuel : img_ok im -> (length (zip_input im) < fuel)%nat ->
  exists syms, greedy initial_dict (zip_input im) syms /\ forall pr caps nodes w, (length (zip_input im) + 1 < nodes)%nat ->
    snd (zip_dict_image_says nodes fuel im w) = zip_encode pr caps fuel ZDict im w
    /\ dict_output (Base.room w) syms (fst (zip_dict_image_says nodes fuel im w)).
Proof.
  intros Hi Hf.
  destruct (dict_says _ zip_bytes_next (zip_bytes im) (zip_input im) fuel (zip_bytes_deliver _ Hi) (zip_input_u8 _ Hi) Hf) as (syms & G & H).
  exists syms. split; [exact G|]. intros pr caps nodes w Hn. destruct (H nodes w Hn) as [E (d & c & L & C & O & F)].
  split; [exact E|]. exists d, c. split; [exact L|]. split; [exact C|]. split; [exact O|].
  destruct (fits (Base.room w) (2 * length syms)); exact F.
Qed.

Lemma pixels_u8 l : Forall rgb_ok l -> Forall u8_ok (concat (map pixel_bytes l)).
Proof.
  intros H. apply Forall_concat, Forall_map. eapply Forall_impl; [|exact H]. intros [[r g] b] (? & ? & ?).
  unfold pixel_bytes. repeat (apply Forall_cons; [first [assumption|reflexivity]|]). constructor.
Qed.
Lemma hilbert_zip_output scan im fuel : img_ok im -> Forall (inside (im_w im) (im_h im)) (scan (im_w im) (im_h im)) ->
  (11 * length (scan (im_w im) (im_h im)) < fuel)%nat ->
  exists syms, greedy initial_dict (concat (map pixel_bytes (colours im (scan (im_w im) (im_h im))))) syms
  /\ forall nodes w, (11 * length (scan (im_w im) (im_h im)) + 1 < nodes)%nat ->
    snd (hilbert_zip_says scan nodes fuel im w) = hilbert_encode scan fuel MZip im w
    /\ match Base.room w with
       | None => dict_output None syms (fst (hilbert_zip_says scan nodes fuel im w))
       | Some k => if (k <? 8)%nat then fst (hilbert_zip_says scan nodes fuel im w) = []
                   else dict_output (Some (k - 8)%nat) syms (fst (hilbert_zip_says scan nodes fuel im w))
       end.
Proof.
  intros Hi Hs Hf. pose proof Hi as (Hw & Hh & _). set (ps := scan (im_w im) (im_h im)) in *.
  assert (EC : map to_rgb (map (pixel_at im) ps) = colours im ps) by (unfold colours; now rewrite map_map).
  assert (OC : Forall rgb_ok (colours im ps)) by (apply colours_ok, Hi).
  destruct (dict_says _ (ss_next (ser (TRgb TU8))) (ss_from_iter (colours im ps)) _ fuel (pixels_deliver _ OC) (pixels_u8 _ OC)) as (syms & G & H).
  { rewrite pixels_len. unfold colours. rewrite map_length. exact Hf. }
  rewrite pixels_len in H. unfold colours in H at 1. rewrite map_length in H.
  exists syms. split; [exact G|]. intros nodes w Hn.
  unfold hilbert_zip_says, hilbert_encode, says_bind, hush, io_bind.
  rewrite (dims_emits _ _ Hw Hh w), (linearize_ok scan im Hi Hs). fold ps.
  pose proof (put_room (le32 (im_w im) ++ le32 (im_h im)) w) as HP.
  change (length (le32 (im_w im) ++ le32 (im_h im))) with 8%nat in HP.
  destruct (put (le32 (im_w im) ++ le32 (im_h im)) (Ok tt) w) as [[[]| |] w'].
  - unfold io_lift. rewrite EC. destruct (H nodes w' Hn) as [E (d & c & L & C & O & F)].
    destruct (zip_dict_says (ss_next (ser (TRgb TU8))) nodes fuel (ss_from_iter (colours im ps)) w') as [o r]. cbn [fst snd app] in *.
    split; [exact E|]. destruct (Base.room w) as [k|].
    + destruct HP as [Hk R]. rewrite R in *. destruct (Nat.ltb_spec k 8); [lia|]. exists d, c. auto.
    + rewrite HP in *. exists d, c. auto.
  - destruct HP as (k & -> & Hk). split; [reflexivity|]. destruct (Nat.ltb_spec k 8); [reflexivity|lia].
  - contradiction.
Qed.
