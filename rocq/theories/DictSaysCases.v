(** * Instances for C92 *)
From Verif Require Import Base Ser SerSpec HufSpec Dict DictSpec DictProofs DictEnc Back BackSpec BackSaysTop Img HilbertC CodecSpec CodecCases TrieStats TrieSpec Says DictSays DictImgSays DictSaysSpec DictSaysTop.

Definition many_pairs : list N := flat_map (fun b => [b; 7%N]) (firstn 70 all_bytes).
Lemma dict_says_case : delivers list_next many_pairs many_pairs /\ Forall u8_ok many_pairs /\
  zip_dict_says list_next 100 150 many_pairs vec_writer = ([Converting; Converting; TrieStats (mkStats 71 70 256 326 326)], zip_dict_encode list_next 150 many_pairs vec_writer)
  /\ fst (zip_dict_says list_next 100 150 many_pairs (short_writer 255)) = [Converting]
  /\ fst (zip_dict_says list_next 100 150 many_pairs (short_writer 256)) = [Converting; Converting]
  /\ fst (zip_dict_says list_next 100 150 [] vec_writer) = [Converting; TrieStats (mkStats 1 0 0 256 256)].
Proof.
  split; [apply list_delivers|]. split.
  - apply Forall_forall. intros x Hx. assert (E : forallb (fun n => n <? 256)%N many_pairs = true) by (vm_compute; reflexivity).
    rewrite forallb_forall in E. specialize (E x Hx). apply N.ltb_lt in E. exact E.
  - split; [vm_compute; reflexivity|]. split; [vm_compute; reflexivity|]. split; vm_compute; reflexivity.
Qed.

Lemma dict_image_case : img_ok pic /\ (length (zip_input pic) < 60)%nat /\ Forall (inside 2 2) (curve 2%N 2%N)
  /\ fst (zip_dict_image_says 60 60 pic vec_writer) = [Converting; TrieStats (mkStats 23 22 22 267 267)]
  /\ fst (hilbert_zip_says curve 60 60 pic vec_writer) = [Converting; TrieStats (mkStats 22 21 21 264 264)]
  /\ fst (hilbert_zip_says curve 60 60 pic (short_writer 8)) = [Converting]
  /\ fst (hilbert_zip_says curve 60 60 pic (short_writer 7)) = [].
Proof.
  split; [exact pic_ok|]. split; [vm_compute; lia|]. split; [|split; [vm_compute; reflexivity|split; [vm_compute; reflexivity|split; vm_compute; reflexivity]]].
  cbn. repeat (apply Forall_cons; [split; reflexivity|]). constructor.
Qed.
