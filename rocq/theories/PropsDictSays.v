(** * C92: what zip-dict prints.  Statements only; proofs are in DictSays*.v. *)
From Verif Require Import Base Ser SerSpec HufSpec Dict DictSpec DictEnc Back BackSpec BackSaysTop Img HilbertC CodecSpec CodecCases TrieStats TrieSpec Says DictSays DictImgSays DictSaysSpec DictSaysTop DictSaysCases DictImgProofs.

(** For every writer: printing changes nothing ([nodes] bounds the nodes that the statistics visit); a line for each content that is crowded in the dictionary
    at the end, at least one, also where a write fails; the statistics only if all writes succeed. *)
Theorem C92_output : forall T (next : nextf T N) s l fuel, delivers next s l -> Forall u8_ok l -> (length l < fuel)%nat ->
  exists syms, greedy initial_dict l syms /\ forall nodes w, (length l + 1 < nodes)%nat ->
    snd (zip_dict_says next nodes fuel s w) = zip_dict_encode next fuel s w
    /\ exists d c, learnt initial_dict (looked_for (Base.room w) syms) d /\ crowded d c /\ (1 <= c)%nat
       /\ if fits (Base.room w) (2 * length syms)
          then exists st, figures d st /\ fst (zip_dict_says next nodes fuel s w) = repeat Converting c ++ [TrieStats st]
          else fst (zip_dict_says next nodes fuel s w) = repeat Converting c.
Proof. exact dict_says. Qed.
Print Assumptions C92_output.
(** [crowded] determines the number. *)
Theorem C92_number : forall keys c c', crowded keys c -> crowded keys c' -> c = c'.
Proof. exact crowded_fun. Qed.
Print Assumptions C92_number.
(** 70 pairs with different first bytes: the 65th makes the root's children full *)
Example C92_case : delivers list_next many_pairs many_pairs /\ Forall u8_ok many_pairs /\
  zip_dict_says list_next 100 150 many_pairs vec_writer = ([Converting; Converting; TrieStats (mkStats 71 70 256 326 326)], zip_dict_encode list_next 150 many_pairs vec_writer)
  /\ fst (zip_dict_says list_next 100 150 many_pairs (short_writer 255)) = [Converting]
  /\ fst (zip_dict_says list_next 100 150 many_pairs (short_writer 256)) = [Converting; Converting]
  /\ fst (zip_dict_says list_next 100 150 [] vec_writer) = [Converting; TrieStats (mkStats 1 0 0 256 256)].
Proof. exact dict_says_case. Qed.

(** zip(dict) on images: the same for the bytes of the image. *)
Theorem C92_image : forall im fuel, img_ok im -> (length (zip_input im) < fuel)%nat ->
  exists syms, greedy initial_dict (zip_input im) syms /\ forall pr caps nodes w, (length (zip_input im) + 1 < nodes)%nat ->
    snd (zip_dict_image_says nodes fuel im w) = zip_encode pr caps fuel ZDict im w
    /\ dict_output (Base.room w) syms (fst (zip_dict_image_says nodes fuel im w)).
Proof. exact dict_image_says. Qed.
Print Assumptions C92_image.
(** hilbert(zip): nothing if the dimensions cannot be written, else the same for the bytes of the colours in the order of the traversal. *)
Theorem C92_hilbert : forall scan im fuel, img_ok im -> Forall (inside (im_w im) (im_h im)) (scan (im_w im) (im_h im)) ->
  (11 * length (scan (im_w im) (im_h im)) < fuel)%nat ->
  exists syms, greedy initial_dict (concat (map pixel_bytes (colours im (scan (im_w im) (im_h im))))) syms
  /\ forall nodes w, (11 * length (scan (im_w im) (im_h im)) + 1 < nodes)%nat ->
    snd (hilbert_zip_says scan nodes fuel im w) = hilbert_encode scan fuel MZip im w
    /\ match Base.room w with
       | None => dict_output None syms (fst (hilbert_zip_says scan nodes fuel im w))
       | Some k => if (k <? 8)%nat then fst (hilbert_zip_says scan nodes fuel im w) = []
                   else dict_output (Some (k - 8)%nat) syms (fst (hilbert_zip_says scan nodes fuel im w))
       end.
Proof. exact hilbert_zip_output. Qed.
Print Assumptions C92_hilbert.
Example C92_image_case : img_ok pic /\ (length (zip_input pic) < 60)%nat /\ Forall (inside 2 2) (curve 2%N 2%N)
  /\ fst (zip_dict_image_says 60 60 pic vec_writer) = [Converting; TrieStats (mkStats 23 22 22 267 267)]
  /\ fst (hilbert_zip_says curve 60 60 pic vec_writer) = [Converting; TrieStats (mkStats 22 21 21 264 264)]
  /\ fst (hilbert_zip_says curve 60 60 pic (short_writer 8)) = [Converting]
  /\ fst (hilbert_zip_says curve 60 60 pic (short_writer 7)) = [].
Proof. exact dict_image_case. Qed.
