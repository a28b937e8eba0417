(** * C93: what the Huffman encoder prints.  Statements only; proofs are in HufSaysProofs.v and HufSaysTop.v. *)
From Verif Require Import Base Ser SerSpec Bit BitSpec Utils Huf HufSpec Dict Img CodecSpec HufTop CodecCases Says HilbertSaysCases HufSays HufSaysProofs HufSaysTop.

(** Printing changes nothing, whatever the serializer and the writer do. *)
Theorem C93_silent : forall A (eqb : A -> A -> bool) sa ord H items w,
  snd (huf_encode_says eqb sa ord H items w) = huf_encode_all eqb sa ord H items w.
Proof. exact @erase_huf. Qed.
Print Assumptions C93_silent.
(** At most one line; the program aborts right after it. *)
Theorem C93_once : forall A (eqb : A -> A -> bool) sa ord H items w,
  fst (huf_encode_says eqb sa ord H items w) = [] \/ exists w', huf_encode_says eqb sa ord H items w = ([CodeLost], (Panic, w')).
Proof. exact @once_huf. Qed.
Print Assumptions C93_once.
(** No abort on proper symbols is silent. *)
Theorem C93_abort : forall t (eqb : val t -> val t -> bool), eqb_ok eqb ->
  forall ord, ord_ok ord -> forall H : heap (suffix (val t)), heap_ok suffix_cmp H ->
  forall items, items <> [] -> Forall (encodable t) items -> forall w,
  (fst (huf_encode_all eqb (ser t) ord H items w) = Panic <-> fst (huf_encode_says eqb (ser t) ord H items w) = [CodeLost]).
Proof. exact huf_abort. Qed.
Print Assumptions C93_abort.
(** The line is printed exactly if the writer is full in the whole bytes of the payload:
    after the tree [hdr], before the padded last byte [lastb]. *)
Theorem C93_when : forall t (eqb : val t -> val t -> bool), eqb_ok eqb ->
  forall ord, ord_ok ord -> forall H : heap (suffix (val t)), heap_ok suffix_cmp H ->
  forall items, items <> [] -> Forall (encodable t) items ->
  exists tree code hdr pay lastb,
    build_tree H (ord (count_freqs eqb items)) = Ok tree
    /\ (forall x, In x items -> path tree (code x) x)
    /\ trie_format (format t) tree = Some hdr
    /\ N.of_nat (length pay) = (total_bits items code / 8)%N
    /\ run_vec (huf_encode_all eqb (ser t) ord H items) = Ok (hdr ++ pay ++ lastb)
    /\ forall w, fst (huf_encode_says eqb (ser t) ord H items w) =
         match room w with
         | Some k => if ((length hdr <=? k) && (k <? length hdr + length pay))%nat then [CodeLost] else []
         | None => []
         end.
Proof. exact huf_says_when. Qed.
Print Assumptions C93_when.
Example C93_case : let enc := huf_encode_says N.eqb (ser TU8) (@rev (N * N)) list_heap abra in
  Forall (encodable TU8) abra
  /\ map (fun k => fst (enc (short_writer k))) [0; 13; 14; 15; 16; 17]%nat = [[]; []; [CodeLost]; [CodeLost]; []; []]
  /\ fst (enc vec_writer) = [] /\ fst (enc (mkW [] None true)) = []
  /\ fst (snd (enc (short_writer 14))) = Panic.
Proof. exact huf_says_case. Qed.

(** The same for images: eight bytes of dimensions come first. *)
Theorem C93_image_silent : forall ord H im w, snd (hufman_encode_says ord H im w) = hufman_encode ord H im w.
Proof. exact erase_hufman_encode. Qed.
Print Assumptions C93_image_silent.
Theorem C93_image : forall ord H im, img_ok im -> ord_ok ord -> heap_ok suffix_cmp H -> im_px im <> [] ->
  exists tree code hdr pay lastb,
    build_tree H (ord (count_freqs rgb_eqb (map to_rgb (im_px im)))) = Ok tree
    /\ (forall p, In p (im_px im) -> path tree (code (to_rgb p)) (to_rgb p))
    /\ trie_format (format (TRgb TU8)) tree = Some hdr
    /\ N.of_nat (length pay) = (total_bits (map to_rgb (im_px im)) code / 8)%N
    /\ run_vec (hufman_encode ord H im) = Ok ((le32 (im_w im) ++ le32 (im_h im)) ++ hdr ++ pay ++ lastb)
    /\ forall w, fst (hufman_encode_says ord H im w) =
         match room w with
         | Some k => if ((8 + length hdr <=? k) && (k <? 8 + length hdr + length pay))%nat then [CodeLost] else []
         | None => []
         end.
Proof. exact hufman_says_when. Qed.
Print Assumptions C93_image.
(** 820 pixels of four colours; a writer that is full in the payload *)
Example C93_image_case : im_px long_runs <> [] /\ img_ok long_runs
  /\ map (fun k => fst (hufman_encode_says (fun l => l) list_heap long_runs (short_writer k))) [58; 59; 200; 500]%nat = [[]; [CodeLost]; [CodeLost]; []].
Proof. split; [discriminate|]. split; [exact long_runs_ok|]. vm_compute. reflexivity. Qed.
