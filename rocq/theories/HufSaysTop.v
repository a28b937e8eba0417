(** * What the Huffman codec prints for images, and instances for C93 *)
From Verif Require Import Base Ser SerSpec SerProofs Bit BitSpec BitProofs Utils Huf HufSpec HufProofs HufTop Dict DictSpec Img Float HilbertC CodecSpec BackSpec CodecBytes CodecCases Says HufSays HufSaysProofs.
From Coq Require Import Lia.

Lemma erase_hufman_encode ord H im w : snd (hufman_encode_says ord H im w) = hufman_encode ord H im w.
Proof. revert w. apply erase_bind; [reflexivity|]. intros _ w. apply erase_huf. Qed.

Lemma huf_abort t (eqb : val t -> val t -> bool) : eqb_ok eqb ->
  forall ord, ord_ok ord -> forall H : heap (suffix (val t)), heap_ok suffix_cmp H ->
  forall items, items <> [] -> Forall (encodable t) items -> forall w,
  (fst (huf_encode_all eqb (ser t) ord H items w) = Panic <-> fst (huf_encode_says eqb (ser t) ord H items w) = [CodeLost]).
Proof.
  intros Heqb ord Ho H HH items Hne HE w. split; [now apply huf_cries|].
  intros E. rewrite <- erase_huf. destruct (once_huf eqb (ser t) ord H items w) as [F|[w' F]].
  - rewrite F in E. discriminate.
  - now rewrite F.
Qed.

Lemma img_encodable im : img_ok im -> Forall (encodable (TRgb TU8)) (map to_rgb (im_px im)).
Proof.
  intros Hi. apply Forall_forall. intros c Hc. split.
  - apply rgb_wf. exact (proj1 (Forall_forall _ _) (img_rgb _ Hi) c Hc).
  - exists (pixel_bytes c). apply pixel_format.
Qed.
Lemma fst_quiet {M R} (x : list M * R) : fst (let '(o, r) := x in ([] ++ o, r)) = fst x.
Proof. now destruct x. Qed.
Lemma hufman_says_when ord H im : img_ok im -> ord_ok ord -> heap_ok suffix_cmp H -> im_px im <> [] ->
  exists tree code hdr pay lastb,
    build_tree H (ord (count_freqs rgb_eqb (map to_rgb (im_px im)))) = Ok tree
    /\ (forall p, In p (im_px im) -> path tree (code (to_rgb p)) (to_rgb p))
    /\ trie_format (format (TRgb TU8)) tree = Some hdr
    /\ N.of_nat (length pay) = (total_bits (map to_rgb (im_px im)) code / 8)%N
    /\ run_vec (hufman_encode ord H im) = Ok ((le32 (im_w im) ++ le32 (im_h im)) ++ hdr ++ pay ++ lastb)
    /\ forall w, fst (hufman_encode_says ord H im w) =
         match Base.room w with
         | Some k => if ((8 + length hdr <=? k) && (k <? 8 + length hdr + length pay))%nat then [CodeLost] else []
         | None => []
         end.
Proof.
  intros Hi Ho HH Hne. pose proof Hi as (Hw & Hh & _).
  assert (Hn : map to_rgb (im_px im) <> []) by (destruct (im_px im); [contradiction|discriminate]).
  destruct (@huf_says_when (TRgb TU8) rgb_eqb rgb_eqb_ok ord Ho H HH (map to_rgb (im_px im)) Hn (img_encodable im Hi))
    as (tree & code & hdr & pay & lastb & H1 & H2 & H3 & H4 & H5 & H6).
  exists tree, code, hdr, pay, lastb. split; [exact H1|]. split; [intros p Hp; now apply H2, in_map|]. split; [exact H3|]. split; [exact H4|]. split.
  - destruct (hufman_run ord H im Hi Ho HH Hne) as [tr [pay' [lb' [hdr' [R Eh]]]]].
    rewrite (hufman_out ord H im tr pay' lb' hdr' Hi R Eh). f_equal. f_equal.
    unfold run_vec in H5. rewrite (er_ok R Eh) in H5. change (run_vec (staged hdr' pay' lb') = Ok (hdr ++ pay ++ lastb)) in H5.
    rewrite staged_vec in H5. congruence.
  - intros w. unfold hufman_encode_says, says_bind, hush. rewrite (dims_emits _ _ Hw Hh). unfold put, io_bind, io_lift, write_all.
    assert (L8 : length (le32 (im_w im) ++ le32 (im_h im)) = 8%nat) by reflexivity.
    destruct (Base.room w) as [k|] eqn:Ek.
    + rewrite L8. destruct (Nat.leb_spec 8 k) as [L|L].
      * etransitivity; [apply fst_quiet|]. etransitivity; [apply H6|]. cbn [Base.room].
        replace (length hdr <=? k - 8)%nat with (8 + length hdr <=? k)%nat by (destruct (Nat.leb_spec (8 + length hdr) k), (Nat.leb_spec (length hdr) (k - 8)); lia).
        replace (k - 8 <? length hdr + length pay)%nat with (k <? 8 + length hdr + length pay)%nat by (destruct (Nat.ltb_spec k (8 + length hdr + length pay)), (Nat.ltb_spec (k - 8) (length hdr + length pay)); lia).
        reflexivity.
      * replace (8 + length hdr <=? k)%nat with false by (symmetry; apply Nat.leb_gt; lia). reflexivity.
    + etransitivity; [apply fst_quiet|]. exact (H6 _).
Qed.

(** 17 bytes: 14 of tree, 2 full payload bytes, 1 padded byte *)
Definition abra : list N := [97; 98; 114; 97; 99; 97; 100; 97; 98; 114; 97]%N.
Lemma huf_says_case : let enc := huf_encode_says N.eqb (ser TU8) (@rev (N * N)) list_heap abra in
  Forall (encodable TU8) abra
  /\ map (fun k => fst (enc (short_writer k))) [0; 13; 14; 15; 16; 17]%nat = [[]; []; [CodeLost]; [CodeLost]; []; []]
  /\ fst (enc vec_writer) = [] /\ fst (enc (mkW [] None true)) = []
  /\ fst (snd (enc (short_writer 14))) = Panic.
Proof.
  split; [repeat constructor; cbn; try (eexists; reflexivity); unfold u8_ok; lia|]. repeat split; vm_compute; reflexivity.
Qed.
