(** * Concrete cases for C73 and C74. *)
From Coq Require Import ZifyBool ZifyNat ZifyN.
From Verif Require Import Base Ser SerSpec SerProofs Bit BitSpec Utils Huf HufSpec Dict DictSpec Back BackSpec Img Float HilbertC
  CodecSpec CodecCases ClusterC ClusterSpec Kmeans AcceptSpec AcceptProofs AcceptPaint AcceptStreams AcceptVoronoi AcceptZip.

Definition pix (r g b : N) : list N := [3; 0; 0; 0; 0; 0; 0; 0; r; g; b]%N.
Definition dim2 : list N := [2; 0; 0; 0; 1; 0; 0; 0]%N.
Definition two (a b : rgba) : img := mkImg 2 1 [a; b].
(** A tree with a symbol that no pixel has, and bytes after the last pixel *)
Definition huf_data : list N := dim2 ++ (1 :: 0 :: pix 9 9 9 ++ 1 :: 0 :: pix 1 2 3 ++ 0 :: pix 4 5 6)%N ++ [176; 77]%N.
(** One symbol, hence codes of no bits: any number of pixels from an empty body *)
Definition leaf_data : list N := dim2 ++ (0 :: pix 7 7 7)%N.
Lemma all_bytes l : forallb (fun b => b <? 256)%N l = true -> Forall u8_ok l.
Proof. intros H. apply Forall_forall. intros x Hx. apply (proj1 (forallb_forall _ _) H) in Hx. unfold u8_ok. lia. Qed.
Ltac bytes := apply all_bytes; vm_compute; reflexivity.
Lemma hufman_cases : hufman_file (two (px 1 2 3 255) (px 4 5 6 255))%N (dim2 ++ (1 :: 0 :: pix 9 9 9 ++ 1 :: 0 :: pix 1 2 3 ++ 0 :: pix 4 5 6) ++ [176; 77])%N
  /\ hufman_decode 60 list_next huf_data = Some (Ok (two (px 1 2 3 255) (px 4 5 6 255)))%N
  /\ hufman_decode 60 list_next leaf_data = Some (Ok (two (px 7 7 7 255) (px 7 7 7 255)))%N
  /\ hufman_decode 60 list_next (firstn 46 huf_data) = Some Err.
Proof.
  assert (E : hufman_decode 60 list_next huf_data = Some (Ok (two (px 1 2 3 255) (px 4 5 6 255)))%N) by (vm_compute; reflexivity).
  split; [|split; [exact E|split; vm_compute; reflexivity]].
  destruct (hufman_accepts huf_data 60) as (got & E' & H & _); [bytes|cbn; lia|]. rewrite E in E'. injection E' as <-. now apply H.
Qed.
Definition dim4 : list N := [2; 0; 0; 0; 2; 0; 0; 0]%N.
(** The pixels in the order of [curve], which goes down, right, up *)
Definition four (a b c d : rgba) : img := mkImg 2 2 [a; d; b; c].
(** Differences (1, 1, 1) and (0, 0, -1) *)
Definition delta_head : list N := dim4 ++ [1; 0; 1; 0; 1; 0; 1; 0; 0; 0; 0; 0; 0; 255; 255]%N.
Definition delta_data : list N := delta_head ++ [64]%N.
Lemma delta_cases :
  delta_file curve (four (px 1 1 1 255) (px 1 1 0 255) (px 2 2 1 255) (px 3 3 2 255))%N (delta_head ++ [64])%N
  /\ delta_file curve (four (px 0 0 0 255) (px 0 0 0 255) (px 0 0 0 255) (px 0 0 0 255))%N delta_head
  /\ delta_decode Release curve 60 list_next (delta_head ++ [128])%N = Some Panic
  /\ delta_decode Release curve 60 list_next (firstn 12 delta_head) = Some Panic.
Proof.
  assert (G : forall data im, Forall u8_ok data -> (length data < 60)%nat -> delta_decode Release curve 60 list_next data = Some (Ok im) -> delta_file curve im data).
  { intros data im HF HL E. destruct (delta_accepts Release curve 60 data HF HL curve_visits) as (got & E' & _ & H). rewrite E in E'. injection E' as <-. now apply H. }
  split; [apply G; [bytes|cbn; lia|vm_compute; reflexivity]|]. split; [apply G; [bytes|cbn; lia|vm_compute; reflexivity]|]. split; vm_compute; reflexivity.
Qed.
(** Three pixels of one colour and no fourth; a run that is longer than the image, followed by
    anything; a run of nothing; too few pixels before a cut run *)
Lemma rle_cases : forall d,
  rle_file curve (four (px 1 2 3 255) (px 1 2 3 255) (px 1 2 3 255) (px 0 0 0 255))%N (dim4 ++ 3 :: pix 1 2 3)%N
  /\ rle_file curve (four (px 1 2 3 255) (px 1 2 3 255) (px 1 2 3 255) (px 1 2 3 255))%N (dim4 ++ 5 :: pix 1 2 3 ++ [7; 7])%N
  /\ hilbert_decode curve 9 (RLE d) list_next (dim4 ++ 0 :: pix 1 2 3)%N = Panic
  /\ hilbert_decode curve 9 (RLE d) list_next (dim4 ++ 3 :: pix 1 2 3 ++ [7; 7])%N = Panic.
Proof.
  intros d. assert (G : forall data im, Forall u8_ok data -> hilbert_decode curve 9 (RLE d) list_next data = Ok im -> rle_file curve im data).
  { intros data im HF E. now apply (proj2 (rle_accepts curve 9 d data HF curve_visits)). }
  split; [apply G; [bytes|lazy; reflexivity]|]. split; [apply G; [bytes|lazy; reflexivity]|]. split; lazy; reflexivity.
Qed.
Definition literals (l : list N) : list N := concat (map (fun b => [b; 0%N]) l).
(** One pixel and the beginning of another: the rest is black; a colour of four components; the
    same cut pixel before a word that is no entry *)
Lemma hilbert_zip_cases :
  hilbert_zip_file curve (four (px 1 2 3 255) (px 0 0 0 255) (px 0 0 0 255) (px 0 0 0 255))%N (dim4 ++ literals (pix 1 2 3 ++ [3; 0; 0]))%N
  /\ hilbert_zip_file curve (four (px 1 2 3 255) (px 0 0 0 255) (px 0 0 0 255) (px 0 0 0 255))%N (dim4 ++ literals (pix 1 2 3 ++ [4; 0; 0; 0; 0; 0; 0; 0; 9; 9; 9; 9; 5]))%N
  /\ hilbert_decode curve 61 MZip list_next (dim4 ++ literals (pix 1 2 3 ++ [3; 0; 0]) ++ [96; 234; 0; 0])%N = Panic.
Proof.
  assert (G : forall data im, Forall u8_ok data -> (length data < 240)%nat -> hilbert_decode curve 61 MZip list_next data = Ok im -> hilbert_zip_file curve im data).
  { intros data im HF HL E. now apply (proj2 (hilbert_zip_accepts curve 60 data HF HL curve_visits)). }
  split; [apply G; [bytes|vm_compute; lia|vm_compute; reflexivity]|]. split; [apply G; [bytes|vm_compute; lia|vm_compute; reflexivity]|]. vm_compute; reflexivity.
Qed.
Lemma depth_case : hufman_decode 5 list_next (dim4 ++ [1; 1; 1; 1; 1; 7])%N = None /\ hufman_decode 7 list_next (dim4 ++ [1; 1; 1; 1; 1; 7])%N = Some Err.
Proof. split; vm_compute; reflexivity. Qed.
(** A point at (65536, 0) is 2^32 from (0, 0), which counts as 0. *)
Definition far_near : list color_pos := [mkCP 1 0 (4, 5, 6); mkCP 65536 0 (7, 8, 9)]%N.
Lemma voronoi_cases' :
  voronoi_file 1 1 far_near (voronoi_bytes 1 1 far_near ++ [5])%N /\ ~ no_overflow 1 1 far_near
  /\ voronoi_decode Debug list_next (voronoi_bytes 1 1 far_near ++ [5])%N = Panic
  /\ voronoi_decode Release list_next (voronoi_bytes 1 1 far_near ++ [5])%N = Ok (mkImg 1 1 [px 7 8 9 255])%N
  /\ voronoi_decode Debug list_next (voronoi_bytes 1 1 (firstn 1 far_near))%N = Ok (mkImg 1 1 [px 4 5 6 255])%N.
Proof.
  assert (E : voronoi_decode Debug list_next (voronoi_bytes 1 1 far_near ++ [5])%N = Panic) by (vm_compute; reflexivity).
  split; [|split; [|split; [exact E|split; vm_compute; reflexivity]]].
  - split; [split; [|split]; reflexivity|]. split; [repeat constructor|]. split; [reflexivity|]. eexists. reflexivity.
  - intros H. destruct (H (mkCP 65536 0 (7, 8, 9))%N 0%N 0%N) as (_ & _ & C); try reflexivity; [right; left; reflexivity|]. vm_compute in C. discriminate C.
Qed.
