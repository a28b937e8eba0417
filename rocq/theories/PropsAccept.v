(** * Properties C73-C74: exactly which data the image decoders accept (src/codec). *)
From Verif Require Import Base Ser SerSpec Bit BitSpec Utils Huf HufSpec Dict DictSpec Img Float HilbertC CodecSpec CodecCases ClusterC ClusterSpec
  AcceptSpec AcceptProofs AcceptStreams AcceptVoronoi AcceptZip AcceptCases.

(** C73: hufman.  The tree may be any tree, so the encoder's files are a small part. *)
Theorem C73_hufman : forall data fuel, Forall u8_ok data -> (length data < fuel)%nat ->
  exists got, hufman_decode fuel list_next data = Some got /\ (forall im, got = Ok im <-> hufman_file im data) /\ (got = Panic <-> too_large data).
Proof. exact hufman_accepts. Qed.
Print Assumptions C73_hufman.
(** a tree with an unused symbol, and bytes after the last pixel; a tree of one symbol,
    whose code has no bits, fills any image; too few bits *)
Example C73_hufman_cases : hufman_file (two (px 1 2 3 255) (px 4 5 6 255))%N (dim2 ++ (1 :: 0 :: pix 9 9 9 ++ 1 :: 0 :: pix 1 2 3 ++ 0 :: pix 4 5 6) ++ [176; 77])%N
  /\ hufman_decode 60 list_next huf_data = Some (Ok (two (px 1 2 3 255) (px 4 5 6 255)))%N
  /\ hufman_decode 60 list_next leaf_data = Some (Ok (two (px 7 7 7 255) (px 7 7 7 255)))%N
  /\ hufman_decode 60 list_next (firstn 46 huf_data) = Some Err.
Proof. exact hufman_cases. Qed.
(** Reading a tree recurses; no depth is enough for all data, and a byte per level does. *)
Theorem C73_depth : forall n w h rest, buffer_fits w h ->
  hufman_decode n list_next (le32 w ++ le32 h ++ repeat 1%N n ++ rest) = None
  /\ forall p scan, delta_decode p scan n list_next (le32 w ++ le32 h ++ repeat 1%N n ++ rest) = None.
Proof. exact recursion_depth. Qed.
Print Assumptions C73_depth.
Example C73_depth_case : hufman_decode 5 list_next (dim4 ++ [1; 1; 1; 1; 1; 7])%N = None /\ hufman_decode 7 list_next (dim4 ++ [1; 1; 1; 1; 1; 7])%N = Some Err.
Proof. exact depth_case. Qed.

(** delta, hilbert(rle) and hilbert(zip): of all malformed data, only data without
    dimensions is reported.  Missing pixels are black; the rest aborts. *)
Theorem C73_delta : forall p scan fuel data, Forall u8_ok data -> (length data < fuel)%nat -> (forall w h, visits_all w h (scan w h)) ->
  exists got, delta_decode p scan fuel list_next data = Some got /\ (got = Err <-> (length data < 8)%nat) /\ forall im, got = Ok im <-> delta_file scan im data.
Proof. exact delta_accepts. Qed.
Print Assumptions C73_delta.
(** four differences; a tree and nothing else: all black; a difference that leads out
    of the colours; no complete tree *)
Example C73_delta_cases :
  delta_file curve (four (px 1 1 1 255) (px 1 1 0 255) (px 2 2 1 255) (px 3 3 2 255))%N (delta_head ++ [64])%N
  /\ delta_file curve (four (px 0 0 0 255) (px 0 0 0 255) (px 0 0 0 255) (px 0 0 0 255))%N delta_head
  /\ delta_decode Release curve 60 list_next (delta_head ++ [128])%N = Some Panic
  /\ delta_decode Release curve 60 list_next (firstn 12 delta_head) = Some Panic.
Proof. exact delta_cases. Qed.
Theorem C73_rle : forall scan stack d data, Forall u8_ok data -> (forall w h, visits_all w h (scan w h)) ->
  (hilbert_decode scan stack (RLE d) list_next data = Err <-> (length data < 8)%nat)
  /\ forall im, hilbert_decode scan stack (RLE d) list_next data = Ok im <-> rle_file scan im data.
Proof. exact rle_accepts. Qed.
Print Assumptions C73_rle.
(** three pixels of one colour and no fourth; a run longer than the image, followed by
    anything; a run of nothing; too few pixels before a cut run *)
Example C73_rle_cases : forall d,
  rle_file curve (four (px 1 2 3 255) (px 1 2 3 255) (px 1 2 3 255) (px 0 0 0 255))%N (dim4 ++ 3 :: pix 1 2 3)%N
  /\ rle_file curve (four (px 1 2 3 255) (px 1 2 3 255) (px 1 2 3 255) (px 1 2 3 255))%N (dim4 ++ 5 :: pix 1 2 3 ++ [7; 7])%N
  /\ hilbert_decode curve 9 (RLE d) list_next (dim4 ++ 0 :: pix 1 2 3)%N = Panic
  /\ hilbert_decode curve 9 (RLE d) list_next (dim4 ++ 3 :: pix 1 2 3 ++ [7; 7])%N = Panic.
Proof. exact rle_cases. Qed.
Theorem C73_hilbert_zip : forall scan stack data, Forall u8_ok data -> (length data < 4 * stack)%nat -> (forall w h, visits_all w h (scan w h)) ->
  (hilbert_decode scan (S stack) MZip list_next data = Err <-> (length data < 8)%nat)
  /\ forall im, hilbert_decode scan (S stack) MZip list_next data = Ok im <-> hilbert_zip_file scan im data.
Proof. exact hilbert_zip_accepts. Qed.
Print Assumptions C73_hilbert_zip.
(** one pixel and the beginning of another: the rest is black; a colour of four
    components does the same; the cut pixel before a word that is no entry *)
Example C73_hilbert_zip_cases :
  hilbert_zip_file curve (four (px 1 2 3 255) (px 0 0 0 255) (px 0 0 0 255) (px 0 0 0 255))%N (dim4 ++ literals (pix 1 2 3 ++ [3; 0; 0]))%N
  /\ hilbert_zip_file curve (four (px 1 2 3 255) (px 0 0 0 255) (px 0 0 0 255) (px 0 0 0 255))%N (dim4 ++ literals (pix 1 2 3 ++ [4; 0; 0; 0; 0; 0; 0; 0; 9; 9; 9; 9; 5]))%N
  /\ hilbert_decode curve 61 MZip list_next (dim4 ++ literals (pix 1 2 3 ++ [3; 0; 0]) ++ [96; 234; 0; 0])%N = Panic.
Proof. exact hilbert_zip_cases. Qed.

(** C74: voronoi.  The release build takes distances modulo 2^32; the debug build aborts
    where a difference is negative or a number overflows. *)
Theorem C74_accepts : forall p data, Forall u8_ok data ->
  (voronoi_decode p list_next data = Err <-> ~ too_large data /\ forall w h cs, ~ voronoi_file w h cs data)
  /\ forall im, voronoi_decode p list_next data = Ok im <-> exists w h cs, voronoi_file w h cs data /\ (p = Debug -> no_overflow w h cs) /\ voronoi_shows w h cs im.
Proof. exact voronoi_accepts. Qed.
Print Assumptions C74_accepts.
Theorem C74_debug_nearest : forall data im, Forall u8_ok data -> voronoi_decode Debug list_next data = Ok im ->
  exists w h cs, voronoi_file w h cs data /\ voronoi_image w h cs im.
Proof. exact voronoi_checked. Qed.
Print Assumptions C74_debug_nearest.
(** a point at (65536, 0) is 2^32 from (0, 0), which counts as 0 *)
Example C74_cases :
  voronoi_file 1 1 far_near (voronoi_bytes 1 1 far_near ++ [5])%N /\ ~ no_overflow 1 1 far_near
  /\ voronoi_decode Debug list_next (voronoi_bytes 1 1 far_near ++ [5])%N = Panic
  /\ voronoi_decode Release list_next (voronoi_bytes 1 1 far_near ++ [5])%N = Ok (mkImg 1 1 [px 7 8 9 255])%N
  /\ voronoi_decode Debug list_next (voronoi_bytes 1 1 (firstn 1 far_near))%N = Ok (mkImg 1 1 [px 4 5 6 255])%N.
Proof. exact voronoi_cases'. Qed.
