(** * Properties C64-C66: decoding data that no encoder wrote (src/zip/back.rs,
    src/codec). *)
From Verif Require Import Base Ser SerSpec Utils Huf HufSpec HufTop Dict DictSpec Back BackSpec Img Float HilbertC CodecSpec CodecCases Kmeans KmeansSpec KmeansCases ClusterC Prs Select Bench BenchSpec
  ForeignSpec BackForeign ForeignTop ForeignZip.

(** C64: malformed data is never reported ([Err] only ever means "finished").  The bound
    on the length makes every output position fit 63 bits. *)
Theorem C64_foreign_data : forall T (next : nextf T N) s bs pr, yields_all next s bs -> Forall u8_ok bs -> (N.of_nat (length bs) < 2 ^ 48)%N ->
  exists out e, unpacks [] bs out e
  /\ (forall out' e', unpacks [] bs out' e' -> out' = out /\ e' = e)
  /\ exists st, yields (bd_next next MAX_RING_BUFFER_SIZE pr) (zip_back_decode s) out st
     /\ fst (bd_next next MAX_RING_BUFFER_SIZE pr st) = match e with Finished => Err | Aborted => Panic end.
Proof. exact back_foreign. Qed.
Print Assumptions C64_foreign_data.
(** a copy; a copy whose length is cut by the end of the history; a symbol for nothing
    hides what follows; a distance beyond the beginning; a cut literal *)
Example C64_cases :
  unpacks [] ([2; 0; 97; 98] ++ [2; 128; 2; 0] ++ [9])%N [97; 98; 97; 98]%N Finished
  /\ unpacks [] ([2; 0; 97; 98] ++ [5; 128; 1; 0] ++ [])%N [97; 98; 98]%N Finished
  /\ unpacks [] ([1; 0; 97] ++ [0; 0] ++ [1; 0; 97])%N [97]%N Finished
  /\ unpacks [] ([1; 0; 97] ++ [1; 128; 2; 0] ++ [1; 0; 97])%N [97]%N Aborted
  /\ unpacks [] ([1; 0; 97] ++ [3; 0; 97; 98])%N [97]%N Aborted.
Proof. exact unpacks_cases. Qed.

(** C65: whatever the bytes and the environment, an image that a decoder returns is well
    formed and opaque; all codecs but zip take its dimensions from the first 8 bytes. *)
Theorem C65_decoded_is_image : forall E c data im, Forall u8_ok data -> any_decode E c data = Some (Ok im) ->
  img_ok im /\ is_opaque im /\ (is_zip c = false -> exists rest, data = dims im ++ rest).
Proof. exact decoded_is_image. Qed.
Print Assumptions C65_decoded_is_image.
Theorem C65_short_data : forall E c data, Forall u8_ok data -> is_zip c = false -> (length data < 8)%nat -> any_decode E c data = Some Err.
Proof. exact short_data. Qed.
Print Assumptions C65_short_data.
Theorem C65_huge_dimensions : forall E c w h rest, u32_ok w -> u32_ok h -> (2 ^ 63 <= 3 * w * h)%N -> is_zip c = false ->
  any_decode E c (le32 w ++ le32 h ++ rest) = Some Panic.
Proof. exact huge_dims. Qed.
Print Assumptions C65_huge_dimensions.
(** "Decoding never aborts" is false for every codec: at most 8 bytes are enough. *)
Theorem C65_never_aborts_refuted : forall E c, exists data, Forall u8_ok data /\ (length data <= 8)%nat /\ any_decode E c data = Some Panic.
Proof. exact every_codec_aborts. Qed.
Print Assumptions C65_never_aborts_refuted.
(** a hand-made run-length file: one run of three for a 2x1 image *)
Example C65_case : forall E, e_scan E 2%N 1%N = [(0, 0); (1, 0)]%N ->
  any_decode E (Hilbert (RLE (f64_of_N 0))) ([2; 0; 0; 0; 1; 0; 0; 0] ++ 3 :: [3; 0; 0; 0; 0; 0; 0; 0; 7; 8; 9])%N = Some (Ok (mkImg 2 1 [px 7 8 9 255; px 7 8 9 255]%N)).
Proof. exact foreign_rle. Qed.

(** C66: exactly what the zip codecs accept, and when they abort. *)
Theorem C66_zip_back : forall T (next : nextf T N) s bs pr stack out e, yields_all next s bs -> Forall u8_ok bs -> (N.of_nat (length bs) < 2 ^ 48)%N ->
  unpacks [] bs out e -> accepts out e (zip_decode pr stack ZBack next s).
Proof. exact zip_back_foreign. Qed.
Print Assumptions C66_zip_back.
Theorem C66_zip_dict : forall T (next : nextf T N) s bs pr stack out e, yields_all next s bs -> Forall u8_ok bs -> (length bs < 4 * stack)%nat ->
  expands initial_dict (words_of bs) out e -> accepts out e (zip_decode pr (S stack) ZDict next s).
Proof. exact zip_dict_foreign. Qed.
Print Assumptions C66_zip_dict.
(** an empty image, two ways *)
Example C66_case : unpacks [] ([1; 0; 0] ++ [1; 128; 1; 0] ++ [1; 128; 1; 0] ++ [1; 128; 1; 0] ++ [4; 0; 0; 0; 0; 0] ++ [])%N (repeat 0%N 8) Finished
  /\ zip_decode Debug 5 ZBack list_next ([1; 0; 0] ++ [1; 128; 1; 0] ++ [1; 128; 1; 0] ++ [1; 128; 1; 0] ++ [4; 0; 0; 0; 0; 0])%N = Ok (mkImg 0 0 [])
  /\ zip_decode Release 5 ZDict list_next (repeat 0%N 16) = Ok (mkImg 0 0 []).
Proof. exact foreign_empty. Qed.
