(** * C91: what hilbert(rle) and the Huffman decoder print.  Statements only; proofs are in HilbertSaysProofs.v. *)
From Coq Require Import String.
From Verif Require Import Base Ser SerSpec Bit BitSpec Utils Huf HufSpec Dict Img Float HilbertC CodecSpec CodecCases ClusterSpec AcceptSpec AcceptCases Prs Says HilbertSays HilbertSaysSpec HilbertSaysProofs HilbertSaysCases.
Close Scope string_scope.
Open Scope list_scope.

(** Printing changes nothing, whatever the traversal and the writer do. *)
Theorem C91_silent : forall scan fuel m im w, snd (hilbert_says scan fuel m im w) = hilbert_encode scan fuel m im w.
Proof. exact erase_hilbert. Qed.
Print Assumptions C91_silent.
(** hilbert(rle): once the dimensions are written, the coding, then a line for each run of 255 pixels, up to the run that does not fit. *)
Theorem C91_rle : forall scan fuel d im, img_ok im -> Forall (inside (im_w im) (im_h im)) (scan (im_w im) (im_h im)) ->
  (length (scan (im_w im) (im_h im)) < fuel)%nat ->
  exists runs, greedy_runs (joining d) (colours im (scan (im_w im) (im_h im))) runs
  /\ forall w, fst (hilbert_says scan fuel (RLE d) im w) =
     match room w with
     | None => coding d :: reported runs
     | Some k => if (k <? 8)%nat then [] else coding d :: reported (begun (Some (k - 8)%nat) runs)
     end.
Proof. exact hilbert_notices. Qed.
Print Assumptions C91_rle.
Example C91_rle_case : img_ok long_runs /\ Forall (inside (im_w long_runs) (im_h long_runs)) (rows (im_w long_runs) (im_h long_runs))
  /\ fst (hilbert_says rows 900 (RLE (f64_of_N 0)) long_runs vec_writer) = [UsingExact; MaxReached 255; MaxReached 255]%N
  /\ fst (hilbert_says rows 900 (RLE (f64_of_N 2)) long_runs vec_writer) = [UsingApprox; MaxReached 255; MaxReached 255; MaxReached 255]%N
  /\ fst (hilbert_says rows 900 (RLE (f64_of_N 0)) long_runs (short_writer 20)) = [UsingExact; MaxReached 255; MaxReached 255]%N
  /\ fst (hilbert_says rows 900 (RLE (f64_of_N 0)) long_runs (short_writer 19)) = [UsingExact; MaxReached 255]%N
  /\ fst (hilbert_says rows 900 (RLE (f64_of_N 0)) long_runs (short_writer 7)) = []
  /\ map notice_text [UsingApprox; MaxReached 255]%N = [txt "RLE: using approx"; txt "Max number of repetitions reached: 255"].
Proof. exact rle_says_case. Qed.

(** The Huffman decoder: printing changes nothing, for all readers. *)
Theorem C91_decode_silent : forall fuel S (next : nextf S N) s, snd (hufman_says fuel next s) = hufman_decode fuel next s.
Proof. exact @erase_hufman. Qed.
Print Assumptions C91_decode_silent.
(** Whatever the reader does, the two lines are printed together, and only for a decoding that fails: the test for the second one is always true. *)
Theorem C91_together : forall fuel S (next : nextf S N) s,
  fst (hufman_says fuel next s) = [] \/ hufman_says fuel next s = ([SymbolFailed; StreamEnded], Some Err).
Proof. exact @hufman_together. Qed.
Print Assumptions C91_together.
(** They are printed exactly if dimensions and tree are fine and there are too few symbols; other failures are silent. *)
Theorem C91_decode : forall data fuel, Forall u8_ok data -> (length data < fuel)%nat ->
  (hufman_says fuel list_next data = ([SymbolFailed; StreamEnded], Some Err) /\ too_few data)
  \/ (fst (hufman_says fuel list_next data) = [] /\ ~ too_few data).
Proof. exact hufman_notices. Qed.
Print Assumptions C91_decode.
Example C91_decode_case : too_few (firstn 46 huf_data)
  /\ hufman_says 60 list_next (firstn 46 huf_data) = ([SymbolFailed; StreamEnded], Some Err)
  /\ fst (hufman_says 60 list_next huf_data) = []
  /\ hufman_says 60 list_next (firstn 30 huf_data) = ([], Some Err).
Proof. exact hufman_says_case. Qed.
