(** * Properties C30-C38, C53, C54: run-length coding and the lossless image codecs
    (src/codec/hufc.rs, zipc.rs, hilbertc.rs, src/hilbert.rs).

    The traversal is any function [scan] from dimensions to positions.  [fuel] and
    [stack] only bound the model's loops; see the notes in the model. *)
From Flocq Require Import BinarySingleNaN.
From Verif Require Import Base Ser SerSpec Bit Utils Huf HufSpec HufTop Dict DictSpec Back BackSpec Img Float HilbertC CodecSpec
  CodecBytes CodecZip CodecHilbert CodecTop CodecApprox CodecSquare CodecFinal CodecCases.

(** C30 *)
Theorem C30_exact_runs : forall T (eqb : T -> T -> bool) l, (forall a b, eqb a b = true <-> a = b) ->
  exists out, yields_all rle_next (rle_exact eqb l) out
  /\ Forall (fun r => (1 <= fst r <= 255)%N) out /\ expand out = l
  /\ forall before n x m y after, out = before ++ (n, x) :: (m, y) :: after -> x = y -> n = 255%N.
Proof. exact @rle_exact_spec. Qed.
Print Assumptions C30_exact_runs.
(** 300 equal items, then two others *)
Example C30_case : (forall a b, (a =? b)%N = true <-> a = b)
  /\ collect rle_next 10 (rle_exact N.eqb (repeat 7%N 300 ++ [8; 8; 9]%N)) = Some (Ok [(255, 7); (45, 7); (2, 8); (1, 9)]%N).
Proof. split; [exact N.eqb_eq|vm_compute; reflexivity]. Qed.

(** C31 *)
Theorem C31_hufman_lossless : forall ord H im, img_ok im -> ord_ok ord -> heap_ok suffix_cmp H -> im_px im <> [] ->
  exists out, run_vec (hufman_encode ord H im) = Ok out /\
  forall S (next : nextf S N) s s', yields next s out s' ->
  exists f0, forall fuel, (f0 <= fuel)%nat -> hufman_decode fuel next s = Some (Ok (opaque im)).
Proof. exact hufman_lossless. Qed.
Print Assumptions C31_hufman_lossless.
(** Without pixels the encoder aborts. *)
Theorem C31_hufman_empty : forall ord H im, im_px im = [] -> u32_ok (im_w im) -> u32_ok (im_h im) -> ord_ok ord -> heap_ok suffix_cmp H ->
  run_vec (hufman_encode ord H im) = Panic.
Proof. exact hufman_empty. Qed.
Print Assumptions C31_hufman_empty.
Example C31_case : img_ok pic /\ im_px pic <> [] /\ ord_ok (fun l : list (rgb N * N) => l) /\ heap_ok suffix_cmp (@list_heap (rgb N))
  /\ run_vec (hufman_encode (fun l => l) list_heap pic)
     = Ok ([2; 0; 0; 0; 2; 0; 0; 0] ++ [1; 0; 3; 0; 0; 0; 0; 0; 0; 0; 0; 0; 255; 0; 3; 0; 0; 0; 0; 0; 0; 0; 255; 0; 0] ++ [208])%N.
Proof.
  split; [exact pic_ok|]. split; [discriminate|]. split; [intros l; apply Permutation_refl|]. split; [apply list_heap_ok|vm_compute; reflexivity].
Qed.

(** C32 *)
Theorem C32_zip_dict : forall pr caps im fuel stack, img_ok im -> (length (zip_input im) < fuel)%nat -> (2 <= stack)%nat ->
  exists out, run_vec (zip_encode pr caps fuel ZDict im) = Ok out /\
  forall S (next : nextf S N) s s' pr2, yields next s out s' -> zip_decode pr2 stack ZDict next s = Ok (opaque im).
Proof. exact zip_dict_lossless. Qed.
Print Assumptions C32_zip_dict.
Theorem C32_zip_back : forall pr caps im fuel out, img_ok im -> (11 * (im_w im * im_h im) + 8 < 2 ^ 64)%N -> caps_ok caps ->
  (length (zip_input im) < fuel)%nat -> run_vec (zip_encode pr caps fuel ZBack im) = Ok out ->
  forall S (next : nextf S N) s s' pr2 stack, yields next s out s' -> zip_decode pr2 stack ZBack next s = Ok (opaque im).
Proof. exact zip_back_lossless. Qed.
Print Assumptions C32_zip_back.
Theorem C32_zip_back_outcome : forall pr caps im fuel, img_ok im -> caps_ok caps -> (length (zip_input im) < fuel)%nat ->
  run_vec (zip_encode pr caps fuel ZBack im) <> Err.
Proof. exact zip_back_outcome. Qed.
Print Assumptions C32_zip_back_outcome.
Example C32_case : img_ok pic /\ length (zip_input pic) = 52%nat
  /\ (exists out, run_vec (zip_encode Debug (fun _ => 8%nat) 53 ZDict pic) = Ok out /\ length out = 48%nat /\ zip_decode Release 2 ZDict list_next out = Ok (opaque pic))
  /\ (exists out, run_vec (zip_encode Debug (fun _ => 8%nat) 53 ZBack pic) = Ok out /\ (length out < 52)%nat /\ zip_decode Debug 2 ZBack list_next out = Ok (opaque pic)).
Proof.
  split; [exact pic_ok|]. split; [reflexivity|].
  split; eexists; (split; [vm_compute; reflexivity|]); (split; [|vm_compute; reflexivity]).
  - reflexivity.
  - cbn. lia.
Qed.

(** C33 *)
Theorem C33_hilbert_lossless : forall scan im fuel stack m, img_ok im -> visits_all (im_w im) (im_h im) (scan (im_w im) (im_h im)) ->
  hilbert_is_lossless m = true -> (11 * N.to_nat (im_w im * im_h im) < fuel)%nat -> (2 <= stack)%nat ->
  exists out, run_vec (hilbert_encode scan fuel m im) = Ok out /\
  forall S (next : nextf S N) s s', yields next s out s' -> hilbert_decode scan stack m next s = Ok (opaque im).
Proof. exact hilbert_lossless. Qed.
Print Assumptions C33_hilbert_lossless.
(** A traversal inside the image is lossless exactly when it reaches every pixel. *)
Theorem C33_all_pixels_needed : forall scan w h stack m,
  Forall (inside w h) (scan w h) -> u32_ok w -> u32_ok h -> (3 * w * h < 2 ^ 63)%N -> hilbert_is_lossless m = true -> (2 <= stack)%nat ->
  (forall im fuel out, img_ok im -> im_w im = w -> im_h im = h -> (11 * length (scan w h) < fuel)%nat ->
     run_vec (hilbert_encode scan fuel m im) = Ok out ->
     hilbert_decode scan stack m list_next out = Ok (opaque im))
  <-> (forall x y, (x < w)%N -> (y < h)%N -> In (x, y) (scan w h)).
Proof. exact hilbert_lossless_iff. Qed.
Print Assumptions C33_all_pixels_needed.
Example C33_case : img_ok pic /\ visits_all 2 2 (curve 2%N 2%N) /\ hilbert_is_lossless (RLE (f64_of_N 0)) = true /\ hilbert_is_lossless MZip = true
  /\ (exists out, run_vec (hilbert_encode curve 45 (RLE (f64_of_N 0)) pic) = Ok out /\ length out = 44%nat
      /\ hilbert_decode curve 2 (RLE (f64_of_N 0)) list_next out = Ok (opaque pic))
  /\ (exists out, run_vec (hilbert_encode curve 45 MZip pic) = Ok out /\ hilbert_decode curve 2 MZip list_next out = Ok (opaque pic)).
Proof.
  split; [exact pic_ok|]. split; [apply curve_visits|]. split; [reflexivity|]. split; [reflexivity|].
  split; eexists; (split; [vm_compute; reflexivity|]); [split|]; vm_compute; reflexivity.
Qed.

(** C34 *)
Theorem C34_delta_lossless : forall p scan ord H im, img_ok im -> visits_all (im_w im) (im_h im) (scan (im_w im) (im_h im)) ->
  im_px im <> [] -> ord_ok ord -> heap_ok suffix_cmp H ->
  exists out, run_vec (delta_encode p scan ord H im) = Ok out /\
  forall p2 S (next : nextf S N) s s', yields next s out s' ->
  exists f0, forall fuel, (f0 <= fuel)%nat -> delta_decode p2 scan fuel next s = Some (Ok (opaque im)).
Proof. exact delta_lossless. Qed.
Print Assumptions C34_delta_lossless.
Theorem C34_differences : forall p scan im, img_ok im -> Forall (inside (im_w im) (im_h im)) (scan (im_w im) (im_h im)) ->
  exists l, linearize_rect scan im = Ok l /\ diff_stream p START (map to_rgb l) = Ok (diffs black (map to_rgb l))
  /\ Forall diff_ok (diffs black (map to_rgb l)).
Proof. exact delta_differences. Qed.
Print Assumptions C34_differences.
Theorem C34_delta_empty : forall p scan ord H im, img_ok im -> scan (im_w im) (im_h im) = [] -> ord_ok ord -> heap_ok suffix_cmp H ->
  run_vec (delta_encode p scan ord H im) = Panic.
Proof. exact delta_empty. Qed.
Print Assumptions C34_delta_empty.
Example C34_case : img_ok pic /\ visits_all 2 2 (curve 2%N 2%N)
  /\ diffs black (colours pic (curve 2%N 2%N)) = [[255; 0; 0]; [-255; 0; 255]; [255; 0; -255]; [0; 0; 0]]%Z
  /\ exists out, run_vec (delta_encode Debug curve (fun l => l) list_heap pic) = Ok out
     /\ delta_decode Release curve 9 list_next out = Some (Ok (opaque pic)).
Proof.
  split; [exact pic_ok|]. split; [apply curve_visits|]. split; [reflexivity|]. eexists. split; [vm_compute; reflexivity|]. vm_compute. reflexivity.
Qed.

(** C35: whatever the data, a decoded image is opaque; so it differs from an image
    that has a transparent pixel. *)
Theorem C35_decoded_opaque : forall S (next : nextf S N) s im,
  (forall fuel, hufman_decode fuel next s = Some (Ok im) -> is_opaque im)
  /\ (forall pr stack k, zip_decode pr stack k next s = Ok im -> is_opaque im)
  /\ (forall scan stack m, hilbert_decode scan stack m next s = Ok im -> is_opaque im)
  /\ (forall pr scan fuel, delta_decode pr scan fuel next s = Some (Ok im) -> is_opaque im).
Proof. exact decoded_opaque. Qed.
Print Assumptions C35_decoded_opaque.
(** The outcome [opaque im] of C31-C34 is the image itself only if it is opaque. *)
Theorem C35_alpha : forall im, opaque im = im <-> is_opaque im.
Proof. exact opaque_id. Qed.
Print Assumptions C35_alpha.
Example C35_case : ~ is_opaque pic /\ opaque pic <> pic /\ is_opaque (opaque pic).
Proof.
  split; [|split].
  - intros H. pose proof (Forall_inv (Forall_inv_tail H)) as E. discriminate E.
  - discriminate.
  - repeat constructor.
Qed.

(** C36 *)
Theorem C36_approx_runs : forall scan im fuel stack d, img_ok im -> visits_all (im_w im) (im_h im) (scan (im_w im) (im_h im)) ->
  feq d (f64_of_N 0) = false -> (length (scan (im_w im) (im_h im)) < fuel)%nat ->
  exists runs, let out := dims im ++ runs_bytes (coded mean_round runs) in
  greedy_runs (within d) (colours im (scan (im_w im) (im_h im))) runs
  /\ fold_right N.add 0%N (map fst (coded mean_round runs)) = (im_w im * im_h im)%N
  /\ run_vec (hilbert_encode scan fuel (RLE d) im) = Ok out
  /\ (forall S (next : nextf S N) s s', yields next s out s' ->
     exists im', hilbert_decode scan stack (RLE d) next s = Ok im' /\ im_w im' = im_w im /\ im_h im' = im_h im /\ img_ok im'
     /\ linearize_rect scan im' = Ok (map (fun c => (c, 255%N)) (expand (coded mean_round runs)))).
Proof. exact approx_spec. Qed.
Print Assumptions C36_approx_runs.
(** [mean_round] is the mean, rounded to nearest with halves up. *)
Theorem C36_mean : forall l, (1 <= length l)%nat -> let n := Z.of_nat (length l) in
  let '(r, g, b) := sum_rgb l in let '(r', g', b') := mean_round l in
  Forall (fun q => (2 * n * snd q - n <= 2 * fst q < 2 * n * snd q + n)%Z)
    [(Z.of_N r, Z.of_N r'); (Z.of_N g, Z.of_N g'); (Z.of_N b, Z.of_N b')].
Proof. exact mean_is_half_away. Qed.
Print Assumptions C36_mean.
(** NaN or negative: each pixel alone, unchanged.  Infinite: runs of 255. *)
Theorem C36_extreme_distances : forall l runs d, Forall rgb_ok l -> greedy_runs (within d) l runs ->
  (d = B754_nan \/ flt d (f64_of_N 0) = true -> coded mean_round runs = map (fun c => (1%N, c)) l)
  /\ (d = B754_infinity false -> forall before r after, runs = before ++ r :: after -> after <> [] -> length r = 255%nat).
Proof. exact approx_extreme. Qed.
Print Assumptions C36_extreme_distances.
Example C36_case : let im := mkImg 3 1 [px 10 0 0 255; px 11 4 0 255; px 90 0 0 255]%N in
  img_ok im /\ feq (f64_of_N 5) (f64_of_N 0) = false
  /\ run_vec (hilbert_encode rows 4 (RLE (f64_of_N 5)) im)
     = Ok ([3; 0; 0; 0; 1; 0; 0; 0] ++ run_bytes (2, (11, 2, 0)) ++ run_bytes (1, (90, 0, 0)))%N.
Proof.
  cbv zeta. split; [|split; vm_compute; reflexivity].
  repeat split; cbn; try lia; unfold u32_ok; try lia. repeat constructor; unfold u8_ok; cbn; lia.
Qed.

(** C37: with d = 40, a pixel whose decoded colour is more than 5 * 40 away. *)
Theorem C37_error_exceeds_d_refuted : exists im scan d out im' x y c c',
  img_ok im /\ visits_all (im_w im) (im_h im) (scan (im_w im) (im_h im))
  /\ run_vec (hilbert_encode scan 256 (RLE (f64_of_N d)) im) = Ok out
  /\ hilbert_decode scan 2 (RLE (f64_of_N d)) list_next out = Ok im'
  /\ get_pixel im (x, y) = Ok c /\ get_pixel im' (x, y) = Ok c'
  /\ (sq_dist (fst c) (fst c') > (5 * Z.of_N d) ^ 2)%Z.
Proof. exact error_exceeds. Qed.
Print Assumptions C37_error_exceeds_d_refuted.

(** C38.  What is true of the claim: *)
Theorem C38_dimensions_cut : forall im p, img_ok im -> strict_prefix p (dims im) -> forall S (next : nextf S N) s, yields_all next s p ->
  (forall fuel, hufman_decode fuel next s = Some Err)
  /\ (forall scan stack m, hilbert_decode scan stack m next s = Err)
  /\ (forall pr scan fuel, delta_decode pr scan fuel next s = Some Err).
Proof. exact dims_cut. Qed.
Print Assumptions C38_dimensions_cut.
Theorem C38_hufman_cut : forall ord H im out p, img_ok im -> ord_ok ord -> heap_ok suffix_cmp H -> im_px im <> [] ->
  run_vec (hufman_encode ord H im) = Ok out -> strict_prefix p out ->
  forall S (next : nextf S N) s, yields_all next s p ->
  exists f0, forall fuel, (f0 <= fuel)%nat -> hufman_decode fuel next s = Some Err.
Proof. exact hufman_truncated. Qed.
Print Assumptions C38_hufman_cut.
Theorem C38_delta_cut : forall p scan ord H im, img_ok im -> visits_all (im_w im) (im_h im) (scan (im_w im) (im_h im)) -> im_px im <> [] ->
  ord_ok ord -> heap_ok suffix_cmp H ->
  exists out tree hdr pay code, run_vec (delta_encode p scan ord H im) = Ok out /\ out = dims im ++ hdr ++ pay
  /\ trie_format (format (TArr 3 TI16)) tree = Some hdr
  /\ (forall d, In d (diffs black (colours im (scan (im_w im) (im_h im)))) -> path tree (code d) d)
  /\ forall p2 S (next : nextf S N) s q, strict_prefix q out -> yields_all next s q ->
     exists f0, forall fuel, (f0 <= fuel)%nat ->
     let ps := scan (im_w im) (im_h im) in let ds := diffs black (colours im ps) in
     if (length q <? 8)%nat then delta_decode p2 scan fuel next s = Some Err
     else if (length q <? 8 + length hdr)%nat then delta_decode p2 scan fuel next s = Some Panic
     else exists n, (n < length ps)%nat
          /\ (total_bits (firstn n ds) code <= 8 * N.of_nat (length q - 8 - length hdr) < total_bits (firstn (n + 1) ds) code)%N
          /\ delta_decode p2 scan fuel next s = Some (Ok (only_at (firstn n ps) im)).
Proof. exact delta_cut. Qed.
Print Assumptions C38_delta_cut.
(** What is false: a cut inside a run, or inside a pair of codes, aborts. *)
Theorem C38_hilbert_returns_image_refuted : exists im scan, img_ok im /\ visits_all (im_w im) (im_h im) (scan (im_w im) (im_h im))
  /\ (exists out p, run_vec (hilbert_encode scan 100 (RLE (f64_of_N 0)) im) = Ok out /\ strict_prefix p out /\ (8 <= length p)%nat
      /\ hilbert_decode scan 2 (RLE (f64_of_N 0)) list_next p = Panic)
  /\ (exists out p, run_vec (hilbert_encode scan 100 MZip im) = Ok out /\ strict_prefix p out /\ (8 <= length p)%nat
      /\ hilbert_decode scan 2 MZip list_next p = Panic).
Proof. exact cut_aborts. Qed.
Print Assumptions C38_hilbert_returns_image_refuted.
(** Twelve pixels; the last byte of three is cut off. *)
Example C38_case : let im := mkImg 4 3 (concat (repeat [px 255 0 0 255; px 0 0 255 255] 6)) in
  hufman_decode 9 list_next [2; 0; 0; 0; 2; 0; 0]%N = Some Err
  /\ exists out, run_vec (delta_encode Debug rows (fun l => l) list_heap im) = Ok out
  /\ delta_decode Debug rows 20 list_next out = Some (Ok im)
  /\ delta_decode Debug rows 20 list_next (removelast out) = Some (Ok (only_at (firstn 10 (row_major 4 3)) im))
  /\ delta_decode Debug rows 20 list_next (firstn 30 out) = Some Panic.
Proof. split; [reflexivity|]. eexists. split; [vm_compute; reflexivity|]. vm_compute. auto. Qed.

(** C54: the outcome for every cut point of the other codecs. *)
Theorem C54_hilbert_rle : forall scan im fuel stack d, img_ok im -> visits_all (im_w im) (im_h im) (scan (im_w im) (im_h im)) ->
  (N.to_nat (im_w im * im_h im) < fuel)%nat ->
  exists out runs full, run_vec (hilbert_encode scan fuel (RLE d) im) = Ok out /\ out = dims im ++ runs_bytes runs
  /\ im_w full = im_w im /\ im_h full = im_h im
  /\ (forall S (next : nextf S N) s s', yields next s out s' -> hilbert_decode scan stack (RLE d) next s = Ok full)
  /\ forall S (next : nextf S N) s p, strict_prefix p out -> yields_all next s p ->
     hilbert_decode scan stack (RLE d) next s =
     if (length p <? 8)%nat then Err
     else if ((length p - 8) mod 12 =? 0)%nat
          then Ok (only_at (firstn (length (expand (firstn ((length p - 8) / 12) runs))) (scan (im_w im) (im_h im))) full)
          else Panic.
Proof. exact hilbert_rle_cut. Qed.
Print Assumptions C54_hilbert_rle.
Theorem C54_hilbert_zip : forall scan im fuel stack, img_ok im -> visits_all (im_w im) (im_h im) (scan (im_w im) (im_h im)) ->
  (11 * N.to_nat (im_w im * im_h im) < fuel)%nat -> (2 <= stack)%nat ->
  exists out syms, run_vec (hilbert_encode scan fuel MZip im) = Ok out /\ out = dims im ++ words syms
  /\ forall S (next : nextf S N) s p, strict_prefix p out -> yields_all next s p ->
     exists l, expands initial_dict (firstn (2 * ((length p - 8) / 4)) syms) l Finished /\
     hilbert_decode scan stack MZip next s =
     if (length p <? 8)%nat then Err
     else if ((length p - 8) mod 4 <? 2)%nat
          then Ok (only_at (firstn (length l / 11) (scan (im_w im) (im_h im))) im)
          else Panic.
Proof. exact hilbert_zip_cut. Qed.
Print Assumptions C54_hilbert_zip.
Theorem C54_zip_dict : forall pr caps im fuel stack out p, img_ok im -> (length (zip_input im) < fuel)%nat -> (2 <= stack)%nat ->
  run_vec (zip_encode pr caps fuel ZDict im) = Ok out -> strict_prefix p out ->
  forall S (next : nextf S N) s pr2, yields_all next s p ->
  zip_decode pr2 stack ZDict next s = if (length p mod 4 <? 2)%nat then Err else Panic.
Proof. exact zip_dict_truncated. Qed.
Print Assumptions C54_zip_dict.
Theorem C54_zip_back : forall pr caps im fuel stack out p, img_ok im -> (11 * (im_w im * im_h im) + 8 < 2 ^ 64)%N -> caps_ok caps ->
  (length (zip_input im) < fuel)%nat -> run_vec (zip_encode pr caps fuel ZBack im) = Ok out -> strict_prefix p out ->
  forall S (next : nextf S N) s pr2, yields_all next s p ->
  exists syms a x b q, parses MAX_RING_BUFFER_SIZE [] [] (zip_input im) syms /\ out = concat (map symbol_bytes syms)
    /\ syms = a ++ x :: b /\ p = concat (map symbol_bytes a) ++ q /\ strict_prefix q (symbol_bytes x)
    /\ zip_decode pr2 stack ZBack next s = cut_outcome x q.
Proof. exact zip_back_truncated. Qed.
Print Assumptions C54_zip_back.
Example C54_case : exists out, run_vec (hilbert_encode curve 45 (RLE (f64_of_N 0)) pic) = Ok out /\ length out = 44%nat
  /\ hilbert_decode curve 2 (RLE (f64_of_N 0)) list_next (firstn 32 out) = Ok (only_at [(0, 0); (0, 1)]%N pic)
  /\ hilbert_decode curve 2 (RLE (f64_of_N 0)) list_next (firstn 33 out) = Panic
  /\ hilbert_decode curve 2 (RLE (f64_of_N 0)) list_next (firstn 7 out) = Err.
Proof. eexists. split; [vm_compute; reflexivity|]. vm_compute. auto. Qed.

(** C53 *)
Theorem C53_small_square : forall p scan im, img_ok im -> (im_w im <= 2 ^ 31)%N -> (im_h im <= 2 ^ 31)%N ->
  exists s, small_side (im_w im) (im_h im) s
  /\ (Forall (inside s s) (scan s s) -> linearize_small p scan im = Ok (map (pixel_at im) (scan s s))).
Proof. exact small_spec. Qed.
Print Assumptions C53_small_square.
Theorem C53_large_square : forall p scan im, img_ok im -> (im_w im <= 2 ^ 31)%N -> (im_h im <= 2 ^ 31)%N ->
  (forall s, (s < 2 ^ 32)%N -> visits_all s s (scan s s)) ->
  exists s ps, large_side (im_w im) (im_h im) s
  /\ ps = filter (fun q => (fst q <? im_w im) && (snd q <? im_h im))%N (scan s s)
  /\ visits_all (im_w im) (im_h im) ps /\ linearize_large p scan im = Ok (map (pixel_at im) ps).
Proof. exact large_spec. Qed.
Print Assumptions C53_large_square.
Theorem C53_overflow : forall scan im, (2 ^ 31 < im_w im < 2 ^ 32)%N ->
  linearize_small Debug scan im = Panic /\ linearize_large Debug scan im = Panic.
Proof. exact square_overflow. Qed.
Print Assumptions C53_overflow.
(** The comment of [linearize_small] promises the largest square inside the picture; a square
    picture whose side is a power of two is not covered. *)
Theorem C53_largest_refuted : exists im scan, img_ok im /\ im_w im = im_h im
  /\ (forall s, (s < 2 ^ 32)%N -> visits_all s s (scan s s))
  /\ forall p, exists l, linearize_small p scan im = Ok l /\ (length l < length (im_px im))%nat.
Proof. exact small_not_largest. Qed.
Print Assumptions C53_largest_refuted.
(** 4x4 gives a 2x2 square, 1x1 gives nothing, 3x5 gives 2x2. *)
Example C53_case : small_side 4 4 2 /\ small_side 1 1 0 /\ small_side 3 5 2 /\ large_side 3 5 8
  /\ linearize_small Debug rows pic = Ok [px 255 0 0 255]
  /\ linearize_large Debug rows pic = Ok (im_px pic).
Proof.
  split; [right; split; [lia|]; exists 1%N; cbn; lia|]. split; [left; cbn; lia|]. split; [right; split; [lia|]; exists 1%N; cbn; lia|].
  split; [|split; vm_compute; reflexivity]. split; [cbn; lia|]. exists 3%N. split; [reflexivity|]. intros j H.
  destruct (N.le_gt_cases 3 j) as [C|C]; [exact C|]. assert (2 ^ j <= 2 ^ 2)%N by (apply N.pow_le_mono_r; lia). change (N.max 3 5) with 5%N in H. change (2 ^ 2)%N with 4%N in *. lia.
Qed.
