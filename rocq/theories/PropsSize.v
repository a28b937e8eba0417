(** * Property C71: how large the compressed images are. *)
From Verif Require Import Base Ser SerSpec Bit Utils Huf HufSpec HufTop Dict DictSpec Back BackSpec BackEnc Img Float HilbertC CodecSpec
  CodecCases SizeProofs.

(** Hufman, [cs] the colours of the image: 8 bytes of dimensions, 13 per colour less 1 for
    the tree, and the [B] bits of a best prefix code for the pixels.  With at most [2^j]
    colours, [B] is at most [j] bits per pixel. *)
Theorem C71_hufman : forall ord H im cs, img_ok im -> ord_ok ord -> heap_ok suffix_cmp H -> im_px im <> [] ->
  NoDup cs -> (forall c, In c cs <-> In c (map to_rgb (im_px im))) ->
  exists out B, run_vec (hufman_encode ord H im) = Ok out
  /\ N.of_nat (length out) = (7 + 13 * N.of_nat (length cs) + (B + 7) / 8)%N
  /\ (exists code, prefix_free cs code /\ B = total_bits (map to_rgb (im_px im)) code)
  /\ (forall code, prefix_free cs code -> (B <= total_bits (map to_rgb (im_px im)) code)%N)
  /\ (forall j, (N.of_nat (length cs) <= 2 ^ N.of_nat j)%N -> (B <= N.of_nat j * (im_w im * im_h im))%N).
Proof. exact hufman_size. Qed.
Print Assumptions C71_hufman.

(** Delta: the same for the differences between neighbours, at 8 bytes each. *)
Theorem C71_delta : forall p scan ord H im cs, img_ok im -> Forall (inside (im_w im) (im_h im)) (scan (im_w im) (im_h im)) ->
  scan (im_w im) (im_h im) <> [] -> ord_ok ord -> heap_ok suffix_cmp H ->
  let ds := diffs black (colours im (scan (im_w im) (im_h im))) in
  NoDup cs -> (forall c, In c cs <-> In c ds) ->
  exists out B, run_vec (delta_encode p scan ord H im) = Ok out
  /\ N.of_nat (length out) = (7 + 8 * N.of_nat (length cs) + (B + 7) / 8)%N
  /\ (exists code, prefix_free cs code /\ B = total_bits ds code)
  /\ (forall code, prefix_free cs code -> (B <= total_bits ds code)%N)
  /\ (forall j, (N.of_nat (length cs) <= 2 ^ N.of_nat j)%N -> (B <= N.of_nat j * N.of_nat (length (scan (im_w im) (im_h im))))%N).
Proof. exact delta_size. Qed.
Print Assumptions C71_delta.

(** Run lengths, any distance: 12 bytes per run, each run of 1 to 255 pixels. *)
Theorem C71_runs : forall scan im fuel d, img_ok im -> visits_all (im_w im) (im_h im) (scan (im_w im) (im_h im)) ->
  (N.to_nat (im_w im * im_h im) < fuel)%nat ->
  exists out k, run_vec (hilbert_encode scan fuel (RLE d) im) = Ok out
  /\ N.of_nat (length out) = (8 + 12 * k)%N /\ (im_w im * im_h im <= 255 * k)%N /\ (k <= im_w im * im_h im)%N.
Proof. exact rle_size. Qed.
Print Assumptions C71_runs.
(** Without approximation, no way of cutting the pixels into runs of at most 255 is shorter. *)
Theorem C71_runs_least : forall scan im fuel d other, img_ok im -> Forall (inside (im_w im) (im_h im)) (scan (im_w im) (im_h im)) ->
  feq d (f64_of_N 0) = true -> (length (scan (im_w im) (im_h im)) < fuel)%nat ->
  Forall (fun r => (fst r <= 255)%N) other -> expand other = colours im (scan (im_w im) (im_h im)) ->
  exists out, run_vec (hilbert_encode scan fuel (RLE d) im) = Ok out /\ (length out <= length (dims im ++ runs_bytes other))%nat.
Proof. exact rle_least. Qed.
Print Assumptions C71_runs_least.
(** If neighbours always differ, the output has 12 bytes per pixel, four times the raw colours. *)
Theorem C71_runs_worst : forall scan im fuel d, img_ok im -> visits_all (im_w im) (im_h im) (scan (im_w im) (im_h im)) ->
  feq d (f64_of_N 0) = true -> (length (scan (im_w im) (im_h im)) < fuel)%nat ->
  (forall a x b, colours im (scan (im_w im) (im_h im)) <> a ++ x :: x :: b) ->
  exists out, run_vec (hilbert_encode scan fuel (RLE d) im) = Ok out /\ N.of_nat (length out) = (8 + 12 * (im_w im * im_h im))%N.
Proof. exact rle_worst. Qed.
Print Assumptions C71_runs_worst.

(** zip-back adds at most two bytes, and never shrinks beyond 32767 to 4. *)
Theorem C71_zip_back : forall T (next : nextf T N) s l pr caps fuel out, delivers next s l -> caps_ok caps -> (length l < fuel)%nat ->
  run_vec (zip_back_encode next pr caps fuel s) = Ok out ->
  (length out <= length l + 2)%nat /\ (4 * N.of_nat (length l) <= 32767 * N.of_nat (length out))%N.
Proof. exact back_size. Qed.
Print Assumptions C71_zip_back.
Theorem C71_zip_images : forall pr caps im fuel k out, img_ok im -> caps_ok caps -> (length (zip_input im) < fuel)%nat ->
  run_vec (zip_encode pr caps fuel k im) = Ok out ->
  match k with
  | ZDict => (N.of_nat (length out) <= 18 + 22 * (im_w im * im_h im))%N /\ (length out mod 4 = 0)%nat
  | ZBack => (N.of_nat (length out) <= 10 + 11 * (im_w im * im_h im))%N
  end.
Proof. exact zip_size. Qed.
Print Assumptions C71_zip_images.
Theorem C71_hilbert_zip : forall scan im fuel, img_ok im -> Forall (inside (im_w im) (im_h im)) (scan (im_w im) (im_h im)) ->
  (11 * length (scan (im_w im) (im_h im)) < fuel)%nat ->
  exists out p, run_vec (hilbert_encode scan fuel MZip im) = Ok out /\ (length out = 8 + 4 * p)%nat
  /\ (2 * p <= 11 * length (scan (im_w im) (im_h im)) + 1)%nat.
Proof. exact hilbert_zip_size. Qed.
Print Assumptions C71_hilbert_zip.

(** Two colours on four pixels: 8 + 25 + 1 bytes; differences: 8 + 31 + 1 bytes; runs: 8 + 36;
    the bound of zip-back is reached on one byte. *)
Example C71_case : img_ok pic /\ visits_all 2 2 (curve 2%N 2%N) /\ NoDup [(0, 0, 255); (255, 0, 0)]%N
  /\ (forall c, In c [(0, 0, 255); (255, 0, 0)]%N <-> In c (map to_rgb (im_px pic)))
  /\ (exists out, run_vec (hufman_encode (fun l => l) list_heap pic) = Ok out /\ length out = (7 + 13 * 2 + 1)%nat)
  /\ (exists out, run_vec (delta_encode Debug curve (fun l => l) list_heap pic) = Ok out /\ length out = (7 + 8 * 4 + 1)%nat)
  /\ (exists out, run_vec (hilbert_encode curve 45 (RLE (f64_of_N 0)) pic) = Ok out /\ length out = (8 + 12 * 3)%nat)
  /\ expand [(1, 7); (2, 7)]%N = expand [(3, 7)]%N
  /\ (forall a x b, colours (mkImg 2 1 [px 1 0 0 255; px 2 0 0 255]%N) [(0, 0); (1, 0)]%N <> a ++ x :: x :: b)
  /\ run_vec (zip_back_encode list_next Debug (fun _ => 6%nat) 2 [7%N]) = Ok [1; 0; 7]%N.
Proof.
  split; [exact pic_ok|]. split; [apply curve_visits|]. split; [repeat constructor; cbn; intuition discriminate|].
  split; [cbn; tauto|]. do 3 (split; [eexists; split; [vm_compute; reflexivity|reflexivity]|]). split; [reflexivity|].
  split; [|vm_compute; reflexivity]. intros [|a0 [|a1 [|? ?]]] x b E; cbn in E; inversion E; congruence.
Qed.
