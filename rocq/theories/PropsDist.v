(** * C78: the distance of approximate run-length coding. *)
From Flocq Require Import BinarySingleNaN.
From Verif Require Import Base Ser SerSpec Img Float HilbertC CodecSpec CodecHilbert CodecCases BestSpec DistProofs DistTop.

(** C78: strictly between 0 and 1.  The same bytes as without approximation, so nothing is lost. *)
Theorem C78_below_one : forall scan im fuel stack d e, img_ok im -> visits_all (im_w im) (im_h im) (scan (im_w im) (im_h im)) ->
  (N.to_nat (im_w im * im_h im) < fuel)%nat -> flt (f64_of_N 0) d = true -> flt d (f64_of_N 1) = true -> feq e (f64_of_N 0) = true ->
  exists out, run_vec (hilbert_encode scan fuel (RLE d) im) = Ok out /\ run_vec (hilbert_encode scan fuel (RLE e) im) = Ok out
  /\ forall S (next : nextf S N) s s', yields next s out s' -> hilbert_decode scan stack (RLE d) next s = Ok (opaque im).
Proof. exact below_one_image. Qed.
Print Assumptions C78_below_one.
(** More generally, the distance has no effect below the least distance between two different colours of the image: for
    grey images, distances below the root of 3. *)
Theorem C78_below_gap : forall scan im fuel stack d e m, img_ok im -> visits_all (im_w im) (im_h im) (scan (im_w im) (im_h im)) ->
  (N.to_nat (im_w im * im_h im) < fuel)%nat -> (1 <= m <= 195075)%N ->
  (forall p q, In p (im_px im) -> In q (im_px im) -> fst p <> fst q -> (Z.of_N m <= sq_dist (fst p) (fst q))%Z) ->
  flt (f64_of_N 0) d = true -> flt d (fsqrt (f64_of_N m)) = true -> feq e (f64_of_N 0) = true ->
  exists out, run_vec (hilbert_encode scan fuel (RLE d) im) = Ok out /\ run_vec (hilbert_encode scan fuel (RLE e) im) = Ok out
  /\ forall S (next : nextf S N) s s', yields next s out s' -> hilbert_decode scan stack (RLE d) next s = Ok (opaque im).
Proof. exact below_gap_image. Qed.
Print Assumptions C78_below_gap.
Theorem C78_grey : forall scan im fuel stack d e, img_ok im -> visits_all (im_w im) (im_h im) (scan (im_w im) (im_h im)) ->
  (N.to_nat (im_w im * im_h im) < fuel)%nat -> (forall p, In p (im_px im) -> exists v a, p = px v v v a) ->
  flt (f64_of_N 0) d = true -> flt d (fsqrt (f64_of_N 3)) = true -> feq e (f64_of_N 0) = true ->
  exists out, run_vec (hilbert_encode scan fuel (RLE d) im) = Ok out /\ run_vec (hilbert_encode scan fuel (RLE e) im) = Ok out
  /\ forall S (next : nextf S N) s s', yields next s out s' -> hilbert_decode scan stack (RLE d) next s = Ok (opaque im).
Proof. exact below_grey. Qed.
Print Assumptions C78_grey.
(** From 442 on.  Every run but the last has 255 pixels, so the size depends on the dimensions only. *)
Theorem C78_from_442 : forall scan im fuel d, img_ok im -> visits_all (im_w im) (im_h im) (scan (im_w im) (im_h im)) ->
  (N.to_nat (im_w im * im_h im) < fuel)%nat -> fle (f64_of_N 442) d = true ->
  exists runs, let out := dims im ++ runs_bytes (coded mean_round runs) in run_vec (hilbert_encode scan fuel (RLE d) im) = Ok out
  /\ concat runs = colours im (scan (im_w im) (im_h im)) /\ Forall (fun r => 1 <= length r <= 255)%nat runs
  /\ (forall before r after, runs = before ++ r :: after -> after <> [] -> length r = 255%nat)
  /\ N.of_nat (length out) = (8 + 12 * ((im_w im * im_h im + 254) / 255))%N.
Proof. exact from_442. Qed.
Print Assumptions C78_from_442.
(** In between, a larger distance may give both a larger file and a worse image. *)
Theorem C78_larger_distance_smaller_file_refuted : exists im scan d e o1 o2 im1 im2,
  img_ok im /\ visits_all (im_w im) (im_h im) (scan (im_w im) (im_h im)) /\ (d < e)%N
  /\ run_vec (hilbert_encode scan 6 (RLE (f64_of_N d)) im) = Ok o1 /\ run_vec (hilbert_encode scan 6 (RLE (f64_of_N e)) im) = Ok o2
  /\ hilbert_decode scan 2 (RLE (f64_of_N d)) list_next o1 = Ok im1 /\ hilbert_decode scan 2 (RLE (f64_of_N e)) list_next o2 = Ok im2
  /\ (length o1 < length o2)%nat /\ (square_error im im1 < square_error im im2)%Z.
Proof. exact larger_worse. Qed.
Print Assumptions C78_larger_distance_smaller_file_refuted.
(** Even twice the distance may give a file of the same size and a better image. *)
Theorem C78_larger_distance_larger_error_refuted : exists im scan d o1 o2 im1 im2,
  img_ok im /\ visits_all (im_w im) (im_h im) (scan (im_w im) (im_h im)) /\ (0 < d)%N
  /\ run_vec (hilbert_encode scan 11 (RLE (f64_of_N d)) im) = Ok o1 /\ run_vec (hilbert_encode scan 11 (RLE (f64_of_N (2 * d))) im) = Ok o2
  /\ hilbert_decode scan 2 (RLE (f64_of_N d)) list_next o1 = Ok im1 /\ hilbert_decode scan 2 (RLE (f64_of_N (2 * d))) list_next o2 = Ok im2
  /\ length o1 = length o2 /\ (square_error im im2 < square_error im im1)%Z.
Proof. exact doubled_closer. Qed.
Print Assumptions C78_larger_distance_larger_error_refuted.

Example C78_case : let half := fdiv (f64_of_N 1) (f64_of_N 2) in let im := reds [7; 7; 8; 250]%N in
  img_ok im /\ visits_all 4 1 (rows 4%N 1%N) /\ flt (f64_of_N 0) half = true /\ flt half (f64_of_N 1) = true /\ feq (f64_of_N 0) (f64_of_N 0) = true
  /\ fle (f64_of_N 442) (f64_of_N 442) = true
  /\ run_vec (hilbert_encode rows 5 (RLE half) im)
     = Ok ([4; 0; 0; 0; 1; 0; 0; 0] ++ run_bytes (2, (7, 0, 0)) ++ run_bytes (1, (8, 0, 0)) ++ run_bytes (1, (250, 0, 0)))%N
  /\ run_vec (hilbert_encode rows 5 (RLE (f64_of_N 442)) im) = Ok ([4; 0; 0; 0; 1; 0; 0; 0] ++ run_bytes (4, (68, 0, 0)))%N
  (** the worked example of README.md, in the red channel; in grey, distance 1 joins nothing *)
  /\ run_vec (hilbert_encode rows 17 (RLE (f64_of_N 1)) (reds [3; 3; 5; 7; 6; 6; 8; 8; 7; 7; 7; 8; 9; 9; 8; 9]%N))
     = Ok ([16; 0; 0; 0; 1; 0; 0; 0] ++ run_bytes (2, (3, 0, 0)) ++ run_bytes (1, (5, 0, 0)) ++ run_bytes (3, (6, 0, 0)) ++ run_bytes (6, (8, 0, 0))
           ++ run_bytes (4, (9, 0, 0)))%N
  /\ flt (f64_of_N 1) (fsqrt (f64_of_N 3)) = true
  /\ run_vec (hilbert_encode rows 4 (RLE (f64_of_N 1)) (mkImg 3 1 [px 7 7 7 255; px 6 6 6 255; px 6 6 6 255]%N))
     = Ok ([3; 0; 0; 0; 1; 0; 0; 0] ++ run_bytes (1, (7, 7, 7)) ++ run_bytes (2, (6, 6, 6)))%N
  (** a distance just below the largest one does not do *)
  /\ run_vec (hilbert_encode rows 3 (RLE (f64_of_N 441)) (mkImg 2 1 [px 0 0 0 255; px 255 255 255 255]%N))
     = Ok ([2; 0; 0; 0; 1; 0; 0; 0] ++ run_bytes (1, (0, 0, 0)) ++ run_bytes (1, (255, 255, 255)))%N.
Proof.
  cbv zeta. split; [apply reds_ok; [reflexivity|repeat constructor]|]. split; [apply row_major_visits|].
  split; [vm_compute; reflexivity|]. split; [vm_compute; reflexivity|]. split; [vm_compute; reflexivity|]. split; [vm_compute; reflexivity|].
  split; [vm_compute; reflexivity|]. split; [vm_compute; reflexivity|]. split; [vm_compute; reflexivity|]. split; [vm_compute; reflexivity|].
  split; vm_compute; reflexivity.
Qed.
