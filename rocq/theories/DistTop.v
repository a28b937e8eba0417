(** * The distance of approximate run-length coding: outputs and decoded images. *)
From Verif Require Import Base Ser SerSpec SerProofs Img Float HilbertC KmeansFloat CodecSpec CodecBytes CodecHilbert CodecTop CodecFinal CodecCases BestSpec DistProofs.

Lemma below_gap_image scan im fuel stack d e m : img_ok im -> visits_all (im_w im) (im_h im) (scan (im_w im) (im_h im)) ->
  (N.to_nat (im_w im * im_h im) < fuel)%nat -> (1 <= m <= 195075)%N ->
  (forall p q, In p (im_px im) -> In q (im_px im) -> fst p <> fst q -> (Z.of_N m <= sq_dist (fst p) (fst q))%Z) ->
  flt (f64_of_N 0) d = true -> flt d (fsqrt (f64_of_N m)) = true -> feq e (f64_of_N 0) = true ->
  exists out, run_vec (hilbert_encode scan fuel (RLE d) im) = Ok out /\ run_vec (hilbert_encode scan fuel (RLE e) im) = Ok out
  /\ forall S (next : nextf S N) s s', yields next s out s' -> hilbert_decode scan stack (RLE d) next s = Ok (opaque im).
Proof.
  intros Hi Hv Hf Hm HG H0 H1 He. pose proof (visits_inside _ _ _ Hv) as Hs. pose proof (visits_length _ _ _ Hv) as HL.
  assert (Hf' : (length (scan (im_w im) (im_h im)) < fuel)%nat) by lia.
  assert (HG' : gaps_of (Z.of_N m) (map to_rgb (im_px im))).
  { intros c x Hc Hx. apply in_map_iff in Hc as [p [<- Hp]]. apply in_map_iff in Hx as [q [<- Hq]]. now apply HG. }
  destruct (below_gap scan im fuel d e (Z.of_N m) Hi Hs Hf' ltac:(unfold D2; lia) HG' H0 H1 He) as (out & E1 & E2). exists out. split; [exact E1|]. split; [exact E2|].
  destruct (rle_exact_codec scan im fuel stack e Hi Hs He Hf') as (runs & _ & E & D & _). rewrite E in E2. apply ok_inj in E2. subst out.
  intros S next s s' Hy. change (hilbert_decode scan stack (RLE d) next s) with (hilbert_decode scan stack (RLE e) next s). rewrite (D S next s s' Hy).
  f_equal. apply only_at_all; [exact Hi|]. intros x y Hx Hy'. now apply (proj2 Hv).
Qed.
Lemma fsqrt_one : fsqrt (f64_of_N 1) = f64_of_N 1.
Proof. apply BinarySingleNaN.B2SF_inj. vm_compute. reflexivity. Qed.
Lemma below_one_image scan im fuel stack d e : img_ok im -> visits_all (im_w im) (im_h im) (scan (im_w im) (im_h im)) ->
  (N.to_nat (im_w im * im_h im) < fuel)%nat -> flt (f64_of_N 0) d = true -> flt d (f64_of_N 1) = true -> feq e (f64_of_N 0) = true ->
  exists out, run_vec (hilbert_encode scan fuel (RLE d) im) = Ok out /\ run_vec (hilbert_encode scan fuel (RLE e) im) = Ok out
  /\ forall S (next : nextf S N) s s', yields next s out s' -> hilbert_decode scan stack (RLE d) next s = Ok (opaque im).
Proof.
  intros Hi Hv Hf H0 H1 He. rewrite <- fsqrt_one in H1.
  apply (below_gap_image scan im fuel stack d e 1 Hi Hv Hf ltac:(lia)); try assumption. intros p q _ _ D. now apply sq_dist_pos.
Qed.
Lemma below_grey scan im fuel stack d e : img_ok im -> visits_all (im_w im) (im_h im) (scan (im_w im) (im_h im)) ->
  (N.to_nat (im_w im * im_h im) < fuel)%nat -> (forall p, In p (im_px im) -> exists v a, p = px v v v a) ->
  flt (f64_of_N 0) d = true -> flt d (fsqrt (f64_of_N 3)) = true -> feq e (f64_of_N 0) = true ->
  exists out, run_vec (hilbert_encode scan fuel (RLE d) im) = Ok out /\ run_vec (hilbert_encode scan fuel (RLE e) im) = Ok out
  /\ forall S (next : nextf S N) s s', yields next s out s' -> hilbert_decode scan stack (RLE d) next s = Ok (opaque im).
Proof.
  intros Hi Hv Hf Hg H0 H1 He. apply (below_gap_image scan im fuel stack d e 3); try assumption; [lia|].
  intros p q Hp Hq D. destruct (Hg p Hp) as (v & a & ->). destruct (Hg q Hq) as (w & b & ->). unfold px in *. cbn [fst] in *. unfold sq_dist.
  assert (V : v <> w) by congruence. rewrite !Z.pow_2_r. assert (Z.of_N v - Z.of_N w <> 0)%Z by lia. revert H. generalize (Z.of_N v - Z.of_N w)%Z. intros t Ht.
  rewrite <- Z.abs_square. nia.
Qed.

Definition reds (l : list N) : img := mkImg (N.of_nat (length l)) 1 (map (fun r => px r 0 0 255) l).
Lemma reds_ok l : (N.of_nat (length l) < 2 ^ 32)%N -> Forall (fun r => (r < 256)%N) l -> img_ok (reds l).
Proof.
  intros HL HF. unfold img_ok, reds. cbn [im_w im_h im_px]. split; [exact HL|]. split; [reflexivity|]. split; [lia|]. split; [rewrite map_length; lia|].
  apply Forall_map. apply (@Forall_impl _ (fun r => (r < 256)%N)); [|exact HF]. intros r Hr. repeat split; cbn; unfold u8_ok; lia.
Qed.
Lemma larger_worse : exists im scan d e o1 o2 im1 im2,
  img_ok im /\ visits_all (im_w im) (im_h im) (scan (im_w im) (im_h im)) /\ (d < e)%N
  /\ run_vec (hilbert_encode scan 6 (RLE (f64_of_N d)) im) = Ok o1 /\ run_vec (hilbert_encode scan 6 (RLE (f64_of_N e)) im) = Ok o2
  /\ hilbert_decode scan 2 (RLE (f64_of_N d)) list_next o1 = Ok im1 /\ hilbert_decode scan 2 (RLE (f64_of_N e)) list_next o2 = Ok im2
  /\ (length o1 < length o2)%nat /\ (square_error im im1 < square_error im im2)%Z.
Proof.
  exists (reds [4; 11; 17; 9; 16]%N), rows, 6%N, 7%N,
    ([5; 0; 0; 0; 1; 0; 0; 0] ++ run_bytes (1, (4, 0, 0)) ++ run_bytes (4, (13, 0, 0)))%N,
    ([5; 0; 0; 0; 1; 0; 0; 0] ++ run_bytes (2, (8, 0, 0)) ++ run_bytes (1, (17, 0, 0)) ++ run_bytes (2, (13, 0, 0)))%N,
    (reds [4; 13; 13; 13; 13]%N), (reds [8; 8; 17; 13; 13]%N).
  split; [apply reds_ok; [reflexivity|repeat constructor]|]. split; [apply row_major_visits|]. split; [reflexivity|].
  split; [vm_compute; reflexivity|]. split; [vm_compute; reflexivity|]. split; [vm_compute; reflexivity|]. split; [vm_compute; reflexivity|].
  split; [apply Nat.ltb_lt|]; vm_compute; reflexivity.
Qed.
Lemma doubled_closer : exists im scan d o1 o2 im1 im2,
  img_ok im /\ visits_all (im_w im) (im_h im) (scan (im_w im) (im_h im)) /\ (0 < d)%N
  /\ run_vec (hilbert_encode scan 11 (RLE (f64_of_N d)) im) = Ok o1 /\ run_vec (hilbert_encode scan 11 (RLE (f64_of_N (2 * d))) im) = Ok o2
  /\ hilbert_decode scan 2 (RLE (f64_of_N d)) list_next o1 = Ok im1 /\ hilbert_decode scan 2 (RLE (f64_of_N (2 * d))) list_next o2 = Ok im2
  /\ length o1 = length o2 /\ (square_error im im2 < square_error im im1)%Z.
Proof.
  exists (reds [9; 7; 23; 22; 21; 19; 17; 16; 16; 15]%N), rows, 2%N.
  destruct (run_vec (hilbert_encode rows 11 (RLE (f64_of_N 2)) (reds [9; 7; 23; 22; 21; 19; 17; 16; 16; 15]%N))) as [o1| |] eqn:E1; [|exfalso; revert E1; vm_compute; discriminate..].
  destruct (run_vec (hilbert_encode rows 11 (RLE (f64_of_N (2 * 2))) (reds [9; 7; 23; 22; 21; 19; 17; 16; 16; 15]%N))) as [o2| |] eqn:E2; [|exfalso; revert E2; vm_compute; discriminate..].
  exists o1, o2.
  assert (V1 := E1). vm_compute in V1. apply ok_inj in V1. assert (V2 := E2). vm_compute in V2. apply ok_inj in V2. subst o1 o2.
  eexists. eexists. split; [apply reds_ok; [reflexivity|repeat constructor]|]. split; [apply row_major_visits|]. split; [reflexivity|].
  split; [reflexivity|]. split; [reflexivity|]. split; [vm_compute; reflexivity|]. split; [vm_compute; reflexivity|]. split; vm_compute; reflexivity.
Qed.
