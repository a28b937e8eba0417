(** * The tolerance of the final check of a clustering (C63). *)
From Coq Require Import ZArith NArith Reals Lra Lia ZifyBool ZifyNat ZifyN.
From Flocq Require Import Core BinarySingleNaN.
From Verif Require Import Base Ser Float FloatProofs HilbertC Kmeans CodecSpec.

Local Notation rnd := (round radix2 (SpecFloat.fexp 53 1024) (round_mode mode_NE)).
#[local] Instance valid_f64 : Valid_exp (SpecFloat.fexp 53 1024).
Proof. apply (fexp_correct 53 1024). exact f64_prec. Qed.
#[local] Instance mono_f64 : Monotone_exp (SpecFloat.fexp 53 1024).
Proof. change (SpecFloat.fexp 53 1024) with (FLT_exp (3 - 1024 - 53) 53). apply FLT_exp_monotone. Qed.
#[local] Instance valid_ne : Valid_rnd (round_mode mode_NE).
Proof. apply valid_rnd_round_mode. Qed.

Local Open Scope R_scope.
Definition q99 : R := 8917127262193582 / 9007199254740992.
Lemma literal_099 : B2R f64_0_99 = q99 /\ is_finite f64_0_99 = true.
Proof.
  unfold f64_0_99. pose proof (binary_normalize_correct 53 1024 f64_prec f64_emax mode_NE 8917127262193582 (-53) false) as H. cbv zeta in H.
  assert (E : F2R (Float radix2 8917127262193582 (-53)) = q99) by (unfold F2R, q99; cbn; lra).
  rewrite (round_generic radix2 (SpecFloat.fexp 53 1024) (round_mode mode_NE)) in H by (apply scaled_fmt; lia).
  rewrite E in H. rewrite small_abs in H.
  - destruct H as (H1 & H2 & _). now split.
  - unfold q99. rewrite Rabs_pos_eq by lra. change (bpow radix2 53) with (IZR (2 ^ 53)). cbn. lra.
Qed.
(** Rounding errors below [2 ^ 33] *)
Lemma rnd_near x : 0 <= x <= 4294967296 -> rnd x <= x + / 1000.
Proof.
  intros Hx. pose proof (error_le_half_ulp radix2 (SpecFloat.fexp 53 1024) (fun z => negb (Z.even z)) x) as H.
  change (Znearest (fun z => negb (Z.even z))) with (round_mode mode_NE) in H.
  assert (U : ulp radix2 (SpecFloat.fexp 53 1024) x <= / 1000).
  { apply Rle_trans with (ulp radix2 (SpecFloat.fexp 53 1024) (bpow radix2 32)).
    - apply ulp_le; [exact valid_f64|exact mono_f64|]. rewrite !Rabs_pos_eq; [cbn; lra|cbn; lra|lra].
    - rewrite ulp_bpow. change (SpecFloat.fexp 53 1024 (32 + 1)) with (-20)%Z. cbn. lra. }
  apply Rabs_le_inv in H. lra.
Qed.
(** An integer is reached from slightly below. *)
Lemma rnd_up (n : Z) x : (0 < n < 2 ^ 53)%Z -> IZR n - IZR n * / 27021597764222976 < x -> IZR n <= rnd x.
Proof.
  intros Hn Hx. assert (F : generic_format radix2 (SpecFloat.fexp 53 1024) (IZR n)) by (apply int_fmt; lia).
  assert (P0 : 0 < IZR n) by (apply (IZR_lt 0); lia).
  apply (round_N_ge_midp radix2 (SpecFloat.fexp 53 1024) (fun z => negb (Z.even z))); [exact F|].
  pose proof (pred_plus_ulp radix2 (SpecFloat.fexp 53 1024) (IZR n) P0 F) as E.
  pose proof (ulp_FLT_gt radix2 (3 - 1024 - 53) 53 (pred radix2 (SpecFloat.fexp 53 1024) (IZR n))) as G.
  change (FLT_exp (3 - 1024 - 53) 53) with (SpecFloat.fexp 53 1024) in G.
  pose proof (pred_ge_0 radix2 (SpecFloat.fexp 53 1024) (IZR n) P0 F) as P1. rewrite Rabs_pos_eq in G by exact P1.
  change (bpow radix2 (- (53))) with (/ 9007199254740992) in G. cbn in G. lra.
Qed.
Lemma floor_099 (k : N) : (k <= 2 ^ 32)%N -> f64_as_usize (fmul f64_0_99 (f64_of_N k)) = (99 * k / 100)%N.
Proof.
  intros Hk. destruct (N.eq_dec k 0) as [->|K0]; [vm_compute; reflexivity|].
  destruct (of_N_spec k ltac:(lia)) as [F1 V1 _]. destruct literal_099 as [V2 F2]. set (n := (99 * k / 100)%N).
  pose proof (N.div_mod' (99 * k) 100) as D. fold n in D. pose proof (N.mod_lt (99 * k) 100 ltac:(lia)) as M. set (r := ((99 * k) mod 100)%N) in *.
  assert (DZ : IZR (Z.of_N k) * 99 = 100 * IZR (Z.of_N n) + IZR (Z.of_N r)) by (rewrite <- !mult_IZR, <- plus_IZR; f_equal; lia).
  assert (Rr : 0 <= IZR (Z.of_N r) <= 99) by (split; [apply (IZR_le 0)|apply (IZR_le _ 99)]; lia).
  assert (Kr : 1 <= IZR (Z.of_N k) <= 4294967296) by (split; [apply (IZR_le 1)|apply (IZR_le _ 4294967296)]; lia).
  assert (Nr : 0 <= IZR (Z.of_N n)) by (apply (IZR_le 0); lia).
  set (x := q99 * IZR (Z.of_N k)).
  assert (Hx : IZR (Z.of_N n) + IZR (Z.of_N r) / 100 - IZR (Z.of_N k) * (9 / 100) / 9007199254740992 <= x <= IZR (Z.of_N n) + IZR (Z.of_N r) / 100).
  { unfold x, q99. split; lra. }
  assert (X0 : 0 <= x <= 4294967296).
  { unfold x, q99. split; lra. }
  assert (Up : rnd x < IZR (Z.of_N n) + 1).
  { pose proof (rnd_near x X0). lra. }
  assert (Lo : IZR (Z.of_N n) <= rnd x).
  { destruct (N.eq_dec n 0) as [E|E].
    - rewrite E. rewrite <- (rnd_int 0) at 1 by reflexivity. apply round_le; [exact valid_f64|exact valid_ne|apply X0].
    - assert (1 <= IZR (Z.of_N n)) by (apply (IZR_le 1); lia). apply rnd_up; [lia|].
      destruct (N.eq_dec r 0) as [R0|R0]; [assert (Z0 : IZR (Z.of_N r) = 0) by (now rewrite R0); rewrite Z0 in *; lra|]. assert (1 <= IZR (Z.of_N r)) by (apply (IZR_le 1); lia). lra. }
  pose proof (Bmult_correct 53 1024 f64_prec f64_emax mode_NE f64_0_99 (f64_of_N k)) as B. rewrite V1, V2 in B. fold x in B.
  rewrite small_abs in B.
  2: { rewrite Rabs_pos_eq by lra. change (bpow radix2 53) with 9007199254740992. lra. }
  destruct B as (B1 & B2 & _). rewrite F1, F2 in B2. fold (fmul f64_0_99 (f64_of_N k)) in B1, B2.
  set (y := fmul f64_0_99 (f64_of_N k)) in *.
  assert (T : Btrunc y = Z.of_N n).
  { pose proof (Btrunc_correct 53 1024 f64_emax y) as T. rewrite round_FIX_IZR in T. apply eq_IZR in T. rewrite T, B1.
    rewrite Ztrunc_floor by lra. apply Zfloor_imp. rewrite plus_IZR. lra. }
  unfold f64_as_usize. destruct y as [s|s| |s m e Hb]; try discriminate B2; rewrite T; unfold u64_max; lia.
Qed.
