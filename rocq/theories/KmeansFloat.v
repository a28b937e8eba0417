(** * Square roots of small integers in f64 and f32. *)
From Coq Require Import ZArith NArith Reals Lra Lia.
From Flocq Require Import Core BinarySingleNaN.
From Verif Require Import Base Ser Float FloatProofs HilbertC Kmeans CodecSpec.

Local Notation rnd := (round radix2 (SpecFloat.fexp 53 1024) (round_mode mode_NE)).
#[local] Instance valid_f64 : Valid_exp (SpecFloat.fexp 53 1024).
Proof. apply (fexp_correct 53 1024). exact f64_prec. Qed.
#[local] Instance mono_f64 : Monotone_exp (SpecFloat.fexp 53 1024).
Proof. change (SpecFloat.fexp 53 1024) with (FLT_exp (3 - 1024 - 53) 53). apply FLT_exp_monotone. Qed.
#[local] Instance valid_ne : Valid_rnd (round_mode mode_NE).
Proof. apply valid_rnd_round_mode. Qed.

(** ** Rounding error below 1024 *)
Definition eps : R := bpow radix2 (-43).
Lemma eps_small : (eps = / 8796093022208)%R.
Proof. reflexivity. Qed.
Lemma rnd_error x : (0 <= x <= 1024)%R -> (Rabs (rnd x - x) <= eps)%R.
Proof.
  intros Hx. pose proof (error_le_half_ulp radix2 (SpecFloat.fexp 53 1024) (fun z => negb (Z.even z)) x) as H.
  change (Znearest (fun z => negb (Z.even z))) with (round_mode mode_NE) in H.
  assert (U : (ulp radix2 (SpecFloat.fexp 53 1024) x <= bpow radix2 (-42))%R).
  { apply Rle_trans with (ulp radix2 (SpecFloat.fexp 53 1024) (bpow radix2 10)).
    - apply ulp_le; [exact valid_f64|exact mono_f64|]. rewrite !Rabs_pos_eq; [cbn; lra|cbn; lra|lra].
    - rewrite ulp_bpow. apply bpow_le. reflexivity. }
  eapply Rle_trans; [exact H|]. unfold eps. replace (bpow radix2 (-43)) with (/ 2 * bpow radix2 (-42))%R; [apply Rmult_le_compat_l; [lra|exact U]|].
  cbn. lra.
Qed.
Lemma rnd_small x : (0 <= x <= 1024)%R -> Rlt_bool (Rabs (rnd x)) (bpow radix2 1024) = true /\ (0 <= rnd x)%R.
Proof.
  intros Hx. split.
  - apply small_abs. eapply Rle_lt_trans; [apply (abs_round_le_generic radix2 (SpecFloat.fexp 53 1024) (round_mode mode_NE) x 1024)|].
    + now apply (int_fmt 1024).
    + rewrite Rabs_pos_eq; lra.
    + change (bpow radix2 53) with (IZR (2 ^ 53)). apply (IZR_lt 1024). reflexivity.
  - rewrite <- (rnd_int 0) by reflexivity. apply round_le; [exact valid_f64|exact valid_ne|apply Hx].
Qed.

(** ** Distances of colours *)
Definition D2 := (3 * 255 * 255)%Z.
Definition root (a : Z) : f64 := fsqrt (f64_of_Z a).
Lemma sqrt_bound a : (0 <= a <= D2)%Z -> (0 <= sqrt (IZR a) <= 442)%R.
Proof.
  intros H. split; [apply sqrt_pos|]. replace 442%R with (sqrt (442 * 442)) by (apply sqrt_square; lra).
  apply sqrt_le_1_alt. rewrite <- mult_IZR. apply IZR_le. unfold D2 in H. lia.
Qed.
Lemma root_spec a : (0 <= a <= D2)%Z -> is_finite (root a) = true /\ B2R (root a) = rnd (sqrt (IZR a)) /\ (0 <= B2R (root a) <= 443)%R
  /\ (Rabs (B2R (root a) - sqrt (IZR a)) <= eps)%R.
Proof.
  intros H. destruct (of_Z_spec a) as [F V S]; [unfold D2 in H; lia|]. unfold root, fsqrt.
  destruct (Bsqrt_correct 53 1024 f64_prec f64_emax mode_NE (f64_of_Z a)) as (H1 & H2 & _).
  pose proof (sqrt_bound a H) as B. assert (B' : (0 <= sqrt (IZR a) <= 1024)%R) by lra.
  assert (Hf : is_finite (Bsqrt mode_NE (f64_of_Z a)) = true).
  { rewrite H2. revert F S. destruct (f64_of_Z a) as [s|s| |s m e Hb]; try discriminate; [reflexivity|]. intros _. cbn. intros ->.
    destruct (Z.ltb_spec a 0); [lia|reflexivity]. }
  split; [exact Hf|]. rewrite H1, V. split; [reflexivity|]. pose proof (rnd_error _ B') as E. split; [|exact E]. split; [apply (rnd_small _ B')|].
  apply Rabs_le_inv in E. rewrite eps_small in E. lra.
Qed.
Lemma root_gap a b : (0 <= a)%Z -> (a < b)%Z -> (b <= D2)%Z -> (sqrt (IZR a) + / 884 <= sqrt (IZR b))%R.
Proof.
  intros Ha Hab Hb. pose proof (sqrt_bound a ltac:(lia)) as Ba. pose proof (sqrt_bound b ltac:(lia)) as Bb.
  set (x := sqrt (IZR a)) in *. set (y := sqrt (IZR b)) in *.
  assert (X : (x * x = IZR a)%R) by (apply sqrt_sqrt, (IZR_le 0); lia).
  assert (Y : (y * y = IZR b)%R) by (apply sqrt_sqrt, (IZR_le 0); lia).
  assert (L : (IZR a + 1 <= IZR b)%R) by (rewrite <- (plus_IZR a 1); apply IZR_le; lia).
  destruct (Rle_or_lt (x + / 884) y) as [C|C]; [exact C|]. exfalso.
  assert (Hxy : (x <= y)%R) by (destruct (Rle_or_lt x y); [assumption|exfalso; nra]).
  assert (((y - x) * (y + x) < 1)%R); [|nra].
  apply Rle_lt_trans with ((y - x) * 884)%R; [apply Rmult_le_compat_l; lra|]. lra.
Qed.
Lemma root_lt a b : (0 <= a <= D2)%Z -> (0 <= b <= D2)%Z -> flt (root a) (root b) = (a <? b)%Z.
Proof.
  intros Ha Hb. destruct (root_spec a Ha) as (Fa & Va & _ & Ea). destruct (root_spec b Hb) as (Fb & Vb & _ & Eb).
  unfold flt. rewrite Bltb_correct by assumption. destruct (Z.ltb_spec a b) as [C|C].
  - apply Rlt_bool_true. pose proof (root_gap a b ltac:(lia) C ltac:(lia)) as G. apply Rabs_le_inv in Ea, Eb. rewrite eps_small in *. lra.
  - apply Rlt_bool_false. rewrite Va, Vb. apply round_le; [exact valid_f64|exact valid_ne|]. apply sqrt_le_1_alt, IZR_le, C.
Qed.
Lemma root_le a b : (0 <= a <= D2)%Z -> (0 <= b <= D2)%Z -> fle (root a) (root b) = (a <=? b)%Z.
Proof.
  intros Ha Hb. destruct (root_spec a Ha) as (Fa & Va & _ & Ea). destruct (root_spec b Hb) as (Fb & Vb & _ & Eb).
  unfold fle. rewrite Bleb_correct by assumption. destruct (Z.leb_spec a b) as [C|C].
  - apply Rle_bool_true. rewrite Va, Vb. apply round_le; [exact valid_f64|exact valid_ne|]. apply sqrt_le_1_alt, IZR_le, C.
  - apply Rle_bool_false. pose proof (root_gap b a ltac:(lia) C ltac:(lia)) as G. apply Rabs_le_inv in Ea, Eb. rewrite eps_small in *. lra.
Qed.
Lemma sq_dist_bound a b : rgb_ok a -> rgb_ok b -> (0 <= sq_dist a b <= D2)%Z.
Proof.
  destruct a as [[r g] u], b as [[r' g'] u']. unfold rgb_ok, u8_ok, sq_dist, D2. intros (? & ? & ?) (? & ? & ?).
  assert (Q : forall x y : N, (x < 256)%N -> (y < 256)%N -> (0 <= (Z.of_N x - Z.of_N y) ^ 2 <= 255 * 255)%Z).
  { intros x y Hx Hy. rewrite Z.pow_2_r. assert (B : (-255 <= Z.of_N x - Z.of_N y <= 255)%Z) by lia. revert B. generalize (Z.of_N x - Z.of_N y)%Z.
    intros d B. rewrite <- Z.abs_square. assert (0 <= Z.abs d <= 255)%Z by lia. split; [nia|]. now apply Z.mul_le_mono_nonneg. }
  pose proof (Q r r' ltac:(assumption) ltac:(assumption)). pose proof (Q g g' ltac:(assumption) ltac:(assumption)).
  pose proof (Q u u' ltac:(assumption) ltac:(assumption)). lia.
Qed.
Lemma rgb_dist_root a b : rgb_ok a -> rgb_ok b -> rgb_dist a b = root (sq_dist a b).
Proof.
  intros Ha Hb. pose proof (sq_dist_bound a b Ha Hb) as B. destruct a as [[r g] u], b as [[r' g'] u']. unfold rgb_dist, root, sq_dist, D2 in *.
  rewrite !Z.pow_2_r in *. set (x := ((Z.of_N r - Z.of_N r') * _)%Z) in *. set (y := ((Z.of_N g - Z.of_N g') * _)%Z) in *.
  set (z := ((Z.of_N u - Z.of_N u') * _)%Z) in *.
  assert (0 <= x)%Z by apply Z.square_nonneg. assert (0 <= y)%Z by apply Z.square_nonneg. assert (0 <= z)%Z by apply Z.square_nonneg.
  f_equal. apply is_int_eq with (x + y + z)%Z; [|apply of_Z_spec; lia].
  apply fadd_int; try lia; [apply fadd_int; try lia|]; apply of_Z_spec; lia.
Qed.
Lemma sq_dist_sym a b : sq_dist a b = sq_dist b a.
Proof. destruct a as [[r g] u], b as [[r' g'] u']. unfold sq_dist. ring. Qed.

(** ** The triangle inequality *)
Lemma sum_sqrt (a b e : R) (s : R) : (0 <= a -> 0 <= e -> b = a + e + 2 * s -> s * s <= a * e -> sqrt b <= sqrt a + sqrt e)%R.
Proof.
  intros Ha He Eb Hs. pose proof (sqrt_pos a) as Pa. pose proof (sqrt_pos e) as Pe.
  pose proof (sqrt_sqrt a Ha) as Qa. pose proof (sqrt_sqrt e He) as Qe. set (x := sqrt a) in *. set (y := sqrt e) in *.
  rewrite <- (sqrt_square (x + y)) by lra. apply sqrt_le_1_alt. rewrite Eb.
  assert (s <= x * y)%R; [|nra].
  destruct (Rle_or_lt s (x * y)) as [C|C]; [exact C|]. exfalso.
  assert (0 <= x * y)%R by nra. assert ((x * y) * (x * y) < s * s)%R by nra. nra.
Qed.
Lemma triangle c c' x : (sqrt (IZR (sq_dist c c')) <= sqrt (IZR (sq_dist c x)) + sqrt (IZR (sq_dist c' x)))%R.
Proof.
  destruct c as [[r g] u], c' as [[r' g'] u'], x as [[r0 g0] u0]. unfold sq_dist.
  generalize (Z.of_N r) (Z.of_N g) (Z.of_N u) (Z.of_N r') (Z.of_N g') (Z.of_N u') (Z.of_N r0) (Z.of_N g0) (Z.of_N u0).
  clear. intros r g u r' g' u' r0 g0 u0.
  set (x := (r - r0)%Z). set (y := (g - g0)%Z). set (z := (u - u0)%Z). set (x' := (r0 - r')%Z). set (y' := (g0 - g')%Z). set (z' := (u0 - u')%Z).
  replace ((r' - r0) ^ 2 + (g' - g0) ^ 2 + (u' - u0) ^ 2)%Z with (x' * x' + y' * y' + z' * z')%Z by (unfold x', y', z'; ring).
  replace ((r - r') ^ 2 + (g - g') ^ 2 + (u - u') ^ 2)%Z with ((x * x + y * y + z * z) + (x' * x' + y' * y' + z' * z') + 2 * (x * x' + y * y' + z * z'))%Z
    by (unfold x, y, z, x', y', z'; ring).
  rewrite !Z.pow_2_r.
  apply sum_sqrt with (IZR (x * x' + y * y' + z * z')).
  - apply (IZR_le 0). nia.
  - apply (IZR_le 0). nia.
  - rewrite !plus_IZR, (mult_IZR 2), !plus_IZR. lra.
  - rewrite <- !mult_IZR. apply IZR_le.
    assert (E : ((x * x + y * y + z * z) * (x' * x' + y' * y' + z' * z') - (x * x' + y * y' + z * z') * (x * x' + y * y' + z * z')
      = (x * y' - y * x') * (x * y' - y * x') + (x * z' - z * x') * (x * z' - z * x') + (y * z' - z * y') * (y * z' - z * y'))%Z) by ring.
    pose proof (Z.square_nonneg (x * y' - y * x')). pose proof (Z.square_nonneg (x * z' - z * x')). pose proof (Z.square_nonneg (y * z' - z * y')). lia.
Qed.
(** A centroid strictly closer than [c] is closer to [c] than twice the distance. *)
Lemma closer_gap c c' x : rgb_ok c -> rgb_ok c' -> rgb_ok x -> (sq_dist c' x < sq_dist c x)%Z ->
  (sqrt (IZR (sq_dist c c')) <= 2 * sqrt (IZR (sq_dist c x)) - / 884)%R.
Proof.
  intros Hc Hc' Hx H. pose proof (triangle c c' x) as T. pose proof (sq_dist_bound c x Hc Hx). pose proof (sq_dist_bound c' x Hc' Hx).
  pose proof (root_gap (sq_dist c' x) (sq_dist c x) ltac:(lia) H ltac:(lia)). lra.
Qed.
Lemma two_spec : is_int (f64_of_N 2) 2.
Proof. apply (of_N_spec 2). reflexivity. Qed.
Lemma radius_safe c c1 c' x : rgb_ok c -> rgb_ok c1 -> rgb_ok c' -> rgb_ok x -> fle (rgb_dist c c1) (rgb_dist c c') = true ->
  fle (rgb_dist c x) (fdiv (rgb_dist c c1) (f64_of_N 2)) = true -> (sq_dist c x <= sq_dist c' x)%Z.
Proof.
  intros Hc Hc1 Hc' Hx Hn H. rewrite (rgb_dist_root c c1), (rgb_dist_root c c') in Hn by assumption.
  rewrite root_le in Hn by (apply sq_dist_bound; assumption). apply Z.leb_le, IZR_le, sqrt_le_1_alt in Hn. destruct (Z.leb_spec (sq_dist c x) (sq_dist c' x)) as [C|C]; [exact C|]. exfalso.
  pose proof (closer_gap c c' x Hc Hc' Hx C) as G. rewrite !rgb_dist_root in H by assumption.
  destruct (root_spec _ (sq_dist_bound c x Hc Hx)) as (Fa & Va & Ba & Ea). destruct (root_spec _ (sq_dist_bound c c1 Hc Hc1)) as (Fb & Vb & Bb & Eb).
  pose proof (Bdiv_correct 53 1024 f64_prec f64_emax mode_NE (root (sq_dist c c1)) (f64_of_N 2)) as Pd. destruct two_spec as [F2 V2 _].
  rewrite V2 in Pd. specialize (Pd ltac:(lra)).
  assert (Hh : (0 <= B2R (root (sq_dist c c1)) / 2 <= 1024)%R) by lra. destruct (rnd_small _ Hh) as [R1 _]. rewrite R1 in Pd.
  destruct Pd as (Pv & Pf & _). pose proof (rnd_error _ Hh) as Er. fold (fdiv (root (sq_dist c c1)) (f64_of_N 2)) in Pv, Pf.
  unfold fle in H. rewrite Bleb_correct in H by congruence. apply Rle_bool_true_iff in H || (revert H; case Rle_bool_spec; [intros H _|discriminate]).
  rewrite Pv in H. apply Rabs_le_inv in Ea, Eb, Er. rewrite eps_small in *. lra.
Qed.
Lemma cutoff_safe c c1 c' x : rgb_ok c -> rgb_ok c1 -> rgb_ok c' -> rgb_ok x -> fle (rgb_dist c c1) (rgb_dist c c') = true ->
  flt (fmul (f64_of_N 2) (rgb_dist c x)) (rgb_dist c c1) = true -> (sq_dist c x <= sq_dist c' x)%Z.
Proof.
  intros Hc Hc1 Hc' Hx Hn H. rewrite (rgb_dist_root c c1), (rgb_dist_root c c') in Hn by assumption.
  rewrite root_le in Hn by (apply sq_dist_bound; assumption). apply Z.leb_le, IZR_le, sqrt_le_1_alt in Hn. destruct (Z.leb_spec (sq_dist c x) (sq_dist c' x)) as [C|C]; [exact C|]. exfalso.
  pose proof (closer_gap c c' x Hc Hc' Hx C) as G. rewrite !rgb_dist_root in H by assumption.
  destruct (root_spec _ (sq_dist_bound c x Hc Hx)) as (Fa & Va & Ba & Ea). destruct (root_spec _ (sq_dist_bound c c1 Hc Hc1)) as (Fb & Vb & Bb & Eb).
  pose proof (Bmult_correct 53 1024 f64_prec f64_emax mode_NE (f64_of_N 2) (root (sq_dist c x))) as Pd. destruct two_spec as [F2 V2 _].
  rewrite V2 in Pd. assert (Hh : (0 <= 2 * B2R (root (sq_dist c x)) <= 1024)%R) by lra. destruct (rnd_small _ Hh) as [R1 _]. rewrite R1 in Pd.
  destruct Pd as (Pv & Pf & _). pose proof (rnd_error _ Hh) as Er. fold (fmul (f64_of_N 2) (root (sq_dist c x))) in Pv, Pf.
  rewrite F2, Fa in Pf. unfold flt in H. rewrite Bltb_correct in H by assumption. revert H. case Rlt_bool_spec; [intros H _|discriminate].
  rewrite Pv in H. apply Rabs_le_inv in Ea, Eb, Er. rewrite eps_small in *. lra.
Qed.

(** ** [(k as f32).sqrt() as usize] *)
Local Notation rnd32 := (round radix2 (SpecFloat.fexp 24 128) (round_mode mode_NE)).
Local Notation fmt32 := (generic_format radix2 (SpecFloat.fexp 24 128)).
#[local] Instance valid_f32 : Valid_exp (SpecFloat.fexp 24 128).
Proof. apply (fexp_correct 24 128). exact f32_prec. Qed.
Lemma scaled_fmt32 m e : (Z.abs m < 2 ^ 24)%Z -> (-149 <= e)%Z -> fmt32 (F2R (Float radix2 m e)).
Proof.
  intros Hm He. change (SpecFloat.fexp 24 128) with (FLT_exp (3 - 128 - 24) 24).
  apply generic_format_FLT. exists (Float radix2 m e); [reflexivity|exact Hm|exact He].
Qed.
Lemma int_fmt32 z : (Z.abs z <= 2 ^ 24)%Z -> fmt32 (IZR z).
Proof.
  intros Hz. destruct (Z.eq_dec (Z.abs z) (2 ^ 24)) as [E|E].
  - assert (C : z = (2 ^ 24)%Z \/ z = (- 2 ^ 24)%Z) by lia.
    replace (IZR z) with (F2R (Float radix2 (z / 2) 1)); [apply scaled_fmt32; [|lia]|].
    + destruct C as [-> | ->]; reflexivity.
    + destruct C as [-> | ->]; unfold F2R; cbn; lra.
  - replace (IZR z) with (F2R (Float radix2 z 0)) by (unfold F2R; cbn; ring). apply scaled_fmt32; lia.
Qed.
Lemma lower_bound_sqrt k : (N.of_nat k <= 16777216)%N -> lower_bound k = Nat.sqrt k.
Proof.
  intros Hk. unfold lower_bound. set (z := Z.of_N (N.of_nat k)). assert (Hz : (0 <= z <= 2 ^ 24)%Z) by (unfold z; lia).
  pose proof (binary_normalize_correct 24 128 f32_prec f32_emax mode_NE z 0 false) as H. cbv zeta in H.
  replace (F2R (Float radix2 z 0)) with (IZR z) in H by (unfold F2R; cbn; ring).
  rewrite (round_generic radix2 _ (round_mode mode_NE) (IZR z)) in H by (apply int_fmt32; lia).
  assert (Hs : (Rabs (IZR z) <= bpow radix2 24)%R).
  { rewrite <- abs_IZR. change (bpow radix2 24) with (IZR (2 ^ 24)). apply IZR_le. lia. }
  rewrite Rlt_bool_true in H by (eapply Rle_lt_trans; [exact Hs|apply bpow_lt; reflexivity]).
  fold z in H. change (binary_normalize 24 128 f32_prec f32_emax mode_NE z 0 false) with (f32_of_N (N.of_nat k)) in H.
  destruct H as (V & F & S).
  destruct (Bsqrt_correct 24 128 f32_prec f32_emax mode_NE (f32_of_N (N.of_nat k))) as (H1 & H2 & _).
  fold (f32_sqrt (f32_of_N (N.of_nat k))) in H1, H2. rewrite V in H1.
  assert (Hf : is_finite (f32_sqrt (f32_of_N (N.of_nat k))) = true).
  { rewrite H2. destruct (f32_of_N (N.of_nat k)) as [s|s| |s m e Hb]; try discriminate; [reflexivity|]. cbn in S. rewrite S.
    destruct (Rcompare_spec (IZR z) 0) as [C|C|C]; try reflexivity. apply (lt_IZR z 0) in C. lia. }
  pose proof (Btrunc_correct 24 128 f32_emax (f32_sqrt (f32_of_N (N.of_nat k)))) as T. rewrite round_FIX_IZR, H1 in T. apply eq_IZR in T.
  (* the floor of the rounded root *)
  set (s := Z.sqrt z). pose proof (Z.sqrt_spec z ltac:(lia)) as Sq. cbv zeta in Sq. fold s in Sq. unfold Z.succ in Sq. assert (Hs0 : (0 <= s)%Z) by apply Z.sqrt_nonneg.
  assert (Hz' : (z <= 16777216)%Z) by (change 16777216%Z with (2 ^ 24)%Z; lia).
  assert (Hs1 : (s <= 4096)%Z).
  { destruct (Z.le_gt_cases s 4096) as [C|C]; [exact C|]. exfalso. pose proof (Z.mul_le_mono_nonneg 4097 s 4097 s ltac:(lia) ltac:(lia) ltac:(lia) ltac:(lia)). lia. }
  assert (R : (IZR s <= rnd32 (sqrt (IZR z)) < IZR s + 1)%R).
  { assert (X : (sqrt (IZR z) * sqrt (IZR z) = IZR z)%R) by (apply sqrt_sqrt, (IZR_le 0); lia). pose proof (sqrt_pos (IZR z)) as Xp.
    set (x := sqrt (IZR z)) in *. split.
    - rewrite <- (round_generic radix2 (SpecFloat.fexp 24 128) (round_mode mode_NE) (IZR s)) by (apply int_fmt32; lia).
      apply round_le; [exact valid_f32|exact valid_ne|]. destruct (Rle_or_lt (IZR s) x) as [C|C]; [exact C|]. exfalso.
      assert (IZR s * IZR s <= IZR z)%R by (rewrite <- mult_IZR; apply IZR_le; lia). assert (0 <= IZR s)%R by (apply (IZR_le 0); lia). nra.
    - destruct (Z.eq_dec s 4096) as [E4|E4].
      { assert (H : (z = 2 ^ 24)%Z) by (change (2 ^ 24)%Z with 16777216%Z; rewrite E4 in Sq; lia). assert (Ex : x = IZR 4096).
        { unfold x. rewrite H. replace (IZR (2 ^ 24)) with (IZR 4096 * IZR 4096)%R by (cbn; lra). apply sqrt_square. lra. }
        rewrite Ex, round_generic by (try exact valid_ne; apply int_fmt32; lia). rewrite E4. lra. }
      (* the largest f32 below s+1 that is a multiple of 2^-12 *)
      assert (G : fmt32 (IZR (s + 1) - / 4096)%R).
      { replace (IZR (s + 1) - / 4096)%R with (F2R (Float radix2 (4096 * (s + 1) - 1) (-12))).
        - apply scaled_fmt32; lia.
        - unfold F2R. cbn [Fnum Fexp]. rewrite minus_IZR, mult_IZR. change (bpow radix2 (-12)) with (/ 4096)%R. lra. }
      assert (Sz : (IZR s + 1 <= 4096)%R) by (rewrite <- (plus_IZR s 1); apply IZR_le; lia).
      assert (Sp : (0 <= IZR s)%R) by (apply (IZR_le 0); lia).
      assert (Zu : (IZR z <= (IZR s + 1) * (IZR s + 1) - 1)%R).
      { rewrite <- (plus_IZR s 1), <- mult_IZR, <- (minus_IZR _ 1). apply IZR_le. lia. }
      assert (T1 : (1 <= IZR s + 1)%R) by lra. rewrite plus_IZR in G. set (t := (IZR s + 1)%R) in *.
      assert (Xt : (x <= t - / 8192 - / 1000000000000)%R).
      { destruct (Rle_or_lt x (t - / 8192 - / 1000000000000)) as [C|C]; [exact C|]. exfalso.
        assert (Q : ((t - / 8192 - / 1000000000000) * (t - / 8192 - / 1000000000000) < x * x)%R) by (apply Rmult_le_0_lt_compat; lra). lra. }
      destruct (Rle_or_lt x (t - / 4096)) as [C|C].
      + apply Rle_lt_trans with (t - / 4096)%R; [|lra].
        rewrite <- (round_generic radix2 (SpecFloat.fexp 24 128) (round_mode mode_NE) _ G). apply round_le; [exact valid_f32|exact valid_ne|exact C].
      + pose proof (round_N_pt radix2 (SpecFloat.fexp 24 128) (fun z => negb (Z.even z)) x) as [_ Nn].
        specialize (Nn _ G). change (Znearest (fun z => negb (Z.even z))) with (round_mode mode_NE) in Nn.
        rewrite (Rabs_left1 (t - / 4096 - x)) in Nn by lra. apply Rabs_le_inv in Nn. lra. }
  assert (Tz : Ztrunc (rnd32 (sqrt (IZR z))) = s).
  { rewrite Ztrunc_floor by (eapply Rle_trans; [apply (IZR_le 0 s); lia|apply R]). apply Zfloor_imp. rewrite plus_IZR. exact R. }
  rewrite Tz in T.
  assert (E : f32_as_usize (f32_sqrt (f32_of_N (N.of_nat k))) = Z.to_N s).
  { unfold f32_as_usize. destruct (f32_sqrt _) as [b|b| |b m e Hb]; try discriminate; rewrite T; f_equal; unfold u64_max; lia. }
  rewrite E. unfold s, z. rewrite Z2N.id || idtac. apply Nat2Z.inj. rewrite Z_N_nat, Z2Nat.id by apply Z.sqrt_nonneg.
  rewrite N2Z.inj_iff || idtac. rewrite nat_N_Z.
  apply Z.sqrt_unique. pose proof (Nat.sqrt_spec k ltac:(lia)) as Q. lia.
Qed.
