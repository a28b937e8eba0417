(** * The error and the ratio of the benchmark in f64. *)
From Coq Require Import ZArith NArith Reals Lra Lia.
From Flocq Require Import Core BinarySingleNaN Relative.
From Verif Require Import Base Ser Float FloatProofs HilbertC Kmeans CodecSpec KmeansFloat Img Bench BenchSpec.

Local Notation rnd := (round radix2 (SpecFloat.fexp 53 1024) (round_mode mode_NE)).
#[local] Instance valid_f64 : Valid_exp (SpecFloat.fexp 53 1024).
Proof. apply (fexp_correct 53 1024). exact f64_prec. Qed.
#[local] Instance valid_ne : Valid_rnd (round_mode mode_NE).
Proof. apply valid_rnd_round_mode. Qed.
Local Open Scope R_scope.

(** ** Relative errors *)
Definition u : R := bpow radix2 (-53).
Lemma u_val : u = / 9007199254740992.
Proof. reflexivity. Qed.
Lemma u_pos : 0 < u < / 1000000.
Proof. rewrite u_val. lra. Qed.
Definition normal (x : R) : Prop := x = 0 \/ / 18446744073709551616 <= x.
Lemma normal_pos x : normal x -> 0 <= x.
Proof. intros [->|H]; lra. Qed.
Lemma rnd_zero : rnd 0 = 0.
Proof. exact (rnd_int 0 eq_refl). Qed.
Lemma rnd_rel x : normal x -> (1 - u) * x <= rnd x <= (1 + u) * x.
Proof.
  intros [->|H]; [rewrite rnd_zero; lra|].
  pose proof (relative_error_N_FLT radix2 (3 - 1024 - 53) 53 eq_refl (fun z => negb (Z.even z)) x) as E.
  change (FLT_exp (3 - 1024 - 53) 53) with (SpecFloat.fexp 53 1024) in E. change (Znearest (fun z => negb (Z.even z))) with (round_mode mode_NE) in E.
  rewrite (Rabs_pos_eq x) in E by lra. assert (B : bpow radix2 (3 - 1024 - 53 + 53 - 1) <= x).
  { apply Rle_trans with (bpow radix2 (-64)); [apply bpow_le; lia|]. change (bpow radix2 (-64)) with (/ 18446744073709551616). exact H. }
  specialize (E B). change (bpow radix2 (Z.opp 53 + 1)) with (/ 4503599627370496) in E. replace (/ 2 * / 4503599627370496) with u in E by (rewrite u_val; lra).
  apply Rabs_le_inv in E. lra.
Qed.
(** [y] is [x] after [k] roundings *)
Definition rel (k : nat) (x y : R) : Prop := (1 - u) ^ k * x <= y <= (1 + u) ^ k * x.
Lemma pow_low k : (1 - u) ^ k <= 1 /\ 0 < (1 - u) ^ k.
Proof.
  pose proof u_pos as U. induction k as [|k [H1 H2]]; cbn [pow]; [lra|]. split; [|apply Rmult_lt_0_compat; lra].
  apply Rle_trans with (1 * 1); [apply Rmult_le_compat; lra|lra].
Qed.
Lemma pow_high k : 1 <= (1 + u) ^ k.
Proof. pose proof u_pos as U. induction k as [|k IH]; cbn [pow]; [lra|]. apply Rle_trans with (1 * 1); [lra|apply Rmult_le_compat; lra]. Qed.
Lemma rel_mono k k' x y : (k <= k')%nat -> 0 <= x -> rel k x y -> rel k' x y.
Proof.
  intros L Hx [H1 H2]. pose proof u_pos as U. replace k' with (k + (k' - k))%nat by lia. unfold rel. rewrite !pow_add.
  pose proof (pow_low k) as [A1 A2]. pose proof (pow_low (k' - k)) as [B1 B2]. pose proof (pow_high k) as C1. pose proof (pow_high (k' - k)) as C2.
  split.
  - eapply Rle_trans; [|exact H1]. apply Rmult_le_compat_r; [exact Hx|]. rewrite <- (Rmult_1_r ((1 - u) ^ k)) at 2. apply Rmult_le_compat_l; lra.
  - eapply Rle_trans; [exact H2|]. apply Rmult_le_compat_r; [exact Hx|]. rewrite <- (Rmult_1_r ((1 + u) ^ k)) at 1. apply Rmult_le_compat_l; lra.
Qed.
Lemma rel_add k x y x' y' : rel k x y -> rel k x' y' -> rel k (x + x') (y + y').
Proof. unfold rel. intros [H1 H2] [H3 H4]. lra. Qed.
Lemma rel_rnd k x y : normal y -> 0 <= x -> rel k x y -> rel (S k) x (rnd y).
Proof.
  intros N Hx [H1 H2]. destruct (rnd_rel y N) as [E1 E2]. pose proof u_pos as U. unfold rel. cbn [pow]. split.
  - eapply Rle_trans; [|exact E1]. rewrite Rmult_assoc. apply Rmult_le_compat_l; lra.
  - eapply Rle_trans; [exact E2|]. rewrite Rmult_assoc. apply Rmult_le_compat_l; lra.
Qed.
Lemma pow_low_lin k : 1 - INR k * u <= (1 - u) ^ k.
Proof.
  pose proof u_pos as U. induction k as [|k IH]; [cbn [pow]; change (INR 0) with 0; lra|]. rewrite S_INR. cbn [pow]. pose proof (pos_INR k).
  apply Rle_trans with ((1 - u) * (1 - INR k * u)); [|apply Rmult_le_compat_l; lra].
  assert (0 <= INR k * u * u) by (apply Rmult_le_pos; [apply Rmult_le_pos|]; lra). lra.
Qed.
Lemma pow_high_lin k : 2 * (INR k * u) <= 1 -> (1 + u) ^ k <= 1 + 2 * (INR k * u).
Proof.
  pose proof u_pos as U. induction k as [|k IH]; [cbn [pow]; change (INR 0) with 0; lra|]. rewrite S_INR. intros H. cbn [pow]. pose proof (pos_INR k).
  assert (H' : 2 * (INR k * u) <= 1) by lra. specialize (IH H').
  apply Rle_trans with ((1 + u) * (1 + 2 * (INR k * u))); [apply Rmult_le_compat_l; lra|].
  assert (2 * (INR k * u) * u <= 1 * u) by (apply Rmult_le_compat_r; lra). lra.
Qed.
Definition K : nat := Z.to_nat (2 ^ 32 + 8).
Lemma K_bound k : (Z.of_nat k <= 2 ^ 32 + 8)%Z -> INR k * u <= / 2000000.
Proof.
  intros H. rewrite INR_IZR_INZ. apply IZR_le in H. change (2 ^ 32 + 8)%Z with 4294967304%Z in H. rewrite u_val.
  apply Rle_trans with (4294967304 * / 9007199254740992); [apply Rmult_le_compat_r; lra|lra].
Qed.
(** Non-negative values that are zero or at least one stay normal *)
Lemma rel_close k z y : (Z.of_nat k <= 2 ^ 32 + 8)%Z -> (0 <= z)%Z -> rel k (IZR z) y -> (z = 0%Z /\ y = 0) \/ (/ 2 <= y <= 2 * IZR z /\ (1 <= z)%Z).
Proof.
  intros Hk Hz [H1 H2]. destruct (Z.eq_dec z 0) as [->|N]; [left; split; [reflexivity|lra]|right]. split; [|lia].
  assert (1 <= IZR z) by (apply (IZR_le 1); lia). pose proof (K_bound k Hk) as B. pose proof (pow_low_lin k). pose proof (pow_high_lin k ltac:(lra)).
  split; [|eapply Rle_trans; [exact H2|]; apply Rmult_le_compat_r; lra].
  eapply Rle_trans; [|exact H1]. apply Rle_trans with (/ 2 * IZR z); [lra|]. apply Rmult_le_compat_r; lra.
Qed.

(** ** One term *)
Lemma normal_big y : / 2 <= y -> normal y.
Proof. intros H. right. lra. Qed.
Lemma term_spec a : (0 <= a <= D2)%Z -> is_finite (fsqr (root a)) = true /\ rel 3 (IZR a) (B2R (fsqr (root a))).
Proof.
  intros H. destruct (root_spec a H) as (F & V & B & _).
  assert (Hs : 0 <= sqrt (IZR a)) by apply sqrt_pos.
  assert (N1 : normal (sqrt (IZR a))).
  { destruct (Z.eq_dec a 0) as [->|N]; [left; apply sqrt_0|right]. apply Rle_trans with (sqrt 1); [rewrite sqrt_1; lra|].
    apply sqrt_le_1_alt. apply (IZR_le 1). lia. }
  destruct (rnd_rel _ N1) as [E1 E2]. rewrite <- V in E1, E2. pose proof u_pos as U.
  assert (Q : sqrt (IZR a) * sqrt (IZR a) = IZR a) by (apply sqrt_sqrt, (IZR_le 0); lia).
  assert (R2 : rel 2 (IZR a) (B2R (root a) * B2R (root a))).
  { unfold rel. rewrite <- Q. set (x := sqrt (IZR a)) in *. set (y := B2R (root a)) in *. cbn [pow]. split.
    - replace ((1 - u) * ((1 - u) * 1) * (x * x)) with (((1 - u) * x) * ((1 - u) * x)) by ring. apply Rmult_le_compat; try exact E1; apply Rmult_le_pos; lra.
    - replace ((1 + u) * ((1 + u) * 1) * (x * x)) with (((1 + u) * x) * ((1 + u) * x)) by ring. apply Rmult_le_compat; try exact E2; lra. }
  destruct (fsqr_bound (root a) 443) as [[F2 _] _].
  { split; [exact F|]. rewrite Rabs_pos_eq by lra. lra. } { lia. } { lia. }
  split; [exact F2|]. assert (V2 : B2R (fsqr (root a)) = rnd (B2R (root a) * B2R (root a))).
  { unfold fsqr, fmul in *. pose proof (Bmult_correct 53 1024 f64_prec f64_emax mode_NE (root a) (root a)) as P.
    destruct (rnd_bound (B2R (root a) * B2R (root a)) (443 * 443)) as [_ R3]; [lia| |].
    - rewrite mult_IZR, Rabs_mult, !Rabs_pos_eq by lra. apply Rmult_le_compat; lra.
    - rewrite (small_abs _ R3) in P. exact (proj1 P). }
  rewrite V2. apply rel_rnd; [|apply (IZR_le 0); lia|exact R2].
  destruct (rel_close 2 a _ ltac:(lia) (proj1 H) R2) as [[_ ->]|[[G _] _]]; [now left|now apply normal_big].
Qed.

(** ** The sum *)
Definition term (q : rgba * rgba) : f64 := fsqr (rgb_dist (to_rgb (fst q)) (to_rgb (snd q))).
Definition gap (q : rgba * rgba) : Z := sq_dist (to_rgb (fst q)) (to_rgb (snd q)).
Definition pair_ok (q : rgba * rgba) : Prop := rgba_ok (fst q) /\ rgba_ok (snd q).
Definition gaps (l : list (rgba * rgba)) : Z := fold_right (fun q z => gap q + z)%Z 0%Z l.
Lemma gap_bound q : pair_ok q -> (0 <= gap q <= D2)%Z.
Proof. intros [[H1 _] [H2 _]]. now apply sq_dist_bound. Qed.
Lemma gaps_bound l : Forall pair_ok l -> (0 <= gaps l <= D2 * Z.of_nat (length l))%Z.
Proof.
  induction 1 as [|q l Hq _ IH]; [cbn; unfold D2; lia|]. pose proof (gap_bound q Hq). change (gaps (q :: l)) with (gap q + gaps l)%Z.
  rewrite (Nat2Z.inj_succ (length l) : Z.of_nat (length (q :: l)) = _). lia.
Qed.
Lemma term_rel q : pair_ok q -> is_finite (term q) = true /\ rel 3 (IZR (gap q)) (B2R (term q)).
Proof.
  intros H. pose proof (gap_bound q H) as B. destruct H as [[H1 _] [H2 _]]. unfold term. rewrite (rgb_dist_root (to_rgb (fst q)) (to_rgb (snd q)) H1 H2). now apply term_spec.
Qed.
Lemma fadd_rel k a b x y : is_finite x = true -> is_finite y = true -> rel k (IZR a) (B2R x) -> rel k (IZR b) (B2R y) ->
  (0 <= a)%Z -> (0 <= b)%Z -> (Z.of_nat k <= 2 ^ 32 + 8)%Z -> (a + b <= 2 ^ 51)%Z ->
  is_finite (fadd x y) = true /\ rel (S k) (IZR (a + b)) (B2R (fadd x y)).
Proof.
  intros F1 F2 R1 R2 Ha Hb Hk Hs. pose proof (rel_add _ _ _ _ _ R1 R2) as R3. rewrite <- plus_IZR in R3.
  pose proof (rel_close k (a + b) _ Hk ltac:(lia) R3) as C.
  assert (S0 : Rabs (B2R x + B2R y) <= IZR (2 ^ 52)).
  { apply IZR_le in Hs. change (2 ^ 51)%Z with 2251799813685248%Z in Hs. change (2 ^ 52)%Z with 4503599627370496%Z.
    destruct C as [[_ ->]|[G _]]; rewrite Rabs_pos_eq; lra. }
  destruct (rnd_bound (B2R x + B2R y) (2 ^ 52)) as [_ R4]; [lia|exact S0|].
  pose proof (Bplus_correct 53 1024 f64_prec f64_emax mode_NE x y F1 F2) as P. rewrite (small_abs _ R4) in P. destruct P as (P1 & P2 & _).
  split; [exact P2|]. unfold fadd. rewrite P1. apply rel_rnd; [|apply (IZR_le 0); lia|exact R3].
  destruct C as [[_ ->]|[[G _] _]]; [now left|now apply normal_big].
Qed.
Lemma sum_rel : forall l k z a, Forall pair_ok l -> is_finite z = true -> rel k (IZR a) (B2R z) -> (0 <= a)%Z -> (3 <= k)%nat ->
  (Z.of_nat k + Z.of_nat (length l) <= 2 ^ 32 + 8)%Z -> (a + gaps l <= 2 ^ 51)%Z ->
  is_finite (fold_left (fun s q => fadd s (term q)) l z) = true
  /\ rel (k + length l) (IZR (a + gaps l)) (B2R (fold_left (fun s q => fadd s (term q)) l z)).
Proof.
  induction l as [|q l IH]; intros k z a Hl Fz Rz Ha Hk Hn Hs.
  - cbn. rewrite Nat.add_0_r, Z.add_0_r. now split.
  - inversion Hl as [|? ? Hq Hl']; subst. destruct (term_rel q Hq) as [Ft Rt]. pose proof (gap_bound q Hq) as G. pose proof (gaps_bound l Hl') as GL.
    change (gaps (q :: l)) with (gap q + gaps l)%Z in *. rewrite (Nat2Z.inj_succ (length l) : Z.of_nat (length (q :: l)) = _) in Hn. cbn [fold_left length].
    destruct (fadd_rel k a (gap q) z (term q)) as [F1 R1]; try assumption; try lia.
    { apply rel_mono with 3%nat; [lia|apply (IZR_le 0); lia|exact Rt]. }
    replace (k + S (length l))%nat with (S k + length l)%nat by lia. rewrite Z.add_assoc. apply IH; try assumption; lia.
Qed.

(** ** The mean *)
Lemma fdiv_rel k a n x : is_finite x = true -> rel k (IZR a) (B2R x) -> (0 <= a <= 2 ^ 51)%Z -> (0 < n < 2 ^ 32)%N -> (Z.of_nat k <= 2 ^ 32 + 8)%Z ->
  let e := fdiv x (f64_of_N n) in is_finite e = true /\ rel (S k) (IZR a / IZR (Z.of_N n)) (B2R e).
Proof.
  intros F R1 Ha Hn Hk e. destruct (of_N_spec n) as [F2 V2 _]; [lia|].
  assert (Hn0 : 1 <= IZR (Z.of_N n) <= 4294967296) by (split; [apply (IZR_le 1)|apply (IZR_le _ 4294967296)]; lia).
  set (m := IZR (Z.of_N n)) in *. assert (I : 0 < / m) by (apply Rinv_0_lt_compat; lra).
  pose proof (rel_close k a _ Hk ltac:(lia) R1) as C.
  assert (R3 : rel k (IZR a / m) (B2R x / m)).
  { unfold rel, Rdiv in *. rewrite <- !Rmult_assoc. destruct R1. split; apply Rmult_le_compat_r; lra. }
  assert (I1 : / m <= 1) by (rewrite <- Rinv_1; apply Rinv_le; lra).
  assert (I2 : / 4294967296 <= / m) by (apply Rinv_le; lra).
  assert (A : IZR a <= IZR (2 ^ 51)) by (apply IZR_le; lia).
  assert (P0 : 0 <= B2R x) by (destruct C as [[_ ->]|[G _]]; lra).
  assert (S0 : Rabs (B2R x / m) <= IZR (2 ^ 52)).
  { rewrite Rabs_pos_eq by (apply Rmult_le_pos; lra). apply Rle_trans with (B2R x * 1); [apply Rmult_le_compat_l; lra|].
    change (2 ^ 51)%Z with 2251799813685248%Z in A. change (2 ^ 52)%Z with 4503599627370496%Z. destruct C as [[_ ->]|[G _]]; lra. }
  assert (N : normal (B2R x / m)).
  { destruct C as [[_ ->]|[[G _] _]]; [left; unfold Rdiv; ring|right]. apply Rle_trans with (/ 2 * / 4294967296); [lra|].
    apply Rmult_le_compat; lra. }
  destruct (rnd_bound (B2R x / m) (2 ^ 52)) as [_ R4]; [lia|exact S0|].
  pose proof (Bdiv_correct 53 1024 f64_prec f64_emax mode_NE x (f64_of_N n)) as P. rewrite V2 in P. fold m in P.
  specialize (P ltac:(lra)). rewrite (small_abs _ R4) in P. destruct P as (P1 & P2 & _).
  split; [unfold e, fdiv; rewrite P2; exact F|]. unfold e, fdiv. rewrite P1. apply rel_rnd; [exact N| |exact R3].
  apply Rmult_le_pos; [apply (IZR_le 0); lia|lra].
Qed.

Lemma error_rel p s x y : img_ok x -> Forall rgba_ok (im_px y) -> (0 < pixels x < 2 ^ 32)%N ->
  exists e k, compute_error p (B754_zero s) x y = Ok e /\ is_finite e = true /\ rel k (mean_square_error x y) (B2R e)
  /\ (Z.of_nat k <= 2 ^ 32 + 8)%Z.
Proof.
  intros (_ & _ & _ & Hl & Hx) Hy Hn. unfold compute_error, pixels in *. replace (ufit p (2 ^ 32) (im_w x * im_h x)) with (Ok (im_w x * im_h x)%N).
  2:{ unfold ufit. destruct (N.ltb_spec (im_w x * im_h x) (2 ^ 32)); [reflexivity|lia]. }
  cbn [res_bind]. set (l := combine (im_px x) (im_px y)). eexists _, (S (3 + length l)). split; [reflexivity|].
  assert (Hp : Forall pair_ok l).
  { apply Forall_forall. intros [a b] H. unfold l in H. split; [apply (proj1 (Forall_forall _ _) Hx)|apply (proj1 (Forall_forall _ _) Hy)];
      [eapply in_combine_l|eapply in_combine_r]; exact H. }
  assert (Hc : (length l <= length (im_px x))%nat) by (unfold l; rewrite combine_length; lia).
  pose proof (gaps_bound l Hp) as G. unfold D2 in G.
  assert (Hln : (Z.of_nat (length l) < 2 ^ 32)%Z) by (clear -Hc Hl Hn; lia).
  destruct (sum_rel l 3 (B754_zero s) 0 Hp) as [F R]; try reflexivity; try lia.
  { unfold rel. cbn [B2R]. lra. }
  change (0 + gaps l)%Z with (gaps l) in R.
  destruct (fdiv_rel (3 + length l) (gaps l) (im_w x * im_h x) _ F R) as [F2 R2]; [lia|lia|lia|].
  split; [exact F2|]. split; [exact R2|]. lia.
Qed.
