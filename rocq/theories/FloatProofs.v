(** * f64 facts used by the codecs and the clustering. *)
From Coq Require Import ZArith NArith Reals Lra Lia.
From Flocq Require Import Core BinarySingleNaN.
From Verif Require Import Base Float.

Local Notation rnd := (round radix2 (SpecFloat.fexp 53 1024) (round_mode mode_NE)).
Local Notation fmt := (generic_format radix2 (SpecFloat.fexp 53 1024)).
#[local] Instance valid_f64 : Valid_exp (SpecFloat.fexp 53 1024).
Proof. apply (fexp_correct 53 1024). exact f64_prec. Qed.
#[local] Instance valid_ne : Valid_rnd (round_mode mode_NE).
Proof. apply valid_rnd_round_mode. Qed.

(** ** Representable numbers *)
Lemma scaled_fmt m e : (Z.abs m < 2 ^ 53)%Z -> (-1074 <= e)%Z -> fmt (F2R (Float radix2 m e)).
Proof.
  intros Hm He. change (SpecFloat.fexp 53 1024) with (FLT_exp (3 - 1024 - 53) 53).
  apply generic_format_FLT. exists (Float radix2 m e); [reflexivity|exact Hm|exact He].
Qed.
Lemma int_fmt z : (Z.abs z < 2 ^ 53)%Z -> fmt (IZR z).
Proof.
  intros Hz. replace (IZR z) with (F2R (Float radix2 z 0)) by (unfold F2R; cbn; ring). apply scaled_fmt; [exact Hz|lia].
Qed.
Lemma rnd_int z : (Z.abs z < 2 ^ 53)%Z -> rnd (IZR z) = IZR z.
Proof. intros Hz. apply round_generic; [exact valid_ne|now apply int_fmt]. Qed.
Lemma small_abs x : (Rabs x < bpow radix2 53)%R -> Rlt_bool (Rabs x) (bpow radix2 1024) = true.
Proof. intros H. apply Rlt_bool_true. eapply Rlt_trans; [exact H|]. now apply bpow_lt. Qed.
Lemma int_abs z : (Z.abs z < 2 ^ 53)%Z -> (Rabs (IZR z) < bpow radix2 53)%R.
Proof. intros H. rewrite <- abs_IZR. change (bpow radix2 53) with (IZR (2 ^ 53)). now apply IZR_lt. Qed.

Record is_int (x : f64) (z : Z) : Prop := { ii_finite : is_finite x = true; ii_val : B2R x = IZR z; ii_sign : Bsign x = (z <? 0)%Z }.
Lemma of_Z_spec z : (Z.abs z < 2 ^ 53)%Z -> is_int (f64_of_Z z) z.
Proof.
  intros Hz. unfold f64_of_Z. pose proof (binary_normalize_correct 53 1024 f64_prec f64_emax mode_NE z 0 false) as H. cbv zeta in H.
  replace (F2R (Float radix2 z 0)) with (IZR z) in H by (unfold F2R; cbn; ring).
  rewrite rnd_int in H by exact Hz. rewrite (small_abs _ (int_abs _ Hz)) in H. destruct H as (H1 & H2 & H3). split; [exact H2|exact H1|].
  rewrite H3. destruct (Rcompare_spec (IZR z) 0) as [C|C|C].
  - apply lt_IZR in C. symmetry. now apply Z.ltb_lt.
  - apply eq_IZR in C. subst. reflexivity.
  - apply lt_IZR in C. symmetry. apply Z.ltb_ge. lia.
Qed.
Lemma is_int_eq x y z : is_int x z -> is_int y z -> x = y.
Proof. intros [H1 H2 H3] [H4 H5 H6]. apply B2R_Bsign_inj; congruence. Qed.
Lemma of_N_spec n : (n < 2 ^ 53)%N -> is_int (f64_of_N n) (Z.of_N n).
Proof. intros H. apply of_Z_spec. change (2 ^ 53)%Z with (Z.of_N (2 ^ 53)). lia. Qed.
Lemma fadd_int x y a b : is_int x a -> is_int y b -> (0 <= a)%Z -> (0 <= b)%Z -> (a + b < 2 ^ 53)%Z -> is_int (fadd x y) (a + b).
Proof.
  intros [F1 V1 S1] [F2 V2 S2] Ha Hb H. unfold fadd. pose proof (Bplus_correct 53 1024 f64_prec f64_emax mode_NE x y F1 F2) as P.
  rewrite V1, V2, <- plus_IZR, rnd_int, (small_abs _ (int_abs (a + b) ltac:(lia))) in P by lia. destruct P as (P1 & P2 & P3).
  split; [exact P2|exact P1|]. rewrite P3, S1, S2. destruct (Rcompare_spec (IZR (a + b)) 0) as [C|C|C].
  - apply lt_IZR in C. lia.
  - apply eq_IZR in C. rewrite C. destruct (Z.ltb_spec a 0), (Z.ltb_spec b 0); try lia; reflexivity.
  - symmetry. apply Z.ltb_ge. lia.
Qed.
Lemma fadd_N a b : (a + b < 2 ^ 53)%N -> fadd (f64_of_N a) (f64_of_N b) = f64_of_N (a + b).
Proof.
  intros H. assert (H' : (Z.of_N a + Z.of_N b < 2 ^ 53)%Z) by (change (2 ^ 53)%Z with (Z.of_N (2 ^ 53)); lia).
  eapply is_int_eq; [|now apply of_N_spec]. rewrite N2Z.inj_add.
  apply fadd_int; try lia; apply of_N_spec; lia.
Qed.

(** ** Quotients and their rounding *)
Lemma fdiv_spec s n : (1 <= n <= 255)%N -> (s <= 255 * n)%N -> let q := fdiv (f64_of_N s) (f64_of_N n) in
  is_finite q = true /\ B2R q = rnd (IZR (Z.of_N s) / IZR (Z.of_N n)) /\ (0 <= B2R q <= 255)%R.
Proof.
  intros Hn Hs q. destruct (of_N_spec s) as [F1 V1 _]; [lia|]. destruct (of_N_spec n) as [F2 V2 _]; [lia|].
  assert (Hn0 : (0 < IZR (Z.of_N n))%R) by (apply (IZR_lt 0); lia).
  assert (B : (0 <= IZR (Z.of_N s) / IZR (Z.of_N n) <= 255)%R).
  { split.
    - apply Rmult_le_pos; [apply (IZR_le 0); lia|]. apply Rlt_le, Rinv_0_lt_compat, Hn0.
    - apply Rmult_le_reg_r with (IZR (Z.of_N n)); [exact Hn0|]. unfold Rdiv. rewrite Rmult_assoc, Rinv_l, Rmult_1_r by lra.
      rewrite <- mult_IZR. apply IZR_le. lia. }
  set (x := (IZR (Z.of_N s) / IZR (Z.of_N n))%R) in *.
  assert (B' : (0 <= rnd x <= 255)%R).
  { split.
    - rewrite <- (rnd_int 0) by lia. apply round_le; [exact valid_f64|exact valid_ne|apply B].
    - rewrite <- (rnd_int 255) by lia. apply round_le; [exact valid_f64|exact valid_ne|apply B]. }
  assert (Hb : (Rabs (rnd x) < bpow radix2 53)%R).
  { rewrite Rabs_pos_eq by apply B'. eapply Rle_lt_trans; [apply B'|]. change (bpow radix2 53) with (IZR (2 ^ 53)). apply IZR_lt. lia. }
  pose proof (Bdiv_correct 53 1024 f64_prec f64_emax mode_NE (f64_of_N s) (f64_of_N n)) as P.
  rewrite V1, V2 in P. fold x in P. specialize (P ltac:(lra)). rewrite (small_abs _ Hb) in P. destruct P as (P1 & P2 & _).
  fold (fdiv (f64_of_N s) (f64_of_N n)) in P1, P2. fold q in P1, P2. rewrite P1, P2. auto.
Qed.

Lemma nearest_away x k : (0 <= x)%R -> (IZR k - / 2 <= x < IZR k + / 2)%R -> ZnearestA x = k.
Proof.
  intros Hx [H1 H2]. unfold Znearest. destruct (Rle_or_lt (IZR k) x) as [C|C].
  - assert (E : Zfloor x = k) by (apply Zfloor_imp; rewrite plus_IZR; lra). rewrite E, Rcompare_Lt by lra. reflexivity.
  - assert (E : Zfloor x = (k - 1)%Z) by (apply Zfloor_imp; rewrite minus_IZR, plus_IZR, minus_IZR; lra).
    assert (E2 : Zceil x = k) by (apply Zceil_imp; rewrite minus_IZR; lra).
    rewrite E, E2, minus_IZR. destruct (Rcompare_spec (x - (IZR k - 1)) (/ 2)) as [D|D|D]; [lra| |reflexivity].
    destruct (Z.leb_spec 0 (k - 1)); [reflexivity|].
    exfalso. assert (k <= 0)%Z by lia. apply IZR_le in H0. lra.
Qed.
Lemma half_bounds s n k : (1 <= n <= 255)%N -> (s <= 255 * n)%N -> k = ((2 * s + n) / (2 * n))%N ->
  (k <= 255)%N /\ (IZR (Z.of_N k) - / 2 <= rnd (IZR (Z.of_N s) / IZR (Z.of_N n)) < IZR (Z.of_N k) + / 2)%R.
Proof.
  intros Hn Hs Ek. pose proof (N.div_mod (2 * s + n) (2 * n) ltac:(lia)) as D. pose proof (N.mod_lt (2 * s + n) (2 * n) ltac:(lia)) as M.
  rewrite <- Ek in D. set (r := ((2 * s + n) mod (2 * n))%N) in *. clearbody r. clear Ek.
  assert (Hk : (k <= 255)%N) by nia. split; [exact Hk|].
  assert (Hn0 : (0 < IZR (Z.of_N n))%R) by (apply (IZR_lt 0); lia).
  assert (Hn255 : (IZR (Z.of_N n) <= 255)%R) by (apply IZR_le; lia).
  assert (E : (2 * IZR (Z.of_N s) + IZR (Z.of_N n) = 2 * IZR (Z.of_N n) * IZR (Z.of_N k) + IZR (Z.of_N r))%R).
  { rewrite <- !mult_IZR, <- !plus_IZR. apply f_equal. lia. }
  assert (R0 : (0 <= IZR (Z.of_N r))%R) by (apply (IZR_le 0); lia).
  assert (R1 : (IZR (Z.of_N r) <= 2 * IZR (Z.of_N n) - 1)%R).
  { rewrite <- mult_IZR, <- minus_IZR. apply IZR_le. lia. }
  set (S := IZR (Z.of_N s)) in *. set (n' := IZR (Z.of_N n)) in *. set (K := IZR (Z.of_N k)) in *. set (r' := IZR (Z.of_N r)) in *.
  assert (Ex : (S / n' = K - / 2 + r' / (2 * n'))%R) by (apply Rmult_eq_reg_r with (2 * n')%R; [field_simplify; lra|lra]).
  split.
  - assert (G : fmt (K - / 2)%R).
    { replace (K - / 2)%R with (F2R (Float radix2 (2 * Z.of_N k - 1) (-1))).
      - apply scaled_fmt; lia.
      - unfold F2R, K. cbn [Fnum Fexp]. rewrite minus_IZR, mult_IZR. change (bpow radix2 (-1)) with (/ 2)%R. lra. }
    rewrite <- (round_generic radix2 (SpecFloat.fexp 53 1024) (round_mode mode_NE) (K - / 2)%R G).
    apply round_le; [exact valid_f64|exact valid_ne|]. rewrite Ex.
    assert (0 <= r' / (2 * n'))%R by (apply Rmult_le_pos; [lra|apply Rlt_le, Rinv_0_lt_compat; lra]). lra.
  - assert (G : fmt (K + / 2 - / 1024)%R).
    { replace (K + / 2 - / 1024)%R with (F2R (Float radix2 (1024 * Z.of_N k + 511) (-10))).
      - apply scaled_fmt; lia.
      - unfold F2R, K. cbn [Fnum Fexp]. rewrite plus_IZR, mult_IZR. change (bpow radix2 (-10)) with (/ 1024)%R. lra. }
    apply Rle_lt_trans with (K + / 2 - / 1024)%R; [|lra].
    rewrite <- (round_generic radix2 (SpecFloat.fexp 53 1024) (round_mode mode_NE) _ G).
    apply round_le; [exact valid_f64|exact valid_ne|]. rewrite Ex.
    assert (r' / (2 * n') <= 1 - / 1024)%R; [|lra].
    apply Rmult_le_reg_r with (2 * n')%R; [lra|]. unfold Rdiv. rewrite Rmult_assoc, Rinv_l by lra. lra.
Qed.
Lemma round_quotient s n : (1 <= n <= 255)%N -> (s <= 255 * n)%N ->
  f64_as_u8 (fround (fdiv (f64_of_N s) (f64_of_N n))) = ((2 * s + n) / (2 * n))%N /\ fle (fdiv (f64_of_N s) (f64_of_N n)) (f64_of_N 255) = true.
Proof.
  intros Hn Hs. destruct (fdiv_spec s n Hn Hs) as (F & V & B). set (q := fdiv (f64_of_N s) (f64_of_N n)) in *.
  set (k := ((2 * s + n) / (2 * n))%N). destruct (half_bounds s n k Hn Hs eq_refl) as [Hk Hb]. rewrite <- V in Hb.
  split.
  - destruct (Bnearbyint_correct 53 1024 f64_emax mode_NA q) as (R1 & R2 & _). fold (fround q) in *.
    assert (RV : B2R (fround q) = IZR (Z.of_N k)).
    { rewrite R1, round_FIX_IZR. apply f_equal, nearest_away; [apply B|exact Hb]. }
    assert (T : Btrunc (fround q) = Z.of_N k).
    { apply eq_IZR. rewrite (Btrunc_correct 53 1024 f64_emax), round_FIX_IZR, RV, Ztrunc_IZR. reflexivity. }
    unfold f64_as_u8. destruct (fround q) as [b|b| |b m e H]; try (rewrite F in R2; discriminate); rewrite T; lia.
  - unfold fle. destruct (of_N_spec 255) as [F1 V1 _]; [lia|]. rewrite Bleb_correct by assumption. rewrite V1. apply Rle_bool_true, B.
Qed.

(** ** Square roots and comparisons *)
Lemma sqrt_negative x d : flt d (f64_of_N 0) = true -> fle (fsqrt x) d = false.
Proof.
  intros Hd. assert (Hs : d = B754_infinity true \/ exists m e H, d = B754_finite true m e H).
  { destruct d as [s|s| |s m e H]; try discriminate; destruct s; try discriminate; [now left|right; eauto]. }
  clear Hd. destruct (Bsqrt_correct 53 1024 f64_prec f64_emax mode_NE x) as (_ & Hf & Hg). unfold fsqrt.
  assert (Hy : Bsqrt mode_NE x <> B754_infinity true) by (destruct x as [s|[]| |[] m e H]; try discriminate; intros E; rewrite E in Hf; discriminate).
  assert (Hz : forall m e H, Bsqrt mode_NE x <> B754_finite true m e H).
  { intros m e H E. rewrite E in Hf, Hg. specialize (Hg eq_refl). destruct x as [s|[]| |[] m' e' H']; try discriminate. }
  destruct (Bsqrt mode_NE x) as [s|[]| |[] m e H]; [| congruence | | | exfalso; eapply Hz; reflexivity |];
    destruct Hs as [-> | (m' & e' & H' & ->)]; reflexivity.
Qed.
Lemma fle_nan x : fle x B754_nan = false.
Proof. destruct x as [|[]| |]; reflexivity. Qed.
Lemma fle_infinity x : is_nan x = false -> fle x (B754_infinity false) = true.
Proof. destruct x as [|[]| |]; try reflexivity. discriminate. Qed.
Definition bounded_by (x : f64) (m : Z) : Prop := is_finite x = true /\ (Rabs (B2R x) <= IZR m)%R.
Lemma rnd_bound x m : (0 <= m < 2 ^ 53)%Z -> (Rabs x <= IZR m)%R -> (Rabs (rnd x) <= IZR m)%R /\ (Rabs (rnd x) < bpow radix2 53)%R.
Proof.
  intros Hm Hx. assert (H : (Rabs (rnd x) <= IZR m)%R).
  { apply abs_round_le_generic; [exact valid_f64|exact valid_ne| |exact Hx]. apply int_fmt. lia. }
  split; [exact H|]. eapply Rle_lt_trans; [exact H|]. change (bpow radix2 53) with (IZR (2 ^ 53)). apply IZR_lt. lia.
Qed.
Lemma fsub_bound x y a b : bounded_by x a -> bounded_by y b -> (0 <= a)%Z -> (0 <= b)%Z -> (a + b < 2 ^ 53)%Z -> bounded_by (fsub x y) (a + b).
Proof.
  intros [F1 B1] [F2 B2] Ha Hb H. pose proof (Bminus_correct 53 1024 f64_prec f64_emax mode_NE x y F1 F2) as P.
  destruct (rnd_bound (B2R x - B2R y) (a + b)) as [R1 R2]; [lia| |].
  - rewrite plus_IZR. unfold Rminus. eapply Rle_trans; [apply Rabs_triang|]. rewrite Rabs_Ropp. lra.
  - rewrite (small_abs _ R2) in P. destruct P as (P1 & P2 & _). split; [exact P2|]. unfold fsub. now rewrite P1.
Qed.
Lemma fadd_bound x y a b : bounded_by x a -> bounded_by y b -> (0 <= a)%Z -> (0 <= b)%Z -> (a + b < 2 ^ 53)%Z -> bounded_by (fadd x y) (a + b).
Proof.
  intros [F1 B1] [F2 B2] Ha Hb H. pose proof (Bplus_correct 53 1024 f64_prec f64_emax mode_NE x y F1 F2) as P.
  destruct (rnd_bound (B2R x + B2R y) (a + b)) as [R1 R2]; [lia| |].
  - rewrite plus_IZR. eapply Rle_trans; [apply Rabs_triang|]. lra.
  - rewrite (small_abs _ R2) in P. destruct P as (P1 & P2 & _). split; [exact P2|]. unfold fadd. now rewrite P1.
Qed.
Lemma fsqr_bound x a : bounded_by x a -> (0 <= a)%Z -> (a * a < 2 ^ 53)%Z -> bounded_by (fsqr x) (a * a) /\ (0 <= B2R (fsqr x))%R.
Proof.
  intros [F1 B1] Ha H. pose proof (Bmult_correct 53 1024 f64_prec f64_emax mode_NE x x) as P.
  destruct (rnd_bound (B2R x * B2R x) (a * a)) as [R1 R2]; [lia| |].
  - rewrite mult_IZR, Rabs_mult. apply Rmult_le_compat; try apply Rabs_pos; exact B1.
  - rewrite (small_abs _ R2) in P. destruct P as (P1 & P2 & _). rewrite F1 in P2. split; [split; [exact P2|unfold fsqr, fmul; now rewrite P1]|].
    unfold fsqr, fmul. rewrite P1. rewrite <- (rnd_int 0) by lia. apply round_le; [exact valid_f64|exact valid_ne|apply Rle_0_sqr].
Qed.
Lemma fadd_pos x y a b : bounded_by x a -> bounded_by y b -> (0 <= a)%Z -> (0 <= b)%Z -> (a + b < 2 ^ 53)%Z ->
  (0 <= B2R x)%R -> (0 <= B2R y)%R -> (0 <= B2R (fadd x y))%R.
Proof.
  intros [F1 B1] [F2 B2] Ha Hb H Px Py. pose proof (Bplus_correct 53 1024 f64_prec f64_emax mode_NE x y F1 F2) as P.
  destruct (rnd_bound (B2R x + B2R y) (a + b)) as [R1 R2]; [lia| |].
  - rewrite plus_IZR. eapply Rle_trans; [apply Rabs_triang|]. lra.
  - rewrite (small_abs _ R2) in P. destruct P as (P1 & P2 & _). unfold fadd. rewrite P1. rewrite <- (rnd_int 0) by lia.
    apply round_le; [exact valid_f64|exact valid_ne|lra].
Qed.
Lemma sqrt_not_nan x : is_finite x = true -> (0 <= B2R x)%R -> is_nan (fsqrt x) = false.
Proof.
  intros F H. unfold fsqrt. destruct (Bsqrt_correct 53 1024 f64_prec f64_emax mode_NE x) as (_ & Hf & _).
  destruct x as [s|s| |s m e Hb]; try discriminate.
  - reflexivity.
  - destruct s.
    + exfalso. cbn in H. apply (Rle_not_lt _ _ H). apply F2R_lt_0. reflexivity.
    + destruct (Bsqrt mode_NE (B754_finite false m e Hb)); try reflexivity. discriminate.
Qed.
