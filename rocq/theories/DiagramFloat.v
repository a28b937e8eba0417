(** * Proofs about the numbers in the diagrams. *)
From Coq Require Import String ZArith NArith Reals Lra Lia Permutation Sorted ZifyNat ZifyN.
From Flocq Require Import Core BinarySingleNaN.
From Verif Require Import Base Prs Float FloatProofs Img HilbertC CodecSpec KmeansFloat Select Bench BenchSpec BenchFloat BenchTop Special Diagrams DiagramSpec DiagramProofs.
Close Scope string_scope.
Open Scope list_scope.
Notation length := List.length.
Local Notation rnd := (round radix2 (SpecFloat.fexp 53 1024) (round_mode mode_NE)).
Local Notation fmt := (generic_format radix2 (SpecFloat.fexp 53 1024)).
#[local] Instance valid_f64 : Valid_exp (SpecFloat.fexp 53 1024).
Proof. apply (fexp_correct 53 1024). exact f64_prec. Qed.
#[local] Instance valid_ne : Valid_rnd (round_mode mode_NE).
Proof. apply valid_rnd_round_mode. Qed.
Local Open Scope R_scope.

(** ** Sums of numbers that are zero or not too small *)
Definition M : Z := 2 ^ 19.
Definition low : R := bpow radix2 (-41).
Lemma low_val : low = / 2199023255552.
Proof. reflexivity. Qed.
Lemma low_fmt : fmt low.
Proof. replace low with (F2R (Float radix2 1 (-41))) by (unfold F2R, low; cbn; lra). apply scaled_fmt; lia. Qed.
(** Bounded by [M] times [n], and zero or not below [low] *)
Definition measure (n : Z) (x : f64) : Prop := is_finite x = true /\ (B2R x = 0 \/ low <= B2R x) /\ B2R x <= IZR (M * n).
Lemma measure_pos n x : measure n x -> 0 <= B2R x.
Proof. intros (_ & H & _). pose proof low_val. lra. Qed.
Lemma measure_bound n x : measure n x -> bounded_by x (M * n).
Proof. intros H. pose proof (measure_pos _ _ H) as P. destruct H as (H1 & _ & H2). split; [exact H1|]. rewrite Rabs_pos_eq; lra. Qed.
Lemma fadd_measure a b x y : measure a x -> measure b y -> (0 <= a)%Z -> (0 <= b)%Z -> (a + b < 2 ^ 33)%Z ->
  measure (a + b) (fadd x y) /\ (B2R (fadd x y) = 0 <-> B2R x = 0 /\ B2R y = 0).
Proof.
  intros Hx Hy Ha Hb Hn. pose proof (measure_pos _ _ Hx) as Px. pose proof (measure_pos _ _ Hy) as Py.
  assert (HM : (M * a + M * b < 2 ^ 53)%Z) by (unfold M; lia). assert (Ma : (0 <= M * a)%Z) by (unfold M; lia). assert (Mb : (0 <= M * b)%Z) by (unfold M; lia).
  pose proof (fadd_bound x y _ _ (measure_bound _ _ Hx) (measure_bound _ _ Hy) Ma Mb HM) as [F B].
  pose proof (fadd_pos x y _ _ (measure_bound _ _ Hx) (measure_bound _ _ Hy) Ma Mb HM Px Py) as P0.
  destruct Hx as (F1 & L1 & B1), Hy as (F2 & L2 & B2).
  assert (V : B2R (fadd x y) = rnd (B2R x + B2R y)).
  { pose proof (Bplus_correct 53 1024 f64_prec f64_emax mode_NE x y F1 F2) as P. destruct (rnd_bound (B2R x + B2R y) (M * a + M * b)) as [_ R2]; [lia| |].
    - rewrite plus_IZR, Rabs_pos_eq; lra.
    - rewrite (small_abs _ R2) in P. exact (proj1 P). }
  assert (G : B2R x + B2R y = 0 \/ low <= B2R x + B2R y) by lra.
  assert (Z0 : B2R x + B2R y = 0 -> B2R (fadd x y) = 0) by (intros H; rewrite V, H; apply round_0, valid_ne).
  assert (Zl : low <= B2R x + B2R y -> low <= B2R (fadd x y)) by (intros H; rewrite V; apply round_ge_generic; [exact valid_f64|exact valid_ne|exact low_fmt|exact H]).
  pose proof low_val. split.
  - split; [exact F|]. split; [tauto|]. rewrite Z.mul_add_distr_l. apply Rabs_le_inv in B. lra.
  - split; [|intros [E1 E2]; apply Z0; lra]. intros H0. destruct G as [G|G]; [lra|]. specialize (Zl G). lra.
Qed.
Lemma sums_measure l s : sums_to l s -> Forall (measure 1) l -> (Z.of_nat (length l) < 2 ^ 33)%Z ->
  measure (Z.of_nat (length l)) s /\ (B2R s = 0 <-> Forall (fun x => B2R x = 0) l).
Proof.
  induction 1 as [|x|l l1 l2 x y HP H1 IH1 H2 IH2]; intros HF HL.
  - split; [|split; [constructor|reflexivity]]. split; [reflexivity|]. cbn. split; [now left|]. unfold M. lra.
  - inversion HF; subst. split; [assumption|]. split; [intros; now constructor|intros F; now inversion F].
  - pose proof (Permutation_length HP) as PL. rewrite app_length in PL. rewrite PL, Nat2Z.inj_add in *.
    assert (HF' : Forall (measure 1) (l1 ++ l2)) by (eapply Permutation_Forall; [exact HP|exact HF]). apply Forall_app in HF' as [F1 F2].
    destruct (IH1 F1) as [M1 Z1]; [lia|]. destruct (IH2 F2) as [M2 Z2]; [lia|].
    destruct (fadd_measure _ _ _ _ M1 M2) as [A B]; [lia|lia|lia|]. split; [exact A|]. rewrite B, Z1, Z2. split.
    + intros [A1 A2]. apply Permutation_sym in HP. eapply Permutation_Forall; [exact HP|]. apply Forall_app. now split.
    + intros F. assert (F' : Forall (fun x => B2R x = 0) (l1 ++ l2)) by (eapply Permutation_Forall; [exact HP|exact F]). now apply Forall_app in F'.
Qed.
Lemma fdiv_measure n s : measure (Z.of_N n) s -> (0 < n < 2 ^ 33)%N -> is_finite (fdiv s (f64_of_N n)) = true /\ (B2R (fdiv s (f64_of_N n)) = 0 <-> B2R s = 0).
Proof.
  intros Hs Hn. pose proof (measure_pos _ _ Hs) as Ps. destruct Hs as (F & L & B). destruct (of_N_spec n) as [F2 V2 _]; [lia|].
  assert (Hn1 : 1 <= IZR (Z.of_N n) <= 8589934592) by (split; [apply (IZR_le 1)|apply (IZR_le _ 8589934592)]; lia).
  set (m := IZR (Z.of_N n)) in *. assert (I : 0 < / m) by (apply Rinv_0_lt_compat; lra). assert (I1 : / m <= 1) by (rewrite <- Rinv_1; apply Rinv_le; lra).
  assert (I2 : / 8589934592 <= / m) by (apply Rinv_le; lra).
  assert (S0 : Rabs (B2R s / m) <= IZR (M * Z.of_N n)).
  { rewrite Rabs_pos_eq by (apply Rmult_le_pos; lra). apply Rle_trans with (B2R s * 1); [apply Rmult_le_compat_l; lra|lra]. }
  destruct (rnd_bound (B2R s / m) (M * Z.of_N n)) as [_ R2]; [unfold M; lia|exact S0|].
  pose proof (Bdiv_correct 53 1024 f64_prec f64_emax mode_NE s (f64_of_N n)) as P. rewrite V2 in P. fold m in P. specialize (P ltac:(lra)). rewrite (small_abs _ R2) in P.
  destruct P as (P1 & P2 & _). split; [unfold fdiv; rewrite P2; exact F|]. unfold fdiv. rewrite P1. split.
  - intros H0. destruct L as [L|L]; [exact L|exfalso].
    assert (T : bpow radix2 (-80) <= rnd (B2R s / m)).
    { apply round_ge_generic; [exact valid_f64|exact valid_ne| |].
      - replace (bpow radix2 (-80)) with (F2R (Float radix2 1 (-80))) by (unfold F2R; cbn [Fnum Fexp]; lra). apply scaled_fmt; lia.
      - apply Rle_trans with (low * / 8589934592); [rewrite low_val; cbn; lra|]. rewrite low_val in *. apply Rmult_le_compat; lra. }
    pose proof (bpow_gt_0 radix2 (-80)). lra.
  - intros ->. unfold Rdiv. rewrite Rmult_0_l. apply round_0, valid_ne.
Qed.
Lemma feq_zero x : is_finite x = true -> feq x (f64_of_N 0) = true <-> B2R x = 0.
Proof.
  intros F. unfold feq. change (f64_of_N 0) with (B754_zero false : f64). rewrite Beqb_correct by (exact F || reflexivity). change (B2R (B754_zero false : f64)) with 0.
  destruct (Req_bool_spec (B2R x) 0); split; intros; try assumption; try reflexivity; try discriminate; contradiction.
Qed.
Lemma finite_not_nan (x : f64) : is_finite x = true -> is_nan x = false.
Proof. destruct x; try reflexivity. discriminate. Qed.

(** ** The mean of the errors *)
Section Mean.
  Variables (reread : f64 -> f64) (mean : list f64 -> f64).
  Hypotheses (HR : reread_ok reread) (HM : mean_ok mean).
  Lemma reread_measure e : usual_error e -> measure 1 (reread e) /\ (B2R (reread e) = 0 <-> B2R e = 0).
  Proof.
    intros (F & B). assert (P : 0 <= B2R e) by (pose proof (pow_lt 2 40); lra). destruct (proj2 (HR e) F P) as (F2 & B2).
    assert (T : / 2 ^ 40 = / 1099511627776) by (f_equal; lra). rewrite T in B. pose proof low_val as LV. split.
    - split; [exact F2|]. split; [destruct B as [B|B]; [left|right]; lra|]. unfold M. change (2 ^ 19 * 1)%Z with 524288%Z. destruct B as [B|B]; lra.
    - split; intros H; destruct B as [B|B]; lra.
  Qed.
  Lemma mean_zero es : Forall (fun e => usual_error e \/ is_nan e = true) es -> (N.of_nat (length es) < 2 ^ 33)%N ->
    feq (mean (map reread es)) (f64_of_N 0) = true <-> Exists (fun e => is_nan e = false) es /\ Forall (fun e => is_nan e = true \/ B2R e = 0) es.
  Proof.
    intros HF HL. specialize (HM (map reread es)). cbv zeta in HM.
    assert (G : forall es, Forall (fun e => usual_error e \/ is_nan e = true) es -> let ns := filter (fun x => negb (is_nan x)) (map reread es) in
      Forall (measure 1) ns /\ (length ns <= length es)%nat /\ (ns <> [] <-> Exists (fun e => is_nan e = false) es)
      /\ (Forall (fun x => B2R x = 0) ns <-> Forall (fun e => is_nan e = true \/ B2R e = 0) es)).
    { clear -HR. intros es HF. induction HF as [|e es He _ IH]; cbn [map filter].
      - split; [constructor|]. split; [cbn; lia|]. split; split; intros H; try constructor; try congruence. inversion H.
      - cbv zeta in IH. destruct IH as (I1 & I2 & I3 & I4). destruct He as [He|He].
        + destruct (reread_measure e He) as [R1 R2]. rewrite (finite_not_nan _ (proj1 R1)). cbn [negb]. pose proof (finite_not_nan _ (proj1 He)) as NN.
          split; [now constructor|]. split; [cbn [length]; lia|]. split; [split; intros; [now constructor|discriminate]|]. split.
          * intros F. inversion F; subst. constructor; [right; now apply R2|now apply I4].
          * intros F. inversion F as [|? ? [A|A] B]; subst; [congruence|]. constructor; [now apply R2|now apply I4].
        + rewrite (proj1 (HR e) He). cbn [negb]. split; [exact I1|]. split; [cbn [length]; lia|]. split; [|split].
          * rewrite I3. split; [intros; now right|]. intros E. inversion E; subst; [congruence|assumption].
          * intros F. constructor; [now left|now apply I4].
          * intros F. inversion F; subst. now apply I4. }
    destruct (G es HF) as (G1 & G2 & G3 & G4). set (ns := filter (fun x => negb (is_nan x)) (map reread es)) in *. rewrite <- G3, <- G4. clear G3 G4.
    assert (G5 : (Z.of_nat (length ns) < 2 ^ 33)%Z) by (unfold f64 in *; clear -G2 HL; lia). clear G2. destruct ns as [|x ns].
    - split; [|now intros []]. intros H. destruct (mean (map reread es)); try discriminate HM. discriminate H.
    - destruct HM as (s & S & ->). destruct (sums_measure _ _ S G1 G5) as [A B]. rewrite <- nat_N_Z in A.
      destruct (fdiv_measure _ _ A) as [C D]; [clear -G5; unfold f64 in *; cbn [length] in *; lia|]. rewrite (feq_zero _ C), D, B. split; [intros K; split; [discriminate|exact K]|intros [_ K]; exact K].
  Qed.

  (** ** Sorting *)
  Lemma flt_total (a b : f64) : is_nan a = false -> is_nan b = false -> flt a b = false -> fle b a = true.
  Proof.
    intros Ha Hb. unfold flt, fle, Bltb, Bleb, SpecFloat.SFltb, SpecFloat.SFleb. intros H.
    pose proof (Bcompare_swap 53 1024 a b) as W. unfold Bcompare in W. rewrite W.
    assert (E : SpecFloat.SFcompare (B2SF a) (B2SF b) <> None).
    { destruct a as [[]|[]| |[] ? ? ?], b as [[]|[]| |[] ? ? ?]; cbn in *; try discriminate. }
    destruct (SpecFloat.SFcompare (B2SF a) (B2SF b)) as [[| |]|]; cbn in *; try reflexivity; congruence.
  Qed.
  Lemma flt_fle (a b : f64) : flt a b = true -> fle a b = true.
  Proof. unfold flt, fle, Bltb, Bleb, SpecFloat.SFltb, SpecFloat.SFleb. now destruct (SpecFloat.SFcompare (B2SF a) (B2SF b)) as [[| |]|]. Qed.
  Lemma insert_sorted b l : numbered mean b -> Forall (numbered mean) l -> Sorted (ordered mean) l -> Sorted (ordered mean) (insert_box mean b l).
  Proof.
    intros Hb Hl Hs. induction Hs as [|b' l Hs IH Hh]; cbn [insert_box]; [now repeat constructor|]. inversion Hl as [|? ? Hb' Hl']; subst.
    destruct (flt (mean (fst b')) (mean (fst b))) eqn:E.
    - constructor; [now apply IH|]. clear IH. destruct l as [|b2 l]; cbn [insert_box]; [constructor; now apply flt_fle|].
      destruct (flt (mean (fst b2)) (mean (fst b))); constructor; [|now apply flt_fle]. now inversion Hh.
    - constructor; [now constructor|]. constructor. now apply flt_total.
  Qed.
  Lemma sort_sorted l : Forall (numbered mean) l -> Sorted (ordered mean) (sort_boxes mean l).
  Proof.
    induction 1 as [|b l Hb Hl IH]; [constructor|]. cbn [sort_boxes fold_right]. apply insert_sorted; [exact Hb| |exact IH].
    eapply Permutation_Forall; [apply Permutation_sym, sort_perm|exact Hl].
  Qed.
End Mean.

(** ** The errors that the benchmark reports *)
Lemma error_usual p s x y e : img_ok x -> Forall rgba_ok (im_px y) -> (pixels x < 2 ^ 32)%N -> compute_error p (B754_zero s) x y = Ok e ->
  usual_error e \/ is_nan e = true.
Proof.
  intros Hx Hy Hn E. destruct (N.eq_dec (pixels x) 0) as [H0|H0].
  - right. destruct (error_empty p s x y Hx H0) as (e' & E' & H & _). congruence.
  - left. destruct (error_spec p s x y Hx Hy) as (e' & E' & F & C & _); [lia|]. assert (e' = e) by congruence. subst e'. split; [exact F|].
    unfold mean_square_error in C. set (l := combine (im_px x) (im_px y)) in *. change (fold_right _ 0%Z l) with (gaps l) in C.
    destruct Hx as (_ & _ & _ & Hl & Hx). unfold pixels in *.
    assert (Hp : Forall pair_ok l).
    { apply Forall_forall. intros [a b] H. unfold l in H. split; [apply (proj1 (Forall_forall _ _) Hx)|apply (proj1 (Forall_forall _ _) Hy)];
        [eapply in_combine_l|eapply in_combine_r]; exact H. }
    assert (Hc : (length l <= length (im_px x))%nat) by (unfold l; rewrite combine_length; lia).
    pose proof (gaps_bound l Hp) as G. unfold D2 in G. set (n := (im_w x * im_h x)%N) in *.
    assert (Hn1 : 1 <= IZR (Z.of_N n) <= 4294967296) by (split; [apply (IZR_le 1)|apply (IZR_le _ 4294967296)]; lia).
    assert (Hz : (0 <= gaps l <= 195075 * Z.of_N n)%Z) by lia. clear G. set (z := gaps l) in *. set (m := IZR (Z.of_N n)) in *.
    assert (I : 0 < / m) by (apply Rinv_0_lt_compat; lra). assert (I2 : / 4294967296 <= / m) by (apply Rinv_le; lra).
    assert (U : IZR z / m <= 195075).
    { apply Rmult_le_reg_r with m; [lra|]. unfold Rdiv. rewrite Rmult_assoc, Rinv_l, Rmult_1_r by lra. unfold m. rewrite <- mult_IZR. apply IZR_le. lia. }
    assert (T : / 2 ^ 40 = / 1099511627776) by (f_equal; lra). rewrite T. assert (T2 : 2 ^ 18 = 262144) by lra. rewrite T2. clear T T2.
    apply Rabs_le_inv in C. destruct (Z.eq_dec z 0) as [Z0|Z0].
    + left. rewrite Z0 in C. unfold Rdiv in C. rewrite Rmult_0_l in C. lra.
    + right. assert (L : / 4294967296 <= IZR z / m).
      { unfold Rdiv. rewrite <- (Rmult_1_l (/ 4294967296)). apply Rmult_le_compat; try lra. apply (IZR_le 1). lia. }
      lra.
Qed.

(** ** Quotients of integers *)
Lemma quotient_exact a b : (0 < b < 2 ^ 53)%N -> (a < 2 ^ 53)%N -> let q := fdiv (f64_of_N a) (f64_of_N b) in
  is_finite q = true /\ Bsign q = false /\ B2R q = rnd (IZR (Z.of_N a) / IZR (Z.of_N b)).
Proof.
  intros Hb Ha q. destruct (of_N_spec a Ha) as [F1 V1 S1]. destruct (of_N_spec b) as [F2 V2 S2]; [lia|].
  assert (Hr : 1 <= IZR (Z.of_N b)) by (apply (IZR_le 1); lia).
  assert (Hs : 0 <= IZR (Z.of_N a) <= IZR (2 ^ 53 - 1)) by (split; [apply (IZR_le 0)|apply IZR_le]; lia).
  pose proof (Bdiv_correct 53 1024 f64_prec f64_emax mode_NE (f64_of_N a) (f64_of_N b)) as P. rewrite V1, V2 in P. specialize (P ltac:(lra)).
  set (m := IZR (Z.of_N b)) in *. assert (I : 0 < / m) by (apply Rinv_0_lt_compat; lra). assert (I1 : / m <= 1) by (rewrite <- Rinv_1; apply Rinv_le; lra).
  destruct (rnd_bound (IZR (Z.of_N a) / m) (2 ^ 53 - 1)) as [_ R2]; [lia| |].
  { rewrite Rabs_pos_eq by (apply Rmult_le_pos; lra). apply Rle_trans with (IZR (Z.of_N a) * 1); [apply Rmult_le_compat_l; lra|lra]. }
  rewrite (small_abs _ R2) in P. destruct P as (P1 & P2 & P3).
  assert (Fd : is_finite q = true) by (unfold q, fdiv; rewrite P2; exact F1).
  split; [exact Fd|]. split; [|unfold q, fdiv; exact P1]. unfold q, fdiv. rewrite (P3 (finite_not_nan _ Fd)), S1, S2. destruct (Z.ltb_spec (Z.of_N a) 0), (Z.ltb_spec (Z.of_N b) 0); try lia; reflexivity.
Qed.

(** ** The ratio of scripts/png.py *)
Theorem png_same_ratio div p im size : py_div_ok div -> img_ok im -> (0 < pixels im)%N -> (24 * pixels im < 2 ^ 32)%N -> (size < 2 ^ 53)%N ->
  exists raw, raw_size p im = Ok raw /\ png_ratio div size (im_w im) (im_h im) = Some (fmul (fdiv (f64_of_N size) (f64_of_N raw)) (f64_of_N 100)).
Proof.
  intros HD Hi H0 H1 H2. unfold pixels in *. exists (im_w im * im_h im * 24)%N. split.
  - unfold raw_size, ufit. destruct (N.ltb_spec (im_w im * im_h im) (2 ^ 32)); [|lia]. cbn [res_bind]. destruct (N.ltb_spec (im_w im * im_h im * 24) (2 ^ 32)); [reflexivity|lia].
  - unfold png_ratio. set (raw := (im_w im * im_h im * 24)%N) in *. destruct (HD size raw) as [_ D]. destruct D as (q & E & F & S & V); [unfold raw; lia|exact H2|].
    rewrite E. cbn [option_map]. f_equal. f_equal. destruct (quotient_exact size raw) as (F' & S' & V'); [unfold raw; lia|exact H2|].
    apply B2R_Bsign_inj; [exact F|exact F'|congruence|congruence].
Qed.
