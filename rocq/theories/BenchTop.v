(** * The benchmark of one image: error, ratio, lossless codecs. *)
From Coq Require Import ZArith NArith Reals Lra Lia.
From Flocq Require Import Core BinarySingleNaN Relative.
From Verif Require Import Base Ser SerSpec Float FloatProofs Huf HufSpec Back BackSpec Img HilbertC Kmeans CodecSpec CodecBytes CodecZip CodecHilbert CodecTop
  CodecFinal KmeansFloat Select Bench BenchSpec BenchFloat.

(** ** The error *)
Lemma gaps_zero l : Forall pair_ok l -> gaps l = 0%Z -> Forall (fun q => gap q = 0%Z) l.
Proof.
  induction 1 as [|q l Hq Hl IH]; intros E; constructor; pose proof (gap_bound q Hq); pose proof (gaps_bound l Hl);
    change (gaps (q :: l)) with (gap q + gaps l)%Z in E; [lia|apply IH; lia].
Qed.
Lemma gaps_all_zero l : Forall (fun q => gap q = 0%Z) l -> gaps l = 0%Z.
Proof. induction 1 as [|q l Hq Hl IH]; [reflexivity|]. change (gaps (q :: l)) with (gap q + gaps l)%Z. lia. Qed.
Lemma sq_dist_zero a b : sq_dist a b = 0%Z <-> a = b.
Proof.
  destruct a as [[r g] u0], b as [[r' g'] u0']. unfold sq_dist. rewrite !Z.pow_2_r.
  pose proof (Z.square_nonneg (Z.of_N r - Z.of_N r')). pose proof (Z.square_nonneg (Z.of_N g - Z.of_N g')). pose proof (Z.square_nonneg (Z.of_N u0 - Z.of_N u0')).
  split; [intros E|intros [= -> -> ->]; lia].
  assert (forall x y : N, ((Z.of_N x - Z.of_N y) * (Z.of_N x - Z.of_N y) = 0)%Z -> x = y) as Q.
  { intros x y E'. apply Z.mul_eq_0 in E'. lia. }
  rewrite (Q r r'), (Q g g'), (Q u0 u0'); [reflexivity|lia|lia|lia].
Qed.
Lemma combine_nth {A B} : forall (l : list A) (l' : list B), (forall q, In q (combine l l') -> exists i, nth_error l i = Some (fst q) /\ nth_error l' i = Some (snd q))
  /\ (forall i a b, nth_error l i = Some a -> nth_error l' i = Some b -> In (a, b) (combine l l')).
Proof.
  induction l as [|x l IH]; intros [|y l'].
  1-3: split; [intros q []|intros [|i] a b; discriminate].
  destruct (IH l') as [H1 H2]. split.
  - intros q [<-|H]; [exists 0%nat; now split|]. destruct (H1 q H) as [i Hi]. exists (S i). exact Hi.
  - intros [|i] a b; cbn; [intros [= ->] [= ->]; now left|]. intros Ha Hb. right. exact (H2 i a b Ha Hb).
Qed.
Lemma pairs_equal x y : img_ok x -> Forall rgba_ok (im_px y) ->
  gaps (combine (im_px x) (im_px y)) = 0%Z <->
  (forall i a b, nth_error (im_px x) i = Some a -> nth_error (im_px y) i = Some b -> to_rgb a = to_rgb b).
Proof.
  intros Hx Hy. assert (Hp : Forall pair_ok (combine (im_px x) (im_px y))).
  { apply Forall_forall. intros [a b] H. split; [apply (proj1 (Forall_forall _ _) (proj2 (proj2 (proj2 (proj2 Hx)))))|apply (proj1 (Forall_forall _ _) Hy)];
      [eapply in_combine_l|eapply in_combine_r]; exact H. }
  split.
  - intros E i a b Ha Hb. pose proof (proj1 (Forall_forall _ _) (gaps_zero _ Hp E) (a, b)) as G.
    apply sq_dist_zero. apply G. eapply (proj2 (combine_nth _ _)); eassumption.
  - intros H. apply gaps_all_zero, Forall_forall. intros [a b] I. destruct (proj1 (combine_nth _ _) _ I) as (i & Ha & Hb).
    apply sq_dist_zero. now apply H with i.
Qed.
Lemma same_rgb x y : length (im_px x) = length (im_px y) ->
  (forall i a b, nth_error (im_px x) i = Some a -> nth_error (im_px y) i = Some b -> to_rgb a = to_rgb b)
  <-> map to_rgb (im_px x) = map to_rgb (im_px y).
Proof.
  generalize (im_px x) (im_px y). clear x y. induction l as [|a l IH]; intros [|b l'] L; try discriminate.
  - split; [reflexivity|]. intros _ [|i]; discriminate.
  - injection L as L. cbn. split.
    + intros H. f_equal; [exact (H 0%nat a b eq_refl eq_refl)|]. apply IH; [exact L|]. intros i. exact (H (S i)).
    + intros [= E1 E2] [|i] a' b'; cbn; [intros [= <-] [= <-]; exact E1|]. now apply IH.
Qed.
Local Open Scope R_scope.
Lemma close_rel k x y : (Z.of_nat k <= 2 ^ 32 + 8)%Z -> 0 <= x -> rel k x y -> Rabs (y - x) <= x / 1000000.
Proof.
  intros Hk Hx [H1 H2]. pose proof (K_bound k Hk) as B. pose proof (pow_low_lin k). pose proof (pow_high_lin k ltac:(lra)).
  apply Rabs_le. assert ((1 - / 1000000) * x <= (1 - u) ^ k * x) by (apply Rmult_le_compat_r; lra).
  assert ((1 + u) ^ k * x <= (1 + / 1000000) * x) by (apply Rmult_le_compat_r; lra). lra.
Qed.
Lemma mse_zero x y : img_ok x -> Forall rgba_ok (im_px y) -> (0 < pixels x)%N ->
  (0 <= mean_square_error x y) /\ (mean_square_error x y = 0 <-> gaps (combine (im_px x) (im_px y)) = 0%Z).
Proof.
  intros Hx Hy Hn. unfold mean_square_error, pixels in *. change (fold_right _ 0%Z (combine (im_px x) (im_px y))) with (gaps (combine (im_px x) (im_px y))).
  assert (Hp : Forall pair_ok (combine (im_px x) (im_px y))).
  { apply Forall_forall. intros [a b] H. split; [apply (proj1 (Forall_forall _ _) (proj2 (proj2 (proj2 (proj2 Hx)))))|apply (proj1 (Forall_forall _ _) Hy)];
      [eapply in_combine_l|eapply in_combine_r]; exact H. }
  pose proof (gaps_bound _ Hp) as [G _]. apply IZR_le in G.
  assert (P : 0 < IZR (Z.of_N (im_w x * im_h x))) by (apply (IZR_lt 0); lia). pose proof (Rinv_0_lt_compat _ P) as I.
  split; [apply Rmult_le_pos; lra|]. split; intros E.
  - apply Rmult_integral in E as [E|E]; [now apply eq_IZR|lra].
  - rewrite E. unfold Rdiv. ring.
Qed.
Lemma error_spec p s x y : img_ok x -> Forall rgba_ok (im_px y) -> (0 < pixels x < 2 ^ 32)%N ->
  exists e, compute_error p (B754_zero s) x y = Ok e /\ is_finite e = true
  /\ Rabs (B2R e - mean_square_error x y) <= mean_square_error x y / 1000000
  /\ (feq e (f64_of_N 0) = true <->
      (forall i a b, nth_error (im_px x) i = Some a -> nth_error (im_px y) i = Some b -> to_rgb a = to_rgb b)).
Proof.
  intros Hx Hy Hn. destruct (error_rel p s x y Hx Hy Hn) as (e & k & E & F & R & Hk). exists e. split; [exact E|]. split; [exact F|].
  destruct (mse_zero x y Hx Hy (proj1 Hn)) as [M0 M1]. pose proof (close_rel k _ _ Hk M0 R) as C. split; [exact C|].
  rewrite <- (pairs_equal x y Hx Hy), <- M1. unfold feq. change (f64_of_N 0) with (B754_zero false : f64). rewrite Beqb_correct by (exact F || reflexivity).
  change (B2R (B754_zero false : f64)) with 0. apply Rabs_le_inv in C. split; intros H.
  - destruct (Req_bool_spec (B2R e) 0) as [Z|Z]; [|discriminate]. rewrite Z in C. lra.
  - rewrite H in C. apply Req_bool_true. lra.
Qed.
Lemma error_same_size p s x y : img_ok x -> img_ok y -> im_w y = im_w x -> im_h y = im_h x -> (0 < pixels x < 2 ^ 32)%N ->
  exists e, compute_error p (B754_zero s) x y = Ok e /\ is_finite e = true
  /\ Rabs (B2R e - mean_square_error x y) <= mean_square_error x y / 1000000
  /\ (feq e (f64_of_N 0) = true <-> map to_rgb (im_px x) = map to_rgb (im_px y)).
Proof.
  intros Hx Hy Hw Hh Hn. destruct (error_spec p s x y Hx (proj2 (proj2 (proj2 (proj2 Hy)))) Hn) as (e & E & F & C & Z). exists e.
  rewrite <- same_rgb; [exact (conj E (conj F (conj C Z)))|]. destruct Hx as (_ & _ & _ & Lx & _), Hy as (_ & _ & _ & Ly & _). rewrite Hw, Hh in Ly. lia.
Qed.
Lemma error_empty p s x y : img_ok x -> pixels x = 0%N -> exists e, compute_error p (B754_zero s) x y = Ok e /\ is_nan e = true /\ feq e (f64_of_N 0) = false.
Proof.
  intros (_ & _ & _ & L & _) H. unfold pixels in H. rewrite H in L. unfold compute_error. rewrite H. destruct (im_px x); [|discriminate].
  eexists. split; [destruct p; reflexivity|]. split; destruct s; reflexivity.
Qed.
Lemma sum_of_zeros : forall l s, Forall (fun q => gap q = 0%Z /\ pair_ok q) l -> exists s', fold_left (fun a q => fadd a (term q)) l (B754_zero s) = B754_zero s'.
Proof.
  induction l as [|q l IH]; intros s H; [now exists s|]. inversion H as [|? ? [G [[O1 _] [O2 _]]] H']; subst. cbn [fold_left].
  unfold term at 2. rewrite (rgb_dist_root (to_rgb (fst q)) (to_rgb (snd q)) O1 O2). unfold gap in G. rewrite G.
  replace (fadd (B754_zero s) (fsqr (root 0))) with (B754_zero (s && false) : f64) by (destruct s; reflexivity). now apply IH.
Qed.
Lemma error_wide s x : img_ok x -> (2 ^ 32 <= pixels x)%N ->
  (forall y, compute_error Debug (B754_zero s) x y = Panic)
  /\ ((pixels x mod 2 ^ 32 = 0)%N -> exists e, compute_error Release (B754_zero s) x x = Ok e /\ is_nan e = true /\ feq e (f64_of_N 0) = false).
Proof.
  intros Hx H. unfold compute_error, pixels in *. unfold ufit. destruct (N.ltb_spec (im_w x * im_h x) (2 ^ 32)) as [C|_]; [lia|].
  split; [reflexivity|]. intros Hm. rewrite Hm. cbn [res_bind].
  change (fun a q => fadd a (fsqr (rgb_dist (to_rgb (fst q)) (to_rgb (snd q))))) with (fun a q => fadd a (term q)).
  destruct (sum_of_zeros (combine (im_px x) (im_px x)) s) as [s' ->].
  - apply Forall_forall. intros [a b] I. pose proof (proj2 (proj2 (proj2 (proj2 Hx)))) as O.
    destruct (proj1 (combine_nth _ _) _ I) as (i & Ha & Hb). cbn in Ha, Hb. assert (b = a) by congruence. subst b. split; [now apply sq_dist_zero|].
    apply nth_error_In in Ha. split; now apply (proj1 (Forall_forall _ _) O).
  - eexists. split; [reflexivity|]. destruct s'; split; reflexivity.
Qed.

(** ** The ratio *)
Lemma raw_size_spec p im : raw_size p im = if (24 * pixels im <? 2 ^ 32)%N then Ok (24 * pixels im)%N
  else match p with Debug => Panic | Release => Ok ((24 * pixels im) mod 2 ^ 32)%N end.
Proof.
  unfold raw_size, pixels, ufit. set (n := (im_w im * im_h im)%N). destruct (N.ltb_spec n (2 ^ 32)) as [A|A]; cbn [res_bind].
  - rewrite (N.mul_comm n 24). reflexivity.
  - destruct (N.ltb_spec (24 * n) (2 ^ 32)) as [B|_]; [lia|]. destruct p; [reflexivity|]. cbn [res_bind].
    rewrite (N.mul_comm 24 n), <- (N.mul_mod_idemp_l n 24 (2 ^ 32)) by lia. set (m := (n mod 2 ^ 32)%N).
    destruct (N.ltb_spec (m * 24) (2 ^ 32)) as [C|C]; [|reflexivity]. now rewrite N.mod_small.
Qed.
Lemma quotient_rel a n : (a < 2 ^ 53)%N -> (0 < n < 2 ^ 32)%N -> is_finite (fdiv (f64_of_N a) (f64_of_N n)) = true
  /\ B2R (fdiv (f64_of_N a) (f64_of_N n)) = round radix2 (SpecFloat.fexp 53 1024) (round_mode mode_NE) (IZR (Z.of_N a) / IZR (Z.of_N n))
  /\ (normal (IZR (Z.of_N a) / IZR (Z.of_N n)) /\ (a = 0%N \/ / 4294967296 <= IZR (Z.of_N a) / IZR (Z.of_N n))) /\ IZR (Z.of_N a) / IZR (Z.of_N n) <= 9007199254740992.
Proof.
  intros Ha Hn. destruct (of_N_spec a Ha) as [F1 V1 _]. destruct (of_N_spec n) as [F2 V2 _]; [lia|].
  assert (Hn0 : 1 <= IZR (Z.of_N n) <= 4294967296) by (split; [apply (IZR_le 1)|apply (IZR_le _ 4294967296)]; lia).
  assert (A : 0 <= IZR (Z.of_N a) <= 9007199254740991) by (split; [apply (IZR_le 0)|apply (IZR_le _ 9007199254740991)]; lia).
  set (m := IZR (Z.of_N n)) in *. assert (I : 0 < / m) by (apply Rinv_0_lt_compat; lra).
  assert (I1 : / m <= 1) by (rewrite <- Rinv_1; apply Rinv_le; lra). assert (I2 : / 4294967296 <= / m) by (apply Rinv_le; lra).
  assert (Q : 0 <= IZR (Z.of_N a) / m <= 9007199254740991).
  { split; [apply Rmult_le_pos; lra|]. apply Rle_trans with (IZR (Z.of_N a) * 1); [apply Rmult_le_compat_l; lra|lra]. }
  assert (N : a = 0%N \/ / 4294967296 <= IZR (Z.of_N a) / m).
  { destruct (N.eq_dec a 0) as [->|NZ]; [now left|right]. assert (1 <= IZR (Z.of_N a)) by (apply (IZR_le 1); lia).
    apply Rle_trans with (1 * / 4294967296); [lra|]. apply Rmult_le_compat; lra. }
  destruct (rnd_bound (IZR (Z.of_N a) / m) 9007199254740991) as [_ R4]; [lia|rewrite Rabs_pos_eq; lra|].
  pose proof (Bdiv_correct 53 1024 f64_prec f64_emax mode_NE (f64_of_N a) (f64_of_N n)) as P. rewrite V1, V2 in P. fold m in P.
  specialize (P ltac:(lra)). rewrite (small_abs _ R4) in P. destruct P as (P1 & P2 & _).
  split; [unfold fdiv; rewrite P2; exact F1|]. split; [exact P1|]. split; [|lra]. split; [|exact N].
  destruct N as [->|N]; [left; unfold Rdiv; change (IZR (Z.of_N 0)) with 0; ring|right; lra].
Qed.
(** A percentage of a quotient of integers *)
Lemma percent_rel a n : (a < 2 ^ 45)%N -> (0 < n < 2 ^ 32)%N -> let q := fmul (fdiv (f64_of_N a) (f64_of_N n)) (f64_of_N 100) in
  is_finite q = true /\ rel 2 (100 * (IZR (Z.of_N a) / IZR (Z.of_N n))) (B2R q).
Proof.
  intros Ha Hn q. destruct (quotient_rel a n ltac:(lia) Hn) as (F & V & (N & N') & _).
  assert (U : IZR (Z.of_N a) / IZR (Z.of_N n) <= 35184372088832).
  { assert (1 <= IZR (Z.of_N n)) by (apply (IZR_le 1); lia). assert (0 <= IZR (Z.of_N a) <= 35184372088832) by (split; [apply (IZR_le 0)|apply (IZR_le _ 35184372088832)]; lia).
    assert (/ IZR (Z.of_N n) <= 1) by (rewrite <- Rinv_1; apply Rinv_le; lra). apply Rle_trans with (IZR (Z.of_N a) * 1); [apply Rmult_le_compat_l; lra|lra]. }
  destruct (of_N_spec 100) as [F2 V2 _]; [lia|]. set (x := IZR (Z.of_N a) / IZR (Z.of_N n)) in *. set (r := fdiv (f64_of_N a) (f64_of_N n)) in *.
  destruct (rnd_rel x N) as [E1 E2]. rewrite <- V in E1, E2. pose proof u_pos as UP. pose proof (normal_pos x N) as X0.
  assert (R0 : 0 <= B2R r <= 2 * x) by (split; [apply Rle_trans with ((1 - u) * x); [apply Rmult_le_pos; lra|lra]|apply Rle_trans with ((1 + u) * x); [lra|apply Rmult_le_compat_r; lra]]).
  destruct (rnd_bound (B2R r * 100) 9007199254740991) as [_ R4]; [lia|rewrite Rabs_pos_eq; lra|].
  pose proof (Bmult_correct 53 1024 f64_prec f64_emax mode_NE r (f64_of_N 100)) as P. rewrite V2 in P. change (IZR (Z.of_N 100)) with 100 in P.
  rewrite (small_abs _ R4) in P. destruct P as (P1 & P2 & _).
  split; [unfold q, fmul; rewrite P2, F, F2; reflexivity|]. unfold q, fmul. rewrite P1. apply rel_rnd; [|lra|].
  - destruct N' as [->|N']; [|right].
    + left. assert (x = 0) by (unfold x, Rdiv; change (IZR (Z.of_N 0)) with 0; ring). assert (B2R r = 0) by lra. lra.
    + assert ((1 - u) * x >= / 2 * x) by (apply Rmult_ge_compat_r; lra). lra.
  - unfold rel. cbn [pow]. lra.
Qed.
Lemma rel2_close x y : 0 <= x -> rel 2 x y -> Rabs (y - x) <= x / 1000000000000000.
Proof.
  intros Hx [H1 H2]. apply Rabs_le. assert (L : 1 - / 1000000000000000 <= (1 - u) ^ 2) by (rewrite u_val; cbn [pow]; lra).
  assert (L2 : (1 + u) ^ 2 <= 1 + / 1000000000000000) by (rewrite u_val; cbn [pow]; lra).
  assert ((1 - / 1000000000000000) * x <= (1 - u) ^ 2 * x) by (apply Rmult_le_compat_r; lra).
  assert ((1 + u) ^ 2 * x <= (1 + / 1000000000000000) * x) by (apply Rmult_le_compat_r; lra). lra.
Qed.
Lemma measured p z c name im saves n size ratio e : measure_one p z c name (Some im) saves = Some (Ok (n, size, ratio, e)) ->
  exists data raw, enc c im = Some (Ok data) /\ n = name /\ size = N.of_nat (length data) /\ raw_size p im = Ok raw
  /\ ratio = fmul (fdiv (f64_of_N size) (f64_of_N raw)) (f64_of_N 100).
Proof.
  unfold measure_one. destruct (enc c im) as [[data| |]|]; try discriminate. destruct (raw_size p im) as [raw| |]; try discriminate.
  destruct (dec c data) as [[d| |]|]; try discriminate. destruct (compute_error p z im d) as [err| |]; try discriminate.
  intros H. exists data, raw. assert (Some (Ok (name, N.of_nat (length data), fmul (fdiv (f64_of_N (N.of_nat (length data))) (f64_of_N raw)) (f64_of_N 100), err))
    = Some (Ok (n, size, ratio, e))) as E.
  { destruct (feq err (f64_of_N 0)); [exact H|]. cbn [negb] in H. destruct saves; [|discriminate]. destruct (lossless c); [discriminate|]. exact H. }
  assert (Q : forall (A B C D : Type) (a a' : A) (b b' : B) (x x' : C) (y y' : D), Some (Ok (a, b, x, y)) = Some (Ok (a', b', x', y')) -> a = a' /\ b = b' /\ x = x').
  { intros. inversion H0. auto. }
  apply Q in E as (<- & <- & <-). now repeat split.
Qed.
Lemma ratio_spec p z c name im saves n size ratio e : measure_one p z c name (Some im) saves = Some (Ok (n, size, ratio, e)) ->
  (0 < pixels im)%N -> (24 * pixels im < 2 ^ 32)%N -> (size < 2 ^ 45)%N ->
  n = name /\ (exists data, enc c im = Some (Ok data) /\ size = N.of_nat (length data)) /\ is_finite ratio = true
  /\ let want := 100 * (IZR (Z.of_N size) / IZR (Z.of_N (3 * pixels im))) in Rabs (B2R ratio - want / 8) <= want / 8 / 1000000000000000.
Proof.
  intros H Hp Hn Hs. destruct (measured _ _ _ _ _ _ _ _ _ _ H) as (data & raw & E1 & E2 & E3 & E4 & E5). rewrite raw_size_spec in E4.
  destruct (N.ltb_spec (24 * pixels im) (2 ^ 32)) as [_|C]; [|lia]. assert (Er : raw = (24 * pixels im)%N) by congruence. subst raw.
  destruct (percent_rel size (24 * pixels im) Hs ltac:(lia)) as [F R]. rewrite <- E5 in F, R.
  split; [exact E2|]. split; [now exists data|]. split; [exact F|]. cbv zeta.
  replace (100 * (IZR (Z.of_N size) / IZR (Z.of_N (3 * pixels im))) / 8) with (100 * (IZR (Z.of_N size) / IZR (Z.of_N (24 * pixels im)))).
  - apply rel2_close; [|exact R]. apply Rmult_le_pos; [lra|]. apply Rmult_le_pos; [apply (IZR_le 0); lia|].
    apply Rlt_le, Rinv_0_lt_compat, (IZR_lt 0). lia.
  - assert (0 < IZR (Z.of_N (pixels im))) by (apply (IZR_lt 0); lia). rewrite !N2Z.inj_mul, !mult_IZR. change (IZR (Z.of_N 3)) with 3. change (IZR (Z.of_N 24)) with 24. field. lra.
Qed.
Lemma ratio_overflow z c name im saves data : enc c im = Some (Ok data) -> (2 ^ 32 <= 24 * pixels im)%N ->
  measure_one Debug z c name (Some im) saves = Some Panic
  /\ forall n size ratio e, measure_one Release z c name (Some im) saves = Some (Ok (n, size, ratio, e)) -> (24 * pixels im mod 2 ^ 32 = 0)%N -> (0 < size < 2 ^ 53)%N ->
     ratio = B754_infinity false.
Proof.
  intros E H. split.
  - unfold measure_one. rewrite E, raw_size_spec. destruct (N.ltb_spec (24 * pixels im) (2 ^ 32)); [lia|reflexivity].
  - intros n size ratio e M Hm Hs. destruct (measured _ _ _ _ _ _ _ _ _ _ M) as (d & raw & _ & _ & _ & E4 & ->). rewrite raw_size_spec in E4.
    destruct (N.ltb_spec (24 * pixels im) (2 ^ 32)); [lia|]. assert (Er : raw = (24 * pixels im mod 2 ^ 32)%N) by congruence. subst raw. rewrite Hm. destruct (of_N_spec size (proj2 Hs)) as [F V S].
    destruct (f64_of_N size) as [s|s| |s m ex B]; try discriminate.
    + exfalso. change (B2R (B754_zero s : f64)) with 0 in V. apply (eq_IZR 0) in V. lia.
    + cbn in S. destruct (Z.ltb_spec (Z.of_N size) 0); [lia|]. subst s. reflexivity.
Qed.
Lemma shape_ignored : exists x y, img_ok x /\ img_ok y /\ im_w x <> im_w y
  /\ forall p s, exists e, compute_error p (B754_zero s) x y = Ok e /\ feq e (f64_of_N 0) = true.
Proof.
  set (l := [(black, 255%N); (black, 255%N); ((255, 0, 0)%N, 255%N)] : list rgba).
  assert (Hl : Forall rgba_ok l) by (repeat constructor).
  assert (Hx : img_ok (mkImg 3 1 l)) by (split; [reflexivity|]; split; [reflexivity|]; split; [reflexivity|]; split; [reflexivity|exact Hl]).
  assert (Hy : img_ok (mkImg 1 3 l)) by (split; [reflexivity|]; split; [reflexivity|]; split; [reflexivity|]; split; [reflexivity|exact Hl]).
  exists (mkImg 3 1 l), (mkImg 1 3 l). split; [exact Hx|]. split; [exact Hy|]. split; [discriminate|]. intros p s.
  destruct (error_spec p s _ (mkImg 1 3 l) Hx Hl ltac:(cbn; lia)) as (e & E & _ & _ & Z). exists e. split; [exact E|]. apply Z. cbn. congruence.
Qed.
