(** * Allowed distances below 1 and from 442 on. *)
From Coq Require Import Reals Lra.
From Flocq Require Import Core BinarySingleNaN.
From Verif Require Import Base Ser SerSpec SerProofs Dict Img Float FloatProofs HilbertC Kmeans KmeansFloat CodecSpec CodecBytes CodecZip CodecHilbert CodecTop CodecApprox.
From Coq Require Import ZifyBool ZifyNat ZifyN.

Local Notation rnd := (round radix2 (SpecFloat.fexp 53 1024) (round_mode mode_NE)).
#[local] Instance valid_f64 : Valid_exp (SpecFloat.fexp 53 1024).
Proof. apply (fexp_correct 53 1024). exact f64_prec. Qed.
#[local] Instance valid_ne : Valid_rnd (round_mode mode_NE).
Proof. apply valid_rnd_round_mode. Qed.

(** ** Exact arithmetic on integers *)
Lemma fsub_int x y a b : is_int x a -> is_int y b -> (0 <= a < 2 ^ 53)%Z -> (0 <= b < 2 ^ 53)%Z -> is_int (fsub x y) (a - b).
Proof.
  intros [F1 V1 S1] [F2 V2 S2] Ha Hb. unfold fsub. pose proof (Bminus_correct 53 1024 f64_prec f64_emax mode_NE x y F1 F2) as P.
  rewrite V1, V2, <- minus_IZR, rnd_int, (small_abs _ (int_abs (a - b) ltac:(lia))) in P by lia. destruct P as (P1 & P2 & P3).
  split; [exact P2|exact P1|]. rewrite P3, S1, S2. destruct (Rcompare_spec (IZR (a - b)) 0) as [C|C|C].
  - apply lt_IZR in C. symmetry. apply Z.ltb_lt. exact C.
  - apply eq_IZR in C. rewrite C. destruct (Z.ltb_spec a 0), (Z.ltb_spec b 0); try lia; reflexivity.
  - apply lt_IZR in C. symmetry. apply Z.ltb_ge. lia.
Qed.
Lemma fsqr_int x a : is_int x a -> (Z.abs a < 2 ^ 26)%Z -> is_int (fsqr x) (a * a).
Proof.
  intros [F1 V1 S1] Ha. unfold fsqr, fmul. pose proof (Bmult_correct 53 1024 f64_prec f64_emax mode_NE x x) as P.
  assert (B : (Z.abs (a * a) < 2 ^ 53)%Z).
  { rewrite Z.abs_mul. apply Z.lt_trans with (2 ^ 26 * 2 ^ 26)%Z; [|reflexivity]. apply Z.mul_lt_mono_nonneg; lia. }
  rewrite V1, <- mult_IZR, rnd_int, (small_abs _ (int_abs (a * a) B)) in P by exact B. destruct P as (P1 & P2 & P3).
  assert (F : is_finite (Bmult mode_NE x x) = true) by (rewrite P2, F1; reflexivity).
  split; [exact F|exact P1|]. rewrite P3.
  - rewrite S1, xorb_nilpotent. symmetry. apply Z.ltb_ge, Z.square_nonneg.
  - revert F. destruct (Bmult mode_NE x x); try discriminate; reflexivity.
Qed.
Lemma dist_colours a b : rgb_ok a -> rgb_ok b -> dist_f64 (map3 f64_of_N a) (map3 f64_of_N b) = root (sq_dist a b).
Proof.
  intros Ha Hb. pose proof (sq_dist_bound a b Ha Hb) as B. unfold D2 in B. destruct a as [[r g] u], b as [[r' g'] u'].
  unfold rgb_ok, u8_ok in *. destruct Ha as (A1 & A2 & A3), Hb as (B1 & B2 & B3). cbn [map3]. unfold dist_f64, root, sq_dist in *.
  rewrite !Z.pow_2_r in *. f_equal.
  assert (Q : forall p q : N, (p < 256)%N -> (q < 256)%N ->
    is_int (fsqr (fsub (f64_of_N p) (f64_of_N q))) ((Z.of_N p - Z.of_N q) * (Z.of_N p - Z.of_N q))).
  { intros p q Hp Hq. apply fsqr_int; [|lia]. apply fsub_int; try lia; apply of_N_spec; lia. }
  pose proof (Z.square_nonneg (Z.of_N r - Z.of_N r')) as N1. pose proof (Z.square_nonneg (Z.of_N g - Z.of_N g')) as N2.
  pose proof (Z.square_nonneg (Z.of_N u - Z.of_N u')) as N3.
  eapply is_int_eq; [|apply of_Z_spec; lia].
  apply fadd_int; try lia; [|now apply Q]. apply fadd_int; try lia; [|now apply Q].
  change ((Z.of_N r - Z.of_N r') * (Z.of_N r - Z.of_N r'))%Z with (0 + (Z.of_N r - Z.of_N r') * (Z.of_N r - Z.of_N r'))%Z.
  apply fadd_int; try lia; [|now apply Q]. apply (of_N_spec 0). reflexivity.
Qed.

(** ** A run of one colour *)
Lemma sum_repeat r g b n : sum_rgb (repeat (r, g, b) n) = (N.of_nat n * r, N.of_nat n * g, N.of_nat n * b)%N.
Proof.
  induction n as [|n IH]; [reflexivity|]. cbn [repeat sum_rgb fold_right]. fold (sum_rgb (repeat (r, g, b) n)). rewrite IH.
  f_equal; [f_equal|]; lia.
Qed.
Lemma div_exact n c : (1 <= n <= 255)%N -> (c < 256)%N -> fdiv (f64_of_N (n * c)) (f64_of_N n) = f64_of_N c.
Proof.
  intros Hn Hc. assert (Hs : (n * c <= 255 * n)%N) by (rewrite (N.mul_comm 255); apply N.mul_le_mono_l; lia).
  destruct (fdiv_spec (n * c) n Hn Hs) as (F & V & _). apply is_int_eq with (Z.of_N c); [|apply of_N_spec; lia].
  assert (E : (IZR (Z.of_N (n * c)) / IZR (Z.of_N n) = IZR (Z.of_N c))%R).
  { rewrite N2Z.inj_mul, mult_IZR. field. apply not_0_IZR. lia. }
  assert (Hz : (Z.abs (Z.of_N c) < 2 ^ 53)%Z) by lia.
  rewrite E, rnd_int in V by exact Hz. split; [exact F|exact V|].
  unfold fdiv. destruct (of_N_spec (n * c)) as [F1 V1 S1]; [lia|]. destruct (of_N_spec n) as [F2 V2 S2]; [lia|].
  pose proof (Bdiv_correct 53 1024 f64_prec f64_emax mode_NE (f64_of_N (n * c)) (f64_of_N n)) as P.
  rewrite V1, V2, E, rnd_int, (small_abs _ (int_abs _ Hz)) in P by exact Hz.
  destruct P as (_ & _ & P3); [apply not_0_IZR; lia|]. fold (fdiv (f64_of_N (n * c)) (f64_of_N n)) in *. rewrite P3.
  - rewrite S1, S2. destruct (Z.ltb_spec (Z.of_N (n * c)) 0), (Z.ltb_spec (Z.of_N n) 0), (Z.ltb_spec (Z.of_N c) 0); try lia; reflexivity.
  - revert F. destruct (fdiv (f64_of_N (n * c)) (f64_of_N n)); try discriminate; reflexivity.
Qed.
Lemma mean_repeat c n : rgb_ok c -> 1 <= n <= 255 -> mean_f64 (repeat c n) = map3 f64_of_N c /\ mean_round (repeat c n) = c.
Proof.
  destruct c as [[r g] b]. intros (A1 & A2 & A3) Hn. unfold u8_ok in *. unfold mean_f64, mean_round. rewrite sum_repeat, repeat_length.
  cbn [map3]. split; [rewrite !div_exact by lia; reflexivity|].
  assert (E : forall x, ((2 * (N.of_nat n * x) + N.of_nat n) / (2 * N.of_nat n) = x)%N).
  { intros x. symmetry. apply N.div_unique with (N.of_nat n); [lia|]. ring. }
  now rewrite !E.
Qed.
Lemma rgb_eqb_true a b : rgb_eqb a b = true <-> a = b.
Proof.
  destruct a as [[r g] u], b as [[r' g'] u']. cbn. rewrite !andb_true_iff, !N.eqb_eq. split; [intros [[-> ->] ->]; reflexivity|intros H; injection H; auto].
Qed.
Lemma sq_dist_pos a b : a <> b -> (1 <= sq_dist a b)%Z.
Proof.
  destruct a as [[r g] u], b as [[r' g'] u']. intros H. unfold sq_dist. rewrite !Z.pow_2_r.
  pose proof (Z.square_nonneg (Z.of_N r - Z.of_N r')) as N1. pose proof (Z.square_nonneg (Z.of_N g - Z.of_N g')) as N2.
  pose proof (Z.square_nonneg (Z.of_N u - Z.of_N u')) as N3.
  assert (Q : forall x y : N, x <> y -> (1 <= (Z.of_N x - Z.of_N y) * (Z.of_N x - Z.of_N y))%Z).
  { intros x y Hxy. assert (Z.of_N x - Z.of_N y <> 0)%Z by lia. revert H0. generalize (Z.of_N x - Z.of_N y)%Z. intros d Hd.
    rewrite <- Z.abs_square. nia. }
  destruct (N.eq_dec r r') as [->|D]; [|specialize (Q _ _ D); lia].
  destruct (N.eq_dec g g') as [->|D]; [|specialize (Q _ _ D); lia].
  destruct (N.eq_dec u u') as [->|D]; [|specialize (Q _ _ D); lia]. congruence.
Qed.
Lemma sq_dist_same a : sq_dist a a = 0%Z.
Proof. destruct a as [[r g] u]. unfold sq_dist. rewrite !Z.sub_diag. reflexivity. Qed.

Lemma finite_below d m : (1 <= m <= D2)%Z -> flt (f64_of_N 0) d = true -> flt d (root m) = true -> is_finite d = true /\ (0 < B2R d < B2R (root m))%R.
Proof.
  intros Hm H0 H1. destruct (root_spec m) as (Fm & _ & _); [lia|].
  assert (F : is_finite d = true).
  { destruct d as [s|[|]| |s e x B]; try reflexivity; [discriminate H0| |discriminate H0].
    revert H1 Fm. unfold flt. destruct (root m) as [u|u| |u e x B]; try discriminate; intros H1; discriminate H1. }
  split; [exact F|]. destruct (of_N_spec 0) as [F0 V0 _]; [reflexivity|].
  unfold flt in *. rewrite Bltb_correct in H0, H1 by assumption. rewrite V0 in H0. change (IZR (Z.of_N 0)) with 0%R in H0.
  split; [destruct (Rlt_bool_spec 0 (B2R d)) as [C|C]; [exact C|discriminate H0]|destruct (Rlt_bool_spec (B2R d) (B2R (root m))) as [C|C]; [exact C|discriminate H1]].
Qed.
Lemma root_mono a b : (0 <= a)%Z -> (a <= b)%Z -> (b <= D2)%Z -> (B2R (root a) <= B2R (root b))%R.
Proof.
  intros Ha Hab Hb. destruct (root_spec a) as (_ & V & _); [lia|]. destruct (root_spec b) as (_ & W & _); [lia|]. rewrite V, W.
  apply round_le; [exact valid_f64|exact valid_ne|]. apply sqrt_le_1_alt, IZR_le, Hab.
Qed.
Lemma within_gap d m c n x : (1 <= m <= D2)%Z -> flt (f64_of_N 0) d = true -> flt d (root m) = true -> rgb_ok c -> rgb_ok x -> 1 <= n <= 255 ->
  (c <> x -> (m <= sq_dist c x)%Z) -> within d (repeat c n) x = rgb_eqb c x.
Proof.
  intros Hm H0 H1 Hc Hx Hn Hg. destruct (finite_below d m Hm H0 H1) as [F B]. unfold within. rewrite (proj1 (mean_repeat c n Hc Hn)), (dist_colours c x Hc Hx).
  pose proof (sq_dist_bound c x Hc Hx) as D. destruct (root_spec (sq_dist c x) D) as (Fr & Vr & _). unfold fle. rewrite Bleb_correct by assumption.
  destruct (rgb_eqb c x) eqn:E.
  - apply rgb_eqb_true in E. subst x. apply Rle_bool_true. rewrite Vr, sq_dist_same, sqrt_0. change 0%R with (IZR 0). rewrite rnd_int by reflexivity.
    lra.
  - apply Rle_bool_false. assert (N : c <> x) by (intros ->; rewrite (proj2 (rgb_eqb_true x x) eq_refl) in E; discriminate).
    pose proof (root_mono m (sq_dist c x) ltac:(lia) (Hg N) ltac:(lia)). lra.
Qed.

(** ** Distances below all gaps between colours: the runs are those of equal colours *)
Definition gaps_of (m : Z) (l : list (rgb N)) : Prop := forall c x, In c l -> In x l -> c <> x -> (m <= sq_dist c x)%Z.
Lemma run_repeat d m r : (1 <= m <= D2)%Z -> flt (f64_of_N 0) d = true -> flt d (root m) = true -> gaps_of m r -> Forall rgb_ok r -> 1 <= length r <= 255 ->
  (forall a x b, r = a ++ x :: b -> a <> [] -> within d a x = true) -> r = repeat (hd black r) (length r).
Proof.
  intros Hm H0 H1 HG HR HL HJ. assert (P : forall k, 1 <= k <= length r -> firstn k r = repeat (hd black r) k).
  { induction k as [|k IH]; intros Hk; [lia|]. destruct (Nat.eq_dec k 0) as [->|Nk].
    - destruct r; [cbn in HL; lia|reflexivity].
    - specialize (IH ltac:(lia)). assert (Hn : exists x, nth_error r k = Some x).
      { destruct (nth_error r k) eqn:E; [eauto|]. apply nth_error_None in E. lia. }
      destruct Hn as [x Hx]. assert (Er : r = firstn k r ++ x :: skipn (S k) r).
      { clear -Hx. revert r Hx. induction k as [|k IH]; intros [|y r] Hx; try discriminate; [injection Hx as ->; reflexivity|].
        cbn [firstn skipn app]. f_equal. now apply IH. }
      assert (Ox : rgb_ok x) by (rewrite Er in HR; apply Forall_app in HR as [_ HR]; now apply Forall_inv in HR).
      assert (Oh : rgb_ok (hd black r)) by (destruct r; [cbn in HL; lia|now apply Forall_inv in HR]).
      assert (W : within d (firstn k r) x = true).
      { apply (HJ _ x (skipn (S k) r) Er). intros E. apply (f_equal (@length _)) in E. rewrite firstn_length in E. cbn in E. lia. }
      rewrite IH, (within_gap d m) in W; [|assumption..|lia|apply HG; [destruct r; [cbn in HL; lia|now left]|rewrite Er; apply in_or_app; right; now left]].
      apply rgb_eqb_true in W.
      assert (ES : firstn (S k) r = firstn k r ++ [x]).
      { clear -Hx. revert r Hx. induction k as [|k IH]; intros [|y r] Hx; try discriminate; [injection Hx as ->; reflexivity|].
        cbn [firstn app]. f_equal. now apply IH. }
      rewrite ES, IH, <- W. replace (S k) with (k + 1) by lia. rewrite repeat_app. reflexivity. }
  specialize (P (length r) ltac:(lia)). now rewrite firstn_all in P.
Qed.
Lemma below_gap_runs d m l runs : (1 <= m <= D2)%Z -> flt (f64_of_N 0) d = true -> flt d (root m) = true -> gaps_of m l -> Forall rgb_ok l -> greedy_runs (within d) l runs ->
  greedy_runs (joins_exact rgb_eqb) l runs /\ coded mean_round runs = coded (hd black) runs.
Proof.
  intros Hm H0 H1 HG HL (G1 & G2 & G3 & G4).
  assert (O : forall r, In r runs -> Forall rgb_ok r /\ 1 <= length r <= 255 /\ r = repeat (hd black r) (length r) /\ rgb_ok (hd black r)).
  { intros r Hr. assert (Or : Forall rgb_ok r).
    { apply Forall_forall. intros x Hx. apply (proj1 (Forall_forall _ _) HL). rewrite <- G1. apply in_concat. eauto. }
    pose proof (proj1 (Forall_forall _ _) G2 r Hr) as L. split; [exact Or|]. split; [exact L|]. split.
    - apply (run_repeat d m); try assumption.
      + intros c x Hc Hx. apply HG; rewrite <- G1; apply in_concat; eauto.
      + intros a x b E Ha. exact (G3 r a x b Hr E Ha).
    - destruct r; [cbn in L; lia|now apply Forall_inv in Or]. }
  split.
  - split; [exact G1|]. split; [exact G2|]. split.
    + intros r a x b Hr E Ha. destruct (O r Hr) as (_ & _ & Er & _). destruct a as [|y a]; [contradiction|]. cbn [joins_exact].
      apply rgb_eqb_true. rewrite E in Er. cbn [hd app] in Er.
      assert (Q : forall z, In z ((y :: a) ++ x :: b) -> z = y) by (intros z Hz; cbn [app] in Hz; rewrite Er in Hz; now apply repeat_spec in Hz).
      symmetry. apply Q. apply in_or_app. right. now left.
    + intros before r x r' after E. destruct (G4 before r x r' after E) as [H|H]; [now left|right].
      assert (Hr : In r runs) by (rewrite E; apply in_or_app; right; now left).
      assert (Hr' : In (x :: r') runs) by (rewrite E; apply in_or_app; right; right; now left).
      destruct (O r Hr) as (_ & Lr & Er & Oh). destruct (O _ Hr') as (Ox & _). apply Forall_inv in Ox.
      rewrite Er, (within_gap d m) in H; [|assumption..|].
      * destruct r as [|y r]; [cbn in Lr; lia|]. exact H.
      * apply HG; rewrite <- G1; apply in_concat.
        -- exists r. split; [exact Hr|]. destruct r; [cbn in Lr; lia|now left].
        -- exists (x :: r'). split; [exact Hr'|now left].
  - unfold coded. apply map_ext_in. intros r Hr. destruct (O r Hr) as (_ & Lr & Er & Oh). f_equal. rewrite Er at 1. now apply mean_repeat.
Qed.

(** Runs are determined by the joining test. *)
Lemma greedy_unique {T} (joins : list T -> T -> bool) (l : list T) r1 r2 : greedy_runs joins l r1 -> greedy_runs joins l r2 -> r1 = r2.
Proof.
  revert l r2. induction r1 as [|r r1 IH]; intros l r2 (A1 & A2 & A3 & A4) (B1 & B2 & B3 & B4).
  - cbn in A1. subst l. destruct r2 as [|r' r2]; [reflexivity|]. apply Forall_inv in B2. destruct r'; [cbn in B2; lia|discriminate].
  - destruct r2 as [|r' r2].
    { cbn in B1. subst l. apply Forall_inv in A2. destruct r; [cbn in A2; lia|discriminate]. }
    assert (E : r = r').
    { pose proof (Forall_inv A2) as L1. pose proof (Forall_inv B2) as L2. cbn [concat] in A1, B1.
      assert (W : forall (p q : list T) (ps qs : list (list T)), concat (p :: ps) = concat (q :: qs) -> 1 <= length p <= 255 -> 1 <= length q <= 255 ->
        Forall (fun r => 1 <= length r <= 255) ps ->
        (forall before r x r' after, p :: ps = before ++ r :: (x :: r') :: after -> length r = 255 \/ joins r x = false) ->
        (forall r a x b, In r (q :: qs) -> r = a ++ x :: b -> a <> [] -> joins a x = true) -> length q <= length p).
      { intros p q ps qs Ec Lp Lq Fp Gp Gq. destruct (Nat.le_gt_cases (length q) (length p)) as [C|C]; [exact C|exfalso].
        cbn [concat] in Ec. assert (Eq : exists x t, q = p ++ x :: t /\ concat ps = x :: t ++ concat qs).
        { clear -Ec C. revert q Ec C. induction p as [|y p IH]; intros q Ec C.
          - destruct q as [|x t]; [cbn in C; lia|]. exists x, t. split; [reflexivity|exact Ec].
          - destruct q as [|z q]; [cbn in C; lia|]. cbn [app] in Ec. injection Ec as -> Ec. destruct (IH q Ec) as (x & t & -> & E); [cbn in C; lia|].
            exists x, t. split; [reflexivity|exact E]. }
        destruct Eq as (x & t & -> & Ep). destruct ps as [|p' ps]; [discriminate|]. pose proof (Forall_inv Fp) as Lp'.
        destruct p' as [|x' p']; [cbn in Lp'; lia|]. cbn [concat app] in Ep. injection Ep as -> _.
        assert (J : joins p x = true) by (apply (Gq (p ++ x :: t) p x t (or_introl eq_refl) eq_refl); intros ->; cbn in Lp; lia).
        destruct (Gp [] p x p' ps eq_refl) as [K|K]; [|congruence]. rewrite app_length in Lq. cbn in Lq. lia. }
      assert (C1 : length r' <= length r) by (apply (W r r' r1 r2); [cbn [concat]; congruence|exact L1|exact L2|now apply Forall_inv_tail in A2|exact A4|exact B3]).
      assert (C2 : length r <= length r') by (apply (W r' r r2 r1); [cbn [concat]; congruence|exact L2|exact L1|now apply Forall_inv_tail in B2|exact B4|exact A3]).
      assert (Ec : r ++ concat r1 = r' ++ concat r2) by congruence.
      apply (f_equal (firstn (length r))) in Ec. rewrite firstn_exact in Ec. replace (length r) with (length r') in Ec by lia. now rewrite firstn_exact in Ec. }
    subst r'. f_equal. apply (IH (concat r1)).
    + split; [reflexivity|]. split; [now apply Forall_inv_tail in A2|]. split.
      * intros q a x b Hq. apply A3. now right.
      * intros before q x q' after Eq. apply (A4 (r :: before) q x q' after). cbn [app]. now rewrite Eq.
    + cbn [concat] in A1, B1. assert (Ec : concat r2 = concat r1) by (apply (app_inv_head r); congruence).
      split; [exact Ec|]. split; [now apply Forall_inv_tail in B2|]. split.
      * intros q a x b Hq. apply B3. now right.
      * intros before q x q' after Eq. apply (B4 (r :: before) q x q' after). cbn [app]. now rewrite Eq.
Qed.

(** The output is then the output without approximation. *)
Lemma below_gap scan im fuel d e m : img_ok im -> Forall (inside (im_w im) (im_h im)) (scan (im_w im) (im_h im)) ->
  (length (scan (im_w im) (im_h im)) < fuel)%nat -> (1 <= m <= D2)%Z -> gaps_of m (map to_rgb (im_px im)) ->
  flt (f64_of_N 0) d = true -> flt d (root m) = true -> feq e (f64_of_N 0) = true ->
  exists out, run_vec (hilbert_encode scan fuel (RLE d) im) = Ok out /\ run_vec (hilbert_encode scan fuel (RLE e) im) = Ok out.
Proof.
  intros Hi Hs Hf Hm HG H0 H1 He. set (ps := scan (im_w im) (im_h im)) in *.
  assert (Lc : length (colours im ps) = length ps) by apply map_length.
  destruct (exact_coded (colours im ps) (colours_ok _ _ Hi)) as (runs & G & Y & R & L & X).
  destruct (approx_runs d (colours im ps) (colours_ok _ _ Hi)) as (runs' & G' & Y' & R').
  assert (HI : forall c, In c (colours im ps) -> In c (map to_rgb (im_px im))).
  { intros c Hc. apply in_map_iff in Hc as [q [<- Hq]]. apply in_map. apply nth_In. destruct Hi as (_ & _ & _ & HLp & _). 
    pose proof (proj1 (Forall_forall _ _) Hs q Hq) as [Hx Hy]. pose proof (px_index_lt _ _ _ _ Hx Hy) as Hk. unfold rgba in *. lia. }
  assert (HG' : gaps_of m (colours im ps)) by (intros c x Hc Hx; apply HG; now apply HI).
  destruct (below_gap_runs d m _ _ Hm H0 H1 HG' (colours_ok _ _ Hi) G') as [G2 E2].
  pose proof (greedy_unique _ _ _ _ G2 G) as ->. rewrite E2 in Y', R'.
  exists (dims im ++ runs_bytes (coded (hd black) runs)). split.
  - apply rle_encode_out; [exact Hi|exact Hs| |exact R|unfold coded; rewrite map_length; unfold ps in *; lia].
    assert (Hd : feq d (f64_of_N 0) = false).
    { destruct (finite_below d m Hm H0 H1) as [F B]. destruct (of_N_spec 0) as [F0 V0 _]; [reflexivity|].
      unfold feq. rewrite Beqb_correct by assumption. rewrite V0. unfold Req_bool. destruct (Rcompare_spec (B2R d) (IZR (Z.of_N 0))) as [C|C|C]; try reflexivity.
      exfalso. change (IZR (Z.of_N 0)) with 0%R in C. lra. }
    rewrite Hd. exact Y'.
  - apply rle_encode_out; [exact Hi|exact Hs|rewrite He; exact Y|exact R|unfold coded; rewrite map_length; unfold ps in *; lia].
Qed.

(** ** Distances from 442 on: every run is as long as it can be *)
Lemma channel_gap s n c : (1 <= n <= 255)%N -> (s <= 255 * n)%N -> (c < 256)%N ->
  bounded_by (fsqr (fsub (fdiv (f64_of_N s) (f64_of_N n)) (f64_of_N c))) 65025 /\
  (0 <= B2R (fsqr (fsub (fdiv (f64_of_N s) (f64_of_N n)) (f64_of_N c))))%R.
Proof.
  intros Hn Hs Hc. apply (fsqr_bound _ 255); [|lia|reflexivity].
  destruct (fdiv_spec s n Hn Hs) as (F & _ & B). destruct (of_N_spec c) as [F2 V2 _]; [lia|].
  set (q := fdiv (f64_of_N s) (f64_of_N n)) in *. unfold fsub. pose proof (Bminus_correct 53 1024 f64_prec f64_emax mode_NE q (f64_of_N c) F F2) as P.
  assert (HR : (Rabs (B2R q - B2R (f64_of_N c)) <= IZR 255)%R).
  { rewrite V2. assert (0 <= IZR (Z.of_N c) <= 255)%R by (split; [apply (IZR_le 0); lia|apply IZR_le; lia]). apply Rabs_le. lra. }
  destruct (rnd_bound _ 255 ltac:(lia) HR) as [R1 R2]. rewrite (small_abs _ R2) in P. destruct P as (P1 & P2 & _).
  split; [exact P2|]. rewrite P1. exact R1.
Qed.
Lemma within_442 d a x : fle (f64_of_N 442) d = true -> Forall rgb_ok a -> 1 <= length a <= 255 -> rgb_ok x -> within d a x = true.
Proof.
  intros Hd HA HL Hx. apply sums_ok in HA. unfold sum_ok in HA. unfold within, mean_f64. destruct (sum_rgb a) as [[r g] b], x as [[r' g'] b'].
  destruct HA as (H1 & H2 & H3), Hx as (X1 & X2 & X3). unfold u8_ok in *. cbn [map3 dist_f64]. set (n := N.of_nat (length a)) in *.
  assert (Hn : (1 <= n <= 255)%N) by (unfold n; lia).
  destruct (channel_gap r n r' Hn H1 X1) as [B1 P1], (channel_gap g n g' Hn H2 X2) as [B2 P2], (channel_gap b n b' Hn H3 X3) as [B3 P3].
  assert (B0 : bounded_by (f64_of_N 0) 0) by (split; [reflexivity|cbn; rewrite Rabs_R0; lra]).
  assert (P0 : (0 <= B2R (f64_of_N 0))%R) by (cbn; lra).
  pose proof (fadd_bound _ _ _ _ B0 B1 ltac:(lia) ltac:(lia) ltac:(lia)) as S1.
  pose proof (fadd_pos _ _ _ _ B0 B1 ltac:(lia) ltac:(lia) ltac:(lia) P0 P1) as Q1.
  pose proof (fadd_bound _ _ _ _ S1 B2 ltac:(lia) ltac:(lia) ltac:(lia)) as S2.
  pose proof (fadd_pos _ _ _ _ S1 B2 ltac:(lia) ltac:(lia) ltac:(lia) Q1 P2) as Q2.
  pose proof (fadd_bound _ _ _ _ S2 B3 ltac:(lia) ltac:(lia) ltac:(lia)) as S3.
  pose proof (fadd_pos _ _ _ _ S2 B3 ltac:(lia) ltac:(lia) ltac:(lia) Q2 P3) as Q3.
  match goal with |- fle (fsqrt ?u) d = true => set (t := u) in * end. clearbody t. destruct S3 as [Ft Bt]. change (0 + 65025 + 65025 + 65025)%Z with 195075%Z in Bt.
  pose proof (sqrt_not_nan t Ft Q3) as NN. destruct (Bsqrt_correct 53 1024 f64_prec f64_emax mode_NE t) as (V & Fs & _).
  rewrite (Rabs_pos_eq _ Q3) in Bt.
  assert (Fin : is_finite (fsqrt t) = true).
  { unfold fsqrt in *. rewrite Fs. clear -Ft Q3. destruct t as [s|s| |s m e Hb]; try discriminate; [reflexivity|]. cbn in Q3 |- *. destruct s; [|reflexivity].
    exfalso. apply Rle_not_lt in Q3. apply Q3. apply F2R_lt_0. reflexivity. }
  assert (V442 : (B2R (fsqrt t) <= 442)%R).
  { unfold fsqrt. rewrite V. change 442%R with (IZR 442). rewrite <- (rnd_int 442) by reflexivity. apply round_le; [exact valid_f64|exact valid_ne|].
    change (IZR 442) with 442%R. replace 442%R with (sqrt (442 * 442)) by (apply sqrt_square; lra). apply sqrt_le_1_alt. lra. }
  destruct (of_N_spec 442) as [F4 V4 _]; [reflexivity|]. change (IZR (Z.of_N 442)) with 442%R in V4.
  destruct (is_finite d) eqn:Fd.
  - unfold fle in *. rewrite Bleb_correct in * by assumption. apply Rle_bool_true. rewrite V4 in Hd. destruct (Rle_bool_spec 442 (B2R d)); [lra|discriminate].
  - destruct d as [s|[|]| |s m e Hb]; try discriminate Fd; try discriminate Hd. now apply fle_infinity.
Qed.
Lemma longest_runs l d runs before r after : fle (f64_of_N 442) d = true -> Forall rgb_ok l -> greedy_runs (within d) l runs ->
  runs = before ++ r :: after -> after <> [] -> length r = 255.
Proof.
  intros Hd HL (G1 & G2 & _ & G4) E Hne. destruct after as [|r' after]; [contradiction|].
  pose proof (proj1 (Forall_forall _ _) G2) as L.
  assert (L1 : 1 <= length r <= 255) by (apply L; rewrite E; apply in_or_app; right; now left).
  assert (L2 : 1 <= length r' <= 255) by (apply L; rewrite E; apply in_or_app; right; right; now left).
  destruct r' as [|x r']; [cbn in L2; lia|]. destruct (G4 _ _ _ _ _ E) as [H|H]; [exact H|].
  rewrite <- G1, E in HL. rewrite concat_app in HL. cbn [concat] in HL. apply Forall_app in HL as [_ HL]. apply Forall_app in HL as [HR HL].
  cbn [app] in HL. apply Forall_inv in HL. rewrite within_442 in H by assumption. discriminate.
Qed.
Lemma full_count {T} (runs : list (list T)) : Forall (fun r => 1 <= length r <= 255) runs ->
  (forall before r after, runs = before ++ r :: after -> after <> [] -> length r = 255) ->
  N.of_nat (length runs) = ((N.of_nat (length (concat runs)) + 254) / 255)%N.
Proof.
  induction runs as [|r runs IH]; intros F H; [reflexivity|]. pose proof (Forall_inv F) as Lr. cbn beta in Lr. apply Forall_inv_tail in F.
  cbn [concat length]. rewrite app_length. destruct runs as [|r' runs].
  - cbn [concat length]. rewrite Nat.add_0_r. change (N.of_nat 1) with 1%N. apply (N.div_unique _ 255 1 (N.of_nat (length r) - 1)); lia.
  - assert (E : length r = 255) by (apply (H [] r (r' :: runs) eq_refl); discriminate).
    specialize (IH F ltac:(intros before q after Eq Hne; apply (H (r :: before) q after); [cbn [app]; now rewrite Eq|exact Hne])).
    rewrite E, Nat2N.inj_succ, IH, Nat2N.inj_add. change (N.of_nat 255) with 255%N.
    generalize (N.of_nat (length (concat (r' :: runs)))). intros m. replace (255 + m + 254)%N with (m + 254 + 1 * 255)%N by lia.
    rewrite N.div_add by discriminate. lia.
Qed.
Lemma from_442 scan im fuel d : img_ok im -> visits_all (im_w im) (im_h im) (scan (im_w im) (im_h im)) ->
  (N.to_nat (im_w im * im_h im) < fuel)%nat -> fle (f64_of_N 442) d = true ->
  exists runs, let out := dims im ++ runs_bytes (coded mean_round runs) in run_vec (hilbert_encode scan fuel (RLE d) im) = Ok out
  /\ concat runs = colours im (scan (im_w im) (im_h im)) /\ Forall (fun r => 1 <= length r <= 255)%nat runs
  /\ (forall before r after, runs = before ++ r :: after -> after <> [] -> length r = 255%nat)
  /\ N.of_nat (length out) = (8 + 12 * ((im_w im * im_h im + 254) / 255))%N.
Proof.
  intros Hi Hv Hf Hd. pose proof (visits_inside _ _ _ Hv) as Hs. pose proof (visits_length _ _ _ Hv) as HL. set (ps := scan (im_w im) (im_h im)) in *.
  assert (Lc : length (colours im ps) = length ps) by apply map_length.
  assert (Hd0 : feq d (f64_of_N 0) = false).
  { destruct (of_N_spec 442) as [F4 V4 _]; [reflexivity|]. destruct (of_N_spec 0) as [F0 V0 _]; [reflexivity|]. destruct (is_finite d) eqn:Fd.
    - unfold feq, fle in *. rewrite Beqb_correct by assumption. rewrite Bleb_correct in Hd by assumption. rewrite V4 in Hd. rewrite V0.
      change (IZR (Z.of_N 442)) with 442%R in Hd. change (IZR (Z.of_N 0)) with 0%R. destruct (Rle_bool_spec 442 (B2R d)); [|discriminate].
      unfold Req_bool. destruct (Rcompare_spec (B2R d) 0); try reflexivity. lra.
    - destruct d as [s|[|]| |s m e Hb]; try discriminate Fd; try discriminate Hd. reflexivity. }
  destruct (approx_runs d (colours im ps) (colours_ok _ _ Hi)) as (runs & G & Y & R). exists runs. cbv zeta. split; [|split; [apply G|split; [apply G|split; [intros before r after; exact (longest_runs _ _ _ before r after Hd (colours_ok _ _ Hi) G)|]]]].
  - apply rle_encode_out; [exact Hi|exact Hs|now rewrite Hd0|exact R|]. apply runs_count in G. unfold coded. rewrite map_length. unfold ps in *. lia.
  - rewrite app_length, dims_length, runs_bytes_length. unfold coded. rewrite map_length.
    assert (K : N.of_nat (length runs) = ((N.of_nat (length (concat runs)) + 254) / 255)%N).
    { apply full_count; [apply G|]. intros before r after. exact (longest_runs _ _ _ before r after Hd (colours_ok _ _ Hi) G). }
    destruct G as [Gc _]. rewrite Gc, Lc in K. unfold ps in *. rewrite HL, N2Nat.id in K. lia.
Qed.
