(** * The square traversals. *)
From Verif Require Import Base Img HilbertC CodecSpec CodecHilbert.
From Coq Require Import ZifyBool ZifyNat ZifyN.
Local Open Scope N_scope.

Lemma npot_ok p n : n <= 2 ^ 31 -> exists k, npot p n = Ok (2 ^ k) /\ k <= 31 /\ n <= 2 ^ k /\ (n = 0 \/ n = 1 -> k = 0) /\ (2 <= n -> 1 <= k /\ 2 ^ (k - 1) < n).
Proof.
  intros H. unfold npot. destruct (N.eqb_spec n 0) as [->|Hn].
  - exists 0. cbn. repeat split; lia.
  - set (k := N.log2_up n). assert (Hk : k <= 31).
    { unfold k. change 31 with (N.log2_up (2 ^ 31)). now apply N.log2_up_le_mono. }
    assert (Hlt : 2 ^ k < 2 ^ 32) by (apply N.pow_lt_mono_r; lia).
    destruct (N.ltb_spec (2 ^ k) (2 ^ 32)); [|lia]. exists k. split; [reflexivity|]. split; [exact Hk|].
    split; [unfold k; apply N.log2_log2_up_spec; lia|]. split.
    + intros [->|E]; [lia|]. unfold k. now rewrite E.
    + intros H2. destruct (N.log2_up_spec n) as [L _]; [lia|]. fold k in L. rewrite <- N.sub_1_r in L.
      split; [|exact L]. unfold k. assert (0 < N.log2_up n) by (apply N.log2_up_pos; lia). lia.
Qed.
Lemma npot_overflow n : 2 ^ 31 < n -> n < 2 ^ 32 -> npot Debug n = Panic /\ npot Release n = Ok 0.
Proof.
  intros H1 H2. unfold npot. destruct (N.eqb_spec n 0); [lia|].
  assert (L : 2 ^ 32 <= 2 ^ N.log2_up n).
  { apply N.pow_le_mono_r; [lia|]. destruct (N.le_gt_cases 32 (N.log2_up n)) as [C|C]; [exact C|]. exfalso.
    destruct (N.log2_log2_up_spec n) as [_ U]; [lia|]. assert (2 ^ N.log2_up n <= 2 ^ 31) by (apply N.pow_le_mono_r; lia). lia. }
  destruct (N.ltb_spec (2 ^ N.log2_up n) (2 ^ 32)); [lia|]. auto.
Qed.
Lemma half_pow k : N.shiftr (2 ^ k) 1 = if k =? 0 then 0 else 2 ^ (k - 1).
Proof.
  rewrite N.shiftr_div_pow2. change (2 ^ 1) with 2. destruct (N.eqb_spec k 0) as [->|Hk]; [reflexivity|].
  replace k with (N.succ (k - 1)) at 1 by lia. rewrite N.pow_succ_r', N.mul_comm. now apply N.div_mul.
Qed.
Lemma half_npot p n : n <= 2 ^ 31 -> exists m, npot p n = Ok m /\ m < 2 ^ 32 /\ n <= m /\ N.shiftr m 1 <= n /\
  (n <= 1 -> N.shiftr m 1 = 0) /\
  (2 <= n -> exists k, N.shiftr m 1 = 2 ^ k /\ 2 ^ k < n <= 2 ^ (k + 1)).
Proof.
  intros H. destruct (npot_ok p n H) as (k & E & Hk & Hn & H0 & H2). exists (2 ^ k). split; [exact E|].
  split; [apply N.pow_lt_mono_r; lia|]. split; [exact Hn|]. rewrite half_pow. destruct (N.eqb_spec k 0) as [->|Hk0].
  - split; [lia|]. split; [auto|]. intros L. destruct (H2 L). lia.
  - assert (L : 2 <= n) by (destruct (N.le_gt_cases 2 n); [assumption|]; assert (k = 0) by (apply H0; lia); lia).
    destruct (H2 L) as [_ L2]. split; [lia|]. split; [lia|]. intros _. exists (k - 1). split; [reflexivity|].
    replace (k - 1 + 1) with k by lia. split; [exact L2|exact Hn].
Qed.

Lemma small_spec p scan im : img_ok im -> im_w im <= 2 ^ 31 -> im_h im <= 2 ^ 31 -> exists s, small_side (im_w im) (im_h im) s
  /\ (Forall (inside s s) (scan s s) -> linearize_small p scan im = Ok (map (pixel_at im) (scan s s))).
Proof.
  intros Hi Hw Hh. destruct (half_npot p _ Hw) as (mw & Ew & _ & _ & Lw & Zw & Kw). destruct (half_npot p _ Hh) as (mh & Eh & _ & _ & Lh & Zh & Kh).
  exists (N.min (N.shiftr mw 1) (N.shiftr mh 1)). split.
  - unfold small_side. destruct (N.le_gt_cases (N.min (im_w im) (im_h im)) 1) as [C|C].
    + left. split; [exact C|]. destruct (N.le_gt_cases (im_w im) 1) as [D|D]; [rewrite (Zw D); lia|]. rewrite Zh by lia. lia.
    + right. split; [lia|]. destruct Kw as (kw & -> & Bw); [lia|]. destruct Kh as (kh & -> & Bh); [lia|].
      destruct (N.le_gt_cases kw kh) as [D|D].
      * exists kw. assert (2 ^ kw <= 2 ^ kh) by (apply N.pow_le_mono_r; lia). assert (2 ^ (kw + 1) <= 2 ^ (kh + 1)) by (apply N.pow_le_mono_r; lia). lia.
      * exists kh. assert (2 ^ kh <= 2 ^ kw) by (apply N.pow_le_mono_r; lia). assert (2 ^ (kh + 1) <= 2 ^ (kw + 1)) by (apply N.pow_le_mono_r; lia). lia.
  - intros HF. unfold linearize_small. rewrite Ew, Eh. cbn [res_bind]. apply get_pixels_ok; [exact Hi|].
    eapply Forall_impl; [|exact HF]. intros [x y] [Hx Hy]. unfold inside in *. cbn [fst snd] in *. lia.
Qed.
Lemma npot_least p n m : n <= 2 ^ 31 -> npot p n = Ok m -> exists k, m = 2 ^ k /\ n <= 2 ^ k /\ forall j, n <= 2 ^ j -> k <= j.
Proof.
  intros H E. destruct (npot_ok p n H) as (k & E' & _ & L & H0 & H2). rewrite E in E'. injection E' as ->. exists k. split; [reflexivity|]. split; [exact L|].
  intros j Hj. destruct (N.le_gt_cases 2 n) as [C|C]; [|assert (k = 0) by (apply H0; lia); lia]. destruct (H2 C) as [_ B].
  assert (2 ^ (k - 1) < 2 ^ j) as P by lia. apply N.pow_lt_mono_r_iff in P; lia.
Qed.
Lemma npot_large p w h mw mh : w <= 2 ^ 31 -> h <= 2 ^ 31 -> npot p w = Ok mw -> npot p h = Ok mh -> large_side w h (N.max mw mh).
Proof.
  intros Hw Hh Ew Eh. destruct (npot_least p w mw Hw Ew) as (a & -> & La & Ma). destruct (npot_least p h mh Hh Eh) as (b & -> & Lb & Mb). split; [lia|].
  destruct (N.le_gt_cases a b) as [C|C].
  - exists b. assert (2 ^ a <= 2 ^ b) by (apply N.pow_le_mono_r; lia). split; [lia|]. intros j Hj. apply Mb. lia.
  - exists a. assert (2 ^ b <= 2 ^ a) by (apply N.pow_le_mono_r; lia). split; [lia|]. intros j Hj. apply Ma. lia.
Qed.
Lemma large_spec p scan im : img_ok im -> im_w im <= 2 ^ 31 -> im_h im <= 2 ^ 31 -> (forall s, s < 2 ^ 32 -> visits_all s s (scan s s)) ->
  exists s ps, large_side (im_w im) (im_h im) s /\ ps = filter (fun q => (fst q <? im_w im) && (snd q <? im_h im)) (scan s s)
  /\ visits_all (im_w im) (im_h im) ps /\ linearize_large p scan im = Ok (map (pixel_at im) ps).
Proof.
  intros Hi Hw Hh Hs. destruct (half_npot p _ Hw) as (mw & Ew & Uw & Lw & _). destruct (half_npot p _ Hh) as (mh & Eh & Uh & Lh & _).
  assert (HL : large_side (im_w im) (im_h im) (N.max mw mh)) by (now apply npot_large with p).
  set (s := N.max mw mh) in *. specialize (Hs s ltac:(unfold s; lia)).
  set (ok := fun q : N * N => let '(x, y) := q in (x <? im_w im) && (y <? im_h im)).
  assert (V : visits_all (im_w im) (im_h im) (filter ok (scan s s))).
  { split; [apply NoDup_filter, Hs|]. intros x y. rewrite filter_In, (proj2 Hs x y). unfold ok, s. lia. }
  exists s, (filter ok (scan s s)). split; [exact HL|]. split; [apply filter_ext; now intros [x y]|]. split; [exact V|]. unfold linearize_large. rewrite Ew, Eh. cbn [res_bind]. fold s.
  apply (get_pixels_ok im (filter ok (scan s s)) Hi). now apply visits_inside.
Qed.
Lemma square_overflow scan im : 2 ^ 31 < im_w im < 2 ^ 32 -> linearize_small Debug scan im = Panic /\ linearize_large Debug scan im = Panic.
Proof.
  intros [H1 H2]. destruct (npot_overflow _ H1 H2) as [E _]. unfold linearize_small, linearize_large. now rewrite E.
Qed.
