(** * Approximate run-length coding: runs, colours, decoded images. *)
From Coq Require Import Reals Lra.
From Flocq Require Import Core BinarySingleNaN.
From Verif Require Import Base Ser SerSpec SerProofs Dict Img Float FloatProofs HilbertC CodecSpec CodecBytes CodecZip CodecHilbert CodecTop.
From Coq Require Import ZifyBool ZifyNat ZifyN.

Local Open Scope nat_scope.
Definition sum_ok (a : list (rgb N)) : Prop := let '(r, g, b) := sum_rgb a in let n := N.of_nat (length a) in
  (r <= 255 * n /\ g <= 255 * n /\ b <= 255 * n)%N.
Lemma sums_ok a : Forall rgb_ok a -> sum_ok a.
Proof.
  unfold sum_ok. induction 1 as [|[[r g] b] a (H1 & H2 & H3) HA IH]; [cbn; lia|].
  cbn [sum_rgb fold_right length]. fold (sum_rgb a). destruct (sum_rgb a) as [[sr sg] sb]. unfold u8_ok in *. lia.
Qed.
Lemma sum_snoc a x : sum_rgb (a ++ [x]) = let '(r, g, b) := sum_rgb a in let '(r', g', b') := x in (r + r', g + g', b + b')%N.
Proof.
  induction a as [|[[r g] b] a IH].
  - destruct x as [[r g] b]. cbn. now rewrite !N.add_0_r.
  - cbn [app sum_rgb fold_right]. fold (sum_rgb (a ++ [x])). fold (sum_rgb a). rewrite IH. destruct (sum_rgb a) as [[sr sg] sb].
    destruct x as [[r' g'] b']. now rewrite !N.add_assoc.
Qed.

Definition acc_of (a : list (rgb N)) (c : option running_avg) : Prop :=
  1 <= length a <= 255 /\ Forall rgb_ok a /\ c = Some (mkAvg (map3 f64_of_N (sum_rgb a)) (N.of_nat (length a))).
Lemma mean_ok a : 1 <= length a <= 255 -> Forall rgb_ok a ->
  avg (mkAvg (map3 f64_of_N (sum_rgb a)) (N.of_nat (length a))) = Ok (mean_round a).
Proof.
  intros HL HA. apply sums_ok in HA. unfold sum_ok in HA. unfold avg, avg_f64, mean_round. cbn [av_sum av_count].
  destruct (sum_rgb a) as [[r g] b]. cbn [map3]. destruct HA as (H1 & H2 & H3).
  set (n := N.of_nat (length a)) in *. assert (Hn : (1 <= n <= 255)%N) by (unfold n; lia).
  destruct (round_quotient r n Hn H1) as [Q1 A1]. destruct (round_quotient g n Hn H2) as [Q2 A2]. destruct (round_quotient b n Hn H3) as [Q3 A3].
  unfold safe_convert. rewrite A1, A2, A3. cbn [assert_ res_bind]. now rewrite Q1, Q2, Q3.
Qed.
Lemma mean_round_ok a : 1 <= length a <= 255 -> Forall rgb_ok a -> rgb_ok (mean_round a).
Proof.
  intros HL HA. apply sums_ok in HA. unfold sum_ok in HA. unfold mean_round. destruct (sum_rgb a) as [[r g] b]. cbn [map3].
  destruct HA as (H1 & H2 & H3). unfold rgb_ok, u8_ok. repeat split; apply N.div_lt_upper_bound; lia.
Qed.
Lemma mean_single x : rgb_ok x -> mean_round [x] = x.
Proof.
  destruct x as [[r g] b]. intros _. unfold mean_round. cbn [sum_rgb fold_right map3 length]. rewrite !N.add_0_r.
  change (N.of_nat 1) with 1%N. assert (E : forall n, ((2 * n + 1) / (2 * 1) = n)%N).
  { intros n. symmetry. apply N.div_unique with 1%N; lia. }
  now rewrite !E.
Qed.

Lemma approx_runs d l : Forall rgb_ok l ->
  exists runs, greedy_runs (within d) l runs /\ yields_all rle_next (rle_approx l d) (coded mean_round runs)
    /\ Forall run_ok (coded mean_round runs).
Proof.
  intros HL.
  destruct (rle_runs (approx d) rgb_ok (within d) mean_round acc_of) with (l := l) (c := @None running_avg) as (runs & G & Y & A).
  - intros [[r g] b] c Hx. split; [cbn; lia|]. split; [now constructor|]. cbn. unfold avg_new, as_f64. cbn [map3]. now rewrite !N.add_0_r.
  - intros a x c Hx Hl (HL1 & HA & ->). cbn [accept approx].
    assert (EW : fle (dist_f64 (avg_f64 (mkAvg (map3 f64_of_N (sum_rgb a)) (N.of_nat (length a)))) (as_f64 x)) d = within d a x).
    { unfold within, mean_f64, avg_f64, as_f64. cbn [av_sum av_count]. destruct (sum_rgb a) as [[r g] b]. reflexivity. }
    rewrite EW. eexists. split; [reflexivity|]. destruct (within d a x); [|split; [exact HL1|split; [exact HA|reflexivity]]].
    split; [rewrite app_length; cbn; lia|]. split; [apply Forall_app; split; [exact HA|now constructor]|].
    f_equal. unfold avg_add. cbn [av_sum av_count]. rewrite sum_snoc, app_length. pose proof (sums_ok a HA) as HS. unfold sum_ok in HS.
    destruct (sum_rgb a) as [[r g] b], x as [[r' g'] b']. cbn [map3]. destruct Hx as (X1 & X2 & X3). unfold u8_ok in *.
    rewrite !fadd_N by lia. f_equal. cbn [length]. lia.
  - intros a c (H1 & H2 & ->). cbn [end_repetition approx]. rewrite (mean_ok a H1 H2). eexists. reflexivity.
  - exact HL.
  - exists runs. split; [exact G|]. split; [exact Y|]. apply Forall_forall. intros [n c] H. unfold coded in H. apply in_map_iff in H as [r [E H]].
    injection E as <- <-. destruct (A r H) as [c (A1 & A2 & _)]. split; cbn [fst snd]; [lia|now apply mean_round_ok].
Qed.
Lemma coded_total {T} (colour : list T -> T) runs : length (expand (coded colour runs)) = length (concat runs).
Proof.
  unfold expand, coded. induction runs as [|r runs IH]; [reflexivity|]. cbn [map concat fst snd]. rewrite !app_length, repeat_length, IH. lia.
Qed.

(** Reading back an image painted along a traversal. *)
Lemma assign {A} (ps : list (N * N)) (d : A) : NoDup ps -> forall cs : list A, length cs = length ps -> exists col, cs = map col ps.
Proof.
  induction 1 as [|p ps Hp HN IH]; intros cs HL.
  - destruct cs; [|discriminate]. exists (fun _ => d). reflexivity.
  - destruct cs as [|c cs]; [discriminate|]. injection HL as HL. destruct (IH cs HL) as [col ->].
    exists (fun q => if pos_eqb q p then c else col q). cbn [map]. f_equal.
    + destruct (pos_eqb p p) eqn:E; [reflexivity|]. assert (pos_eqb p p = true) by now apply pos_eqb_ok. congruence.
    + apply map_ext_in. intros q Hq. destruct (pos_eqb q p) eqn:E; [|reflexivity]. apply pos_eqb_ok in E. subst. contradiction.
Qed.
Lemma painted_read w h ps cs scan : visits_all w h ps -> scan w h = ps -> length cs = length ps ->
  linearize_rect scan (from_rgb w h (painted w ps cs (repeat black (N.to_nat (w * h))))) = Ok (map (fun c => (c, 255%N)) cs).
Proof.
  intros Hv Es HL. destruct (assign ps black (proj1 Hv) cs HL) as [col ->]. pose proof (visits_inside _ _ _ Hv) as Hs.
  unfold linearize_rect, from_rgb. cbn [im_w im_h]. rewrite Es, map_map. apply mapM_ok. intros [x y] Hin.
  pose proof (proj1 (Forall_forall _ _) Hs _ Hin) as [Hx Hy]. cbn [fst snd] in *.
  unfold get_pixel. cbn [im_w im_h im_px]. destruct (N.ltb_spec x w), (N.ltb_spec y h); try lia. cbn [andb].
  rewrite nth_error_map. rewrite <- (firstn_all ps) at 2. rewrite (painted_nth w h ps col (length ps) Hs); [|exact Hx|exact Hy|apply repeat_length].
  rewrite firstn_all. destruct (existsb (pos_eqb (x, y)) ps) eqn:E; [reflexivity|]. apply existsb_pos in Hin. congruence.
Qed.

Lemma set_nth_forall {A} (P : A -> Prop) l : forall k x, Forall P l -> P x -> Forall P (set_nth l k x).
Proof.
  induction l as [|y l IH]; intros [|k] x HF Hx; cbn [set_nth]; try exact HF; apply Forall_cons_iff in HF as [Hy HF]; constructor; auto.
Qed.
Lemma painted_forall (P : rgb N -> Prop) w ps : forall cs buf, Forall P cs -> Forall P buf -> Forall P (painted w ps cs buf).
Proof.
  unfold painted. induction ps as [|p ps IH]; intros [|c cs] buf HC HB; try exact HB. cbn [combine fold_left].
  apply Forall_cons_iff in HC as [Hc HC]. apply IH; [exact HC|]. now apply set_nth_forall.
Qed.

Lemma rle_approx_codec scan im fuel stack d : img_ok im -> visits_all (im_w im) (im_h im) (scan (im_w im) (im_h im)) ->
  feq d (f64_of_N 0) = false -> (length (scan (im_w im) (im_h im)) < fuel)%nat ->
  exists runs, let out := dims im ++ runs_bytes (coded mean_round runs) in
  greedy_runs (within d) (colours im (scan (im_w im) (im_h im))) runs
  /\ run_vec (hilbert_encode scan fuel (RLE d) im) = Ok out
  /\ (forall S (next : nextf S N) s s', yields next s out s' ->
     exists im', hilbert_decode scan stack (RLE d) next s = Ok im' /\ im_w im' = im_w im /\ im_h im' = im_h im /\ img_ok im'
     /\ linearize_rect scan im' = Ok (map (fun c => (c, 255%N)) (expand (coded mean_round runs)))).
Proof.
  intros Hi Hv Hd Hf. set (ps := scan (im_w im) (im_h im)) in *. pose proof (visits_inside _ _ _ Hv) as Hs.
  destruct (approx_runs d (colours im ps) (colours_ok _ _ Hi)) as (runs & G & Y & R).
  assert (Lc : length (colours im ps) = length ps) by apply map_length.
  assert (Le : length (expand (coded mean_round runs)) = length ps).
  { rewrite coded_total. destruct G as [-> _]. exact Lc. }
  exists runs. cbv zeta. split; [exact G|]. split.
  - apply rle_encode_out; [exact Hi|exact Hs|now rewrite Hd|exact R|]. apply runs_count in G. unfold coded. rewrite map_length. lia.
  - intros S next s s' Hy. rewrite (rle_decode_out scan stack d im _ Hi Hs R Le _ _ _ _ Hy). eexists. split; [reflexivity|].
    split; [reflexivity|]. split; [reflexivity|]. split; [|now apply painted_read].
    destruct Hi as (Hw & Hh & Hb & Hl & Hp). unfold img_ok, from_rgb. cbn [im_w im_h im_px]. split; [exact Hw|]. split; [exact Hh|]. split; [exact Hb|].
    rewrite map_length, painted_length. unfold blank. rewrite repeat_length, N2Nat.id. split; [reflexivity|].
    apply Forall_map. apply (@Forall_impl _ rgb_ok); [intros c Hc; split; [exact Hc|reflexivity]|]. apply painted_forall; [|apply Forall_forall; intros c Hc; apply repeat_spec in Hc; subst; apply black_ok].
    unfold expand. apply Forall_concat, Forall_map. eapply Forall_impl; [|exact R]. intros [n c] [_ Hc]. apply Forall_forall.
    intros z Hz. cbn [fst snd] in *. apply repeat_spec in Hz. now subst.
Qed.

(** ** Unusual distances *)
Lemma within_nothing d l x : d = B754_nan \/ flt d (f64_of_N 0) = true -> within d l x = false.
Proof.
  intros H. unfold within, dist_f64. destruct (mean_f64 l) as [[a0 a1] a2], (map3 f64_of_N x) as [[b0 b1] b2].
  destruct H as [-> | H]; [apply fle_nan|now apply sqrt_negative].
Qed.
Lemma within_everything l x : Forall rgb_ok l -> 1 <= length l <= 255 -> rgb_ok x -> within (B754_infinity false) l x = true.
Proof.
  intros HA HL Hx. apply sums_ok in HA. unfold sum_ok in HA. unfold within, mean_f64. destruct (sum_rgb l) as [[r g] b], x as [[r' g'] b'].
  destruct HA as (H1 & H2 & H3), Hx as (X1 & X2 & X3). unfold u8_ok in *. cbn [map3 dist_f64]. set (n := N.of_nat (length l)) in *.
  assert (Hn : (1 <= n <= 255)%N) by (unfold n; lia). clearbody n. clear HL.
  assert (HD : forall s c, (s <= 255 * n)%N -> (c < 256)%N ->
    bounded_by (fsqr (fsub (fdiv (f64_of_N s) (f64_of_N n)) (f64_of_N c))) ((255 + 255) * (255 + 255)) /\
    (0 <= B2R (fsqr (fsub (fdiv (f64_of_N s) (f64_of_N n)) (f64_of_N c))))%R).
  { intros s c Hs Hc. apply fsqr_bound; [|lia|lia]. apply fsub_bound; try lia.
    - destruct (fdiv_spec s n Hn Hs) as (F & _ & B). split; [exact F|]. rewrite Rabs_pos_eq by apply B. apply B.
    - destruct (of_N_spec c) as [F V _]; [lia|]. split; [exact F|]. rewrite V, Rabs_pos_eq by (apply (IZR_le 0); lia). apply IZR_le. lia. }
  destruct (HD r r' H1 X1) as [B1 P1], (HD g g' H2 X2) as [B2 P2], (HD b b' H3 X3) as [B3 P3].
  assert (B0 : bounded_by (f64_of_N 0) 0) by (split; [reflexivity|cbn; rewrite Rabs_R0; lra]).
  assert (P0 : (0 <= B2R (f64_of_N 0))%R) by (cbn; lra).
  pose proof (fadd_bound _ _ _ _ B0 B1 ltac:(lia) ltac:(lia) ltac:(lia)) as S1.
  pose proof (fadd_pos _ _ _ _ B0 B1 ltac:(lia) ltac:(lia) ltac:(lia) P0 P1) as Q1.
  pose proof (fadd_bound _ _ _ _ S1 B2 ltac:(lia) ltac:(lia) ltac:(lia)) as S2.
  pose proof (fadd_pos _ _ _ _ S1 B2 ltac:(lia) ltac:(lia) ltac:(lia) Q1 P2) as Q2.
  pose proof (fadd_bound _ _ _ _ S2 B3 ltac:(lia) ltac:(lia) ltac:(lia)) as S3.
  pose proof (fadd_pos _ _ _ _ S2 B3 ltac:(lia) ltac:(lia) ltac:(lia) Q2 P3) as Q3.
  apply fle_infinity, sqrt_not_nan; [apply S3|exact Q3].
Qed.
(** NaN or negative: every pixel is its own run, so nothing is lost. *)
Lemma singleton_runs d l runs : Forall rgb_ok l -> d = B754_nan \/ flt d (f64_of_N 0) = true -> greedy_runs (within d) l runs ->
  runs = map (fun x => [x]) l /\ expand (coded mean_round runs) = l.
Proof.
  intros HL Hd (G1 & G2 & G3 & _).
  assert (F : Forall (fun r => exists x, r = [x]) runs).
  { apply Forall_forall. intros r Hr. pose proof (proj1 (Forall_forall _ _) G2 r Hr) as L.
    destruct r as [|x [|y r]]; [cbn in L; lia|eauto|]. exfalso.
    specialize (G3 _ [x] y r Hr eq_refl ltac:(discriminate)). rewrite within_nothing in G3 by exact Hd. discriminate. }
  assert (E : runs = map (fun x => [x]) l).
  { subst l. clear -F. induction F as [|r runs [x ->] F IH]; [reflexivity|]. cbn [concat app map]. now rewrite <- IH. }
  split; [exact E|]. subst runs. clear -HL. unfold expand, coded. induction HL as [|x l Hx HL IH]; [reflexivity|].
  cbn [map concat fst snd length]. rewrite IH, (mean_single x Hx). reflexivity.
Qed.
(** Infinite: every run but the last has 255 pixels. *)
Lemma full_runs l runs before r after : Forall rgb_ok l -> greedy_runs (within (B754_infinity false)) l runs ->
  runs = before ++ r :: after -> after <> [] -> length r = 255.
Proof.
  intros HL (G1 & G2 & _ & G4) E Hne. destruct after as [|r' after]; [contradiction|].
  pose proof (proj1 (Forall_forall _ _) G2) as L.
  assert (L1 : 1 <= length r <= 255) by (apply L; rewrite E; apply in_or_app; right; now left).
  assert (L2 : 1 <= length r' <= 255) by (apply L; rewrite E; apply in_or_app; right; right; now left).
  destruct r' as [|x r']; [cbn in L2; lia|]. destruct (G4 _ _ _ _ _ E) as [H|H]; [exact H|].
  rewrite <- G1, E in HL. rewrite concat_app in HL. cbn [concat] in HL. apply Forall_app in HL as [_ HL]. apply Forall_app in HL as [HR HL].
  cbn [app] in HL. apply Forall_inv in HL. rewrite within_everything in H by assumption. discriminate.
Qed.
