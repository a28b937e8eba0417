(** * The forms of the codec lemmas used by the properties. *)
From Flocq Require Import BinarySingleNaN.
From Verif Require Import Base Ser SerSpec SerProofs Bit Utils Huf HufSpec HufProofs HufTop Dict DictSpec Back BackSpec
  Img Float HilbertC CodecSpec CodecBytes CodecZip CodecHilbert CodecTop CodecApprox.
From Coq Require Import ZifyBool ZifyNat ZifyN.

Lemma rle_exact_spec {T} (eqb : T -> T -> bool) l : (forall a b, eqb a b = true <-> a = b) ->
  exists out, yields_all rle_next (rle_exact eqb l) out
  /\ Forall (fun r => (1 <= fst r <= 255)%N) out /\ expand out = l
  /\ forall before n x m y after, out = before ++ (n, x) :: (m, y) :: after -> x = y -> n = 255%N.
Proof.
  intros He. destruct l as [|d l0] eqn:El.
  { exists []. split; [|split; [constructor|split; [reflexivity|]]].
    - exists (@mkRle T (exact eqb) [] None None), (@mkRle T (exact eqb) [] None None). split; [constructor|reflexivity].
    - intros b n x m y a E. destruct b; discriminate. }
  rewrite <- El. clear El l0. destruct (exact_runs eqb d l He) as (runs & G & Y & F). exists (coded (fun r => hd d r) runs).
  split; [exact Y|]. destruct G as (G1 & G2 & G3 & G4). split; [|split].
  - apply Forall_forall. intros q Hq. unfold coded in Hq. apply in_map_iff in Hq as [r [<- Hr]]. cbn [fst].
    pose proof (proj1 (Forall_forall _ _) G2 r Hr) as L. cbv beta in L. lia.
  - now rewrite expand_exact.
  - intros before n x m y after E Exy. subst y. unfold coded in E. apply map_eq_app in E as (b' & rest & Er & _ & E).
    apply map_eq_cons in E as (r & rest1 & -> & E1 & E). apply map_eq_cons in E as (r' & rest2 & -> & E2 & _).
    injection E1 as E1 Ex. injection E2 as E2 Ey.
    assert (L1 : (1 <= length r <= 255)%nat) by (apply (proj1 (Forall_forall _ _) G2); rewrite Er; apply in_or_app; right; now left).
    assert (L2 : (1 <= length r' <= 255)%nat) by (apply (proj1 (Forall_forall _ _) G2); rewrite Er; apply in_or_app; right; right; now left).
    destruct r' as [|z r']; [cbn in L2; lia|]. destruct r as [|w r]; [cbn in L1; lia|]. cbn [hd] in *. subst.
    destruct (G4 _ _ _ _ _ eq_refl) as [H|H]; [rewrite H; reflexivity|]. exfalso. cbn in H.
    assert (eqb x x = true) by now apply He. congruence.
Qed.

Lemma hilbert_lossless scan im fuel stack m : img_ok im -> visits_all (im_w im) (im_h im) (scan (im_w im) (im_h im)) ->
  hilbert_is_lossless m = true -> (11 * N.to_nat (im_w im * im_h im) < fuel)%nat -> (2 <= stack)%nat ->
  exists out, run_vec (hilbert_encode scan fuel m im) = Ok out /\
  forall S (next : nextf S N) s s', yields next s out s' -> hilbert_decode scan stack m next s = Ok (opaque im).
Proof.
  intros Hi Hv Hl Hf Hst. pose proof (visits_inside _ _ _ Hv) as Hs. pose proof (visits_length _ _ _ Hv) as HL.
  assert (Eo : only_at (scan (im_w im) (im_h im)) im = opaque im).
  { apply only_at_all; [exact Hi|]. intros x y Hx Hy. now apply (proj2 Hv). }
  destruct m as [d|].
  - destruct (rle_exact_codec scan im fuel stack d Hi Hs Hl ltac:(lia)) as (runs & _ & E & D & _). eexists. split; [exact E|].
    intros S next s s' Hy. rewrite (D S next s s' Hy). now rewrite Eo.
  - destruct (hzip_codec scan im fuel stack Hi Hs ltac:(lia) Hst) as (syms & _ & E & D & _). eexists. split; [exact E|].
    intros S next s s' Hy. rewrite (D S next s s' Hy). now rewrite Eo.
Qed.
(** For a traversal that stays inside the image but need not be bijective. *)
Lemma hilbert_lossless_iff scan w h stack m :
  Forall (inside w h) (scan w h) -> u32_ok w -> u32_ok h -> (3 * w * h < 2 ^ 63)%N -> hilbert_is_lossless m = true -> (2 <= stack)%nat ->
  (forall im fuel out, img_ok im -> im_w im = w -> im_h im = h -> (11 * length (scan w h) < fuel)%nat ->
     run_vec (hilbert_encode scan fuel m im) = Ok out ->
     hilbert_decode scan stack m list_next out = Ok (opaque im))
  <-> (forall x y, (x < w)%N -> (y < h)%N -> In (x, y) (scan w h)).
Proof.
  intros Hs Hw Hh Hb Hl Hst. rewrite <- (covers_iff (scan w h) w h Hs Hw Hh Hb).
  assert (D : forall im fuel, img_ok im -> im_w im = w -> im_h im = h -> (11 * length (scan w h) < fuel)%nat ->
     exists out, run_vec (hilbert_encode scan fuel m im) = Ok out /\ forall s', yields list_next out out s' ->
     hilbert_decode scan stack m list_next out = Ok (only_at (scan w h) im)).
  { intros im fuel Hi <- <- Hf. destruct m as [d|].
    - destruct (rle_exact_codec scan im fuel stack d Hi Hs Hl ltac:(lia)) as (runs & _ & E & D & _). eexists. split; [exact E|].
      intros s' Hy. exact (D _ _ _ _ Hy).
    - destruct (hzip_codec scan im fuel stack Hi Hs ltac:(lia) Hst) as (syms & _ & E & D & _). eexists. split; [exact E|].
      intros s' Hy. exact (D _ _ _ _ Hy). }
  split.
  - intros H im Hi Ew Eh. destruct (D im (S (11 * length (scan w h))) Hi Ew Eh ltac:(lia)) as (out & E & D').
    pose proof (yields_list out []) as Y. rewrite app_nil_r in Y.
    specialize (H im (S (11 * length (scan w h))) out Hi Ew Eh ltac:(lia) E). specialize (D' [] Y). congruence.
  - intros H im fuel out Hi Ew Eh Hf E. destruct (D im fuel Hi Ew Eh Hf) as (out' & E' & D').
    rewrite E in E'. apply ok_inj in E'. subst out'. pose proof (yields_list out []) as Y. rewrite app_nil_r in Y.
    rewrite (D' [] Y). now rewrite H.
Qed.

Lemma delta_lossless p scan ord H im : img_ok im -> visits_all (im_w im) (im_h im) (scan (im_w im) (im_h im)) -> im_px im <> [] ->
  ord_ok ord -> heap_ok suffix_cmp H ->
  exists out, run_vec (delta_encode p scan ord H im) = Ok out /\
  forall p2 S (next : nextf S N) s s', yields next s out s' ->
  exists f0, forall fuel, (f0 <= fuel)%nat -> delta_decode p2 scan fuel next s = Some (Ok (opaque im)).
Proof.
  intros Hi Hv Hne Ho HH. pose proof (visits_inside _ _ _ Hv) as Hs. pose proof (visits_length _ _ _ Hv) as HL.
  assert (Hn : scan (im_w im) (im_h im) <> []).
  { intros E. rewrite E in HL. destruct Hi as (_ & _ & _ & L & _). destruct (im_px im); [contradiction|]. cbn in *. lia. }
  destruct (delta_codec p scan ord H im Hi Hs Hn Ho HH) as (tree & hdr & pay & _ & _ & _ & E & D & _). cbv zeta in *.
  eexists. split; [exact E|]. intros p2 S next s s' Hy. exists (depth tree). intros fuel Hf. rewrite (D p2 S next s s' Hy fuel Hf).
  rewrite only_at_all; [reflexivity|exact Hi|]. intros x y Hx Hy'. now apply (proj2 Hv).
Qed.
Lemma delta_differences p scan im : img_ok im -> Forall (inside (im_w im) (im_h im)) (scan (im_w im) (im_h im)) ->
  exists l, linearize_rect scan im = Ok l /\ diff_stream p START (map to_rgb l) = Ok (diffs black (map to_rgb l))
  /\ Forall diff_ok (diffs black (map to_rgb l)).
Proof.
  intros Hi Hs. rewrite (linearize_ok _ _ Hi Hs). eexists. split; [reflexivity|]. rewrite map_map.
  change START with (signed_of black). pose proof (colours_ok im (scan (im_w im) (im_h im)) Hi) as Hc.
  split; [exact (diff_stream_ok p _ Hc black black_ok)|exact (diffs_ok _ Hc black black_ok)].
Qed.

Lemma approx_spec scan im fuel stack d : img_ok im -> visits_all (im_w im) (im_h im) (scan (im_w im) (im_h im)) ->
  feq d (f64_of_N 0) = false -> (length (scan (im_w im) (im_h im)) < fuel)%nat ->
  exists runs, let out := dims im ++ runs_bytes (coded mean_round runs) in
  greedy_runs (within d) (colours im (scan (im_w im) (im_h im))) runs
  /\ fold_right N.add 0%N (map fst (coded mean_round runs)) = (im_w im * im_h im)%N
  /\ run_vec (hilbert_encode scan fuel (RLE d) im) = Ok out
  /\ (forall S (next : nextf S N) s s', yields next s out s' ->
     exists im', hilbert_decode scan stack (RLE d) next s = Ok im' /\ im_w im' = im_w im /\ im_h im' = im_h im /\ img_ok im'
     /\ linearize_rect scan im' = Ok (map (fun c => (c, 255%N)) (expand (coded mean_round runs)))).
Proof.
  intros Hi Hv Hd Hf. destruct (rle_approx_codec scan im fuel stack d Hi Hv Hd Hf) as (runs & G & E & D). exists runs.
  split; [exact G|]. split; [|split; [exact E|exact D]].
  pose proof (visits_length _ _ _ Hv) as HL.
  assert (ET : fold_right N.add 0%N (map fst (coded mean_round runs)) = N.of_nat (length (concat runs))).
  { clear. unfold coded. rewrite map_map. cbn [fst]. induction runs as [|r runs IH]; [reflexivity|].
    cbn [map fold_right concat]. rewrite IH, app_length. lia. }
  rewrite ET. destruct G as [-> _]. unfold colours. rewrite map_length. lia.
Qed.
Lemma mean_is_half_away l : (1 <= length l)%nat -> let n := Z.of_nat (length l) in
  let '(r, g, b) := sum_rgb l in let '(r', g', b') := mean_round l in
  Forall (fun q => (2 * n * snd q - n <= 2 * fst q < 2 * n * snd q + n)%Z)
    [(Z.of_N r, Z.of_N r'); (Z.of_N g, Z.of_N g'); (Z.of_N b, Z.of_N b')].
Proof.
  intros HL. cbv zeta. unfold mean_round. destruct (sum_rgb l) as [[r g] b]. cbn [map3].
  set (n := N.of_nat (length l)). replace (Z.of_nat (length l)) with (Z.of_N n) by (unfold n; lia).
  assert (Hn : (1 <= n)%N) by (unfold n; lia). clearbody n.
  assert (H : forall s, (2 * Z.of_N n * Z.of_N ((2 * s + n) / (2 * n)) - Z.of_N n <= 2 * Z.of_N s < 2 * Z.of_N n * Z.of_N ((2 * s + n) / (2 * n)) + Z.of_N n)%Z).
  { intros s. pose proof (N.div_mod (2 * s + n) (2 * n) ltac:(lia)) as D. pose proof (N.mod_lt (2 * s + n) (2 * n) ltac:(lia)) as M.
    set (k := ((2 * s + n) / (2 * n))%N) in *. set (m := ((2 * s + n) mod (2 * n))%N) in *. nia. }
  repeat constructor; cbn [fst snd]; apply H.
Qed.
(** The sequence written for a NaN or negative distance, and for an infinite one *)
Lemma approx_extreme l runs d : Forall rgb_ok l -> greedy_runs (within d) l runs ->
  (d = B754_nan \/ flt d (f64_of_N 0) = true -> coded mean_round runs = map (fun c => (1%N, c)) l)
  /\ (d = B754_infinity false -> forall before r after, runs = before ++ r :: after -> after <> [] -> length r = 255%nat).
Proof.
  intros HL G. split.
  - intros Hd. destruct (singleton_runs d l runs HL Hd G) as [-> _]. unfold coded. rewrite map_map. apply map_ext_in.
    intros c Hc. cbn [length]. rewrite mean_single; [reflexivity|]. exact (proj1 (Forall_forall _ _) HL c Hc).
  - intros -> before r after E Hne. exact (full_runs l runs before r after HL G E Hne).
Qed.

(** ** Truncated data *)
Lemma hilbert_rle_runs scan im fuel d : img_ok im -> visits_all (im_w im) (im_h im) (scan (im_w im) (im_h im)) ->
  (N.to_nat (im_w im * im_h im) < fuel)%nat ->
  exists runs, run_vec (hilbert_encode scan fuel (RLE d) im) = Ok (dims im ++ runs_bytes runs)
  /\ Forall run_ok runs /\ length (expand runs) = length (scan (im_w im) (im_h im)).
Proof.
  intros Hi Hv Hf. pose proof (visits_inside _ _ _ Hv) as Hs. pose proof (visits_length _ _ _ Hv) as HL. set (ps := scan (im_w im) (im_h im)) in *.
  assert (Lc : length (colours im ps) = length ps) by apply map_length. destruct (feq d (f64_of_N 0)) eqn:Hd.
  - destruct (exact_coded (colours im ps) (colours_ok _ _ Hi)) as (runs & G & Y & R & L & X). exists (coded (hd black) runs).
    split; [|split; [exact R|now rewrite (expand_all _ _ G X)]].
    apply rle_encode_out; [exact Hi|exact Hs|now rewrite Hd|exact R|]. unfold coded. rewrite map_length. lia.
  - destruct (approx_runs d (colours im ps) (colours_ok _ _ Hi)) as (runs & G & Y & R). exists (coded mean_round runs).
    split; [|split; [exact R|rewrite coded_total; destruct G as [-> _]; exact Lc]].
    apply rle_encode_out; [exact Hi|exact Hs|now rewrite Hd|exact R|]. apply runs_count in G. unfold coded. rewrite map_length. lia.
Qed.
Lemma expand_firstn {T} k (runs : list (N * T)) : expand (firstn k runs) = firstn (length (expand (firstn k runs))) (expand runs).
Proof.
  pose proof (firstn_skipn k runs) as E. apply (f_equal expand) in E. rewrite expand_app in E. rewrite <- E at 1. now rewrite firstn_exact.
Qed.
Lemma painted_img w h ps cs : u32_ok w -> u32_ok h -> (3 * w * h < 2 ^ 63)%N -> Forall rgb_ok cs ->
  img_ok (from_rgb w h (painted w ps cs (repeat black (N.to_nat (w * h))))).
Proof.
  intros Hw Hh Hb HC. unfold img_ok, from_rgb. cbn [im_w im_h im_px]. split; [exact Hw|]. split; [exact Hh|]. split; [exact Hb|].
  rewrite map_length, painted_length, repeat_length, N2Nat.id. split; [reflexivity|].
  apply Forall_map. apply (@Forall_impl _ rgb_ok); [intros c Hc; split; [exact Hc|reflexivity]|].
  apply painted_forall; [exact HC|apply Forall_forall; intros c Hc; apply repeat_spec in Hc; subst; apply black_ok].
Qed.
Lemma hilbert_rle_cut scan im fuel stack d : img_ok im -> visits_all (im_w im) (im_h im) (scan (im_w im) (im_h im)) ->
  (N.to_nat (im_w im * im_h im) < fuel)%nat ->
  exists out runs full, run_vec (hilbert_encode scan fuel (RLE d) im) = Ok out /\ out = dims im ++ runs_bytes runs
  /\ im_w full = im_w im /\ im_h full = im_h im
  /\ (forall S (next : nextf S N) s s', yields next s out s' -> hilbert_decode scan stack (RLE d) next s = Ok full)
  /\ forall S (next : nextf S N) s p, strict_prefix p out -> yields_all next s p ->
     hilbert_decode scan stack (RLE d) next s =
     if (length p <? 8)%nat then Err
     else if ((length p - 8) mod 12 =? 0)%nat
          then Ok (only_at (firstn (length (expand (firstn ((length p - 8) / 12) runs))) (scan (im_w im) (im_h im))) full)
          else Panic.
Proof.
  intros Hi Hv Hf. destruct (hilbert_rle_runs scan im fuel d Hi Hv Hf) as (runs & E & R & L). pose proof (visits_inside _ _ _ Hv) as Hs.
  set (ps := scan (im_w im) (im_h im)) in *.
  exists (dims im ++ runs_bytes runs), runs, (from_rgb (im_w im) (im_h im) (painted (im_w im) ps (expand runs) (blank im))).
  split; [exact E|]. split; [reflexivity|]. split; [reflexivity|]. split; [reflexivity|]. split.
  - intros S next s s' Hy. exact (rle_decode_out scan stack d im runs Hi Hs R L S next s s' Hy).
  - intros S next s p Hp Hy. rewrite (rle_decode_cut scan stack d im runs p Hi Hs R L Hp S next s Hy). fold ps.
    destruct (length p <? 8)%nat; [reflexivity|]. destruct (_ =? 0)%nat; [|reflexivity]. f_equal.
    set (D := from_rgb (im_w im) (im_h im) (painted (im_w im) ps (expand runs) (blank im))).
    assert (HD : img_ok D).
    { destruct Hi as (Hw & Hh & Hb & _). apply painted_img; try assumption. unfold expand. apply Forall_concat, Forall_map.
      eapply Forall_impl; [|exact R]. intros [n c] [_ Hc]. apply Forall_forall. intros z Hz. cbn [fst snd] in *. apply repeat_spec in Hz. now subst. }
    assert (EC : colours D ps = expand runs).
    { pose proof (painted_read (im_w im) (im_h im) ps (expand runs) scan Hv eq_refl L) as P. fold (blank im) in P. fold D in P.
      rewrite (linearize_ok scan D HD Hs) in P. apply ok_inj in P. apply (f_equal (map to_rgb)) in P. rewrite !map_map in P.
      unfold colours. change (scan (im_w D) (im_h D)) with ps in P. rewrite P. apply map_id. }
    set (k := ((length p - 8) / 12)%nat). set (n := length (expand (firstn k runs))).
    assert (EF : expand (firstn k runs) = firstn n (expand runs)) by apply expand_firstn.
    rewrite EF, <- EC. exact (painted_only_at D ps n HD Hs).
Qed.
Lemma hilbert_zip_cut scan im fuel stack : img_ok im -> visits_all (im_w im) (im_h im) (scan (im_w im) (im_h im)) ->
  (11 * N.to_nat (im_w im * im_h im) < fuel)%nat -> (2 <= stack)%nat ->
  exists out syms, run_vec (hilbert_encode scan fuel MZip im) = Ok out /\ out = dims im ++ words syms
  /\ forall S (next : nextf S N) s p, strict_prefix p out -> yields_all next s p ->
     exists l, expands initial_dict (firstn (2 * ((length p - 8) / 4)) syms) l Finished /\
     hilbert_decode scan stack MZip next s =
     if (length p <? 8)%nat then Err
     else if ((length p - 8) mod 4 <? 2)%nat
          then Ok (only_at (firstn (length l / 11) (scan (im_w im) (im_h im))) im)
          else Panic.
Proof.
  intros Hi Hv Hf Hst. pose proof (visits_inside _ _ _ Hv) as Hs. pose proof (visits_length _ _ _ Hv) as HL.
  destruct (hzip_codec scan im fuel stack Hi Hs ltac:(lia) Hst) as (syms & _ & E & _ & C). exists (dims im ++ words syms), syms. auto.
Qed.
Lemma delta_cut p scan ord H im : img_ok im -> visits_all (im_w im) (im_h im) (scan (im_w im) (im_h im)) -> im_px im <> [] ->
  ord_ok ord -> heap_ok suffix_cmp H ->
  exists out tree hdr pay code, run_vec (delta_encode p scan ord H im) = Ok out /\ out = dims im ++ hdr ++ pay
  /\ trie_format (format sc_ty) tree = Some hdr
  /\ (forall d, In d (diffs black (colours im (scan (im_w im) (im_h im)))) -> path tree (code d) d)
  /\ forall p2 S (next : nextf S N) s q, strict_prefix q out -> yields_all next s q ->
     exists f0, forall fuel, (f0 <= fuel)%nat ->
     let ps := scan (im_w im) (im_h im) in let ds := diffs black (colours im ps) in
     if (length q <? 8)%nat then delta_decode p2 scan fuel next s = Some Err
     else if (length q <? 8 + length hdr)%nat then delta_decode p2 scan fuel next s = Some Panic
     else exists n, (n < length ps)%nat
          /\ (total_bits (firstn n ds) code <= 8 * N.of_nat (length q - 8 - length hdr) < total_bits (firstn (n + 1) ds) code)%N
          /\ delta_decode p2 scan fuel next s = Some (Ok (only_at (firstn n ps) im)).
Proof.
  intros Hi Hv Hne Ho HH. pose proof (visits_inside _ _ _ Hv) as Hs. pose proof (visits_length _ _ _ Hv) as HL.
  assert (Hn : scan (im_w im) (im_h im) <> []).
  { intros E. rewrite E in HL. destruct Hi as (_ & _ & _ & L & _). destruct (im_px im); [contradiction|]. cbn in *. lia. }
  destruct (delta_codec p scan ord H im Hi Hs Hn Ho HH) as (tree & hdr & pay & _ & P & F & E & _ & C). cbv zeta in *.
  exists (dims im ++ hdr ++ pay), tree, hdr, pay, (code_in sc_eqb tree). split; [exact E|]. split; [reflexivity|]. split; [exact F|].
  split; [exact P|]. intros p2 S next s q Hq Hy. exists (depth tree). intros fuel Hf. exact (C p2 S next s q Hq Hy fuel Hf).
Qed.

(** Cut inside the dimensions: every codec with an uncompressed header *)
Lemma dims_cut im p : img_ok im -> strict_prefix p (dims im) -> forall S (next : nextf S N) s, yields_all next s p ->
  (forall fuel, hufman_decode fuel next s = Some Err)
  /\ (forall scan stack m, hilbert_decode scan stack m next s = Err)
  /\ (forall pr scan fuel, delta_decode pr scan fuel next s = Some Err).
Proof.
  intros Hi Hp S next s Hy. pose proof (create_trunc _ p Hi Hp _ _ _ Hy) as E.
  destruct (create_image_buffer_standard next s) as [[[[w h] b]| |] s'] eqn:EC; cbn in E; try discriminate.
  split; [|split].
  - intros fuel. unfold hufman_decode. now rewrite EC.
  - intros scan stack m. destruct Hi as (Hw & Hh & _), Hy as [s1 [s2 [Y N]]]. unfold hilbert_decode.
    now rewrite (dims_trunc _ _ p Hw Hh Hp _ _ _ _ _ Y N).
  - intros pr scan fuel. unfold delta_decode. now rewrite EC.
Qed.

(** ** Alpha *)
Lemma from_rgb_opaque w h l : is_opaque (from_rgb w h l).
Proof. unfold is_opaque, from_rgb. cbn [im_px]. apply Forall_map, Forall_forall. reflexivity. Qed.
Lemma rebuild_opaque S (next : nextf S N) s im : rebuild_image next s = Ok im -> is_opaque im.
Proof.
  unfold rebuild_image. intros H.
  repeat match type of H with context [match ?x with _ => _ end] => destruct x; try discriminate end; injection H as <-; apply from_rgb_opaque.
Qed.
Lemma decoded_opaque S (next : nextf S N) s im :
  (forall fuel, hufman_decode fuel next s = Some (Ok im) -> is_opaque im)
  /\ (forall pr stack k, zip_decode pr stack k next s = Ok im -> is_opaque im)
  /\ (forall scan stack m, hilbert_decode scan stack m next s = Ok im -> is_opaque im)
  /\ (forall pr scan fuel, delta_decode pr scan fuel next s = Some (Ok im) -> is_opaque im).
Proof.
  split; [|split; [|split]].
  - intros fuel H. unfold hufman_decode in H.
    repeat match type of H with context [match ?x with _ => _ end] => destruct x; try discriminate end; injection H as <-; apply from_rgb_opaque.
  - intros pr stack [] H; unfold zip_decode in H; exact (rebuild_opaque _ _ _ _ H).
  - intros scan stack m H. unfold hilbert_decode, decode_any in H. destruct (deser (TPair TU32 TU32) S next s) as [[[w h]| |] s']; try discriminate.
    destruct m; destruct (buffer_new w h); try discriminate; cbn [res_bind] in H;
      (destruct (paint _ w h _ _ _); try discriminate); injection H as <-; apply from_rgb_opaque.
  - intros pr scan fuel H. unfold delta_decode in H. destruct (create_image_buffer_standard next s) as [[[[w h] b]| |] s']; try discriminate.
    destruct (huf_decode_all _ _ _ _) as [[[[t br]| |] s'']|]; try discriminate.
    destruct (paint _ w h _ _ _); try discriminate. injection H as <-. apply from_rgb_opaque.
Qed.
