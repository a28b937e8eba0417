(** * How large the compressed images are (C71). *)
From Verif Require Import Base Ser SerSpec SerProofs Bit BitSpec BitProofs Utils UtilsProofs Huf HufSpec HufProofs HufTop
  Dict DictSpec DictProofs DictEnc Back BackSpec BackDec Img Float HilbertC CodecSpec CodecBytes CodecZip CodecHilbert CodecTop CodecApprox CodecFinal.
From Coq Require Import ZifyBool ZifyNat ZifyN.

(** ** Fixed-length codes *)
Fixpoint index_in {A} (eqb : A -> A -> bool) (x : A) (l : list A) : nat :=
  match l with [] => 0 | y :: l => if eqb x y then 0 else S (index_in eqb x l) end.
Lemma index_lt {A} (eqb : A -> A -> bool) x l : eqb_ok eqb -> In x l -> index_in eqb x l < length l.
Proof.
  intros He. induction l as [|y l IH]; [intros []|]. intros H. cbn. destruct (eqb x y) eqn:E; [lia|].
  destruct H as [->|H]; [rewrite (proj2 (He x x) eq_refl) in E; discriminate|]. specialize (IH H). lia.
Qed.
Lemma index_inj {A} (eqb : A -> A -> bool) x y l : eqb_ok eqb -> In x l -> In y l -> index_in eqb x l = index_in eqb y l -> x = y.
Proof.
  intros He. induction l as [|z l IH]; [intros []|]. intros Hx Hy. cbn.
  destruct (eqb x z) eqn:Ex, (eqb y z) eqn:Ey; try discriminate.
  - apply He in Ex, Ey. congruence.
  - intros E. injection E as E. apply IH; [| |exact E].
    + destruct Hx as [->|Hx]; [rewrite (proj2 (He x x) eq_refl) in Ex; discriminate|exact Hx].
    + destruct Hy as [->|Hy]; [rewrite (proj2 (He y y) eq_refl) in Ey; discriminate|exact Hy].
Qed.
Definition bits_of (j n : nat) : list bool := map (fun i => N.testbit (N.of_nat n) (N.of_nat i)) (seq 0 j).
Lemma bits_of_inj j a b : (N.of_nat a < 2 ^ N.of_nat j)%N -> (N.of_nat b < 2 ^ N.of_nat j)%N -> bits_of j a = bits_of j b -> a = b.
Proof.
  intros Ha Hb E. apply Nat2N.inj, N.bits_inj. intros i. destruct (N.ltb_spec i (N.of_nat j)) as [H|H].
  - assert (Q : nth_error (bits_of j a) (N.to_nat i) = nth_error (bits_of j b) (N.to_nat i)) by now rewrite E.
    unfold bits_of in Q. rewrite !nth_error_map in Q.
    assert (S : nth_error (seq 0 j) (N.to_nat i) = Some (N.to_nat i)).
    { rewrite (nth_error_nth' _ 0) by (rewrite seq_length; lia). f_equal. rewrite seq_nth by lia. reflexivity. }
    rewrite S in Q. cbn in Q. rewrite N2Nat.id in Q. injection Q as Q. exact Q.
  - assert (F : forall n, (n < 2 ^ N.of_nat j)%N -> N.testbit n i = false).
    { intros n Hn. destruct (N.eq_dec n 0) as [->|Hz]; [apply N.bits_0|]. apply N.bits_above_log2.
      apply N.lt_le_trans with (N.of_nat j); [|exact H]. apply N.log2_lt_pow2; lia. }
    now rewrite !F.
Qed.
Lemma prefix_same_len {A} (a b : list A) : prefix a b -> length a = length b -> a = b.
Proof.
  intros [r ->] H. rewrite app_length in H. destruct r; [now rewrite app_nil_r|cbn in H; lia].
Qed.
Lemma fixed_code {A} (eqb : A -> A -> bool) (cs : list A) j : eqb_ok eqb -> (N.of_nat (length cs) <= 2 ^ N.of_nat j)%N ->
  exists c, (forall x, length (c x) = j) /\ prefix_free cs c.
Proof.
  intros He Hj. exists (fun x => bits_of j (index_in eqb x cs)). assert (L : forall n, length (bits_of j n) = j).
  { intros n. unfold bits_of. now rewrite map_length, seq_length. }
  split; [intros x; apply L|]. intros x y Hx Hy Hp. apply prefix_same_len in Hp; [|now rewrite !L].
  pose proof (index_lt eqb x cs He Hx). pose proof (index_lt eqb y cs He Hy).
  apply (index_inj eqb x y cs He Hx Hy). apply bits_of_inj with (j := j); [lia|lia|exact Hp].
Qed.
Lemma total_const {A} (items : list A) c j : (forall x, In x items -> length (c x) = j) ->
  total_bits items c = (N.of_nat j * N.of_nat (length items))%N.
Proof.
  unfold total_bits. induction items as [|x l IH]; intros H; [cbn; lia|]. cbn [map fold_right length].
  rewrite IH by (intros y Hy; apply H; now right). rewrite (H x) by now left. lia.
Qed.

(** ** Huffman coding with symbols of one size *)
Lemma huf_bytes t (eqb : val t -> val t -> bool) ord (H : heap (suffix (val t))) m items cs :
  eqb_ok eqb -> ord_ok ord -> heap_ok suffix_cmp H -> items <> [] -> Forall (encodable t) items ->
  (forall x, In x items -> ser_len t x = m) -> NoDup cs -> (forall c, In c cs <-> In c items) ->
  exists tree pay lastb hdr B, enc_run eqb (wf t) (format t) (ser t) ord H items tree pay lastb
  /\ trie_format (format t) tree = Some hdr
  /\ N.of_nat (length (hdr ++ pay ++ lastb)) = (N.of_nat ((2 + m) * length cs - 1) + (B + 7) / 8)%N
  /\ (exists code, prefix_free items code /\ B = total_bits items code)
  /\ (forall c, prefix_free items c -> (B <= total_bits items c)%N)
  /\ (forall j, (N.of_nat (length cs) <= 2 ^ N.of_nat j)%N -> (B <= N.of_nat j * N.of_nat (length items))%N).
Proof.
  intros He Ho HH Hne HE Hm Hn Hc.
  destruct (@run_of_encodable t eqb He ord Ho H HH items Hne HE) as [tr [pay [lb [hdr [R Eh]]]]].
  destruct (@huf_size t eqb He ord Ho H HH items Hne HE) as (tr1 & code1 & out & T1 & Hl & Nl & P1 & E1 & L1).
  destruct (@huf_optimal t eqb He ord Ho H HH items Hne) as (tr2 & code2 & T2 & P2 & Opt).
  rewrite (er_tree R) in T1, T2. injection T1 as <-. injection T2 as <-.
  assert (Ec : total_bits items code2 = total_bits items code1).
  { unfold total_bits. f_equal. apply map_ext_in. intros x Hx. f_equal. f_equal. now apply (path_unique (t := tr) (v := x) Nl); [apply P2|apply P1]. }
  assert (Eo : out = hdr ++ pay ++ lb).
  { unfold run_vec in E1. rewrite (er_ok R Eh) in E1.
    pose proof (staged_vec hdr pay lb) as Q. unfold run_vec in Q. rewrite Q in E1. now apply ok_inj in E1. }
  assert (Ll : length (leaves tr) = length cs).
  { apply Permutation_length, NoDup_Permutation; [exact Nl|exact Hn|]. intros x. rewrite <- Hl. symmetry. apply Hc. }
  assert (Es : list_sum (map (ser_len t) (leaves tr)) = m * length cs).
  { rewrite <- Ll. assert (Q : forall x, In x (leaves tr) -> ser_len t x = m) by (intros x Hx; apply Hm, Hl, Hx).
    clear - Q. induction (leaves tr) as [|x l IH]; [cbn; lia|]. cbn [map list_sum length fold_right].
    change (fold_right Nat.add 0 (map (ser_len t) l)) with (list_sum (map (ser_len t) l)).
    rewrite IH by (intros y Hy; apply Q; now right). rewrite (Q x) by now left. lia. }
  exists tr, pay, lb, hdr, (total_bits items code1). split; [exact R|]. split; [exact Eh|].
  assert (O : forall c, prefix_free items c -> (total_bits items code1 <= total_bits items c)%N).
  { intros c Q. rewrite <- Ec. now apply Opt. }
  split; [|split; [|split; [exact O|]]].
  - rewrite <- Eo, L1, Es, Ll. assert (0 < length cs).
    { destruct items as [|x l]; [contradiction|]. pose proof (proj2 (Hc x) (or_introl eq_refl)) as I. destruct cs; [destruct I|cbn; lia]. }
    set (q := ((_ + 7) / 8)%N). clearbody q. lia.
  - exists code1. split; [|reflexivity]. intros x y Hx Hy [r E].
    exact (proj2 (path_prefix (P1 x Hx) (P1 y Hy) (ex_intro _ r E))).
  - intros j Hj. destruct (fixed_code eqb cs j He Hj) as [c [Lc Fc]].
    rewrite <- (total_const items c j) by (intros; apply Lc). apply O. intros x y Hx Hy. apply Fc; now apply Hc.
Qed.

Lemma huf_out_len im (x : list N) k q : N.of_nat (length x) = (N.of_nat k + q)%N -> N.of_nat (length (dims im ++ x)) = (8 + N.of_nat k + q)%N.
Proof. intros H. rewrite app_length, dims_length. lia. Qed.
Lemma hufman_size ord H im cs : img_ok im -> ord_ok ord -> heap_ok suffix_cmp H -> im_px im <> [] ->
  NoDup cs -> (forall c, In c cs <-> In c (map to_rgb (im_px im))) ->
  exists out B, run_vec (hufman_encode ord H im) = Ok out
  /\ N.of_nat (length out) = (7 + 13 * N.of_nat (length cs) + (B + 7) / 8)%N
  /\ (exists code, prefix_free cs code /\ B = total_bits (map to_rgb (im_px im)) code)
  /\ (forall code, prefix_free cs code -> (B <= total_bits (map to_rgb (im_px im)) code)%N)
  /\ (forall j, (N.of_nat (length cs) <= 2 ^ N.of_nat j)%N -> (B <= N.of_nat j * (im_w im * im_h im))%N).
Proof.
  intros Hi Ho HH Hne Hn Hc. pose proof Hi as (_ & _ & _ & L & _).
  assert (Hne2 : map to_rgb (im_px im) <> []) by (destruct (im_px im); [contradiction|discriminate]).
  assert (HE : Forall (encodable (TRgb TU8)) (map to_rgb (im_px im))).
  { apply Forall_forall. intros c Hx. split; [|exists (pixel_bytes c); apply pixel_format].
    apply rgb_wf. exact (proj1 (Forall_forall _ _) (img_rgb _ Hi) c Hx). }
  destruct (huf_bytes (TRgb TU8) rgb_eqb ord H 11 _ cs rgb_eqb_ok Ho HH Hne2 HE) as (tr & pay & lb & hdr & B & R & Eh & Sz & (code & Pf & Eb) & Opt & Fx); auto.
  { intros c _. unfold ser_len. rewrite pixel_format. now destruct c as [[? ?] ?]. }
  exists (dims im ++ hdr ++ pay ++ lb), B. split; [exact (hufman_out ord H im tr pay lb hdr Hi R Eh)|].
  split; [|split; [|split]].
  - rewrite (huf_out_len _ _ _ _ Sz). change (@length (val (TRgb TU8)) cs) with (length cs). assert (0 < length cs).
    { destruct (map to_rgb (im_px im)) as [|x l]; [contradiction|]. pose proof (proj2 (Hc x) (or_introl eq_refl)) as I. destruct cs; [destruct I|cbn; lia]. }
    set (q := ((_ + 7) / 8)%N). clearbody q. lia.
  - exists code. split; [|exact Eb]. intros x y Hx Hy. apply Pf; now apply Hc.
  - intros c Hp. apply Opt. intros x y Hx Hy. apply Hp; now apply Hc.
  - intros j Hj. rewrite <- L, <- (map_length to_rgb). now apply Fx.
Qed.

Lemma delta_size p scan ord H im cs : img_ok im -> Forall (inside (im_w im) (im_h im)) (scan (im_w im) (im_h im)) ->
  scan (im_w im) (im_h im) <> [] -> ord_ok ord -> heap_ok suffix_cmp H ->
  let ds := diffs black (colours im (scan (im_w im) (im_h im))) in
  NoDup cs -> (forall c, In c cs <-> In c ds) ->
  exists out B, run_vec (delta_encode p scan ord H im) = Ok out
  /\ N.of_nat (length out) = (7 + 8 * N.of_nat (length cs) + (B + 7) / 8)%N
  /\ (exists code, prefix_free cs code /\ B = total_bits ds code)
  /\ (forall code, prefix_free cs code -> (B <= total_bits ds code)%N)
  /\ (forall j, (N.of_nat (length cs) <= 2 ^ N.of_nat j)%N -> (B <= N.of_nat j * N.of_nat (length (scan (im_w im) (im_h im))))%N).
Proof.
  intros Hi Hs Hne Ho HH ds0 Hn Hc. unfold ds0 in *. clear ds0. pose proof Hi as (Hw & Hh & _). set (ps := scan (im_w im) (im_h im)) in *.
  pose proof (colours_ok im ps Hi) as Hcs. set (l := colours im ps) in *.
  assert (Lc : length l = length ps) by apply map_length.
  pose proof (diffs_ok l Hcs black black_ok) as Hd. set (ds := diffs black l) in *.
  assert (Ld : length ds = length l) by apply diffs_length.
  assert (Hnd : ds <> []) by (destruct ds; [destruct ps; [contradiction|cbn in *; lia]|discriminate]).
  assert (HE : Forall (encodable sc_ty) ds) by (eapply Forall_impl; [|exact Hd]; apply diff_encodable).
  destruct (huf_bytes sc_ty sc_eqb ord H 6 _ cs sc_eqb_ok Ho HH Hnd HE) as (tr & pay & lb & hdr & B & R & Eh & Sz & (code & Pf & Eb) & Opt & Fx); auto.
  { intros d Hin. pose proof (proj1 (Forall_forall _ _) Hd d Hin) as [Q _]. do 4 (destruct d as [|? d]; try discriminate Q). reflexivity. }
  exists (dims im ++ hdr ++ pay ++ lb), B. split; [|split; [|split; [|split]]].
  - unfold run_vec, delta_encode, io_bind. rewrite (dims_emits _ _ Hw Hh).
    unfold put, io_bind, write_all, vec_writer, io_lift. cbn [room written flush_fails].
    rewrite (linearize_ok _ _ Hi Hs), map_map. fold ps. fold (colours im ps). fold l.
    change START with (signed_of black). rewrite (diff_stream_ok p l Hcs black black_ok). fold ds.
    rewrite (er_ok R Eh). now apply vec_append.
  - rewrite (huf_out_len _ _ _ _ Sz). change (@length (val sc_ty) cs) with (length cs). assert (0 < length cs).
    { clear - Hc Hnd. destruct ds as [|x r]; [contradiction|]. pose proof (proj2 (Hc x) (or_introl eq_refl)) as I. destruct cs; [destruct I|cbn; lia]. }
    set (q := ((_ + 7) / 8)%N). clearbody q. lia.
  - exists code. split; [|exact Eb]. intros x y Hx Hy. apply Pf; now apply Hc.
  - intros c Hp. apply Opt. intros x y Hx Hy. apply Hp; now apply Hc.
  - intros j Hj. rewrite <- Lc, <- Ld. now apply Fx.
Qed.

(** ** Run-length coding *)
Definition run_len {T} (r : N * T) : nat := N.to_nat (fst r).
Lemma repeat_split {T} (x : T) n : forall p l, repeat x n ++ l = p -> forall k, k <= n -> firstn k p = repeat x k.
Proof.
  intros p l <- k Hk. rewrite firstn_app, repeat_length. replace (k - n) with 0 by lia. cbn. rewrite app_nil_r.
  replace n with (k + (n - k)) by lia. rewrite repeat_app, firstn_app, repeat_length, Nat.sub_diag. cbn.
  rewrite app_nil_r. rewrite <- (repeat_length x k) at 1. apply firstn_all.
Qed.
(** A run never followed by an equal run unless it is full, against any other way of cutting. *)
Definition maximal {T} (runs : list (N * T)) : Prop :=
  Forall (fun r => (1 <= fst r <= 255)%N) runs
  /\ forall before n x m y after, runs = before ++ (n, x) :: (m, y) :: after -> x = y -> n = 255%N.
Lemma maximal_tl {T} (r : N * T) runs : maximal (r :: runs) -> maximal runs.
Proof.
  intros [F A]. split; [now inversion F|]. intros b n x m y a E. apply (A (r :: b) n x m y a). now rewrite E.
Qed.
Lemma expand_cons {T} (r : N * T) runs : expand (r :: runs) = repeat (snd r) (N.to_nat (fst r)) ++ expand runs.
Proof. reflexivity. Qed.
Lemma maximal_least {T} (other : list (N * T)) : Forall (fun r => (fst r <= 255)%N) other ->
  forall runs p, maximal runs -> expand other = p ++ expand runs -> length runs <= length other.
Proof.
  induction other as [|[n' c'] other IH]; intros Hb runs p Hm E.
  - destruct runs as [|[n c] runs]; [cbn; lia|]. destruct Hm as [F _]. inversion F as [|? ? H1 _]; subst. cbn [fst] in H1.
    exfalso. apply (f_equal (@length T)) in E. rewrite expand_cons, !app_length, repeat_length in E. cbn in E. lia.
  - inversion Hb as [|? ? H1 H2]; subst. cbn [fst] in H1. rewrite expand_cons in E. cbn [fst snd] in E.
    destruct (Nat.le_gt_cases (N.to_nat n') (length p)) as [Hle|Hgt].
    + (* the first run of [other] ends inside [p] *)
      assert (Ep : p = repeat c' (N.to_nat n') ++ skipn (N.to_nat n') p).
      { rewrite <- (firstn_skipn (N.to_nat n') p) at 1. f_equal.
        pose proof (repeat_split c' _ _ _ E (N.to_nat n') (le_n _)) as Q. rewrite firstn_app in Q.
        replace (N.to_nat n' - length p) with 0 in Q by lia. cbn in Q. now rewrite app_nil_r in Q. }
      rewrite Ep, <- app_assoc in E. apply app_inv_head in E.
      cbn [length]. specialize (IH H2 runs _ Hm E). lia.
    + destruct runs as [|[n c] runs]; [cbn; lia|]. pose proof (maximal_tl _ _ Hm) as Hm2. destruct Hm as [F A].
      inversion F as [|? ? Hn _]; subst. cbn [fst] in Hn.
      rewrite expand_cons in E. cbn [fst snd] in E.
      set (j := N.to_nat n' - length p) in *.
      assert (Ej : repeat c' j ++ expand other = repeat c (N.to_nat n) ++ expand runs).
      { replace (N.to_nat n') with (length p + j) in E by lia. rewrite repeat_app, <- app_assoc in E.
        assert (Q : repeat c' (length p) = p).
        { pose proof (f_equal (firstn (length p)) E) as Q. rewrite firstn_exact in Q.
          rewrite <- (repeat_length c' (length p)) in Q at 1. rewrite firstn_exact in Q. exact Q. }
        rewrite <- Q in E at 2. now apply app_inv_head in E. }
      assert (Ec : c = c').
      { replace j with (S (j - 1)) in Ej by lia. replace (N.to_nat n) with (S (N.to_nat n - 1)) in Ej by lia. cbn in Ej. now injection Ej. }
      subst c'. assert (Hj : j <= N.to_nat n).
      { destruct (Nat.le_gt_cases j (N.to_nat n)) as [Q|Q]; [exact Q|]. exfalso.
        replace j with (N.to_nat n + S (j - N.to_nat n - 1)) in Ej by lia. rewrite repeat_app, <- app_assoc in Ej. apply app_inv_head in Ej.
        destruct runs as [|[m y] runs]; [discriminate Ej|].
        pose proof (Forall_inv (proj1 Hm2)) as Hy. cbn [fst] in Hy.
        assert (c = y).
        { rewrite expand_cons in Ej. cbn [fst snd] in Ej. replace (N.to_nat m) with (S (N.to_nat m - 1)) in Ej by lia. cbn in Ej. now injection Ej. }
        specialize (A [] n c m y runs eq_refl H). lia. }
      replace (N.to_nat n) with (j + (N.to_nat n - j)) in Ej by lia. rewrite repeat_app, <- app_assoc in Ej. apply app_inv_head in Ej.
      specialize (IH H2 runs _ Hm2 Ej). cbn [length]. lia.
Qed.

Lemma coded_maximal runs (l : list (rgb N)) : greedy_runs (joins_exact rgb_eqb) l runs -> maximal (coded (hd black) runs).
Proof.
  intros (E & F & J & B). split.
  - apply Forall_forall. intros r Hr. apply in_map_iff in Hr as [q [<- Hq]]. cbn [fst]. pose proof (proj1 (Forall_forall _ _) F q Hq) as Q. unfold rgb in *. lia.
  - intros b n x m y a Ec Exy. unfold coded in Ec. apply map_eq_app in Ec as (r1 & r2 & -> & _ & E2).
    destruct r2 as [|q [|q2 r2]]; try discriminate E2. cbn [map] in E2. injection E2 as E3 E4 E5 E6 E7.
    assert (Lq : 1 <= length q <= 255) by (apply (proj1 (Forall_forall _ _) F); apply in_or_app; right; now left).
    assert (Lq2 : 1 <= length q2 <= 255) by (apply (proj1 (Forall_forall _ _) F); apply in_or_app; right; right; now left).
    destruct q2 as [|x2 q2]; [cbn in Lq2; lia|]. destruct (B r1 q x2 q2 r2 eq_refl) as [Q|Q]; [transitivity (N.of_nat 255); [rewrite <- E3; f_equal; exact Q|reflexivity]|].
    exfalso. destruct q as [|x1 q]; [cbn in Lq; lia|]. cbn in Q, E4, E6. assert (x1 = x2) as -> by congruence.
    rewrite (proj2 (rgb_eqb_ok x2 x2) eq_refl) in Q. discriminate.
Qed.

Lemma rle_size scan im fuel d : img_ok im -> visits_all (im_w im) (im_h im) (scan (im_w im) (im_h im)) ->
  (N.to_nat (im_w im * im_h im) < fuel)%nat ->
  exists out k, run_vec (hilbert_encode scan fuel (RLE d) im) = Ok out
  /\ N.of_nat (length out) = (8 + 12 * k)%N /\ (im_w im * im_h im <= 255 * k)%N /\ (k <= im_w im * im_h im)%N.
Proof.
  intros Hi Hv Hf. destruct (hilbert_rle_runs scan im fuel d Hi Hv Hf) as (runs & E & R & L).
  exists (dims im ++ runs_bytes runs), (N.of_nat (length runs)). split; [exact E|].
  rewrite app_length, dims_length, runs_bytes_length. rewrite (visits_length _ _ _ Hv) in L.
  split; [lia|]. pose proof (expand_length _ R) as Q. assert (Q2 : length (expand runs) <= 255 * length runs).
  { clear - R. induction runs as [|[n c] runs IH]; [cbn; lia|]. inversion R as [|? ? [H1 _] H2]; subst. cbn [fst] in H1.
    rewrite expand_cons, app_length, repeat_length. cbn [fst length]. specialize (IH H2). lia. }
  lia.
Qed.
Lemma rle_least scan im fuel d other : img_ok im -> Forall (inside (im_w im) (im_h im)) (scan (im_w im) (im_h im)) ->
  feq d (f64_of_N 0) = true -> (length (scan (im_w im) (im_h im)) < fuel)%nat ->
  Forall (fun r => (fst r <= 255)%N) other -> expand other = colours im (scan (im_w im) (im_h im)) ->
  exists out, run_vec (hilbert_encode scan fuel (RLE d) im) = Ok out /\ length out <= length (dims im ++ runs_bytes other).
Proof.
  intros Hi Hs Hd Hf Ho Eo. set (ps := scan (im_w im) (im_h im)) in *.
  destruct (exact_coded (colours im ps) (colours_ok _ _ Hi)) as (runs & G & Y & R & L & X).
  pose proof (expand_all _ _ G X) as E. exists (dims im ++ runs_bytes (coded (hd black) runs)).
  assert (Lc : length (colours im ps) = length ps) by apply map_length. split.
  - apply rle_encode_out; [exact Hi|exact Hs|now rewrite Hd|exact R|]. unfold coded. rewrite map_length. unfold rgb in *. lia.
  - rewrite !app_length, !runs_bytes_length. pose proof (maximal_least other Ho _ [] (coded_maximal _ _ G)) as Q. cbn [app] in Q.
    rewrite Eo, E in Q. specialize (Q eq_refl). lia.
Qed.

(** ** Zip *)
Lemma agree_len a : forall b, agree a b <= length a.
Proof. induction a as [|x a IH]; intros [|y b]; cbn; try lia. destruct (x =? y)%N; [specialize (IH b)|]; lia. Qed.
Lemma literal_size lits : length (concat (map symbol_bytes (literal lits))) = match lits with [] => 0 | _ => 2 + length lits end.
Proof. destruct lits; [reflexivity|]. cbn [literal map concat symbol_bytes]. now rewrite app_nil_r, app_length. Qed.
Lemma parses_size R h lits rest syms : parses R h lits rest syms ->
  length (concat (map symbol_bytes syms)) <= length lits + length rest + 2.
Proof.
  intros P. induction P as [h lits rest len back syms (pos & _ & _ & E & H6 & _) _ IH|h lits rest syms _ Hg _ IH|h lits rest _ Hg].
  - rewrite map_app, concat_app, app_length, literal_size. cbn [map concat]. rewrite app_length.
    replace (length (symbol_bytes (LookBack len back))) with 4 by reflexivity.
    pose proof (agree_len rest (skipn (N.to_nat pos) h)) as Q. unfold match_at in E. rewrite skipn_length in IH. cbn [length] in IH.
    destruct lits; cbn [length]; lia.
  - rewrite app_length, firstn_length, skipn_length in IH. lia.
  - rewrite literal_size, <- app_length. destruct (lits ++ rest); cbn [length]; lia.
Qed.
Lemma literal_low lits : (4 * N.of_nat (length lits) <= 32767 * N.of_nat (length (concat (map symbol_bytes (literal lits)))))%N.
Proof. rewrite literal_size. destruct lits; [cbn; lia|]. cbn [length]. lia. Qed.
Lemma parses_low R h lits rest syms : parses R h lits rest syms -> Forall (fun s => (symbol_len s <= 32767)%N) syms ->
  (4 * (N.of_nat (length lits) + N.of_nat (length rest)) <= 32767 * N.of_nat (length (concat (map symbol_bytes syms))))%N.
Proof.
  intros P. induction P as [h lits rest len back syms (pos & _ & _ & E & H6 & _) _ IH|h lits rest syms _ Hg _ IH|h lits rest _ Hg]; intros F.
  - apply Forall_app in F as [_ F]. inversion F as [|? ? H1 H2]; subst. cbn [symbol_len] in H1. specialize (IH H2).
    rewrite map_app, concat_app, app_length. cbn [map concat]. rewrite app_length.
    change (length (symbol_bytes (LookBack (match_at h rest pos) back))) with 4.
    pose proof (literal_low lits) as Q. rewrite skipn_length in IH. cbn [length] in IH.
    pose proof (agree_len rest (skipn (N.to_nat pos) h)) as Q2. assert (Q3 : N.to_nat (match_at h rest pos) <= length rest) by (unfold match_at; lia).
    set (n := match_at h rest pos) in *. clearbody n. rewrite !Nat2N.inj_add. lia.
  - specialize (IH F). rewrite app_length, firstn_length, skipn_length in IH. lia.
  - pose proof (literal_low (lits ++ rest)) as Q. rewrite app_length in Q. lia.
Qed.

Lemma back_size T (next : nextf T N) s l pr caps fuel out : delivers next s l -> caps_ok caps -> (length l < fuel)%nat ->
  run_vec (zip_back_encode next pr caps fuel s) = Ok out ->
  length out <= length l + 2 /\ (4 * N.of_nat (length l) <= 32767 * N.of_nat (length out))%N.
Proof.
  intros Hd Hc Hf E. destruct (back_ok_inv _ next s l pr caps fuel out Hd Hc Hf E) as (syms & P & F & ->).
  pose proof (parses_low _ _ _ _ _ P F) as Q. apply parses_size in P. cbn [length] in P, Q. lia.
Qed.
Lemma zip_size pr caps im fuel k out : img_ok im -> caps_ok caps -> (length (zip_input im) < fuel)%nat ->
  run_vec (zip_encode pr caps fuel k im) = Ok out ->
  match k with
  | ZDict => (N.of_nat (length out) <= 18 + 22 * (im_w im * im_h im))%N /\ length out mod 4 = 0
  | ZBack => (N.of_nat (length out) <= 10 + 11 * (im_w im * im_h im))%N
  end.
Proof.
  intros Hi Hc Hf E. pose proof (zip_input_len _ Hi). destruct k.
  - rewrite zip_encode_dict in E.
    destruct (dict_size _ _ _ _ _ _ (zip_bytes_deliver _ Hi) (zip_input_u8 _ Hi) Hf E) as (p & L & _ & B).
    fold (zip_input im) in B. split; [lia|]. rewrite L, Nat.mul_comm. apply Nat.mod_mul. discriminate.
  - rewrite zip_encode_back in E. destruct (back_size _ _ _ _ pr caps fuel out (zip_bytes_deliver _ Hi) Hc Hf E) as [B _]. fold (zip_input im) in B. lia.
Qed.
Lemma hilbert_zip_size scan im fuel : img_ok im -> Forall (inside (im_w im) (im_h im)) (scan (im_w im) (im_h im)) ->
  (11 * length (scan (im_w im) (im_h im)) < fuel)%nat ->
  exists out p, run_vec (hilbert_encode scan fuel MZip im) = Ok out /\ length out = 8 + 4 * p
  /\ 2 * p <= 11 * length (scan (im_w im) (im_h im)) + 1.
Proof.
  intros Hi Hs Hf. pose proof Hi as (Hw & Hh & _). set (ps := scan (im_w im) (im_h im)) in *.
  pose proof (colours_ok im ps Hi) as Hc. set (bs := concat (map pixel_bytes (colours im ps))).
  assert (Lc : length (colours im ps) = length ps) by apply map_length.
  assert (Lb : length bs = 11 * length ps) by (unfold bs; rewrite pixels_len, Lc; reflexivity). rewrite <- Lb in Hf |- *.
  pose proof (pixels_u8 _ Hc) as H8. fold bs in H8. pose proof (pixels_deliver _ Hc) as Hd. fold bs in Hd.
  destruct (dict_encode_spec Hd H8 Hf) as [syms [Hg He]]. pose proof (emits_run_vec He) as Ev; cbv iota in Ev.
  destruct (dict_size _ _ _ _ _ _ Hd H8 Hf Ev) as (p & L & _ & B). exists (dims im ++ words syms), p. split; [|split; [|exact B]].
  - refine (emits_run_vec (r := Ok tt) _). unfold hilbert_encode. eapply emits_bind; [now apply dims_emits|].
    rewrite (linearize_ok _ _ Hi Hs). change (words syms) with ([] ++ words syms).
    eapply emits_bind; [apply emits_lift|]. rewrite map_map. exact He.
  - rewrite app_length, dims_length, L. reflexivity.
Qed.
Lemma alternating {T} (runs : list (N * T)) : Forall (fun r => (1 <= fst r)%N) runs ->
  (forall a x b, expand runs <> a ++ x :: x :: b) -> length runs = length (expand runs).
Proof.
  induction runs as [|[n c] runs IH]; intros F A; [reflexivity|]. inversion F as [|? ? H1 H2]; subst. cbn [fst] in H1.
  rewrite expand_cons in *. cbn [fst snd] in *. destruct (N.eq_dec n 1) as [->|Hn].
  - change (N.to_nat 1) with 1 in *. cbn [repeat app length] in *. f_equal. apply IH; [exact H2|]. intros a x b E. apply (A (c :: a) x b). now rewrite E.
  - exfalso. replace (N.to_nat n) with (S (S (N.to_nat n - 2))) in A by lia. cbn [repeat app] in A. now apply (A [] c (repeat c (N.to_nat n - 2) ++ expand runs)).
Qed.
Lemma rle_worst scan im fuel d : img_ok im -> visits_all (im_w im) (im_h im) (scan (im_w im) (im_h im)) ->
  feq d (f64_of_N 0) = true -> (length (scan (im_w im) (im_h im)) < fuel)%nat ->
  (forall a x b, colours im (scan (im_w im) (im_h im)) <> a ++ x :: x :: b) ->
  exists out, run_vec (hilbert_encode scan fuel (RLE d) im) = Ok out /\ N.of_nat (length out) = (8 + 12 * (im_w im * im_h im))%N.
Proof.
  intros Hi Hv Hd Hf A. pose proof (visits_inside _ _ _ Hv) as Hs. pose proof (visits_length _ _ _ Hv) as Lp. set (ps := scan (im_w im) (im_h im)) in *.
  destruct (exact_coded (colours im ps) (colours_ok _ _ Hi)) as (runs & G & Y & R & L & X).
  pose proof (expand_all _ _ G X) as E. exists (dims im ++ runs_bytes (coded (hd black) runs)).
  assert (Lc : length (colours im ps) = length ps) by apply map_length. split.
  - apply rle_encode_out; [exact Hi|exact Hs|now rewrite Hd|exact R|]. unfold coded. rewrite map_length. unfold rgb in *. lia.
  - rewrite app_length, runs_bytes_length, dims_length, alternating.
    + rewrite E, Lc. lia.
    + apply Forall_forall. intros r Hr. pose proof (proj1 (Forall_forall _ _) (proj1 (coded_maximal _ _ G)) r Hr) as Q. cbn in Q. lia.
    + rewrite E. exact A.
Qed.
