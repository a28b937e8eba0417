(** * Lemmas for hilbert and delta: traversals and run-length coding. *)
From Verif Require Import Base Ser SerSpec SerProofs Bit BitSpec BitProofs Utils UtilsProofs Huf HufSpec HufProofs HufTop
  Dict DictSpec DictProofs DictEnc Back BackSpec Img Float HilbertC CodecSpec CodecBytes CodecZip.
From Coq Require Import ZifyBool ZifyNat ZifyN.

(** ** Positions *)
Lemma upto_length n : length (upto n) = N.to_nat n.
Proof. unfold upto. now rewrite map_length, seq_length. Qed.
Lemma upto_nth n i : (i < n)%N -> nth_error (upto n) (N.to_nat i) = Some i.
Proof.
  intros H. unfold upto. rewrite nth_error_map, nth_error_nth' with (d := O) by (rewrite seq_length; lia).
  rewrite seq_nth by lia. cbn. f_equal. lia.
Qed.
Lemma flat_map_nth {A B} (f : A -> list B) m : forall l i j x, (forall a, length (f a) = m) ->
  nth_error l i = Some x -> (j < m)%nat -> nth_error (flat_map f l) (i * m + j) = nth_error (f x) j.
Proof.
  induction l as [|a l IH]; intros i j x Hm Hi Hj; [destruct i; discriminate|].
  cbn [flat_map]. destruct i as [|i]; cbn in Hi.
  - injection Hi as ->. cbn [Nat.mul Nat.add]. rewrite nth_error_app1; [reflexivity|]. now rewrite Hm.
  - rewrite nth_error_app2 by (rewrite Hm; lia). rewrite Hm.
    replace (S i * m + j - m)%nat with (i * m + j)%nat by lia. now apply IH.
Qed.
Lemma flat_map_len {A B} (f : A -> list B) m l : (forall a, length (f a) = m) -> length (flat_map f l) = (length l * m)%nat.
Proof. intros Hm. induction l as [|a l IH]; [reflexivity|]. cbn [flat_map length]. rewrite app_length, IH, Hm. lia. Qed.
Lemma row_major_length w h : length (row_major w h) = N.to_nat (w * h).
Proof.
  unfold row_major. rewrite flat_map_len with (m := N.to_nat w) by (intros a; now rewrite map_length, upto_length).
  rewrite upto_length. lia.
Qed.
Lemma px_index_lt w h x y : (x < w)%N -> (y < h)%N -> (px_index w x y < N.to_nat (w * h))%nat.
Proof. intros Hx Hy. unfold px_index. nia. Qed.
Lemma px_index_inj w x y x' y' : (x < w)%N -> (x' < w)%N -> px_index w x y = px_index w x' y' -> x = x' /\ y = y'.
Proof.
  intros Hx Hx' E. unfold px_index in E. apply N2Nat.inj in E.
  assert (Y : y = y').
  { destruct (N.lt_trichotomy y y') as [H|[H|H]]; [|exact H|]; exfalso; nia. }
  subst y'. split; [lia|reflexivity].
Qed.
Lemma row_major_nth w h x y : (x < w)%N -> (y < h)%N -> nth_error (row_major w h) (px_index w x y) = Some (x, y).
Proof.
  intros Hx Hy. unfold row_major, px_index. replace (N.to_nat (y * w + x)) with (N.to_nat y * N.to_nat w + N.to_nat x)%nat by lia.
  rewrite flat_map_nth with (m := N.to_nat w) (x := y).
  - rewrite nth_error_map, upto_nth by exact Hx. reflexivity.
  - intros a. now rewrite map_length, upto_length.
  - now apply upto_nth.
  - lia.
Qed.
Lemma index_split w h k : (k < N.to_nat (w * h))%nat -> exists x y, (x < w)%N /\ (y < h)%N /\ k = px_index w x y.
Proof.
  intros Hk. assert (w <> 0)%N by lia. exists (N.of_nat k mod w)%N, (N.of_nat k / w)%N.
  split; [apply N.mod_lt; lia|]. split; [apply N.div_lt_upper_bound; lia|].
  unfold px_index. pose proof (N.div_mod (N.of_nat k) w). lia.
Qed.
Lemma in_row_major w h x y : In (x, y) (row_major w h) <-> (x < w)%N /\ (y < h)%N.
Proof.
  split.
  - intros Hin. unfold row_major in Hin. apply in_flat_map in Hin as [y' [Hy Hin]]. apply in_map_iff in Hin as [x' [[= <- <-] Hx]].
    unfold upto in *. apply in_map_iff in Hx as [i [<- Hi%in_seq]]. apply in_map_iff in Hy as [j [<- Hj%in_seq]]. lia.
  - intros [Hx Hy]. eapply nth_error_In, row_major_nth; eassumption.
Qed.
Lemma row_major_visits w h : visits_all w h (row_major w h).
Proof.
  split; [|intros; apply in_row_major].
  apply NoDup_nth_error. intros i j Hi E. rewrite row_major_length in Hi.
  destruct (index_split w h i Hi) as (x & y & Hx & Hy & ->). rewrite row_major_nth in E by assumption.
  assert (Hj : (j < N.to_nat (w * h))%nat) by (rewrite <- row_major_length; apply nth_error_Some; congruence).
  destruct (index_split w h j Hj) as (x' & y' & Hx' & Hy' & ->). rewrite row_major_nth in E by assumption. congruence.
Qed.
Lemma visits_perm w h ps : visits_all w h ps -> Permutation ps (row_major w h).
Proof.
  intros [ND HI]. apply NoDup_Permutation; [exact ND|apply row_major_visits|].
  intros [x y]. rewrite in_row_major. apply HI.
Qed.
Lemma visits_length w h ps : visits_all w h ps -> length ps = N.to_nat (w * h).
Proof. intros H. rewrite (Permutation_length (visits_perm w h ps H)). apply row_major_length. Qed.
Lemma pos_eqb_ok a b : pos_eqb a b = true <-> a = b.
Proof. destruct a as [x y], b as [u v]. unfold pos_eqb. cbn. rewrite Bool.andb_true_iff, !N.eqb_eq. split; [intros [-> ->]; reflexivity|intros [= -> ->]; auto]. Qed.
Lemma existsb_pos p ps : existsb (pos_eqb p) ps = true <-> In p ps.
Proof.
  rewrite existsb_exists. split.
  - intros [q [Hq E]]. apply pos_eqb_ok in E. now subst.
  - intros Hin. exists p. split; [exact Hin|]. now apply pos_eqb_ok.
Qed.

(** ** Reading the pixels along a traversal *)
Lemma get_pixel_ok im p : img_ok im -> inside (im_w im) (im_h im) p -> get_pixel im p = Ok (pixel_at im p)
  /\ nth_error (im_px im) (px_index (im_w im) (fst p) (snd p)) = Some (pixel_at im p).
Proof.
  intros (_ & _ & _ & HL & _) [Hx Hy]. destruct p as [x y]. cbn [fst snd] in *.
  assert (E : nth_error (im_px im) (px_index (im_w im) x y) = Some (pixel_at im (x, y))).
  { unfold pixel_at. cbn [fst snd]. apply nth_error_nth'. pose proof (px_index_lt _ _ _ _ Hx Hy). lia. }
  split; [|exact E]. unfold get_pixel. rewrite E. apply N.ltb_lt in Hx, Hy. now rewrite Hx, Hy.
Qed.
Lemma mapM_ok {A B} (f : A -> res B) (g : A -> B) l : (forall x, In x l -> f x = Ok (g x)) -> res_mapM f l = Ok (map g l).
Proof.
  induction l as [|x l IH]; intros H; [reflexivity|]. cbn [res_mapM map]. rewrite (H x (or_introl eq_refl)). cbn [res_bind].
  rewrite IH; [reflexivity|]. intros y Hy. apply H. now right.
Qed.
Lemma get_pixels_ok im ps : img_ok im -> Forall (inside (im_w im) (im_h im)) ps -> res_mapM (get_pixel im) ps = Ok (map (pixel_at im) ps).
Proof. intros Hi Hp. apply mapM_ok. intros p Hin. apply get_pixel_ok; [exact Hi|]. exact (proj1 (Forall_forall _ _) Hp p Hin). Qed.
Lemma get_pixel_outside im p : ~ inside (im_w im) (im_h im) p -> get_pixel im p = Panic.
Proof.
  destruct p as [x y]. unfold inside, get_pixel. cbn. intros H.
  destruct (N.ltb_spec x (im_w im)), (N.ltb_spec y (im_h im)); try reflexivity. now destruct H.
Qed.
Lemma visits_inside w h ps : visits_all w h ps -> Forall (inside w h) ps.
Proof. intros [_ H]. apply Forall_forall. intros [x y] Hin. now apply H. Qed.
Lemma linearize_ok scan im : img_ok im -> Forall (inside (im_w im) (im_h im)) (scan (im_w im) (im_h im)) ->
  linearize_rect scan im = Ok (map (pixel_at im) (scan (im_w im) (im_h im))).
Proof. intros Hi Hv. now apply get_pixels_ok. Qed.
Lemma pixel_at_ok im p : img_ok im -> rgb_ok (to_rgb (pixel_at im p)).
Proof.
  intros (_ & _ & _ & _ & H). unfold pixel_at. destruct (nth_in_or_default (px_index (im_w im) (fst p) (snd p)) (im_px im) (black, 0%N)) as [Hn|Hn].
  - rewrite Forall_forall in H. apply (H _ Hn).
  - rewrite Hn. cbn. unfold u8_ok. lia.
Qed.
Lemma colours_ok im ps : img_ok im -> Forall rgb_ok (colours im ps).
Proof. intros Hi. apply Forall_map, Forall_forall. intros p _. now apply pixel_at_ok. Qed.

(** ** Painting along a traversal *)
Definition painted (w : N) (ps : list (N * N)) (cs : list (rgb N)) (buf : list (rgb N)) : list (rgb N) :=
  fold_left (fun b pc => set_nth b (px_index w (fst (fst pc)) (snd (fst pc))) (snd pc)) (combine ps cs) buf.
Lemma paint_yields {S} (nextc : nextf S (rgb N)) w h ps : forall cs s s' buf, Forall (inside w h) ps ->
  yields nextc s cs s' -> (length ps <= length cs)%nat ->
  paint nextc w h ps s buf = Ok (painted w ps cs buf).
Proof.
  induction ps as [|p ps IH]; intros cs s s' buf Hp Hy HL; [reflexivity|].
  destruct cs as [|c cs]; [cbn in HL; lia|]. apply yields_cons_inv in Hy as [s1 [E Hy]]. cbn [paint]. rewrite E.
  apply Forall_cons_iff in Hp as [[Hx Hyy] Hp]. destruct p as [x y]. cbn [fst snd] in *. unfold set_pixel.
  apply N.ltb_lt in Hx, Hyy. rewrite Hx, Hyy. cbn [andb res_bind].
  rewrite (IH cs s1 s' _ Hp Hy) by (cbn in HL; lia). reflexivity.
Qed.
Lemma paint_stops {S} (nextc : nextf S (rgb N)) w h ps : forall cs s buf r, Forall (inside w h) ps ->
  stops nextc s cs r -> (forall c, r <> Ok c) -> (length cs < length ps)%nat ->
  paint nextc w h ps s buf = match r with Panic => Panic | _ => Ok (painted w ps cs buf) end.
Proof.
  induction ps as [|p ps IH]; intros cs s buf r Hp [s1 [s2 [Hy Hn]]] Hr HL; [cbn in HL; lia|].
  destruct cs as [|c cs].
  - inversion Hy; subst. cbn [paint]. rewrite Hn. destruct r as [c| |]; [now destruct (Hr c)|reflexivity|reflexivity].
  - apply yields_cons_inv in Hy as [s3 [E Hy]]. cbn [paint]. rewrite E.
    apply Forall_cons_iff in Hp as [[Hx Hyy] Hp]. destruct p as [x y]. cbn [fst snd] in *. unfold set_pixel.
    apply N.ltb_lt in Hx, Hyy. rewrite Hx, Hyy. cbn [andb res_bind].
    rewrite (IH cs s3 _ r Hp) by (try exact Hr; try (exists s1, s2; auto); cbn in HL; lia). reflexivity.
Qed.
Lemma painted_length w ps : forall cs buf, length (painted w ps cs buf) = length buf.
Proof.
  induction ps as [|p ps IH]; intros cs buf; [reflexivity|]. destruct cs as [|c cs]; [reflexivity|].
  unfold painted in *. cbn [combine fold_left fst snd]. rewrite IH. apply set_nth_length.
Qed.
Lemma painted_nth w h ps (col : N * N -> rgb N) n : Forall (inside w h) ps ->
  forall buf x y, (x < w)%N -> (y < h)%N -> length buf = N.to_nat (w * h) ->
  nth_error (painted w ps (map col (firstn n ps)) buf) (px_index w x y) =
  if existsb (pos_eqb (x, y)) (firstn n ps) then Some (col (x, y)) else nth_error buf (px_index w x y).
Proof.
  intros Hp. revert n. induction Hp as [|[x0 y0] ps [Hx0 Hy0] Hp IH]; intros n buf x y Hx Hy HL; [now rewrite firstn_nil|].
  destruct n as [|n]; [reflexivity|]. cbn [fst snd] in *.
  unfold painted in *. cbn [firstn map combine fold_left existsb fst snd].
  rewrite IH; [|exact Hx|exact Hy|now rewrite set_nth_length].
  destruct (existsb (pos_eqb (x, y)) (firstn n ps)) eqn:E; [now rewrite Bool.orb_true_r|]. rewrite Bool.orb_false_r.
  assert (Hk : (px_index w x0 y0 < length buf)%nat) by (rewrite HL; now apply px_index_lt).
  rewrite nth_set_nth by exact Hk.
  destruct (pos_eqb (x, y) (x0, y0)) eqn:E2.
  - apply pos_eqb_ok in E2. injection E2 as -> ->. now rewrite Nat.eqb_refl.
  - destruct (Nat.eqb_spec (px_index w x y) (px_index w x0 y0)) as [E3|E3]; [|reflexivity].
    apply px_index_inj in E3 as [-> ->]; [|exact Hx|exact Hx0]. now rewrite (proj2 (pos_eqb_ok _ _) eq_refl) in E2.
Qed.

Lemma nth_ext {A} (a b : list A) : length a = length b -> (forall k, (k < length a)%nat -> nth_error a k = nth_error b k) -> a = b.
Proof.
  revert b. induction a as [|x a IH]; intros [|y b] HL H; try discriminate; [reflexivity|].
  f_equal.
  - specialize (H O ltac:(cbn; lia)). cbn in H. congruence.
  - apply IH; [cbn in HL; lia|]. intros k Hk. apply (H (S k)). cbn. lia.
Qed.
Lemma nth_combine {A B} (a : list A) : forall (b : list B) k x y, nth_error a k = Some x -> nth_error b k = Some y ->
  nth_error (combine a b) k = Some (x, y).
Proof.
  induction a as [|u a IH]; intros [|v b] [|k] x y Ha Hb; try discriminate; cbn in *; [congruence|]. now apply IH.
Qed.
Lemma nth_repeat' {A} (x : A) n k : (k < n)%nat -> nth_error (repeat x n) k = Some x.
Proof. revert k. induction n as [|n IH]; intros [|k] H; try lia; [reflexivity|]. cbn. apply IH. lia. Qed.

Lemma painted_only_at im ps n : img_ok im -> Forall (inside (im_w im) (im_h im)) ps ->
  from_rgb (im_w im) (im_h im) (painted (im_w im) ps (firstn n (colours im ps)) (repeat black (N.to_nat (im_w im * im_h im))))
  = only_at (firstn n ps) im.
Proof.
  intros Hi Hp. pose proof Hi as (_ & _ & _ & HL & _). unfold from_rgb, only_at. f_equal.
  set (w := im_w im) in *. set (h := im_h im) in *.
  assert (LB : length (repeat black (N.to_nat (w * h))) = N.to_nat (w * h)) by apply repeat_length.
  apply nth_ext.
  - rewrite !map_length, painted_length, combine_length, row_major_length, repeat_length. lia.
  - intros k Hk. rewrite map_length, painted_length, repeat_length in Hk.
    destruct (index_split w h k Hk) as (x & y & Hx & Hy & ->).
    unfold colours. rewrite firstn_map. rewrite !nth_error_map.
    rewrite (painted_nth w h ps (fun p => to_rgb (pixel_at im p)) n Hp _ x y Hx Hy LB).
    destruct (get_pixel_ok im (x, y) Hi (conj Hx Hy)) as [_ E].
    rewrite (nth_combine _ _ _ _ _ (row_major_nth w h x y Hx Hy) E). cbn [option_map fst snd].
    destruct (existsb (pos_eqb (x, y)) (firstn n ps)); [reflexivity|].
    rewrite nth_repeat' by exact Hk. reflexivity.
Qed.
Lemma only_at_all im ps : img_ok im -> (forall x y, (x < im_w im)%N -> (y < im_h im)%N -> In (x, y) ps) -> only_at ps im = opaque im.
Proof.
  intros Hi Hps. pose proof Hi as (_ & _ & _ & HL & _). unfold only_at, opaque. f_equal. apply nth_ext.
  - rewrite !map_length, combine_length, row_major_length. lia.
  - intros k Hk. rewrite map_length, combine_length, row_major_length in Hk.
    destruct (index_split (im_w im) (im_h im) k ltac:(lia)) as (x & y & Hx & Hy & ->).
    rewrite !nth_error_map. destruct (get_pixel_ok im (x, y) Hi (conj Hx Hy)) as [_ E]. cbn [fst snd] in E.
    rewrite (nth_combine _ _ _ _ _ (row_major_nth _ _ x y Hx Hy) E), E. cbn [option_map fst snd].
    rewrite (proj2 (existsb_pos _ _) (Hps x y Hx Hy)). reflexivity.
Qed.
Lemma painted_opaque im ps : img_ok im -> visits_all (im_w im) (im_h im) ps ->
  from_rgb (im_w im) (im_h im) (painted (im_w im) ps (colours im ps) (repeat black (N.to_nat (im_w im * im_h im)))) = opaque im.
Proof.
  intros Hi Hv. pose proof (painted_only_at im ps (length ps) Hi (visits_inside _ _ _ Hv)) as E.
  rewrite !firstn_all2 in E by (unfold colours; rewrite ?map_length; lia). rewrite E.
  apply only_at_all; [exact Hi|]. intros x y Hx Hy. apply Hv. auto.
Qed.

(** ** Run-length coding *)
Section Rle.
  Context {T : Type} (C : criteria T) (P : T -> Prop) (joins : list T -> T -> bool) (colour : list T -> T) (Acc : list T -> cr C -> Prop).
  Hypothesis Hstart : forall x c, P x -> Acc [x] (start_sequence C x c).
  Hypothesis Hacc : forall a x c, P x -> (length a < 255)%nat -> Acc a c ->
    exists c', accept C x c = Ok (joins a x, c') /\ Acc (if joins a x then a ++ [x] else a) c'.
  Hypothesis Hend : forall a c, Acc a c -> exists c', end_repetition C c = Ok (colour a, c').
  Definition pending (r : rle C) : list T := match rl_last r with Some x => x :: rl_iter r | None => rl_iter r end.

  Lemma loop_spec iter : forall a c, Acc a c -> (1 <= length a < 255)%nat -> Forall P iter ->
    exists ext r, rle_loop C iter c (N.of_nat (length a)) = Ok (N.of_nat (length (a ++ ext)), r)
      /\ Acc (a ++ ext) (rl_crit r) /\ iter = ext ++ pending r /\ (length (a ++ ext) <= 255)%nat
      /\ (forall u x v, ext = u ++ x :: v -> joins (a ++ u) x = true)
      /\ (length (a ++ ext) = 255%nat \/ match pending r with [] => True | x :: _ => joins (a ++ ext) x = false end).
  Proof using Hstart Hacc Hend.
    induction iter as [|x iter IH]; intros a c HA HL HP; cbn [rle_loop].
    - exists [], (mkRle [] c None). rewrite app_nil_r. cbn [rl_crit pending rl_last rl_iter app].
      repeat split; try assumption; try lia; try (now right). intros u x v E. destruct u; discriminate.
    - apply Forall_cons_iff in HP as [Px HP]. destruct (Hacc a x c Px ltac:(lia) HA) as [c' [E HA']]. rewrite E. cbn [res_bind].
      destruct (joins a x) eqn:EJ.
      + assert (L1 : (N.of_nat (length a) + 1 = N.of_nat (length (a ++ [x])))%N) by (rewrite app_length; cbn; lia).
        rewrite L1. assert (L2 : length (a ++ [x]) = S (length a)) by (rewrite app_length; cbn; lia).
        destruct (N.eqb_spec (N.of_nat (length (a ++ [x]))) 255) as [E5|E5].
        * exists [x], (mkRle iter c' None). cbn [rl_crit pending rl_last rl_iter app]. rewrite E5.
          repeat split; try assumption; try lia. intros u y v Eu. destruct u as [|z [|]]; try discriminate.
          injection Eu as <- <-. rewrite app_nil_r. exact EJ.
        * destruct (IH (a ++ [x]) c' HA' ltac:(lia) HP) as (ext & r & E1 & A1 & E2 & L3 & J1 & J2).
          exists (x :: ext), r. rewrite <- app_assoc in *. cbn [app] in *. rewrite E1.
          repeat split; try assumption; [now rewrite E2 at 1|].
          intros u y v Eu. destruct u as [|z u].
          -- injection Eu as <- <-. rewrite app_nil_r. exact EJ.
          -- cbn [app] in Eu. injection Eu as <- Eu. specialize (J1 u y v Eu). now rewrite <- app_assoc in J1.
      + exists [], (mkRle iter c' (Some x)). rewrite app_nil_r. cbn [rl_crit pending rl_last rl_iter app].
        repeat split; try assumption; try lia; try (now right). intros u y v Eu. destruct u; discriminate.
  Qed.

  Lemma rle_spec n : forall r, (length (pending r) <= n)%nat -> Forall P (pending r) ->
    exists runs, greedy_runs joins (pending r) runs /\ yields_all rle_next r (coded colour runs)
      /\ forall run, In run runs -> exists c, Acc run c.
  Proof using Hstart Hacc Hend.
    induction n as [|n IH]; intros r HL HP.
    - destruct r as [it c [x|]]; cbn [pending rl_last rl_iter] in *; [cbn in HL; lia|]. destruct it; [|cbn in HL; lia].
      exists []. split; [|split].
      + split; [reflexivity|]. split; [constructor|]. split; [intros ? ? ? ? []|]. intros b q x r' af E. destruct b; discriminate.
      + exists (mkRle [] c None), (mkRle [] c None). split; [constructor|reflexivity].
      + intros run [].
    - destruct (pending r) as [|x l] eqn:Ep.
      { destruct r as [it c [x|]]; cbn [pending rl_last rl_iter] in *; [discriminate|]. subst it.
        exists []. split; [|split].
        - split; [reflexivity|]. split; [constructor|]. split; [intros ? ? ? ? []|]. intros b q x r' af E. destruct b; discriminate.
        - exists (mkRle [] c None), (mkRle [] c None). split; [constructor|reflexivity].
        - intros run []. }
      apply Forall_cons_iff in HP as [Px HP].
      assert (Hst : Acc [x] (start_sequence C x (rl_crit r))) by now apply Hstart.
      destruct (loop_spec l [x] _ Hst ltac:(cbn; lia) HP) as (ext & r1 & E1 & A1 & E2 & L & J1 & J2). cbn [app] in *.
      destruct (Hend _ _ A1) as [c' E3].
      assert (En : rle_next r = (Ok (N.of_nat (length (x :: ext)), colour (x :: ext)), mkRle (rl_iter r1) c' (rl_last r1))).
      { unfold rle_next. destruct r as [it c la]. cbn [pending rl_last rl_iter rl_crit] in *.
        destruct la as [y|].
        - injection Ep as -> ->. change (N.of_nat (length [x])) with 1%N in E1. rewrite E1, E3. reflexivity.
        - destruct it as [|y it]; [discriminate|]. injection Ep as -> ->.
          change (N.of_nat (length [x])) with 1%N in E1. rewrite E1, E3. reflexivity. }
      set (r2 := mkRle (rl_iter r1) c' (rl_last r1)) in *.
      assert (Ep2 : pending r2 = pending r1) by reflexivity.
      destruct (IH r2) as (runs & (G1 & G2 & G3 & G4) & Y & GA).
      { rewrite Ep2. cbn in HL. rewrite E2, app_length in HL. lia. }
      { rewrite Ep2. rewrite E2 in HP. apply Forall_app in HP as [_ HP]. exact HP. }
      exists ((x :: ext) :: runs). split; [|split].
      + split; [cbn [concat]; rewrite G1, Ep2, E2; reflexivity|]. split; [constructor; [cbn in *; lia|exact G2]|]. split.
        * intros q a y b [<-|Hq] Eq Ha; [|eapply G3; eassumption].
          destruct a as [|z a]; [congruence|]. cbn [app] in Eq. injection Eq as <- Eq. exact (J1 a y b Eq).
        * intros be q y q' af Eq. destruct be as [|z be].
          -- cbn [app] in Eq. injection Eq as Eq1 Eq2. subst q. rewrite Ep2 in G1. rewrite Eq2 in G1. cbn [concat app] in G1.
             rewrite <- G1 in J2. exact J2.
          -- cbn [app] in Eq. injection Eq as _ Eq. exact (G4 be q y q' af Eq).
      + destruct Y as [s1 [s2 [Y1 Y2]]]. exists s1, s2. split; [|exact Y2]. econstructor; [exact En|exact Y1].
      + intros run [<-|Hr]; [eexists; exact A1|auto].
  Qed.
  Lemma rle_runs l c : Forall P l -> exists runs, greedy_runs joins l runs /\ yields_all rle_next (mkRle (C := C) l c None) (coded colour runs)
    /\ forall run, In run runs -> exists c, Acc run c.
  Proof using Hstart Hacc Hend. intros HP. exact (rle_spec (length l) (mkRle (C := C) l c None) (le_n _) HP). Qed.
End Rle.

Lemma runs_count {T} (joins : list T -> T -> bool) l runs : greedy_runs joins l runs -> (length runs <= length l)%nat.
Proof.
  intros (<- & H & _). induction H as [|r runs Hr H IH]; [cbn; lia|]. cbn [concat length]. rewrite app_length. lia.
Qed.

(** ** Exact runs *)
Lemma exact_runs {T} (eqb : T -> T -> bool) (d : T) l : (forall a b, eqb a b = true <-> a = b) ->
  exists runs, greedy_runs (joins_exact eqb) l runs /\ yields_all rle_next (rle_exact eqb l) (coded (fun r => hd d r) runs)
  /\ Forall (fun r => r = repeat (hd d r) (length r)) runs.
Proof.
  intros Heq.
  destruct (rle_runs (exact eqb) (fun _ => True) (joins_exact eqb) (fun r => hd d r)
             (fun a c => a <> [] /\ c = Some (hd d a))) with (l := l) (c := @None T) as (runs & G & Y & _).
  - intros x c _. split; [discriminate|reflexivity].
  - intros a x c _ _ [Hne ->]. destruct a as [|y a]; [congruence|]. cbn. eexists. split; [reflexivity|].
    destruct (eqb y x); split; try reflexivity; discriminate.
  - intros a c [Hne ->]. eexists. reflexivity.
  - apply Forall_forall. auto.
  - exists runs. split; [exact G|]. split; [exact Y|].
    destruct G as (_ & _ & G3 & _). apply Forall_forall. intros r Hr.
    destruct r as [|y r]; [reflexivity|]. cbn [hd length repeat]. f_equal.
    assert (F : Forall (eq y) r).
    { apply Forall_forall. intros z Hz. apply in_split in Hz as (u & v & ->).
      specialize (G3 (y :: u ++ z :: v) (y :: u) z v Hr eq_refl ltac:(discriminate)). cbn in G3. now apply Heq. }
    clear -F. induction F as [|z r <- F IH]; [reflexivity|]. cbn [length repeat]. now rewrite <- IH.
Qed.
Lemma expand_exact {T} (d : T) runs : Forall (fun r => r = repeat (hd d r) (length r)) runs ->
  expand (coded (fun r => hd d r) runs) = concat runs.
Proof.
  induction 1 as [|r runs Hr H IH]; [reflexivity|]. unfold expand, coded in *. cbn [map concat fst snd]. rewrite IH, Nat2N.id. now rewrite <- Hr.
Qed.

(** ** Writing and reading runs *)
Definition run_ok (r : N * rgb N) : Prop := (1 <= fst r <= 255)%N /\ rgb_ok (snd r).
Lemma rle_write_emits {C : criteria (rgb N)} (r : rle C) out fuel : yields_all rle_next r out -> Forall run_ok out -> (length out < fuel)%nat ->
  emits (rle_write (ser (TRgb TU8)) fuel r) (runs_bytes out) (Ok tt).
Proof.
  intros [s1 [s2 [Hy Hn]]]. revert fuel.
  induction Hy as [r|r [n c] r1 out r2 E Hy IH]; intros fuel HR HL; (destruct fuel as [|fuel]; [cbn in HL; lia|]); cbn [rle_write]; change (val (TRgb TU8)) with (rgb N).
  - rewrite Hn. apply emits_ret.
  - rewrite E. apply Forall_cons_iff in HR as [[Hc Hr] HR]. cbn [fst snd] in *.
    change (runs_bytes ((n, c) :: out)) with ([n] ++ (pixel_bytes c ++ runs_bytes out)).
    eapply emits_bind.
    + exact (so_ok (ser_ty_ok TU8) n ltac:(cbn; unfold u8_ok; lia) eq_refl).
    + eapply emits_bind; [now apply pixel_emits|]. apply IH; [exact Hn|exact HR|cbn in HL; lia].
Qed.
Lemma rd_repeat_yields {S} (next : nextf S N) s c : forall n m, (m = N.of_nat n)%N ->
  yields (rle_dec_next next) (mkRD s c m) (repeat c n) (mkRD s c 0).
Proof.
  induction n as [|n IH]; intros m ->; [constructor|]. cbn [repeat]. econstructor.
  - unfold rle_dec_next. cbn [rd_count rd_color rd_bytes]. destruct (N.eqb_spec (N.of_nat (Datatypes.S n)) 0); [lia|]. reflexivity.
  - apply IH. lia.
Qed.
Lemma rle_dec_yields {S} (next : nextf S N) runs : Forall run_ok runs -> forall s s' c, yields next s (runs_bytes runs) s' ->
  exists c', yields (rle_dec_next next) (mkRD s c 0) (expand runs) (mkRD s' c' 0).
Proof.
  induction 1 as [|[n c] runs [Hn Hc] HR IH]; intros s s' c0 Hy.
  - cbn in Hy. inversion Hy; subst. exists c0. constructor.
  - unfold runs_bytes in Hy. cbn [map concat run_bytes fst snd app] in *. apply yields_cons_inv in Hy as [s1 [E Hy]].
    apply yields_app_inv in Hy as [s2 [Hy1 Hy2]]. destruct (IH _ _ c Hy2) as [c' Y]. exists c'.
    unfold expand. cbn [map concat fst snd]. eapply yields_app; [|exact Y].
    destruct (N.to_nat n) as [|k] eqn:Ek; [lia|]. cbn [repeat]. econstructor; [|apply (rd_repeat_yields _ _ _ k (n - 1)); lia].
    unfold rle_dec_next. cbn [rd_count rd_color rd_bytes]. change (0 =? 0)%N with true. cbv iota. unfold deser_u8. rewrite E.
    destruct (N.ltb_spec 0 n); [|lia]. now rewrite (pixel_deser c Hc _ _ _ _ Hy1).
Qed.
Lemma runs_cut runs : forall p, strict_prefix p (runs_bytes runs) ->
  exists a x b q, runs = a ++ x :: b /\ p = runs_bytes a ++ q /\ strict_prefix q (run_bytes x).
Proof.
  unfold runs_bytes. induction runs as [|x runs IH]; intros p Hp; cbn [map concat] in Hp.
  - now apply strict_prefix_nil in Hp.
  - apply strict_prefix_app in Hp as [Hp|[p' [-> Hp]]].
    + exists [], x, runs, p. auto.
    + destruct (IH _ Hp) as (a & y & b & q & -> & -> & Hq). exists (x :: a), y, b, q. split; [reflexivity|].
      split; [cbn [map concat]; now rewrite app_assoc|exact Hq].
Qed.
Lemma runs_bytes_length a : length (runs_bytes a) = (length a * 12)%nat.
Proof.
  unfold runs_bytes. induction a as [|[n [[x y] z]] a IH]; [reflexivity|]. cbn [map concat length]. rewrite app_length, IH. reflexivity.
Qed.
Lemma rle_dec_stops {S} (next : nextf S N) runs p : Forall run_ok runs -> strict_prefix p (runs_bytes runs) ->
  forall s, yields_all next s p -> exists a x b, runs = a ++ x :: b /\ length a = (length p / 12)%nat
    /\ stops (rle_dec_next next) (rle_dec_new s) (expand a) (if (length p mod 12 =? 0)%nat then Err else Panic).
Proof.
  intros HR Hp s [e1 [e2 [Hy He]]]. destruct (runs_cut _ _ Hp) as (a & x & b & q & -> & -> & Hq). exists a, x, b. split; [reflexivity|].
  assert (Lq : (length q < 12)%nat) by (apply strict_prefix_len in Hq; destruct x as [n [[u v] w]]; exact Hq).
  rewrite app_length, runs_bytes_length.
  split; [rewrite Nat.div_add_l by lia; rewrite Nat.div_small by lia; lia|].
  rewrite Nat.add_comm, Nat.mod_add, Nat.mod_small by lia.
  apply Forall_app in HR as [HA HX]. apply Forall_inv in HX. destruct HX as [Hn Hc].
  apply yields_app_inv in Hy as [s1 [Hy1 Hy2]]. destruct (rle_dec_yields next a HA s s1 black Hy1) as [c Y].
  exists (mkRD s1 c 0). destruct x as [n c1]. cbn [run_bytes fst snd] in *.
  apply strict_prefix_cons in Hq as [->|[q' [-> Hq]]].
  - inversion Hy2; subst. eexists. split; [exact Y|]. unfold rle_dec_next. cbn [rd_count rd_color rd_bytes].
    change (0 =? 0)%N with true. cbv iota. unfold deser_u8. rewrite He. reflexivity.
  - apply yields_cons_inv in Hy2 as [s2 [E Hy2]]. eexists. split; [exact Y|]. unfold rle_dec_next. cbn [rd_count rd_color rd_bytes].
    change (0 =? 0)%N with true. cbv iota. unfold deser_u8. rewrite E. cbn [fst snd length] in *.
    destruct (N.ltb_spec 0 n); [|lia]. rewrite (pixel_trunc c1 q' Hc Hq _ _ _ _ _ Hy2 He). reflexivity.
Qed.
Lemma expand_length runs : Forall run_ok runs -> (length runs <= length (expand runs))%nat.
Proof.
  unfold expand. induction 1 as [|[n c] runs [Hn _] HR IH]; [cbn; lia|]. cbn [map concat length fst snd] in *. rewrite app_length, repeat_length. lia.
Qed.
Lemma expand_app {T} (a b : list (N * T)) : expand (a ++ b) = expand a ++ expand b.
Proof. unfold expand. now rewrite map_app, concat_app. Qed.
