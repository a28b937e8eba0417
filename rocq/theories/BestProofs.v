(** * Proofs: which colours are best for a group of pixels. *)
From Coq Require Import Permutation Lia ZArith Zify ZifyBool ZifyNat ZifyN.
From Verif Require Import Base Ser SerSpec Img Float HilbertC CodecSpec CodecBytes CodecHilbert CodecApprox CodecFinal Kmeans KmeansSpec ClusterC ClusterSpec ClusterTop ClusterColors SpecialProofs BestSpec.

(** ** Sums *)
Lemma zsum_app {A} (f : A -> Z) a b : zsum f (a ++ b) = (zsum f a + zsum f b)%Z.
Proof. induction a as [|x a IH]; cbn [zsum app fold_right]; [reflexivity|]. fold (zsum f (a ++ b)). fold (zsum f a). rewrite IH. lia. Qed.
Lemma zsum_cons {A} (f : A -> Z) x a : zsum f (x :: a) = (f x + zsum f a)%Z.
Proof. reflexivity. Qed.
Lemma zsum_ext {A} (f g : A -> Z) l : (forall x, In x l -> f x = g x) -> zsum f l = zsum g l.
Proof. induction l as [|x l IH]; intros H; [reflexivity|]. rewrite !zsum_cons, (H x (or_introl eq_refl)), IH; [reflexivity|]. intros y Hy. apply H. now right. Qed.
Lemma zsum_le {A} (f g : A -> Z) l : (forall x, In x l -> f x <= g x)%Z -> (zsum f l <= zsum g l)%Z.
Proof.
  induction l as [|x l IH]; intros H; [cbn; lia|]. rewrite !zsum_cons. pose proof (H x (or_introl eq_refl)).
  assert (zsum f l <= zsum g l)%Z by (apply IH; intros y Hy; apply H; now right). lia.
Qed.
Lemma zsum_perm {A} (f : A -> Z) a b : Permutation a b -> zsum f a = zsum f b.
Proof. induction 1; rewrite ?zsum_cons; try reflexivity; lia. Qed.
Lemma zsum_map {A B} (f : B -> Z) (g : A -> B) l : zsum f (map g l) = zsum (fun x => f (g x)) l.
Proof. induction l as [|x l IH]; [reflexivity|]. cbn [map]. now rewrite !zsum_cons, IH. Qed.
Lemma zsum_add {A} (f g : A -> Z) l : zsum (fun x => f x + g x)%Z l = (zsum f l + zsum g l)%Z.
Proof. induction l as [|x l IH]; [reflexivity|]. rewrite !zsum_cons, IH. lia. Qed.

(** ** One channel *)
(** Weighted values: the parabola around the mean *)
Lemma parabola {A} (w x : A -> Z) l a b :
  (zsum (fun q => w q * (x q - a) ^ 2) l - zsum (fun q => w q * (x q - b) ^ 2) l
   = (a - b) * (zsum w l * (a + b) - 2 * zsum (fun q => x q * w q) l))%Z.
Proof. induction l as [|q l IH]; [cbn; lia|]. rewrite !zsum_cons. nia. Qed.
Lemma rounded_best {A} (w x : A -> Z) l a b : (0 < zsum w l)%Z ->
  (2 * zsum w l * a - zsum w l <= 2 * zsum (fun q => x q * w q) l < 2 * zsum w l * a + zsum w l)%Z ->
  (zsum (fun q => w q * (x q - a) ^ 2) l <= zsum (fun q => w q * (x q - b) ^ 2) l)%Z.
Proof.
  intros Hw H. pose proof (parabola w x l a b) as P. set (W := zsum w l) in *. set (S := zsum (fun q => x q * w q)%Z l) in *.
  destruct (Z.eq_dec a b) as [->|N]; [lia|].
  assert ((a - b) * (W * (a + b) - 2 * S) <= 0)%Z; [|lia].
  destruct (Z.lt_ge_cases a b); [apply Z.mul_nonpos_nonneg; nia|apply Z.mul_nonneg_nonpos; nia].
Qed.
Lemma floor_near_best {A} (w x : A -> Z) l a b : (0 < zsum w l)%Z ->
  (a * zsum w l <= zsum (fun q => x q * w q) l < (a + 1) * zsum w l)%Z ->
  (zsum (fun q => w q * (x q - a) ^ 2) l < zsum (fun q => w q * (x q - b) ^ 2) l + zsum w l)%Z.
Proof.
  intros Hw H. pose proof (parabola w x l a b) as P. set (W := zsum w l) in *. set (S := zsum (fun q => x q * w q)%Z l) in *.
  assert ((a - b) * (W * (a + b) - 2 * S) < W)%Z; [|lia].
  destruct (Z.lt_trichotomy a b) as [L|[->|L]]; [|lia|].
  - remember (b - a)%Z as k. replace b with (a + k)%Z by lia. assert (1 <= k)%Z by lia. clear Heqk L P b.
    replace ((a - (a + k)) * (W * (a + (a + k)) - 2 * S))%Z with (k * (2 * (S - W * a)) - W * k * k)%Z by ring.
    assert (D : (2 * (S - W * a) < 2 * W)%Z) by lia. clear H.
    assert (k * (2 * (S - W * a)) <= k * (2 * W - 1))%Z by (apply Z.mul_le_mono_nonneg_l; lia).
    assert (0 <= W * ((k - 1) * (k - 1)))%Z by (apply Z.mul_nonneg_nonneg; [lia|apply Z.square_nonneg]). nia.
  - remember (a - b)%Z as k. assert (1 <= k)%Z by lia. replace b with (a - k)%Z by lia.
    replace (k * (W * (a + (a - k)) - 2 * S))%Z with (- (k * (2 * (S - W * a))) - W * k * k)%Z by ring.
    assert (0 <= k * (2 * (S - W * a)))%Z by (apply Z.mul_nonneg_nonneg; lia).
    assert (0 <= W * k * k)%Z by (rewrite <- Z.mul_assoc; apply Z.mul_nonneg_nonneg; [lia|apply Z.square_nonneg]). lia.
Qed.

(** ** Colours *)
Lemma total_zsum l : Z.of_N (total l) = zsum Z.of_N l.
Proof. induction l as [|x l IH]; [reflexivity|]. unfold total in *. cbn [fold_right]. rewrite zsum_cons. lia. Qed.
Lemma sq_dist_channels a b : sq_dist a b = zsum (fun f : rgb N -> N => (Z.of_N (f a) - Z.of_N (f b)) ^ 2)%Z channels.
Proof. destruct a as [[r g] u], b as [[r' g'] u']. unfold sq_dist, channels, red, green, blue. cbn [zsum fold_right fst snd]. lia. Qed.
Lemma zsum_const {A} (l : list A) : zsum (fun _ => 1%Z) l = Z.of_nat (length l).
Proof. induction l as [|x l IH]; [reflexivity|]. rewrite zsum_cons, IH. cbn [length]. lia. Qed.
Lemma spread_channels l c :
  spread l c = zsum (fun f : rgb N -> N => zsum (fun x => 1 * (Z.of_N (f x) - Z.of_N (f c)) ^ 2)%Z l) channels.
Proof.
  unfold spread. induction l as [|x l IH]; [reflexivity|]. rewrite zsum_cons, IH, sq_dist_channels.
  rewrite <- zsum_add. apply zsum_ext. intros f _. rewrite zsum_cons. lia.
Qed.
Lemma sum_channels l : forall f, In f channels -> f (sum_rgb l) = total (map f l).
Proof.
  intros f Hf. induction l as [|[[r g] u] l IH].
  - destruct Hf as [<-|[<-|[<-|[]]]]; reflexivity.
  - cbn [map]. unfold total in *. cbn [fold_right]. rewrite <- IH. unfold sum_rgb. cbn [fold_right]. fold (sum_rgb l).
    destruct (sum_rgb l) as [[sr sg] su]. destruct Hf as [<-|[<-|[<-|[]]]]; reflexivity.
Qed.
Lemma mean_round_best l c : l <> [] -> (spread l (mean_round l) <= spread l c)%Z.
Proof.
  intros Hl. assert (HL : (1 <= length l)%nat) by (destruct l; [congruence|cbn; lia]).
  rewrite !spread_channels. apply zsum_le. intros f Hf. pose proof (mean_is_half_away l HL) as M. cbv zeta in M.
  pose proof (sum_channels l f Hf) as S.
  apply rounded_best; [rewrite zsum_const; lia|]. rewrite zsum_const.
  replace (zsum (fun q => Z.of_N (f q) * 1)%Z l) with (Z.of_N (f (sum_rgb l)))
    by (rewrite S, total_zsum, zsum_map; apply zsum_ext; intros; lia).
  destruct (sum_rgb l) as [[r g] u], (mean_round l) as [[r' g'] u']. rewrite Forall_forall in M.
  destruct Hf as [<-|[<-|[<-|[]]]]; unfold red, green, blue in *; cbn [fst snd] in *.
  - apply (M (Z.of_N r, Z.of_N r')). now left.
  - apply (M (Z.of_N g, Z.of_N g')). right. now left.
  - apply (M (Z.of_N u, Z.of_N u')). right. right. now left.
Qed.
Lemma floor_spread l m c : l <> [] -> (forall f, In f channels -> floor_of (f m) (total (map f l)) (N.of_nat (length l))) ->
  (spread l m < spread l c + 3 * Z.of_nat (length l))%Z.
Proof.
  intros Hl Hm. assert (HL : (1 <= length l)%nat) by (destruct l; [congruence|cbn; lia]).
  rewrite !spread_channels.
  assert (H : forall f, In f channels -> (zsum (fun x => 1 * (Z.of_N (f x) - Z.of_N (f m)) ^ 2) l < zsum (fun x => 1 * (Z.of_N (f x) - Z.of_N (f c)) ^ 2) l + Z.of_nat (length l))%Z).
  { intros f Hf. rewrite <- zsum_const. apply floor_near_best; [rewrite zsum_const; lia|]. rewrite zsum_const.
    replace (zsum (fun q => Z.of_N (f q) * 1)%Z l) with (Z.of_N (total (map f l)))
      by (rewrite total_zsum, zsum_map; apply zsum_ext; intros; lia).
    specialize (Hm f Hf). unfold floor_of in Hm. nia. }
  pose proof (H red (or_introl eq_refl)). pose proof (H green (or_intror (or_introl eq_refl))). pose proof (H blue (or_intror (or_intror (or_introl eq_refl)))).
  unfold channels. rewrite !zsum_cons. cbn [zsum fold_right]. lia.
Qed.

(** ** Runs *)
Lemma repeat_snd {A B} (l : list A) (c : B) (f : A -> B -> Z) : zsum (fun q : A * B => f (fst q) (snd q)) (combine l (repeat c (length l))) = zsum (fun x => f x c) l.
Proof. induction l as [|x l IH]; [reflexivity|]. cbn [length repeat combine]. now rewrite !zsum_cons, IH. Qed.
Lemma combine_app2 {A B} (a a' : list A) (b b' : list B) : length a = length b -> combine (a ++ a') (b ++ b') = combine a b ++ combine a' b'.
Proof. revert b. induction a as [|x a IH]; intros [|y b] E; try discriminate; [reflexivity|]. cbn. f_equal. apply IH. now injection E. Qed.
Lemma runs_spread runs : forall cs, length cs = length runs ->
  zsum (fun q => sq_dist (fst q) (snd q)) (combine (concat runs) (concat (map (fun q : list (rgb N) * rgb N => repeat (snd q) (length (fst q))) (combine runs cs))))
  = zsum (fun q : list (rgb N) * rgb N => spread (fst q) (snd q)) (combine runs cs).
Proof.
  induction runs as [|r runs IH]; intros [|c cs] E; try discriminate; [reflexivity|].
  cbn [combine map concat fst snd]. rewrite combine_app2 by now rewrite repeat_length.
  rewrite zsum_app, IH by now injection E. rewrite zsum_cons. cbn [fst snd]. f_equal. apply repeat_snd.
Qed.
Lemma runs_best runs : Forall (fun r => r <> []) runs -> forall l, flat_on runs l ->
  (zsum (fun q => sq_dist (fst q) (snd q)) (combine (concat runs) (expand (coded mean_round runs)))
   <= zsum (fun q => sq_dist (fst q) (snd q)) (combine (concat runs) l))%Z.
Proof.
  intros Hr l (cs & HL & ->).
  assert (E : expand (coded mean_round runs) = concat (map (fun q : list (rgb N) * rgb N => repeat (snd q) (length (fst q))) (combine runs (map mean_round runs)))).
  { unfold expand, coded. rewrite map_map. f_equal. clear. induction runs as [|r runs IH]; [reflexivity|]. cbn. f_equal; [f_equal; lia|exact IH]. }
  rewrite E, !runs_spread by (rewrite ?map_length; congruence).
  clear E. revert cs HL. induction Hr as [|r runs Hr H IH]; intros [|c cs] HL; try discriminate HL; [cbn; lia|].
  cbn [map combine]. rewrite !zsum_cons. cbn [fst snd]. pose proof (mean_round_best r c Hr). specialize (IH cs ltac:(now injection HL)). lia.
Qed.
(** The error along a traversal *)
Lemma error_along x y ps : img_ok x -> img_ok y -> im_w y = im_w x -> im_h y = im_h x -> visits_all (im_w x) (im_h x) ps ->
  square_error x y = zsum (fun q => sq_dist (fst q) (snd q)) (combine (colours x ps) (colours y ps)).
Proof.
  intros Hx Hy Ew Eh Hv. unfold square_error.
  rewrite <- (row_major_pixels x Hx), <- (row_major_pixels y Hy), Ew, Eh.
  assert (C : forall qs (f : N * N -> rgba) g, zsum (fun q : rgba * rgba => sq_dist (to_rgb (fst q)) (to_rgb (snd q))) (combine (map f qs) (map g qs)) = zsum (fun p => sq_dist (to_rgb (f p)) (to_rgb (g p))) qs).
  { intros qs f g. induction qs as [|p qs IH]; [reflexivity|]. cbn [map combine]. now rewrite !zsum_cons, IH. }
  rewrite C. rewrite <- (zsum_perm _ _ _ (visits_perm _ _ _ Hv)).
  unfold colours. clear. induction ps as [|p ps IH]; [reflexivity|]. cbn [map combine]. now rewrite !zsum_cons, IH.
Qed.
Lemma approx_best scan im fuel stack d : img_ok im -> visits_all (im_w im) (im_h im) (scan (im_w im) (im_h im)) ->
  feq d (f64_of_N 0) = false -> (length (scan (im_w im) (im_h im)) < fuel)%nat ->
  exists runs out, let path := scan (im_w im) (im_h im) in
  out = dims im ++ runs_bytes (coded mean_round runs) /\ concat runs = colours im path /\ Forall (fun r => r <> []) runs
  /\ run_vec (hilbert_encode scan fuel (RLE d) im) = Ok out
  /\ forall S (next : nextf S N) s s', yields next s out s' ->
     exists im', hilbert_decode scan stack (RLE d) next s = Ok im' /\ im_w im' = im_w im /\ im_h im' = im_h im
     /\ flat_on runs (colours im' path)
     /\ forall im'', img_ok im'' -> im_w im'' = im_w im -> im_h im'' = im_h im -> flat_on runs (colours im'' path) ->
        (square_error im im' <= square_error im im'')%Z.
Proof.
  intros Hi Hv Hd Hf. destruct (approx_spec scan im fuel stack d Hi Hv Hd Hf) as (runs & G & _ & E & D).
  exists runs, (dims im ++ runs_bytes (coded mean_round runs)). cbv zeta. destruct G as (G1 & G2 & _).
  assert (Hr : Forall (fun r => r <> []) runs) by (eapply Forall_impl; [|exact G2]; intros r Hl ->; cbn in Hl; lia).
  split; [reflexivity|]. split; [exact G1|]. split; [exact Hr|]. split; [exact E|].
  intros S next s s' Hy. destruct (D S next s s' Hy) as (im' & D1 & D2 & D3 & D4 & D5). exists im'.
  split; [exact D1|]. split; [exact D2|]. split; [exact D3|].
  assert (C : colours im' (scan (im_w im) (im_h im)) = expand (coded mean_round runs)).
  { rewrite linearize_ok in D5 by (exact D4 || (rewrite D2, D3; now apply visits_inside)). rewrite D2, D3 in D5.
    assert (K : map (pixel_at im') (scan (im_w im) (im_h im)) = map (fun c => (c, 255%N)) (expand (coded mean_round runs))) by congruence.
    apply (f_equal (map to_rgb)) in K. rewrite !map_map in K. cbn [to_rgb fst] in K. rewrite map_id in K. exact K. }
  split.
  - exists (map mean_round runs). split; [apply map_length|]. rewrite C. unfold expand, coded. rewrite map_map. f_equal.
    clear. induction runs as [|r runs IH]; [reflexivity|]. cbn. f_equal; [f_equal; lia|exact IH].
  - intros im'' Hi'' Ew Eh Hfl. rewrite (error_along im im' _ Hi D4 D2 D3 Hv), (error_along im im'' _ Hi Hi'' Ew Eh Hv), C.
    rewrite <- G1. now apply runs_best.
Qed.

(** ** Clusters of colours *)
Lemma pick_one (y : rgb N) (f : rgb N -> Z) ds : NoDup ds -> In y ds -> zsum (fun c => if rgb_eqb y c then f c else 0%Z) ds = f y.
Proof.
  intros Hn. induction Hn as [|c ds Hc Hn IH]; intros Hin; [destruct Hin|]. rewrite zsum_cons. destruct Hin as [->|Hin].
  - rewrite (proj2 (rgb_eqb_ok y y) eq_refl).
    assert (Z0 : zsum (fun c => if rgb_eqb y c then f c else 0%Z) ds = 0%Z); [|lia].
    rewrite (zsum_ext _ (fun _ => 0%Z)); [clear; induction ds; [reflexivity|rewrite zsum_cons; lia]|].
    intros c Hcc. destruct (rgb_eqb y c) eqn:E; [|reflexivity]. apply rgb_eqb_ok in E as ->. contradiction.
  - rewrite IH by exact Hin. destruct (rgb_eqb y c) eqn:E; [|lia]. apply rgb_eqb_ok in E as ->. contradiction.
Qed.
Lemma by_groups (f : rgb N -> rgb N -> Z) ds (pairs : list (rgb N * rgb N)) : NoDup ds -> incl (map snd pairs) ds ->
  zsum (fun q => f (fst q) (snd q)) pairs
  = zsum (fun c => zsum (fun x => f x c) (map fst (filter (fun e : rgb N * rgb N => rgb_eqb (snd e) c) pairs))) ds.
Proof.
  intros Hn. induction pairs as [|[x y] pairs IH]; intros Hi.
  - cbn. clear. induction ds; [reflexivity|]. rewrite zsum_cons, <- IHds. reflexivity.
  - rewrite zsum_cons, IH by (intros c Hc; apply Hi; now right). cbn [fst snd].
    rewrite <- (pick_one y (fun c => f x c) ds Hn (Hi y (or_introl eq_refl))), <- zsum_add. apply zsum_ext. intros c _.
    cbn [filter snd]. destruct (rgb_eqb y c); cbn [map fst]; rewrite ?zsum_cons; lia.
Qed.
Lemma square_error_colours x y : square_error x y = zsum (fun q => sq_dist (fst q) (snd q)) (combine (map to_rgb (im_px x)) (map to_rgb (im_px y))).
Proof.
  unfold square_error. generalize (im_px y) as b. induction (im_px x) as [|p a IH]; intros [|q b]; try reflexivity.
  cbn [map combine]. now rewrite !zsum_cons, IH.
Qed.
Lemma averages_best im im' : averages im im' -> length (im_px im) = length (im_px im') -> im_px im <> [] -> forall g,
  (square_error im im' < square_error im (repaint g im') + 3 * Z.of_nat (length (im_px im)))%Z.
Proof.
  intros Ha HL Hne g. rewrite !square_error_colours. unfold repaint. cbn [im_px]. rewrite map_map. cbn [to_rgb fst].
  set (xs := map to_rgb (im_px im)). set (ys := map to_rgb (im_px im')).
  assert (HL' : length xs = length ys) by (unfold xs, ys; now rewrite !map_length).
  replace (map (fun x : rgba => g (fst x)) (im_px im')) with (map g ys) by (unfold ys; now rewrite map_map).
  set (ds := nodup (fun a b : rgb N => ltac:(destruct (rgb_eqb a b) eqn:E; [left; now apply rgb_eqb_ok|right; intros K; apply rgb_eqb_ok in K; congruence])) ys).
  assert (Hn : NoDup ds) by apply NoDup_nodup.
  set (pairs := combine xs ys).
  assert (Hin : incl (map snd pairs) ds).
  { intros c Hc. apply nodup_In. apply in_map_iff in Hc as ([x y] & <- & Hc). cbn. now apply in_combine_r in Hc. }
  assert (E2 : zsum (fun q => sq_dist (fst q) (snd q)) (combine xs (map g ys)) = zsum (fun q => sq_dist (fst q) (g (snd q))) pairs).
  { unfold pairs. clear. generalize ys as b. induction xs as [|x a IH]; intros [|y b]; try reflexivity. cbn [map combine]. now rewrite !zsum_cons, IH. }
  assert (E3 : Z.of_nat (length (im_px im)) = zsum (fun q : rgb N * rgb N => 1%Z) pairs).
  { rewrite zsum_const. unfold pairs. rewrite combine_length, <- HL'. unfold xs. rewrite map_length. lia. }
  rewrite E2, E3.
  rewrite (by_groups (fun x y => sq_dist x y) ds pairs Hn Hin), (by_groups (fun x y => sq_dist x (g y)) ds pairs Hn Hin), (by_groups (fun _ _ => 1%Z) ds pairs Hn Hin).
  assert (Hone : ds <> []).
  { destruct ys as [|y0 ys'] eqn:Ey; [exfalso; apply Hne; destruct (im_px im); [reflexivity|discriminate]|].
    intros K. assert (In y0 ds) by (apply nodup_In; now left). rewrite K in H. destruct H. }
  assert (G : forall c, In c ds -> (spread (sources im im' c) c < spread (sources im im' c) (g c) + 3 * zsum (fun _ => 1) (sources im im' c))%Z).
  { intros c Hc. rewrite zsum_const. apply nodup_In in Hc. apply floor_spread.
    - intros K. destruct (In_nth_error _ _ Hc) as [i Hi].
      assert (Hx : exists x, nth_error xs i = Some x).
      { destruct (nth_error xs i) eqn:E; [eauto|]. apply nth_error_None in E. assert (i < length ys)%nat by (apply nth_error_Some; congruence). lia. }
      destruct Hx as [x Hx].
      assert (In (x, c) pairs).
      { unfold pairs. clear -Hx Hi. revert Hx Hi. generalize ys i. induction xs as [|x' a IH]; intros [|y b] [|k] Hx Hi; try discriminate; cbn in *.
        - left. congruence.
        - right. eapply IH; eassumption. }
      assert (In x (sources im im' c)).
      { unfold sources. apply in_map_iff. exists (x, c). split; [reflexivity|]. apply filter_In. split; [exact H|]. now apply rgb_eqb_ok. }
      rewrite K in H0. destruct H0.
    - intros f Hf. now apply Ha. }
  unfold sources in G. fold xs ys in G. fold pairs in G. unfold spread in G.
  clearbody ds pairs. clear -G Hone. destruct ds as [|c ds]; [congruence|]. clear Hone. revert c G.
  induction ds as [|c' ds IH]; intros c G.
  - rewrite !zsum_cons. cbn [zsum fold_right]. pose proof (G c (or_introl eq_refl)) as K. unfold zsum in K at 1 2 3. unfold zsum. lia.
  - rewrite !(zsum_cons _ c). specialize (IH c' (fun d Hd => G d (or_intror Hd))). pose proof (G c (or_introl eq_refl)) as K. lia.
Qed.
