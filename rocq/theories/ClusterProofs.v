(** * Lemmas for the clustering codecs (C43, C45). *)
From Coq Require Import ZifyBool ZifyNat ZifyN.
From Verif Require Import Base Ser SerSpec Utils UtilsProofs Huf HufSpec Img Float HilbertC CodecSpec CodecBytes Kmeans KmeansSpec KmeansProofs KmeansEnd
  ClusterC ClusterSpec.

Lemma total_app a b : total (a ++ b) = (total a + total b)%N.
Proof. exact (sumN_app a b). Qed.
Lemma total_perm a b : Permutation a b -> total a = total b.
Proof. exact (sumN_perm (a := a) (b := b)). Qed.
Lemma total_le {A} (f g : A -> N) l : (forall x, In x l -> (f x <= g x)%N) -> (total (map f l) <= total (map g l))%N.
Proof.
  induction l as [|x l IH]; intros H; [reflexivity|]. cbn [map total fold_right]. apply N.add_le_mono; [apply H; now left|].
  apply IH. intros y Hy. apply H. now right.
Qed.
Lemma total_scale {A} (f : A -> N) c l : total (map (fun x => c * f x)%N l) = (c * total (map f l))%N.
Proof. induction l as [|x l IH]; cbn [map total fold_right] in *; [lia|]. unfold total in *. rewrite IH. lia. Qed.
Lemma total_ones {A} (l : list A) : total (map (fun _ => 1%N) l) = N.of_nat (length l).
Proof. induction l as [|x l IH]; [reflexivity|]. cbn [map total fold_right length] in *. unfold total in *. rewrite IH. lia. Qed.

Lemma floor_div v s w : (0 < w)%N -> floor_of v s w <-> v = (s / w)%N.
Proof.
  intros Hw. unfold floor_of. pose proof (N.div_mod s w ltac:(lia)) as E. pose proof (N.mod_lt s w ltac:(lia)) as M. split.
  - intros H. apply N.div_unique with (s - v * w)%N; lia.
  - intros ->. rewrite N.mul_comm. lia.
Qed.

(** ** Means *)
Ltac split_eq := repeat match goal with |- Ok _ = Ok _ => f_equal | |- (_, _) = (_, _) => f_equal end.
Definition wsum (f : rgb N -> N) (l : list color_count) : N := total (map (fun p => f (cc_color p) * cc_count p)%N l).
Definition weight (l : list color_count) : N := total (map cc_count l).
Lemma wsum_cons f a l : wsum f (a :: l) = (f (cc_color a) * cc_count a + wsum f l)%N.
Proof. reflexivity. Qed.
Lemma weight_cons a l : weight (a :: l) = (cc_count a + weight l)%N.
Proof. reflexivity. Qed.
Lemma fit64 p r : (r < 2 ^ 64)%N -> ufit p (2 ^ 64) r = Ok r.
Proof. intros H. unfold ufit. apply N.ltb_lt in H. now rewrite H. Qed.
Lemma weighed_fold p l : forall sr sg sb w,
  (sr + wsum red l < 2 ^ 64)%N -> (sg + wsum green l < 2 ^ 64)%N -> (sb + wsum blue l < 2 ^ 64)%N -> (w + weight l < 2 ^ 64)%N ->
  fold_res (weighed_add p) l (sr, sg, sb, w) = Ok (sr + wsum red l, sg + wsum green l, sb + wsum blue l, w + weight l)%N.
Proof.
  induction l as [|[[[r g] b] n] l IH]; intros sr sg sb w H1 H2 H3 H4.
  - cbn. now rewrite !N.add_0_r.
  - rewrite !wsum_cons, weight_cons in *. cbn [cc_color cc_count red green blue fst snd] in *.
    cbn [fold_res weighed_add cc_color cc_count]. unfold uadd64.
    rewrite (fit64 p (sr + r * n)), (fit64 p (sg + g * n)), (fit64 p (sb + b * n)), (fit64 p (w + n)) by lia. cbn [res_bind].
    rewrite IH by lia. split_eq; lia.
Qed.
Lemma wsum_le f hi l : (forall p, In p l -> (f (cc_color p) <= hi)%N) -> (wsum f l <= hi * weight l)%N.
Proof.
  intros H. unfold wsum, weight. rewrite <- total_scale. apply total_le. intros p Hp. apply N.mul_le_mono_r. auto.
Qed.
Lemma wsum_ge f lo l : (forall p, In p l -> (lo <= f (cc_color p))%N) -> (lo * weight l <= wsum f l)%N.
Proof.
  intros H. unfold wsum, weight. rewrite <- total_scale. apply total_le. intros p Hp. apply N.mul_le_mono_r. auto.
Qed.
Lemma chan_u8 f c : In f channels -> rgb_ok c -> (f c <= 255)%N.
Proof. destruct c as [[r g] b]. unfold rgb_ok, u8_ok. intros [<-|[<-|[<-|[]]]] (? & ? & ?); cbn; lia. Qed.
Lemma weight_pos l : Forall color_count_ok l -> l <> [] -> (0 < weight l)%N.
Proof. destruct l as [|p l]; [congruence|]. intros H _. inversion_clear H as [|? ? [_ Hp] _]. rewrite weight_cons. lia. Qed.

Lemma cc_mean_spec p l : Forall color_count_ok l -> l <> [] -> (weight l < 2 ^ 56)%N ->
  exists m, cc_mean p l = Ok m /\ rgb_ok (cc_color m) /\ (forall f, In f channels -> floor_of (f (cc_color m)) (wsum f l) (weight l))
  /\ (1 <= cc_count m < 2 ^ 32)%N.
Proof.
  intros Hl Hn Hw. pose proof (weight_pos l Hl Hn) as W.
  assert (B : forall f, In f channels -> (wsum f l <= 255 * weight l)%N).
  { intros f Hf. apply wsum_le. intros q Hq. apply chan_u8; [exact Hf|]. rewrite Forall_forall in Hl. now apply Hl. }
  destruct l as [|a [|a' l']]; [congruence| |].
  - exists a. inversion_clear Hl as [|? ? [Ha Hc] _]. split; [reflexivity|]. split; [exact Ha|]. split; [|exact Hc].
    intros f _. unfold floor_of. unfold wsum, weight. cbn [map total fold_right]. lia.
  - set (l := a :: a' :: l') in *.
    pose proof (B red ltac:(now left)) as Br. pose proof (B green ltac:(right; now left)) as Bg. pose proof (B blue ltac:(right; right; now left)) as Bb.
    assert (E : cc_mean p l = res_bind (fold_res (weighed_add p) l (0, 0, 0, 0)%N) (fun r => let '(s, w) := r in
      if (w =? 0)%N then Panic else Ok (mkCC (map3 (fun x => (x / w) mod 256)%N s) 1))) by reflexivity.
    rewrite E, weighed_fold by lia. cbn [res_bind]. rewrite !N.add_0_l.
    destruct (N.eqb_spec (weight l) 0) as [Z|Z]; [lia|].
    assert (Q : forall s, (s <= 255 * weight l)%N -> ((s / weight l) mod 256 = s / weight l)%N /\ (s / weight l < 256)%N).
    { intros s Hs. assert (s / weight l < 256)%N by (apply N.div_lt_upper_bound; lia). split; [now apply N.mod_small|assumption]. }
    eexists. split; [reflexivity|]. cbn [cc_color cc_count map3]. rewrite !(proj1 (Q _ Br)), !(proj1 (Q _ Bg)), !(proj1 (Q _ Bb)).
    split; [repeat split; unfold u8_ok; apply Q; assumption|]. split; [|lia].
    intros f [<-|[<-|[<-|[]]]]; apply floor_div; try exact W; reflexivity.
Qed.
Lemma cc_mean_closed p v m : Forall (fun q => rgb_ok (cc_color q)) v -> cc_mean p v = Ok m -> rgb_ok (cc_color m).
Proof.
  intros Hv H. destruct v as [|a [|b v]]; [discriminate| |].
  - cbn in H. apply ok_inj in H. subst m. now inversion_clear Hv.
  - cbn [cc_mean] in H. apply res_bind_ok in H as ([[[sr sg] sb] w] & _ & H). destruct (w =? 0)%N; [discriminate|]. apply ok_inj in H. subst m.
    cbn [cc_color map3]. repeat split; apply N.mod_lt; lia.
Qed.
(** Between the least and the greatest. *)
Lemma floor_between v s w lo hi : (0 < w)%N -> floor_of v s w -> (lo * w <= s <= hi * w)%N -> (lo <= v <= hi)%N.
Proof. unfold floor_of. intros Hw H1 H2. split; nia. Qed.

Definition csum (f : color_pos -> N) (l : list color_pos) : N := total (map f l).
Lemma csum_cons f a l : csum f (a :: l) = (f a + csum f l)%N.
Proof. reflexivity. Qed.
Definition cp_red (c : color_pos) := red (cp_color c).
Definition cp_green (c : color_pos) := green (cp_color c).
Definition cp_blue (c : color_pos) := blue (cp_color c).
Lemma vector_fold p l : forall sx sy sr sg sb,
  (sx + csum cp_x l < 2 ^ 64)%N -> (sy + csum cp_y l < 2 ^ 64)%N -> (sr + csum cp_red l < 2 ^ 64)%N ->
  (sg + csum cp_green l < 2 ^ 64)%N -> (sb + csum cp_blue l < 2 ^ 64)%N ->
  fold_res (vector_add p) l (sx, sy, (sr, sg, sb))
  = Ok (sx + csum cp_x l, sy + csum cp_y l, (sr + csum cp_red l, sg + csum cp_green l, sb + csum cp_blue l))%N.
Proof.
  induction l as [|[x y [[r g] b]] l IH]; intros sx sy sr sg sb H1 H2 H3 H4 H5.
  - cbn. now rewrite !N.add_0_r.
  - rewrite !csum_cons in *. set (q := mkCP x y (r, g, b)) in *.
    change (cp_x q) with x in *. change (cp_y q) with y in *. change (cp_red q) with r in *. change (cp_green q) with g in *. change (cp_blue q) with b in *.
    subst q.
    cbn [fold_res vector_add cp_color cp_x cp_y]. unfold uadd64.
    rewrite (fit64 p (sx + x)), (fit64 p (sy + y)), (fit64 p (sr + r)), (fit64 p (sg + g)), (fit64 p (sb + b)) by lia. cbn [res_bind].
    rewrite IH by lia. split_eq; lia.
Qed.
Lemma csum_le f hi l : (forall q, In q l -> (f q <= hi)%N) -> (csum f l <= hi * N.of_nat (length l))%N.
Proof. intros H. rewrite <- (total_ones l), <- total_scale. unfold csum. apply total_le. intros q Hq. rewrite N.mul_1_r. auto. Qed.
Lemma csum_ge f lo l : (forall q, In q l -> (lo <= f q)%N) -> (lo * N.of_nat (length l) <= csum f l)%N.
Proof. intros H. rewrite <- (total_ones l), <- total_scale. unfold csum. apply total_le. intros q Hq. rewrite N.mul_1_r. auto. Qed.

Lemma cp_mean_spec p l : Forall color_pos_ok l -> l <> [] -> (N.of_nat (length l) <= 2 ^ 32)%N ->
  exists m, cp_mean p l = Ok m /\ color_pos_ok m /\ (forall f, In f components -> floor_of (f m) (csum f l) (N.of_nat (length l))).
Proof.
  intros Hl Hn Hw. set (n := N.of_nat (length l)) in *.
  assert (W : (0 < n)%N) by (unfold n; destruct l; cbn [length]; [congruence|lia]).
  rewrite Forall_forall in Hl.
  assert (B1 : (csum cp_x l <= (2 ^ 32 - 1) * n)%N) by (apply csum_le; intros q Hq; destruct (Hl q Hq) as (H & _); unfold u32_ok in H; lia).
  assert (B2 : (csum cp_y l <= (2 ^ 32 - 1) * n)%N) by (apply csum_le; intros q Hq; destruct (Hl q Hq) as (_ & H & _); unfold u32_ok in H; lia).
  assert (B : forall f, In f channels -> (csum (fun q => f (cp_color q)) l <= 255 * n)%N).
  { intros f Hf. apply csum_le. intros q Hq. apply chan_u8; [exact Hf|]. now apply Hl. }
  pose proof (B red ltac:(now left)) as Br. pose proof (B green ltac:(right; now left)) as Bg. pose proof (B blue ltac:(right; right; now left)) as Bb.
  fold cp_red in Br. fold cp_green in Bg. fold cp_blue in Bb. clear B.
  assert (E : cp_mean p l = res_bind (fold_res (vector_add p) l (0, 0, (0, 0, 0))%N) (fun r => let '(sx, sy, s) := r in
     let n := N.of_nat (length l) in
     Ok (mkCP ((sx / n) mod 2 ^ 32) ((sy / n) mod 2 ^ 32) (map3 (fun x => (x / n) mod 256) s))%N)) by (destruct l; [congruence|reflexivity]).
  rewrite E, vector_fold by lia. cbn [res_bind]. rewrite !N.add_0_l. cbv zeta. fold n.
  assert (Q : forall s b, (0 < b)%N -> (s <= (b - 1) * n)%N -> ((s / n) mod b = s / n)%N /\ (s / n < b)%N).
  { intros s b Hb Hs. assert (s / n < b)%N by (apply N.div_lt_upper_bound; nia). split; [now apply N.mod_small|assumption]. }
  eexists. split; [reflexivity|]. cbn [map3].
  rewrite (proj1 (Q _ (2 ^ 32)%N ltac:(lia) B1)), (proj1 (Q _ (2 ^ 32)%N ltac:(lia) B2)),
    (proj1 (Q _ 256%N ltac:(lia) Br)), (proj1 (Q _ 256%N ltac:(lia) Bg)), (proj1 (Q _ 256%N ltac:(lia) Bb)).
  split.
  - split; [|split; [|repeat split]]; cbn [cp_x cp_y cp_color]; unfold u32_ok, u8_ok; [apply (Q _ (2 ^ 32)%N)|apply (Q _ (2 ^ 32)%N)|apply Q..]; auto; lia.
  - intros f [<-|[<-|[<-|[<-|[<-|[]]]]]]; apply floor_div; try exact W; reflexivity.
Qed.
