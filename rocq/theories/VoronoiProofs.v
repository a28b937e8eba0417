(** * Lemmas for voronoi (C44) and for the bytes of points (C01-C04). *)
From Coq Require Import ZifyBool ZifyNat ZifyN.
From Flocq Require Import BinarySingleNaN.
From Verif Require Import Base Ser SerSpec SerProofs Utils UtilsProofs BackSpec Img Float HilbertC CodecSpec CodecBytes CodecHilbert Kmeans KmeansSpec KmeansProofs KmeansEnd
  ClusterC ClusterSpec ClusterProofs.

(** ** Bytes of a point *)
Notation cp_ty := (TPair TU32 (TPair TU32 (TRgb TU8))).
Definition cp_tuple (c : color_pos) : N * (N * rgb N) := (cp_x c, (cp_y c, cp_color c)).
Definition cp_of (t : N * (N * rgb N)) : color_pos := mkCP (fst t) (fst (snd t)) (snd (snd t)).
Lemma cp_of_tuple c : cp_of (cp_tuple c) = c.
Proof. now destruct c. Qed.
Lemma cp_ser c : ser_color_pos c = ser cp_ty (cp_tuple c).
Proof. reflexivity. Qed.
Lemma cp_deser S (next : nextf S N) s : deser_color_pos S next s = let '(r, s') := deser cp_ty S next s in (res_map cp_of r, s').
Proof.
  unfold deser_color_pos. cbn [deser]. unfold deser_pair, rd_bind, rd_ret.
  destruct (deser_u32 S next s) as [[x| |] s1]; try reflexivity. destruct (deser_u32 S next s1) as [[y| |] s2]; try reflexivity.
  destruct (deser_rgb _ S next s2) as [[c| |] s3]; reflexivity.
Qed.
Lemma cp_format c : format cp_ty (cp_tuple c) = Some (color_pos_bytes c).
Proof. destruct c as [x y [[r g] b]]. reflexivity. Qed.
Lemma cp_wf c : color_pos_ok c <-> wf cp_ty (cp_tuple c).
Proof. destruct c as [x y [[r g] b]]. reflexivity. Qed.
Lemma cp_emits c : color_pos_ok c -> emits (ser_color_pos c) (color_pos_bytes c) (Ok tt).
Proof. intros H. rewrite cp_ser. exact (so_ok (ser_ty_ok cp_ty) (cp_tuple c) (proj1 (cp_wf c) H) (cp_format c)). Qed.
Lemma cp_deser_ok : deser_ok color_pos_ok (fun c => Some (color_pos_bytes c)) deser_color_pos.
Proof.
  pose proof (deser_ty_ok cp_ty) as [D1 D2 D3 D4]. split.
  - intros v bs Hv E S next s s' Hy. apply (f_equal (fun o => match o with Some b => b | None => [] end)) in E. cbn in E. subst bs.
    rewrite cp_deser, (D1 (cp_tuple v) _ (proj1 (cp_wf v) Hv) (cp_format v) S next s s' Hy). cbn [res_map]. now rewrite cp_of_tuple.
  - intros S next s v s' Hb E. rewrite cp_deser in E. destruct (deser cp_ty S next s) as [[t| |] s1] eqn:Q; try discriminate.
    injection E as <- <-. destruct (D2 S next s t s1 Hb Q) as (W & bs & F & Y). destruct t as [x [y c]].
    change (x, (y, c)) with (cp_tuple (mkCP x y c)) in W, F. split; [now apply cp_wf|]. exists bs. split; [|exact Y].
    rewrite cp_format in F. exact F.
  - intros v bs p Hv E Hp S next s s1 s2 Hy Hn. apply (f_equal (fun o => match o with Some b => b | None => [] end)) in E. cbn in E. subst bs.
    now rewrite cp_deser, (D3 (cp_tuple v) _ p (proj1 (cp_wf v) Hv) (cp_format v) Hp S next s s1 s2 Hy Hn).
  - intros S next s Hb. rewrite cp_deser. specialize (D4 S next s Hb). destruct (deser cp_ty S next s) as [[t| |] s1]; cbn in *; congruence.
Qed.
Lemma cp_bytes_length c : length (color_pos_bytes c) = 19%nat.
Proof. destruct c as [x y [[r g] b]]. reflexivity. Qed.
Lemma cp_bytes_opt cs : concat_opt (map (fun c => Some (color_pos_bytes c)) cs) = Some (concat (map color_pos_bytes cs)).
Proof. induction cs as [|c cs IH]; [reflexivity|]. cbn [map concat_opt concat]. now rewrite IH. Qed.
Lemma cps_deser cs : Forall color_pos_ok cs -> forall S (next : nextf S N) s s', yields next s (concat (map color_pos_bytes cs)) s' ->
  rd_repeat (deser_color_pos S next) (N.of_nat (length cs)) s = (Ok cs, s').
Proof.
  intros H S next s s' Hy. rewrite rd_repeat_times, Nat2N.id. exact (times_rt cp_deser_ok [] H (cp_bytes_opt cs) Hy).
Qed.
Lemma cps_trunc cs p : Forall color_pos_ok cs -> strict_prefix p (concat (map color_pos_bytes cs)) -> forall S (next : nextf S N) s s1 s2,
  yields next s p s1 -> next s1 = (Err, s2) -> rd_repeat (deser_color_pos S next) (N.of_nat (length cs)) s = (Err, s2).
Proof.
  intros H Hp S next s s1 s2 Hy Hn. rewrite rd_repeat_times, Nat2N.id. exact (times_trunc cp_deser_ok [] H (cp_bytes_opt cs) Hp Hy Hn).
Qed.
Lemma usize_deser n : u64_ok n -> forall S (next : nextf S N) s s', yields next s (le64 n) s' -> deser TUsize S next s = (Ok n, s').
Proof. intros H S next s s' Hy. exact (do_rt (deser_ty_ok TUsize) n H eq_refl Hy). Qed.
Lemma usize_trunc n p : u64_ok n -> strict_prefix p (le64 n) -> forall S (next : nextf S N) s s1 s2,
  yields next s p s1 -> next s1 = (Err, s2) -> deser TUsize S next s = (Err, s2).
Proof. intros H Hp S next s s1 s2 Hy Hn. exact (do_trunc (deser_ty_ok TUsize) n H eq_refl Hp Hy Hn). Qed.

(** ** The pixels *)
Lemma pixel_points_eq im : img_ok im -> pixel_points im = pixels im.
Proof.
  intros Hi. unfold pixel_points, pixels.
  assert (R : flat_map (fun y => map (fun x => (N.of_nat x, N.of_nat y)) (seq 0 (N.to_nat (im_w im)))) (seq 0 (N.to_nat (im_h im))) = row_major (im_w im) (im_h im)).
  { unfold row_major, upto. rewrite !flat_map_concat_map, !map_map. f_equal. apply map_ext. intros y. now rewrite map_map. }
  rewrite R. apply nth_ext.
  - rewrite !map_length, combine_length, row_major_length. destruct Hi as (_ & _ & _ & H & _). lia.
  - intros k Hk. rewrite map_length, combine_length, row_major_length in Hk. destruct Hi as (_ & _ & _ & H & _).
    destruct (index_split (im_w im) (im_h im) k ltac:(lia)) as (x & y & Hx & Hy & ->).
    pose proof (row_major_nth _ _ _ _ Hx Hy) as E1.
    destruct (nth_error (im_px im) (px_index (im_w im) x y)) as [c|] eqn:E2; [|apply nth_error_None in E2; lia].
    rewrite !nth_error_map, (nth_combine _ _ _ _ _ E1 E2), E1. cbn [option_map fst snd]. do 2 f_equal. unfold pixel_at. cbn [fst snd].
    erewrite nth_error_nth by exact E2. reflexivity.
Qed.
Lemma in_image_ok im c : img_ok im -> in_image im c -> color_pos_ok c.
Proof. intros (H1 & H2 & _) (H3 & H4 & H5). unfold color_pos_ok, u32_ok in *. repeat split; try lia. assumption. Qed.
Lemma pixels_in im : img_ok im -> Forall (in_image im) (pixels im).
Proof.
  intros Hi. apply Forall_map, Forall_forall. intros [x y] H. apply in_row_major in H. unfold in_image. cbn [cp_x cp_y cp_color fst snd].
  split; [apply H|]. split; [apply H|]. now apply pixel_at_ok.
Qed.
Lemma pixels_length im : length (pixels im) = N.to_nat (im_w im * im_h im).
Proof. unfold pixels. now rewrite map_length, row_major_length. Qed.

Lemma cp_mean_in p im v m : img_ok im -> Forall (in_image im) v -> (N.of_nat (length v) <= 2 ^ 32)%N -> cp_mean p v = Ok m -> in_image im m.
Proof.
  intros Hi Hv Hl E. assert (Hn : v <> []) by (intros ->; discriminate).
  destruct (cp_mean_spec p v) as (m' & E' & O & F); [|exact Hn|exact Hl|].
  { eapply Forall_impl; [|exact Hv]. intros c. now apply in_image_ok. }
  rewrite E in E'. apply ok_inj in E'. subst m'. rewrite Forall_forall in Hv.
  assert (W : (0 < N.of_nat (length v))%N) by (destruct v; cbn [length]; [congruence|lia]).
  assert (Q : forall f b, In f components -> (forall q, In q v -> (f q < b)%N) -> (f m < b)%N).
  { intros f b Hf Hb. destruct v as [|q v'] eqn:Ev; [congruence|]. pose proof (Hb q (or_introl eq_refl)).
    assert (0 <= f m <= b - 1)%N; [|lia]. eapply floor_between; [exact W|exact (F f Hf)|]. split; [lia|].
    apply csum_le. intros q' Hq'. specialize (Hb q' Hq'). lia. }
  split; [|split]; [apply Q; [now left|]|apply Q; [right; now left|]|apply O]; intros q Hq; now apply Hv.
Qed.
Lemma cp_mean_one p c : color_pos_ok c -> cp_mean p [c] = Ok c.
Proof.
  intros Hc. destruct (cp_mean_spec p [c]) as (m & E & O & F); [now constructor|discriminate|cbn; lia|]. rewrite E. f_equal.
  assert (Q : forall f, In f components -> f m = f c).
  { intros f Hf. specialize (F f Hf). unfold floor_of, csum in F. cbn [map total fold_right length] in F. lia. }
  destruct m as [x y [[r g] b]], c as [x' y' [[r' g'] b']].
  pose proof (Q cp_x ltac:(now left)) as Q1. pose proof (Q cp_y ltac:(right; now left)) as Q2.
  pose proof (Q (fun q => red (cp_color q)) ltac:(do 2 right; now left)) as Q3. pose proof (Q (fun q => green (cp_color q)) ltac:(do 3 right; now left)) as Q4.
  pose proof (Q (fun q => blue (cp_color q)) ltac:(do 4 right; now left)) as Q5. cbn in Q1, Q2, Q3, Q4, Q5. congruence.
Qed.

(** ** The first minimum *)
Section Min.
  Context {A : Type} (key : A -> res N).
  Lemma min_by_spec (kf : A -> N) l : forall b, (forall a, In a l -> key a = Ok (kf a)) ->
    (min_by key (b, kf b) l = Ok b /\ Forall (fun d => (kf b <= kf d)%N) l)
    \/ exists before c after, l = before ++ c :: after /\ min_by key (b, kf b) l = Ok c /\ (kf c < kf b)%N
       /\ Forall (fun d => (kf c < kf d)%N) before /\ Forall (fun d => (kf c <= kf d)%N) after.
  Proof.
    induction l as [|a l IH]; intros b H; [left; split; [reflexivity|constructor]|]. cbn [min_by]. rewrite (H a (or_introl eq_refl)). cbn [res_bind snd].
    assert (H' : forall x, In x l -> key x = Ok (kf x)) by (intros x Hx; apply H; now right).
    destruct (N.ltb_spec (kf a) (kf b)) as [L|L].
    - right. destruct (IH a H') as [[E F]|(before & c & after & -> & E & G & F1 & F2)].
      + exists [], a, l. repeat split; auto.
      + exists (a :: before), c, after. repeat split; auto; lia.
    - destruct (IH b H') as [[E F]|(before & c & after & -> & E & G & F1 & F2)].
      + left. split; [exact E|]. constructor; assumption.
      + right. exists (a :: before), c, after. repeat split; auto. constructor; [lia|exact F1].
  Qed.
  Lemma min_by_key_spec (kf : A -> N) l : l <> [] -> (forall a, In a l -> key a = Ok (kf a)) ->
    exists before c after, l = before ++ c :: after /\ min_by_key key l = Ok c
    /\ Forall (fun d => (kf c < kf d)%N) before /\ Forall (fun d => (kf c <= kf d)%N) after.
  Proof.
    destruct l as [|a l]; [congruence|]. intros _ H. cbn [min_by_key]. rewrite (H a (or_introl eq_refl)). cbn [res_bind].
    destruct (min_by_spec kf l a) as [[E F]|(before & c & after & -> & E & G & F1 & F2)].
    - intros x Hx. apply H. now right.
    - exists [], a, l. repeat split; auto.
    - exists (a :: before), c, after. repeat split; auto.
  Qed.
  Lemma min_by_ok l : forall b r, min_by key b l = Ok r -> forall a, In a l -> exists k, key a = Ok k.
  Proof.
    induction l as [|a l IH]; intros b r H x Hx; [contradiction|]. cbn [min_by] in H. destruct (key a) as [k| |] eqn:E; try discriminate.
    destruct Hx as [<-|Hx]; [now exists k|]. cbn [res_bind] in H. destruct (k <? snd b)%N; eauto.
  Qed.
  Lemma min_by_key_ok l r : min_by_key key l = Ok r -> forall a, In a l -> exists k, key a = Ok k.
  Proof.
    destruct l as [|a l]; [discriminate|]. cbn [min_by_key]. destruct (key a) as [k| |] eqn:E; try discriminate. cbn [res_bind].
    intros H x [<-|Hx]; [now exists k|]. eapply min_by_ok; eassumption.
  Qed.
End Min.

(** ** Squares with wrapping *)
Lemma sqdiff_release a b : u32_ok a -> u32_ok b -> (Z.abs (Z.of_N a - Z.of_N b) < 65536)%Z ->
  u32_sqdiff Release a b = Ok (Z.to_N ((Z.of_N a - Z.of_N b) ^ 2)).
Proof.
  unfold u32_ok. intros Ha Hb H. unfold u32_sqdiff, usub. rewrite Z.pow_2_r.
  destruct (N.leb_spec b a) as [L|L]; cbn [res_bind]; unfold ufit.
  - destruct (N.ltb_spec ((a - b) * (a - b)) (2 ^ 32)) as [Q|Q].
    { f_equal. apply N2Z.inj. rewrite Z2N.id by apply Z.square_nonneg. rewrite N2Z.inj_mul, N2Z.inj_sub by lia. reflexivity. }
    exfalso.
    assert (a - b < 65536)%N by lia. assert ((a - b) * (a - b) <= 65535 * 65535)%N by (apply N.mul_le_mono; lia). lia.
  - pose (e := (b - a)%N). assert (He : (0 < e < 65536)%N) by (unfold e; lia).
    replace ((a + 2 ^ 32 - b) mod 2 ^ 32)%N with (2 ^ 32 - e)%N by (unfold e; rewrite N.mod_small; lia).
    assert (Hee : (e * e <= 65535 * 65535)%N) by (apply N.mul_le_mono; lia).
    assert (E : ((2 ^ 32 - e) * (2 ^ 32 - e) = e * e + (2 ^ 32 - 2 * e) * 2 ^ 32)%N).
    { apply N2Z.inj. rewrite N2Z.inj_add, !N2Z.inj_mul, !N2Z.inj_sub by lia. rewrite N2Z.inj_mul. change (Z.of_N (2 ^ 32)) with (2 ^ 32)%Z. ring. }
    rewrite E. destruct (N.ltb_spec (e * e + (2 ^ 32 - 2 * e) * 2 ^ 32) (2 ^ 32)) as [Q|Q]; [exfalso; lia|].
    rewrite N.mod_add by lia. rewrite N.mod_small by lia. f_equal. unfold e.
    apply N2Z.inj. rewrite Z2N.id by apply Z.square_nonneg. rewrite N2Z.inj_mul, N2Z.inj_sub by lia. ring.
Qed.
Lemma key_release x y c : (cp_x c <= 46340 -> cp_y c <= 46340 -> x <= 46340 -> y <= 46340 ->
  voronoi_key Release x y c = Ok (Z.to_N (plane_dist x y c)))%N.
Proof.
  intros H1 H2 H3 H4. unfold voronoi_key. rewrite !sqdiff_release by (unfold u32_ok; lia). cbn [res_bind].
  assert (Q : forall a b : N, (a <= 46340)%N -> (b <= 46340)%N -> (0 <= (Z.of_N a - Z.of_N b) ^ 2 <= 2147395600)%Z).
  { intros a b Ha Hb. rewrite Z.pow_2_r, <- Z.abs_square. assert (0 <= Z.abs (Z.of_N a - Z.of_N b) <= 46340)%Z by lia.
    split; [nia|]. change 2147395600%Z with (46340 * 46340)%Z. apply Z.mul_le_mono_nonneg; lia. }
  pose proof (Q (cp_x c) x H1 H3) as Q1. pose proof (Q (cp_y c) y H2 H4) as Q2. unfold ufit, plane_dist.
  rewrite <- Z2N.inj_add by lia. destruct (N.ltb_spec (Z.to_N ((Z.of_N (cp_x c) - Z.of_N x) ^ 2 + (Z.of_N (cp_y c) - Z.of_N y) ^ 2)) (2 ^ 32)); [reflexivity|lia].
Qed.
Lemma sqdiff_debug a b r : u32_sqdiff Debug a b = Ok r -> (b <= a)%N.
Proof. unfold u32_sqdiff, usub. destruct (N.leb_spec b a); [auto|discriminate]. Qed.
Lemma sqdiff_err p a b : u32_sqdiff p a b <> Err.
Proof. unfold u32_sqdiff, usub, ufit. destruct p, (b <=? a)%N; cbn [res_bind]; try discriminate; destruct (_ <? _)%N; discriminate. Qed.
Lemma key_debug x y c r : voronoi_key Debug x y c = Ok r -> (x <= cp_x c /\ y <= cp_y c)%N.
Proof.
  unfold voronoi_key. intros H. apply res_bind_ok in H as (dx & H1 & H). apply res_bind_ok in H as (dy & H2 & _). split; eapply sqdiff_debug; eassumption.
Qed.
Lemma key_err p x y c : voronoi_key p x y c <> Err.
Proof.
  unfold voronoi_key. pose proof (sqdiff_err p (cp_x c) x). destruct (u32_sqdiff p (cp_x c) x); cbn [res_bind]; try congruence.
  pose proof (sqdiff_err p (cp_y c) y). destruct (u32_sqdiff p (cp_y c) y); cbn [res_bind]; try congruence.
  unfold ufit. destruct (_ <? _)%N, p; discriminate.
Qed.

(** ** Decoding *)
Definition draw (p : profile) (w h : N) (cs : list color_pos) : res img :=
  res_map (from_rgb w h) (res_mapM (fun q : N * N => res_map cp_color (unwrap (min_by_key (voronoi_key p (fst q) (snd q)) cs))) (row_major w h)).
Lemma mapM_map {A B C} (g : A -> B) (f : B -> res C) l : res_mapM f (map g l) = res_mapM (fun x => f (g x)) l.
Proof. induction l as [|x l IH]; [reflexivity|]. cbn [map res_mapM]. now rewrite IH. Qed.
Lemma row_major_prod w h : row_major w h = map (fun q : nat * nat => (N.of_nat (snd q), N.of_nat (fst q))) (list_prod (seq 0 (N.to_nat h)) (seq 0 (N.to_nat w))).
Proof.
  unfold row_major, upto. induction (seq 0 (N.to_nat h)) as [|y l IH]; [reflexivity|]. cbn [map flat_map list_prod]. rewrite map_app, IH. f_equal.
  now rewrite !map_map.
Qed.
Lemma decode_draw p w h cs : buffer_fits w h -> Forall color_pos_ok cs -> u64_ok (N.of_nat (length cs)) ->
  forall S (next : nextf S N) s s', yields next s (voronoi_bytes w h cs) s' -> voronoi_decode p next s = draw p w h cs.
Proof.
  intros (Hw & Hh & Hb) Hcs Hn S next s s' Hy. unfold voronoi_bytes in Hy. apply yields_app_inv in Hy as (s1 & Y1 & Hy). apply yields_app_inv in Hy as (s2 & Y2 & Y3).
  unfold voronoi_decode, create_image_buffer_standard, rd_bind. rewrite (dims_deser _ _ Hw Hh _ _ _ _ Y1). cbn [fst snd].
  unfold rd_lift, buffer_new. apply N.ltb_lt in Hb. rewrite Hb. unfold rd_ret. rewrite (usize_deser _ Hn _ _ _ _ Y2).
  rewrite (cps_deser cs Hcs _ _ _ _ Y3). unfold draw. now rewrite row_major_prod, mapM_map.
Qed.
Lemma decode_trunc p w h cs q : buffer_fits w h -> Forall color_pos_ok cs -> u64_ok (N.of_nat (length cs)) -> strict_prefix q (voronoi_bytes w h cs) ->
  forall S (next : nextf S N) s, yields_all next s q -> voronoi_decode p next s = Err.
Proof.
  intros (Hw & Hh & Hb) Hcs Hn Hp S next s (s1 & s2 & Hy & He). unfold voronoi_bytes in Hp.
  unfold voronoi_decode, create_image_buffer_standard, rd_bind.
  apply strict_prefix_app in Hp as [Hp|(q1 & -> & Hp)].
  { now rewrite (dims_trunc _ _ q Hw Hh Hp _ _ _ _ _ Hy He). }
  apply yields_app_inv in Hy as (t1 & Y1 & Hy). rewrite (dims_deser _ _ Hw Hh _ _ _ _ Y1). cbn [fst snd].
  unfold rd_lift, buffer_new. apply N.ltb_lt in Hb. rewrite Hb. unfold rd_ret.
  apply strict_prefix_app in Hp as [Hp|(q2 & -> & Hp)].
  { now rewrite (usize_trunc _ _ Hn Hp _ _ _ _ _ Hy He). }
  apply yields_app_inv in Hy as (t2 & Y2 & Hy). rewrite (usize_deser _ Hn _ _ _ _ Y2). now rewrite (cps_trunc cs q2 Hcs Hp _ _ _ _ _ Hy He).
Qed.
Lemma draw_release w h cs : (w <= 46341)%N -> (h <= 46341)%N -> cs <> [] -> Forall (fun c => (cp_x c <= 46340)%N /\ (cp_y c <= 46340)%N) cs ->
  exists im, draw Release w h cs = Ok im /\ voronoi_image w h cs im.
Proof.
  intros Hw Hh Hne Hcs. rewrite Forall_forall in Hcs.
  assert (K : forall x y, (x < w)%N -> (y < h)%N -> exists c, first_nearest cs x y c /\ min_by_key (voronoi_key Release x y) cs = Ok c).
  { intros x y Hx Hy. destruct (min_by_key_spec (voronoi_key Release x y) (fun c => Z.to_N (plane_dist x y c)) cs Hne) as (before & c & after & E & M & F1 & F2).
    - intros c Hc. destruct (Hcs c Hc). apply key_release; lia.
    - exists c. split; [|exact M]. exists before, after. split; [exact E|].
      assert (P : forall d, (0 <= plane_dist x y d)%Z) by (intros d; unfold plane_dist; nia).
      split; (eapply Forall_impl; [|eassumption]); intros d Hd; cbn beta in Hd; pose proof (P c); pose proof (P d); lia. }
  pose (col := fun q : N * N => match min_by_key (voronoi_key Release (fst q) (snd q)) cs with Ok c => cp_color c | _ => black end).
  exists (from_rgb w h (map col (row_major w h))). split.
  - unfold draw. rewrite (mapM_ok _ col); [reflexivity|]. intros [x y] Hq. apply in_row_major in Hq as [Hx Hy]. cbn [fst snd].
    unfold col. cbn [fst snd]. destruct (K x y Hx Hy) as (c & _ & ->). reflexivity.
  - unfold voronoi_image, from_rgb. cbn [im_w im_h im_px]. split; [reflexivity|]. split; [reflexivity|]. split; [|split].
    + unfold is_opaque. cbn [im_px]. apply Forall_map, Forall_forall. reflexivity.
    + rewrite !map_length, row_major_length. lia.
    + intros x y Hx Hy. destruct (K x y Hx Hy) as (c & H1 & H2). exists c. split; [exact H1|]. unfold pixel_at. cbn [im_w im_px fst snd].
      erewrite nth_error_nth; [|rewrite !nth_error_map, (row_major_nth _ _ _ _ Hx Hy); reflexivity]. cbn [to_rgb fst]. unfold col. cbn [fst snd]. now rewrite H2.
Qed.
Lemma mapM_err {A B} (f : A -> res B) l : (forall x, In x l -> f x <> Err) -> res_mapM f l <> Err.
Proof.
  induction l as [|x l IH]; intros H; [discriminate|]. cbn [res_mapM]. pose proof (H x (or_introl eq_refl)). destruct (f x); cbn [res_bind]; try congruence.
  assert (Hl : res_mapM f l <> Err) by (apply IH; intros y Hy; apply H; now right). destruct (res_mapM f l); cbn [res_bind]; congruence.
Qed.
Lemma mapM_bad {A B} (f : A -> res B) l x : In x l -> (forall y, f x <> Ok y) -> forall r, res_mapM f l <> Ok r.
Proof.
  intros Hx Hf r E. apply res_mapM_ok in E. apply In_nth_error in Hx as (n & Hx). assert (L : (n < length r)%nat) by (rewrite <- (Forall2_len _ _ _ E); apply nth_error_Some; congruence).
  destruct (nth_error r n) as [y|] eqn:Hy; [|apply nth_error_None in Hy; lia].
  revert n Hx Hy L. induction E as [|a b l r Hab E IH]; intros [|n] Hx Hy L; try discriminate; cbn in *.
  - injection Hx as ->. exact (Hf b Hab).
  - eapply IH; eauto. lia.
Qed.
Lemma draw_debug w h cs c x y : In c cs -> (x < w)%N -> (y < h)%N -> (cp_x c < x \/ cp_y c < y)%N -> draw Debug w h cs = Panic.
Proof.
  intros Hc Hx Hy Hlt. unfold draw.
  assert (N1 : forall r, res_mapM (fun q : N * N => res_map cp_color (unwrap (min_by_key (voronoi_key Debug (fst q) (snd q)) cs))) (row_major w h) <> Ok r).
  { apply mapM_bad with (x, y); [now apply in_row_major|]. intros r. cbn [fst snd].
    destruct (min_by_key (voronoi_key Debug x y) cs) as [d| |] eqn:E; try discriminate.
    destruct (min_by_key_ok _ _ _ E c Hc) as (k & Hk). apply key_debug in Hk. lia. }
  assert (N2 : res_mapM (fun q : N * N => res_map cp_color (unwrap (min_by_key (voronoi_key Debug (fst q) (snd q)) cs))) (row_major w h) <> Err).
  { apply mapM_err. intros q _. destruct (min_by_key _ cs); discriminate. }
  destruct (res_mapM _ _) as [r| |]; [exfalso; now apply (N1 r)|congruence|reflexivity].
Qed.

(** ** Encoding *)
Lemma cluster_list_length {T} (P : point T) sorted rng fuel vfuel points k i c j : cluster P sorted rng fuel vfuel points k i = Some (Ok (c, j)) ->
  map fst (cluster_list c) = centroids c.
Proof.
  intros H. apply cluster_kept in H as (_ & H1 & H2 & _). unfold cluster_list. assert (L : length (centroids c) = length (assignment c)) by lia. revert L. clear.
  generalize (assignment c). induction (centroids c) as [|x l IH]; intros [|y l'] L; try discriminate; [reflexivity|]. cbn. f_equal. apply IH. now injection L.
Qed.
Lemma iter_fst (cs : list (color_pos * list color_pos)) : io_iter (fun e => ser_color_pos (fst e)) cs = io_iter ser_color_pos (map fst cs).
Proof. induction cs as [|e cs IH]; [reflexivity|]. cbn [io_iter map]. now rewrite IH. Qed.

Lemma Forall2_in_weaken {A B} (R R' : A -> B -> Prop) l l' : (forall x y, In x l -> R x y -> R' x y) -> Forall2 R l l' -> Forall2 R' l l'.
Proof.
  intros H F. induction F as [|x y l l' Hx F IH]; constructor; [apply H; [now left|exact Hx]|]. apply IH. intros x' y' Hin. apply H. now right.
Qed.

Lemma voronoi_emits p O n im m : img_ok im -> (im_w im * im_h im <= 2 ^ 32)%N -> voronoi_encode p O n im = Some m ->
  (emits m [] Panic \/ emits m [] Err)
  \/ exists cs parts, emits m (voronoi_bytes (im_w im) (im_h im) cs) (Ok tt) /\ N.of_nat (length cs) = n /\ u64_ok n /\ cs <> [] /\ Forall (in_image im) cs
     /\ Permutation (concat parts) (pixels im) /\ Forall2 (drawn_from im) parts cs.
Proof.
  intros Hi Hs He. unfold voronoi_encode, with_clusters in He. rewrite (pixel_points_eq im Hi) in He.
  destruct (cluster _ _ _ _ _ _ _ _) as [[[c j]| |]|] eqn:E; [| | |discriminate]; injection He as <-.
  2: { left. right. apply emits_fail. }
  2: { left. left. apply emits_panic. }
  right. exists (centroids c), (assignment c). pose proof (pixels_in im Hi) as Hp. pose proof Hi as (Hw & Hh & _ & _ & _).
  pose proof (cluster_kept _ _ _ _ _ _ _ _ _ _ E) as (K1 & K2 & K3 & _ & _).
  assert (L : (N.of_nat (length (pixels im)) <= 2 ^ 32)%N) by (rewrite pixels_length; lia).
  assert (AB : Forall (in_image im) (centroids c) /\ Forall (Forall (in_image im)) (assignment c)).
  { apply (reached_ok (cp_point p) (or_sort O) (or_rng O) (in_image im) (or_vfuel O) (pixels im) n c); [|exact Hp|exact (cluster_result _ _ _ _ _ _ _ _ _ _ E)].
    intros v q Hv Hlen Hm. cbn [mean cp_point] in Hm. eapply cp_mean_in; [exact Hi|exact Hv|lia|exact Hm]. }
  destruct AB as [A B].
  assert (U : u64_ok n /\ centroids c <> []).
  { destruct (N.eq_dec n 0) as [->|Hn]; [rewrite cluster_refused in E by (now left); discriminate|].
    split; [|intros Z; rewrite Z in K3; cbn in K3; lia].
    destruct (N.ltb_spec (N.of_nat (length (pixels im))) n) as [Q|Q]; [rewrite cluster_refused in E by (now right); discriminate|]. unfold u64_ok. lia. }
  destruct U as [U Ne].
  split; [|split; [exact K3|split; [exact U|split; [exact Ne|split; [exact A|split; [exact K1|]]]]]].
  - unfold voronoi_bytes. rewrite K3. rewrite <- app_assoc.
    apply emits_bind with (a := tt); [exact (so_ok (ser_ty_ok TU32) (im_w im) Hw eq_refl)|].
    apply emits_bind with (a := tt); [exact (so_ok (ser_ty_ok TU32) (im_h im) Hh eq_refl)|].
    apply emits_bind with (a := tt); [exact (so_ok (ser_ty_ok TUsize) n U eq_refl)|].
    rewrite iter_fst, (cluster_list_length _ _ _ _ _ _ _ _ _ _ E). apply emits_iter. intros q Hq. apply cp_emits, (in_image_ok im); [exact Hi|].
    rewrite Forall_forall in A. now apply A.
  - pose proof (cluster_means _ _ _ _ _ _ _ _ _ _ E) as M. rewrite Forall_forall in B.
    assert (I : forall v, In v (assignment c) -> incl v (pixels im)).
    { intros v Hv q Hq. eapply Permutation_in; [exact K1|]. apply in_concat. now exists v. }
    assert (G : forall v q, In v (assignment c) -> (mean (cp_point p) v = Ok q \/ (mean (cp_point p) v = Err /\ exists w x, In w (assignment c) /\ In x w /\ mean (cp_point p) [x] = Ok q)) -> drawn_from im v q).
    { intros v q Hv Hm. cbn [mean cp_point] in Hm. assert (Vo : Forall color_pos_ok v).
      { eapply Forall_impl; [|exact (B v Hv)]. intros x. now apply in_image_ok. }
      split.
      - intros Hne. destruct (cp_mean_spec p v Vo Hne) as (m & E1 & _ & F).
        { pose proof (part_length v _ Hv) as PL. rewrite (Permutation_length K1) in PL. lia. }
        destruct Hm as [Hm|[Hm _]]; [|congruence]. rewrite E1 in Hm. apply ok_inj in Hm. subst m. exact F.
      - intros ->. destruct Hm as [Hm|[_ (w & x & Hw' & Hx & Hm)]]; [discriminate|].
        rewrite cp_mean_one in Hm; [apply ok_inj in Hm; subst; now apply (I w Hw')|].
        apply (in_image_ok im); [exact Hi|]. specialize (B w Hw'). rewrite Forall_forall in B. now apply B. }
    eapply Forall2_in_weaken; [|exact M]. exact G.
Qed.
