(** * Statements of C43-C45, assembled, and concrete cases. *)
From Flocq Require Import BinarySingleNaN.
From Verif Require Import Base Ser SerSpec SerProofs BackSpec Bit Utils Huf HufSpec HufTop Img Float HilbertC CodecSpec CodecBytes CodecHilbert CodecCases
  Kmeans KmeansSpec KmeansProofs KmeansCases ClusterC ClusterSpec ClusterProofs ClusterColors VoronoiProofs VoronoiDebug.

(** ** The serialized form of a point *)
Lemma cp_roundtrip c : color_pos_ok c -> run_vec (ser_color_pos c) = Ok (color_pos_bytes c) /\ length (color_pos_bytes c) = 19%nat
  /\ forall S (next : nextf S N) s s', yields next s (color_pos_bytes c) s' -> deser_color_pos S next s = (Ok c, s').
Proof.
  intros Hc. split; [apply (emits_run_vec (cp_emits c Hc))|]. split; [apply cp_bytes_length|].
  intros S next s s' Hy. eapply (do_rt cp_deser_ok); [exact Hc|reflexivity|exact Hy].
Qed.
Lemma cp_canonical S (next : nextf S N) s c s' : byte_source next s -> deser_color_pos S next s = (Ok c, s') ->
  color_pos_ok c /\ exists bs, run_vec (ser_color_pos c) = Ok bs /\ yields next s bs s'.
Proof.
  intros Hb Hd. destruct (do_canon cp_deser_ok Hb Hd) as (Hc & bs & E & Hy). split; [exact Hc|]. exists bs. injection E as <-.
  split; [apply (emits_run_vec (cp_emits c Hc))|exact Hy].
Qed.
Lemma cp_truncation c bs p : color_pos_ok c -> run_vec (ser_color_pos c) = Ok bs -> strict_prefix p bs ->
  forall S (next : nextf S N) s, yields_all next s p -> fst (deser_color_pos S next s) = Err.
Proof.
  intros Hc E Hp S next s (s1 & s2 & Hy & He). rewrite (emits_run_vec (cp_emits c Hc)) in E. injection E as <-.
  erewrite (do_trunc cp_deser_ok); [reflexivity|exact Hc|reflexivity|exact Hp|exact Hy|exact He].
Qed.
Lemma cp_no_panic S (next : nextf S N) s : byte_source next s -> fst (deser_color_pos S next s) <> Panic.
Proof. intros Hb. now apply (do_nopanic cp_deser_ok). Qed.
Lemma cp_short c k : color_pos_ok c ->
  fst (ser_color_pos c (short_writer k)) = (if (19 <=? k)%nat then Ok tt else Err)
  /\ written (snd (ser_color_pos c (short_writer k))) = firstn k (color_pos_bytes c).
Proof. intros Hc. rewrite <- (cp_bytes_length c). apply emits_short, cp_emits, Hc. Qed.

(** ** C44 *)
Lemma voronoi_release O n im m out : img_ok im -> (im_w im <= 46341)%N -> (im_h im <= 46341)%N ->
  voronoi_encode Release O n im = Some m -> run_vec m = Ok out ->
  exists cs parts im', out = voronoi_bytes (im_w im) (im_h im) cs /\ N.of_nat (length cs) = n
  /\ Permutation (concat parts) (pixels im) /\ Forall2 (drawn_from im) parts cs /\ Forall (in_image im) cs
  /\ voronoi_image (im_w im) (im_h im) cs im'
  /\ forall S (next : nextf S N) s s', yields next s out s' -> voronoi_decode Release next s = Ok im'.
Proof.
  intros Hi Hw Hh He Hr. destruct (voronoi_emits Release O n im m Hi ltac:(nia) He) as [[H|H]|(cs & parts & H & Hn & Hu & Hne & Hc & Hp & Hd)].
  1,2: apply emits_run_vec in H; congruence.
  apply emits_run_vec in H. rewrite H in Hr. injection Hr as <-.
  destruct (draw_release (im_w im) (im_h im) cs Hw Hh Hne) as (im' & D1 & D2).
  { revert Hc. apply Forall_impl. intros c (H1 & H2 & _). lia. }
  exists cs, parts, im'. split; [reflexivity|]. split; [exact Hn|]. split; [exact Hp|]. split; [exact Hd|]. split; [exact Hc|]. split; [exact D2|].
  intros S next s s' Hy. rewrite (decode_draw Release (im_w im) (im_h im) cs) with (s' := s'); [exact D1| | | |exact Hy].
  - unfold buffer_fits, u32_ok. nia.
  - revert Hc. apply Forall_impl. intros c. now apply in_image_ok.
  - now rewrite Hn.
Qed.
Lemma voronoi_decode_release w h cs : (w <= 46341)%N -> (h <= 46341)%N -> cs <> [] -> u64_ok (N.of_nat (length cs)) ->
  Forall color_pos_ok cs -> Forall (fun c => (cp_x c <= 46340)%N /\ (cp_y c <= 46340)%N) cs ->
  exists im, voronoi_image w h cs im /\ forall S (next : nextf S N) s s', yields next s (voronoi_bytes w h cs) s' -> voronoi_decode Release next s = Ok im.
Proof.
  intros Hw Hh Hne Hn Hc Hx. destruct (draw_release w h cs Hw Hh Hne Hx) as (im & D1 & D2). exists im. split; [exact D2|].
  intros S next s s' Hy. rewrite (decode_draw Release w h cs) with (s' := s'); try assumption. unfold buffer_fits, u32_ok. nia.
Qed.
Lemma voronoi_decode_debug w h cs c x y : buffer_fits w h -> Forall color_pos_ok cs -> u64_ok (N.of_nat (length cs)) ->
  In c cs -> (x < w)%N -> (y < h)%N -> (cp_x c < x \/ cp_y c < y)%N ->
  forall S (next : nextf S N) s s', yields next s (voronoi_bytes w h cs) s' -> voronoi_decode Debug next s = Panic.
Proof.
  intros Hb Hc Hn Hin Hx Hy Hlt S next s s' H. rewrite (decode_draw Debug w h cs) with (s' := s'); try assumption. now apply (draw_debug w h cs c x y).
Qed.
Lemma voronoi_decode_none p w h : buffer_fits w h -> (0 < w)%N -> (0 < h)%N ->
  forall S (next : nextf S N) s s', yields next s (voronoi_bytes w h []) s' -> voronoi_decode p next s = Panic.
Proof.
  intros Hb Hw Hh S next s s' H. rewrite (decode_draw p w h []) with (s' := s'); try assumption; [|constructor|unfold u64_ok; cbn; lia].
  unfold draw. assert (E : exists q l, row_major w h = q :: l).
  { destruct (row_major w h) as [|q l] eqn:E; [|eauto]. pose proof (row_major_visits w h) as [_ V]. rewrite E in V. destruct (proj2 (V 0 0)%N). lia. }
  destruct E as (q & l & ->). reflexivity.
Qed.
Lemma voronoi_size w h cs : length (voronoi_bytes w h cs) = (16 + 19 * length cs)%nat.
Proof.
  unfold voronoi_bytes. rewrite !app_length. assert (H : length (concat (map color_pos_bytes cs)) = (19 * length cs)%nat).
  { induction cs as [|c cs IH]; [reflexivity|]. cbn [map concat]. rewrite app_length, IH, cp_bytes_length. cbn [length]. lia. }
  rewrite H. reflexivity.
Qed.
Lemma row_major_start w h : (0 < w)%N -> (0 < h)%N -> exists l, row_major w h = (0, 0)%N :: l.
Proof.
  intros Hw Hh. unfold row_major, upto. destruct (N.to_nat h) as [|h'] eqn:Eh; [lia|]. destruct (N.to_nat w) as [|w'] eqn:Ew; [lia|].
  eexists. cbn. reflexivity.
Qed.
Lemma ufit_release m r : exists k, ufit Release m r = Ok k.
Proof. unfold ufit. destruct (_ <? _)%N; eauto. Qed.
Lemma usub_release m a b : exists k, usub Release m a b = Ok k.
Proof. unfold usub. destruct (_ <=? _)%N; eauto. Qed.
Lemma key_total x y c : exists k, voronoi_key Release x y c = Ok k.
Proof.
  assert (S : forall a b, exists r, u32_sqdiff Release a b = Ok r).
  { intros a b. unfold u32_sqdiff. destruct (usub_release (2 ^ 32) a b) as (d & ->). apply ufit_release. }
  unfold voronoi_key. destruct (S (cp_x c) x) as (dx & ->). destruct (S (cp_y c) y) as (dy & ->). apply ufit_release.
Qed.
Lemma min_by_total {A} (key : A -> res N) (Hk : forall a, exists k, key a = Ok k) l : forall b, exists a, min_by key b l = Ok a.
Proof. induction l as [|a l IH]; intros b; cbn [min_by]; [eauto|]. destruct (Hk a) as (k & ->). cbn. destruct (k <? snd b)%N; apply IH. Qed.
Lemma draw_release_ok w h cs : cs <> [] -> exists im, draw Release w h cs = Ok im.
Proof.
  intros Hne. unfold draw. set (f := fun q : N * N => res_map cp_color _).
  assert (H : forall l, exists v, res_mapM f l = Ok v).
  { induction l as [|q l (v & IH)]; cbn [res_mapM]; [eauto|]. unfold f at 1. destruct cs as [|c cs]; [congruence|]. cbn [min_by_key].
    destruct (key_total (fst q) (snd q) c) as (k & ->). cbn [res_bind].
    destruct (min_by_total (voronoi_key Release (fst q) (snd q)) (key_total _ _) cs (c, k)) as (a & ->). cbn. rewrite IH. cbn. eauto. }
  destruct (H (row_major w h)) as (v & ->). cbn. eauto.
Qed.
(** Beyond 46341 the release build wraps: the far centroid wins. *)
Definition far_cs : list color_pos := [mkCP 65536 0 (255, 0, 0); mkCP 1 0 (0, 0, 255)]%N.
Lemma wide_wrong : exists w h cs, buffer_fits w h /\ u64_ok (N.of_nat (length cs)) /\ Forall color_pos_ok cs /\ cs <> []
  /\ Forall (fun c => (cp_x c < w)%N /\ (cp_y c < h)%N) cs
  /\ exists c, min_by_key (voronoi_key Release 0 0) cs = Ok c /\ ~ first_nearest cs 0 0 c
  /\ exists im, to_rgb (pixel_at im (0, 0)%N) = cp_color c /\ (forall d, In d cs -> cp_color d = cp_color c -> d = c)
  /\ forall S (next : nextf S N) s s', yields next s (voronoi_bytes w h cs) s' -> voronoi_decode Release next s = Ok im.
Proof.
  exists 65537%N, 1%N, far_cs. Opaque row_major. assert (B : buffer_fits 65537 1) by (unfold buffer_fits, u32_ok; lia).
  assert (U : u64_ok (N.of_nat (length far_cs))) by (unfold u64_ok; cbn; lia).
  assert (C : Forall color_pos_ok far_cs) by (repeat constructor; unfold u32_ok, u8_ok; cbn; lia).
  split; [exact B|]. split; [exact U|]. split; [exact C|]. split; [discriminate|]. split; [repeat constructor; cbn; lia|].
  exists (mkCP 65536 0 (255, 0, 0)%N). assert (M : min_by_key (voronoi_key Release 0 0) far_cs = Ok (mkCP 65536 0 (255, 0, 0)%N)) by (vm_compute; reflexivity).
  split; [exact M|]. split.
  - intros (b & a & E & H1 & H2). destruct b as [|b0 b].
    + injection E as <-. inversion_clear H2. vm_compute in H. congruence.
    + injection E as <- E. inversion_clear H1. vm_compute in H. discriminate.
  - destruct (draw_release_ok 65537 1 far_cs ltac:(discriminate)) as (im & D). exists im. split; [|split].
    + unfold draw in D. destruct (row_major_start 65537 1 eq_refl eq_refl) as (l & R). rewrite R in D. cbn [res_mapM fst snd] in D. rewrite M in D.
      cbn [unwrap res_map res_bind cp_color] in D. destruct (res_mapM _ l) as [v| |]; try discriminate. cbn in D. injection D as <-. reflexivity.
    + intros d [<-|[<-|[]]]; [reflexivity|discriminate].
    + intros S next s s' Hy. rewrite (decode_draw Release 65537 1 far_cs) with (s' := s'); assumption.
Qed.
Transparent row_major.

(** ** C45 *)
Lemma weighted_mean p l : Forall color_count_ok l -> l <> [] -> (total (map cc_count l) < 2 ^ 56)%N ->
  exists m, cc_mean p l = Ok m /\ rgb_ok (cc_color m) /\ (1 <= cc_count m < 2 ^ 32)%N /\ forall f, In f channels ->
  floor_of (f (cc_color m)) (total (map (fun q => f (cc_color q) * cc_count q)%N l)) (total (map cc_count l))
  /\ forall lo hi, (forall q, In q l -> (lo <= f (cc_color q) <= hi)%N) -> (lo <= f (cc_color m) <= hi)%N.
Proof.
  intros Hl Hn Hw. destruct (cc_mean_spec p l Hl Hn Hw) as (m & H1 & H2 & H3 & H4). exists m. split; [exact H1|]. split; [exact H2|]. split; [exact H4|].
  intros f Hf. specialize (H3 f Hf). split; [exact H3|]. intros lo hi Hb. eapply floor_between; [|exact H3|].
  - now apply weight_pos.
  - split; [apply wsum_ge|apply wsum_le]; intros q Hq; apply Hb in Hq; lia.
Qed.
Lemma position_mean p l : Forall color_pos_ok l -> l <> [] -> (N.of_nat (length l) <= 2 ^ 32)%N ->
  exists m, cp_mean p l = Ok m /\ color_pos_ok m /\ forall f, In f components ->
  floor_of (f m) (total (map f l)) (N.of_nat (length l))
  /\ forall lo hi, (forall q, In q l -> (lo <= f q <= hi)%N) -> (lo <= f m <= hi)%N.
Proof.
  intros Hl Hn Hw. destruct (cp_mean_spec p l Hl Hn Hw) as (m & H1 & H2 & H3). exists m. split; [exact H1|]. split; [exact H2|].
  intros f Hf. specialize (H3 f Hf). split; [exact H3|]. intros lo hi Hb. eapply floor_between; [|exact H3|].
  - destruct l; [congruence|cbn [length]; lia].
  - split; [apply csum_ge|apply csum_le]; intros q Hq; apply Hb in Hq; lia.
Qed.
Lemma mean_of_one p : (forall x, cc_mean p [x] = Ok x) /\ (forall x, color_pos_ok x -> cp_mean p [x] = Ok x) /\ cc_mean p [] = Err /\ cp_mean p [] = Err.
Proof. repeat split. intros x. apply cp_mean_one. Qed.

(** ** Concrete cases *)
Definition strip : img := mkImg 6 1 [px 3 1 0 255; px 0 2 0 255; px 1 0 2 255; px 2 3 3 255; px 2 2 2 0; px 2 2 2 255]%N.
Definition some_oracles : oracles := mkOr insertion_sort no_rng 10 10.
Lemma strip_ok : img_ok strip.
Proof. repeat split; cbn; try lia; unfold u32_ok; try lia. repeat constructor; unfold u8_ok; cbn; lia. Qed.
Lemma case43 : exists m out im', cluster_colors_encode Release some_oracles (fun l => l) (@rev _) list_heap 3 strip = Some m /\ run_vec m = Ok out
  /\ cluster_colors_decode 100 list_next (out ++ [7]%N) = Some (Ok im')
  /\ map to_rgb (im_px im') = [(3, 1, 0); (1, 1, 1); (1, 1, 1); (2, 3, 3); (1, 1, 1); (1, 1, 1)]%N.
Proof.
  pose (test := fun (r : option (io unit)) => match r with
    | Some m => match run_vec m with
        | Ok out => match cluster_colors_decode 100 list_next (out ++ [7]%N) with Some (Ok im') => map to_rgb (im_px im') | _ => [] end
        | _ => [] end
    | None => [] end).
  assert (H : test (cluster_colors_encode Release some_oracles (fun l => l) (@rev _) list_heap 3 strip)
    = [(3, 1, 0); (1, 1, 1); (1, 1, 1); (2, 3, 3); (1, 1, 1); (1, 1, 1)]%N) by (vm_compute; reflexivity).
  unfold test in H. destruct (cluster_colors_encode _ _ _ _ _ _ _) as [m|]; [|discriminate]. destruct (run_vec m) as [out| |] eqn:E; try discriminate.
  destruct (cluster_colors_decode _ _ _) as [[im'| |]|] eqn:E2; try discriminate. exists m, out, im'. auto.
Qed.
Definition wall : img := mkImg 3 2 [px 9 0 0 255; px 8 0 0 255; px 0 200 0 255; px 7 1 0 255; px 9 9 9 9; px 1 220 0 255]%N.
Lemma wall_ok : img_ok wall.
Proof. repeat split; cbn; try lia; unfold u32_ok; try lia. repeat constructor; unfold u8_ok; cbn; lia. Qed.
Lemma case44 : exists m out im', voronoi_encode Release some_oracles 2 wall = Some m /\ run_vec m = Ok out
  /\ length out = 54%nat /\ voronoi_decode Release list_next out = Ok im'
  /\ map to_rgb (im_px im') = [(8, 2, 2); (0, 210, 0); (0, 210, 0); (8, 2, 2); (0, 210, 0); (0, 210, 0)]%N.
Proof.
  pose (test := fun (r : option (io unit)) => match r with
    | Some m => match run_vec m with
        | Ok out => match voronoi_decode Release list_next out with Ok im' => (length out, map to_rgb (im_px im')) | _ => (1%nat, []) end
        | _ => (2%nat, []) end
    | None => (3%nat, []) end).
  assert (H : test (voronoi_encode Release some_oracles 2 wall)
    = (54%nat, [(8, 2, 2); (0, 210, 0); (0, 210, 0); (8, 2, 2); (0, 210, 0); (0, 210, 0)]%N)) by (vm_compute; reflexivity).
  unfold test in H. destruct (voronoi_encode _ _ _ _) as [m|]; [|discriminate]. destruct (run_vec m) as [out| |] eqn:E; try discriminate.
  destruct (voronoi_decode _ _ _) as [im'| |] eqn:E2; try discriminate. injection H as H1 H2. exists m, out, im'. auto.
Qed.
