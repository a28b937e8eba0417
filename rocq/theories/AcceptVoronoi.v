(** * The data that the image decoders accept: voronoi. *)
From Coq Require Import ZifyBool ZifyNat ZifyN.
From Verif Require Import Base Ser SerSpec SerProofs Bit BitSpec Utils Huf HufSpec Dict DictSpec Back BackSpec Img Float HilbertC
  CodecSpec CodecBytes CodecTop CodecFinal CodecZip CodecHilbert Kmeans ClusterC ClusterSpec VoronoiProofs Prs Select Bench ForeignSpec ForeignKeeps ForeignTop ForeignZip AcceptSpec AcceptProofs AcceptPaint AcceptStreams.

(** ** The keys *)
Definition wrapped (x y : N) (c : color_pos) : Z := (plane_dist x y c mod 2 ^ 32)%Z.
Lemma sqdiff_wraps a b : u32_ok a -> u32_ok b -> exists r, u32_sqdiff Release a b = Ok r /\ Z.of_N r = ((Z.of_N a - Z.of_N b) ^ 2 mod 2 ^ 32)%Z.
Proof.
  unfold u32_ok. intros Ha Hb. unfold u32_sqdiff, usub, ufit.
  assert (S : exists d, (if (b <=? a)%N then Ok (a - b)%N else Ok ((a + 2 ^ 32 - b) mod 2 ^ 32)%N) = Ok d /\ (Z.of_N d = (Z.of_N a - Z.of_N b) mod 2 ^ 32)%Z).
  { destruct (N.leb_spec b a); (eexists; split; [reflexivity|]).
    - rewrite N2Z.inj_sub by lia. rewrite Z.mod_small; lia.
    - rewrite N.mod_small by lia. rewrite N2Z.inj_sub, N2Z.inj_add by lia. change (Z.of_N (2 ^ 32)) with (2 ^ 32)%Z.
      rewrite <- (Z.mod_add _ 1) by lia. rewrite Z.mod_small; lia. }
  destruct S as (d & -> & Hd). cbn [res_bind].
  assert (G : (Z.of_N (d * d) mod 2 ^ 32 = (Z.of_N a - Z.of_N b) ^ 2 mod 2 ^ 32)%Z) by (rewrite N2Z.inj_mul, Hd, <- Z.mul_mod, Z.pow_2_r by lia; reflexivity).
  destruct (N.ltb_spec (d * d) (2 ^ 32)) as [Q|Q]; (eexists; split; [reflexivity|]); rewrite <- G.
  - rewrite Z.mod_small; lia.
  - rewrite N2Z.inj_mod. reflexivity.
Qed.
Lemma key_wraps x y c : u32_ok x -> u32_ok y -> color_pos_ok c -> exists k, voronoi_key Release x y c = Ok k /\ Z.of_N k = wrapped x y c.
Proof.
  intros Hx Hy (H1 & H2 & _). unfold voronoi_key, wrapped, plane_dist.
  destruct (sqdiff_wraps _ _ H1 Hx) as (r1 & -> & E1). destruct (sqdiff_wraps _ _ H2 Hy) as (r2 & -> & E2). cbn [res_bind].
  assert (G : (Z.of_N (r1 + r2) mod 2 ^ 32 = ((Z.of_N (cp_x c) - Z.of_N x) ^ 2 + (Z.of_N (cp_y c) - Z.of_N y) ^ 2) mod 2 ^ 32)%Z) by (rewrite N2Z.inj_add, E1, E2, <- Z.add_mod by lia; reflexivity).
  unfold ufit. destruct (N.ltb_spec (r1 + r2) (2 ^ 32)) as [Q|Q]; (eexists; split; [reflexivity|]); rewrite <- G.
  - rewrite Z.mod_small; lia.
  - rewrite N2Z.inj_mod. reflexivity.
Qed.
Lemma sq_sub a b : (b <= a)%N -> Z.of_N ((a - b) * (a - b)) = ((Z.of_N a - Z.of_N b) ^ 2)%Z.
Proof. intros H. rewrite N2Z.inj_mul, N2Z.inj_sub, Z.pow_2_r by lia. reflexivity. Qed.
Lemma key_checked x y c : (x <= cp_x c /\ y <= cp_y c /\ (plane_dist x y c < 2 ^ 32)%Z)%N <-> exists k, voronoi_key Debug x y c = Ok k /\ Z.of_N k = plane_dist x y c.
Proof.
  unfold voronoi_key, u32_sqdiff, usub, ufit, plane_dist. split.
  - intros (H1 & H2 & H3). apply N.leb_le in H1 as E1. apply N.leb_le in H2 as E2. rewrite E1, E2. cbn [res_bind].
    pose proof (sq_sub _ _ H1) as S1. pose proof (sq_sub _ _ H2) as S2. rewrite <- S1, <- S2 in *.
    destruct (N.ltb_spec ((cp_x c - x) * (cp_x c - x)) (2 ^ 32)); [|lia]. destruct (N.ltb_spec ((cp_y c - y) * (cp_y c - y)) (2 ^ 32)); [|lia]. cbn [res_bind].
    destruct (N.ltb_spec ((cp_x c - x) * (cp_x c - x) + (cp_y c - y) * (cp_y c - y)) (2 ^ 32)); [|lia]. eexists. split; [reflexivity|lia].
  - intros (k & H & E). destruct (N.leb_spec x (cp_x c)) as [H1|]; [|discriminate]. cbn [res_bind] in H. destruct (_ <? _)%N; [|discriminate].
    cbn [res_bind] in H. destruct (N.leb_spec y (cp_y c)) as [H2|]; [|discriminate]. cbn [res_bind] in H. destruct ((cp_y c - y) * (cp_y c - y) <? 2 ^ 32)%N; [|discriminate].
    cbn [res_bind] in H. destruct (N.ltb_spec ((cp_x c - x) * (cp_x c - x) + (cp_y c - y) * (cp_y c - y)) (2 ^ 32)) as [H3|]; [|discriminate].
    split; [exact H1|]. split; [exact H2|]. rewrite <- (sq_sub _ _ H1), <- (sq_sub _ _ H2). lia.
Qed.
Lemma key_checked_ok x y c k : voronoi_key Debug x y c = Ok k -> (x <= cp_x c /\ y <= cp_y c /\ (plane_dist x y c < 2 ^ 32)%Z)%N.
Proof.
  intros H. apply key_checked. exists k. split; [exact H|]. pose proof (key_debug _ _ _ _ H) as [H1 H2]. revert H. unfold voronoi_key, u32_sqdiff, usub, ufit, plane_dist.
  apply N.leb_le in H1 as E1. apply N.leb_le in H2 as E2. rewrite E1, E2. cbn [res_bind].
  destruct (_ <? _)%N; [|discriminate]. cbn [res_bind]. destruct (_ <? _)%N; [|discriminate]. cbn [res_bind]. destruct (_ <? _)%N; [|discriminate].
  intros [= <-]. rewrite <- (sq_sub _ _ H1), <- (sq_sub _ _ H2). lia.
Qed.

(** ** Drawing *)
Definition keyed (p : profile) (w h : N) (cs : list color_pos) : Prop :=
  forall x y c, (x < w)%N -> (y < h)%N -> In c cs -> exists k, voronoi_key p x y c = Ok k /\ Z.of_N k = wrapped x y c.
Lemma least_key p x y cs : cs <> [] -> (forall c, In c cs -> exists k, voronoi_key p x y c = Ok k /\ Z.of_N k = wrapped x y c) ->
  exists c, first_least (wrapped x y) cs c /\ min_by_key (voronoi_key p x y) cs = Ok c.
Proof.
  intros Hne K. destruct (min_by_key_spec (voronoi_key p x y) (fun c => Z.to_N (wrapped x y c)) cs Hne) as (before & c & after & E & M & F1 & F2).
  - intros c Hc. destruct (K c Hc) as (k & -> & Hk). rewrite <- Hk. now rewrite N2Z.id.
  - exists c. split; [|exact M]. exists before, after. split; [exact E|].
    assert (P : forall d, (0 <= wrapped x y d)%Z) by (intros d; unfold wrapped; apply Z.mod_pos_bound; lia).
    split; (eapply Forall_impl; [|eassumption]); intros d Hd; cbn beta in Hd; pose proof (P c); pose proof (P d); lia.
Qed.
Lemma draw_keyed p w h cs : keyed p w h cs -> (exists im, draw p w h cs = Ok im /\ voronoi_shows w h cs im)
  \/ (draw p w h cs = Panic /\ cs = [] /\ (0 < w)%N /\ (0 < h)%N).
Proof.
  intros K. destruct (N.eq_dec (w * h) 0) as [Z|Z].
  { left. assert (R : row_major w h = []) by (apply length_zero_iff_nil; rewrite row_major_length; lia). unfold draw. rewrite R. cbn [res_mapM res_map].
    eexists. split; [reflexivity|]. split; [reflexivity|]. split; [reflexivity|]. split; [constructor|]. split; [cbn; lia|]. intros x y Hx Hy. exfalso. apply N.eq_mul_0 in Z. lia. }
  destruct cs as [|c0 cs0]; [right|left].
  - split; [|split; [reflexivity|rewrite N.eq_mul_0 in Z; lia]]. unfold draw. destruct (row_major w h) as [|q l] eqn:R; [|reflexivity].
    pose proof (row_major_length w h) as L. rewrite R in L. cbn in L. lia.
  - set (cs := c0 :: cs0) in *. assert (Hne : cs <> []) by discriminate.
    assert (KK : forall x y, (x < w)%N -> (y < h)%N -> exists c, first_least (wrapped x y) cs c /\ min_by_key (voronoi_key p x y) cs = Ok c).
    { intros x y Hx Hy. apply least_key; [exact Hne|]. intros c Hc. now apply K. }
    pose (col := fun q : N * N => match min_by_key (voronoi_key p (fst q) (snd q)) cs with Ok c => cp_color c | _ => black end).
    exists (from_rgb w h (map col (row_major w h))). split.
    + unfold draw. rewrite (mapM_ok _ col); [reflexivity|]. intros [x y] Hq. apply in_row_major in Hq as [Hx Hy]. cbn [fst snd].
      unfold col. cbn [fst snd]. destruct (KK x y Hx Hy) as (c & _ & ->). reflexivity.
    + unfold voronoi_shows, from_rgb. cbn [im_w im_h im_px]. split; [reflexivity|]. split; [reflexivity|]. split; [|split].
      * unfold is_opaque. cbn [im_px]. apply Forall_map, Forall_forall. reflexivity.
      * rewrite !map_length, row_major_length. lia.
      * intros x y Hx Hy. destruct (KK x y Hx Hy) as (c & H1 & H2). exists c. split; [exact H1|]. unfold pixel_at. cbn [im_w im_px fst snd].
        erewrite nth_error_nth; [|rewrite !nth_error_map, (row_major_nth _ _ _ _ Hx Hy); reflexivity]. cbn [to_rgb fst]. unfold col. cbn [fst snd]. now rewrite H2.
Qed.
Lemma first_least_unique key cs c d : first_least key cs c -> first_least key cs d -> c = d.
Proof.
  intros (b1 & a1 & E1 & F1 & G1) (b2 & a2 & E2 & F2 & G2). rewrite E1 in E2. revert b2 E2 F2 G2. clear E1.
  induction b1 as [|x b1 IH]; intros [|y b2] E F2 G2; cbn [app] in E; injection E as E0 E.
  - exact E0.
  - subst y. apply Forall_inv in F2. assert (In d a1) by (rewrite E; apply in_app_iff; right; now left). rewrite Forall_forall in G1. specialize (G1 d H). lia.
  - subst x. apply Forall_inv in F1. assert (In c a2) by (rewrite <- E; apply in_app_iff; right; now left). rewrite Forall_forall in G2. specialize (G2 c H). lia.
  - apply Forall_cons_iff in F1 as [_ F1], F2 as [_ F2]. eapply IH; eauto.
Qed.
Lemma voronoi_shows_unique w h cs a b : voronoi_shows w h cs a -> voronoi_shows w h cs b -> a = b.
Proof.
  intros (A1 & A2 & A3 & A4 & A5) (B1 & B2 & B3 & B4 & B5). destruct a as [wa ha pa], b as [wb hb pb]. cbn [im_w im_h im_px] in *. subst wa ha wb hb.
  f_equal. assert (LP : length pa = length pb) by (apply Nat2N.inj; congruence). apply nth_ext; [exact LP|]. intros k Hk. assert (Hk2 : (k < N.to_nat (w * h))%nat) by (rewrite <- A4, Nat2N.id; exact Hk).
  assert (Hk3 : (k < length pb)%nat) by (rewrite <- LP; exact Hk).
  destruct (index_split w h k Hk2) as (x & y & Hx & Hy & ->).
  destruct (A5 x y Hx Hy) as (c & C1 & C2). destruct (B5 x y Hx Hy) as (d & D1 & D2). rewrite (first_least_unique _ _ _ _ C1 D1), <- D2 in C2.
  unfold pixel_at in C2. cbn [im_w im_px fst snd] in C2. unfold is_opaque in *. cbn [im_px] in *. rewrite Forall_forall in A3, B3.
  rewrite (nth_error_nth' pa (black, 0%N) Hk), (nth_error_nth' pb (black, 0%N) Hk3). f_equal.
  pose proof (A3 _ (nth_In pa (black, 0%N) Hk)) as O1. pose proof (B3 _ (nth_In pb (black, 0%N) Hk3)) as O2.
  unfold to_rgb in C2. destruct (nth (px_index w x y) pa (black, 0%N)), (nth (px_index w x y) pb (black, 0%N)). cbn [fst snd] in *. congruence.
Qed.

(** ** The file *)
Lemma voronoi_cases p data : u8s data ->
  (voronoi_decode p list_next data = Err /\ ~ too_large data /\ forall w h cs, ~ voronoi_file w h cs data)
  \/ (voronoi_decode p list_next data = Panic /\ too_large data)
  \/ exists w h cs, voronoi_file w h cs data /\ voronoi_decode p list_next data = draw p w h cs.
Proof.
  intros HF. unfold voronoi_decode.
  assert (FL : forall w h cs, voronoi_file w h cs data -> (8 <= length data)%nat /\ ~ too_large data).
  { intros w h cs ((Hw & Hh & H3) & _ & _ & rest & ->). split; [unfold voronoi_bytes; rewrite !app_length; cbn; lia|].
    unfold voronoi_bytes. rewrite <- !app_assoc. rewrite too_large_dims by auto. lia. }
  assert (DR : forall w h cs, voronoi_file w h cs data -> voronoi_decode p list_next data = draw p w h cs).
  { intros w h cs (H1 & H2 & H3 & rest & E). rewrite E. apply (decode_draw p w h cs H1 H2 H3 _ list_next _ rest). apply yields_list. }
  destruct (create_cases data HF) as [[H1 (s & E1 & _)]|[[H1 (w & h & s & E1 & _)]|(w & h & body & HB & Hd & Hb & Hn & _ & _ & E1)]].
  - left. rewrite E1. split; [reflexivity|]. split; [now apply short_not_large|]. intros w h cs G. apply FL in G. lia.
  - right. left. rewrite E1. auto.
  - assert (ND : forall w h cs, draw p w h cs <> Err).
    { intros w0 h0 cs0. unfold draw. pose proof (mapM_err (fun q : N * N => res_map cp_color (unwrap (min_by_key (voronoi_key p (fst q) (snd q)) cs0))) (row_major w0 h0)) as G.
      destruct (res_mapM _ _) as [r| |]; try discriminate. exfalso. apply G; [|reflexivity]. intros q _. destruct (min_by_key _ cs0); discriminate. }
    unfold voronoi_decode in DR. rewrite E1 in DR |- *. destruct (deser TUsize (list N) list_next body) as [[n| |] s1] eqn:E2.
    + destruct (do_canon (deser_ty_ok TUsize) (list_byte_source Hb) E2) as [Hn1 [bs [Hf Hy]]]. injection Hf as <-. apply yields_list_inv in Hy.
      assert (Hs1 : u8s s1) by (rewrite Hy in Hb; apply Forall_app in Hb; apply Hb).
      rewrite rd_repeat_times in *. destruct (rd_times (deser_color_pos (list N) list_next) (N.to_nat n) [] s1) as [[cs| |] s2] eqn:E3.
      * right. right. destruct (times_canon cp_deser_ok _ _ (list_byte_source Hs1) E3) as (l' & bs & Ecs & Hl & HP & Hc & Hy2). cbn [app] in Ecs. subst l'.
        apply yields_list_inv in Hy2. rewrite cp_bytes_opt in Hc. apply (f_equal (fun o => match o with Some x => x | None => [] end)) in Hc. cbv beta iota in Hc. subst bs.
        assert (Hlen : N.of_nat (length cs) = n) by lia.
        assert (VF : voronoi_file w h cs data).
        { split; [exact HB|]. split; [exact HP|]. split; [rewrite Hlen; exact Hn1|]. exists s2. rewrite Hd, Hy, Hy2. unfold voronoi_bytes. rewrite Hlen. rewrite <- !app_assoc. reflexivity. }
        exists w, h, cs. split; [exact VF|]. exact (DR _ _ _ VF).
      * left. split; [reflexivity|]. split; [exact Hn|]. intros w0 h0 cs0 G. apply DR in G. symmetry in G. now apply ND in G.
      * exfalso. pose proof (times_nopanic cp_deser_ok (N.to_nat n) [] (list_byte_source Hs1)) as NP. rewrite E3 in NP. now apply NP.
    + left. split; [reflexivity|]. split; [exact Hn|]. intros w0 h0 cs0 G. apply DR in G. symmetry in G. now apply ND in G.
    + exfalso. apply (never_panics TUsize (list_byte_source Hb)). now rewrite E2.
Qed.
Lemma voronoi_file_unique w h cs w' h' cs' data : voronoi_file w h cs data -> voronoi_file w' h' cs' data -> w = w' /\ h = h' /\ cs = cs'.
Proof.
  intros ((Hw & Hh & _) & H1 & H2 & r & E) ((Hw' & Hh' & _) & H1' & H2' & r' & E'). subst data.
  assert (D : forall a b r0, u32_ok a -> u32_ok b -> deser (TPair TU32 TU32) _ list_next (le32 a ++ le32 b ++ r0) = (Ok (a, b), r0)).
  { intros a b r0 Ha Hb'. apply dims_deser; auto. rewrite app_assoc. apply yields_list. }
  unfold voronoi_bytes in E'. rewrite <- !app_assoc in E'.
  pose proof (D w h (le64 (N.of_nat (length cs)) ++ concat (map color_pos_bytes cs) ++ r) Hw Hh) as D1. rewrite E', (D w' h' _ Hw' Hh') in D1. pose proof (f_equal fst D1) as D0. apply (f_equal snd) in D1. cbn [fst snd] in D0, D1. injection D0 as -> ->.
  split; [reflexivity|]. split; [reflexivity|].
  assert (U : forall n r0, u64_ok n -> deser TUsize _ list_next (le64 n ++ r0) = (Ok n, r0)) by (intros n r0 Hn; apply (usize_deser n Hn _ list_next _ r0); apply yields_list).
  pose proof (U _ (concat (map color_pos_bytes cs) ++ r) H2) as U1. rewrite <- D1, (U _ _ H2') in U1. pose proof (f_equal fst U1) as Hlen. apply ok_inj in Hlen. apply (f_equal snd) in U1. cbn [snd] in U1. rename U1 into Hrest.
  pose proof (cps_deser cs H1 _ list_next _ r (yields_list (concat (map color_pos_bytes cs)) r)) as C1.
  pose proof (cps_deser cs' H1' _ list_next _ r' (yields_list (concat (map color_pos_bytes cs')) r')) as C2.
  rewrite Hrest, Hlen, C1 in C2. now injection C2.
Qed.
Lemma keyed_release w h cs : buffer_fits w h -> Forall color_pos_ok cs -> keyed Release w h cs.
Proof.
  intros (Hw & Hh & _) HC x y c Hx Hy Hc. rewrite Forall_forall in HC. apply key_wraps; auto; unfold u32_ok in *; lia.
Qed.
Lemma keyed_debug w h cs : no_overflow w h cs -> keyed Debug w h cs.
Proof.
  intros H x y c Hx Hy Hc. destruct (H c x y Hc Hx Hy) as (H1 & H2 & H3). destruct (proj1 (key_checked x y c) (conj H1 (conj H2 H3))) as (k & E & Hk).
  exists k. split; [exact E|]. rewrite Hk. unfold wrapped. rewrite Z.mod_small; [reflexivity|]. split; [|exact H3]. unfold plane_dist. nia.
Qed.
Lemma draw_checked w h cs im : draw Debug w h cs = Ok im -> no_overflow w h cs.
Proof.
  intros H c x y Hc Hx Hy. unfold draw in H. destruct (res_mapM _ _) as [l| |] eqn:E; try discriminate. clear H.
  destruct (min_by_key (voronoi_key Debug x y) cs) as [d| |] eqn:M.
  - destruct (min_by_key_ok _ _ _ M c Hc) as (k & Hk). now apply key_checked_ok in Hk.
  - exfalso. eapply mapM_bad; [apply (proj2 (in_row_major w h x y)); auto| |exact E]. intros q. cbn [fst snd]. rewrite M. discriminate.
  - exfalso. eapply mapM_bad; [apply (proj2 (in_row_major w h x y)); auto| |exact E]. intros q. cbn [fst snd]. rewrite M. discriminate.
Qed.
Theorem voronoi_accepts : forall p data, Forall u8_ok data ->
  (voronoi_decode p list_next data = Err <-> ~ too_large data /\ forall w h cs, ~ voronoi_file w h cs data)
  /\ forall im, voronoi_decode p list_next data = Ok im <->
     exists w h cs, voronoi_file w h cs data /\ (p = Debug -> no_overflow w h cs) /\ voronoi_shows w h cs im.
Proof.
  intros p data HF.
  assert (KD : forall w h cs, voronoi_file w h cs data -> (p = Debug -> no_overflow w h cs) -> keyed p w h cs).
  { intros w h cs (H1 & H2 & _) H. destruct p; [now apply keyed_debug, H|now apply keyed_release]. }
  destruct (voronoi_cases p data HF) as [(-> & H1 & H2)|[(-> & H1)|(w & h & cs & VF & ->)]].
  - split; [tauto|]. intros im. split; [discriminate|]. intros (w & h & cs & G & _). now apply H2 in G.
  - split; [split; [discriminate|tauto]|]. intros im. split; [discriminate|]. intros (w & h & cs & ((Hw & Hh & H3) & _ & _ & r & ->) & _). exfalso. revert H1.
    unfold voronoi_bytes. rewrite <- !app_assoc, too_large_dims by auto. lia.
  - split.
    + split; [|intros [_ G]; now apply G in VF]. intros E. exfalso. unfold draw in E.
      pose proof (mapM_err (fun q : N * N => res_map cp_color (unwrap (min_by_key (voronoi_key p (fst q) (snd q)) cs))) (row_major w h)) as G.
      destruct (res_mapM _ _) as [r| |]; try discriminate. apply G; [|reflexivity]. intros q _. destruct (min_by_key _ cs); discriminate.
    + intros im. split.
      * intros E. assert (NO : p = Debug -> no_overflow w h cs) by (intros ->; now apply draw_checked in E).
        exists w, h, cs. split; [exact VF|]. split; [exact NO|]. destruct (draw_keyed p w h cs (KD _ _ _ VF NO)) as [(im' & E' & S)|(E' & _)]; congruence.
      * intros (w' & h' & cs' & VF' & NO & S). destruct (voronoi_file_unique _ _ _ _ _ _ _ VF VF') as (<- & <- & <-).
        destruct (draw_keyed p w h cs (KD _ _ _ VF NO)) as [(im' & E' & S')|(E' & -> & Hw & Hh)].
        -- rewrite E'. f_equal. exact (voronoi_shows_unique _ _ _ _ _ S' S).
        -- exfalso. destruct S as (_ & _ & _ & _ & S). destruct (S 0%N 0%N Hw Hh) as (c & (b & a & E & _) & _). destruct b; discriminate.
Qed.
(** Without overflow the points are really the nearest. *)
Theorem voronoi_checked : forall data im, Forall u8_ok data -> voronoi_decode Debug list_next data = Ok im ->
  exists w h cs, voronoi_file w h cs data /\ voronoi_image w h cs im.
Proof.
  intros data im HF H. apply (proj2 (voronoi_accepts Debug data HF)) in H as (w & h & cs & VF & NO & S1 & S2 & S3 & S4 & S5). specialize (NO eq_refl).
  exists w, h, cs. split; [exact VF|]. repeat (split; [assumption|]). intros x y Hx Hy. destruct (S5 x y Hx Hy) as (c & (b & a & E & F & G) & C).
  exists c. split; [|exact C]. exists b, a. split; [exact E|].
  assert (M : forall d, In d cs -> (plane_dist x y d mod 2 ^ 32 = plane_dist x y d)%Z).
  { intros d Hd. apply Z.mod_small. destruct (NO d x y Hd Hx Hy) as (_ & _ & N3). split; [unfold plane_dist; nia|exact N3]. }
  assert (Mc : (plane_dist x y c mod 2 ^ 32 = plane_dist x y c)%Z) by (apply M; rewrite E; apply in_app_iff; right; now left).
  rewrite Forall_forall in F, G. split; apply Forall_forall; intros d Hd.
  - specialize (F d Hd). cbn beta in F. rewrite Mc, M in F by (rewrite E; apply in_app_iff; now left). exact F.
  - specialize (G d Hd). cbn beta in G. rewrite Mc, M in G by (rewrite E; apply in_app_iff; right; now right). exact G.
Qed.
