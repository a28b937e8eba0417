(** * The worked example of the delta codec in README.md:146-200 (C87). *)
From Verif Require Import Base Ser SerSpec SerProofs Bit BitSpec BitProofs Utils UtilsProofs Huf HufSpec HufProofs HufOpt HufTop
  Dict DictSpec DictProofs Img Float HilbertC CodecSpec CodecBytes CodecHilbert CodecTop SizeProofs HufShapeSpec HufShape HufShapeTop.
From Coq Require Import ZifyBool ZifyNat ZifyN.

Lemma pixel_nth im p : to_rgb (pixel_at im p) = nth (px_index (im_w im) (fst p) (snd p)) (map to_rgb (im_px im)) black.
Proof. unfold pixel_at. change black with (to_rgb (black, 0%N)). now rewrite map_nth. Qed.

Lemma readme_colours im f : im_w im = 4%N -> map to_rgb (im_px im) = map f readme_rows ->
  colours im readme_curve = map f readme_levels.
Proof.
  intros Ew E. unfold colours. erewrite map_ext; [|intros p; apply pixel_nth]. rewrite Ew, E. reflexivity.
Qed.
Lemma readme_differences r g b : diffs black (map (tint r g b) readme_levels) = map (tint_diff r g b) readme_diffs.
Proof. destruct r, g, b; reflexivity. Qed.

(** All optimal codes of a sequence have the same number of bits. *)
Lemma same_bits t (eqb : val t -> val t -> bool) : eqb_ok eqb -> forall items, items <> [] ->
  forall ord ord', ord_ok ord -> ord_ok ord' -> forall H H', heap_ok suffix_cmp H -> heap_ok suffix_cmp H' ->
  forall tree tree', build_tree H (ord (count_freqs eqb items)) = Ok tree -> build_tree H' (ord' (count_freqs eqb items)) = Ok tree' ->
  total_bits items (code_in eqb tree) = total_bits items (code_in eqb tree').
Proof.
  intros Heqb items Hne. assert (G : forall ord ord', ord_ok ord -> ord_ok ord' -> forall H H', heap_ok suffix_cmp H -> heap_ok suffix_cmp H' ->
    forall tree tree', build_tree H (ord (count_freqs eqb items)) = Ok tree -> build_tree H' (ord' (count_freqs eqb items)) = Ok tree' ->
    (total_bits items (code_in eqb tree) <= total_bits items (code_in eqb tree'))%N).
  { intros ord ord' Ho Ho' H H' HH HH' tree tree' E E'.
    destruct (@huf_optimal t eqb Heqb ord Ho H HH items Hne) as (t0 & code & E0 & Hc & Hopt). rewrite E in E0. injection E0 as <-.
    destruct (@encode_tree _ eqb Heqb ord Ho H HH items Hne) as [t1 [E1 [HN [Hl _]]]]. rewrite E in E1. injection E1 as <-.
    destruct (@encode_tree _ eqb Heqb ord' Ho' H' HH' items Hne) as [t2 [E2 [HN' [Hl' _]]]]. rewrite E' in E2. injection E2 as <-.
    assert (Q : total_bits items (code_in eqb tree) = total_bits items code).
    { unfold total_bits. f_equal. apply map_ext_in. intros x Hx. do 2 f_equal.
      exact (path_unique HN (code_in_path Heqb tree x (proj2 (Hl x) Hx)) (Hc x Hx)). }
    rewrite Q. apply Hopt. intros x y Hx Hy Hp.
    exact (proj2 (path_prefix (code_in_path Heqb tree' x (proj2 (Hl' x) Hx)) (code_in_path Heqb tree' y (proj2 (Hl' y) Hy)) Hp)). }
  intros. apply N.le_antisymm; eauto.
Qed.

Lemma readme_delta p scan ord H im r g b : img_ok im -> im_w im = 4%N -> im_h im = 4%N -> scan 4%N 4%N = readme_curve ->
  map to_rgb (im_px im) = map (tint r g b) readme_rows -> r || g || b = true -> ord_ok ord -> heap_ok suffix_cmp H ->
  let ds := map (tint_diff r g b) readme_diffs in
  diffs black (colours im (scan (im_w im) (im_h im))) = ds
  /\ (exists tree code, build_tree H (ord (count_freqs sc_eqb ds)) = Ok tree /\ (forall d, In d ds -> path tree (code d) d)
      /\ total_bits ds code = 36%N /\ tree <> tree_map (tint_diff r g b) readme_tree)
  /\ exists out, run_vec (delta_encode p scan ord H im) = Ok out /\ length out = 52%nat.
Proof.
  intros Hi Ew Eh Es Ec Hrgb Ho HH ds.
  assert (Ed : diffs black (colours im (scan (im_w im) (im_h im))) = ds).
  { rewrite Ew, Eh, Es, (readme_colours im _ Ew Ec). apply readme_differences. }
  split; [exact Ed|].
  assert (Hne : ds <> []) by discriminate.
  destruct (items_shape sc_eqb sc_eqb_ok ord Ho H HH ds Hne) as (tree & Et & HN & Hl & W & F & _).
  assert (Hcode : forall d, In d ds -> path tree (code_in sc_eqb tree d) d).
  { intros d Hd. apply (code_in_path sc_eqb_ok), Hl, Hd. }
  assert (Idp : ord_ok (fun l : list (list Z * N) => l)) by (intros l; apply Permutation_refl).
  assert (B : total_bits ds (code_in sc_eqb tree) = 36%N).
  { destruct (items_shape sc_eqb sc_eqb_ok (fun l => l) Idp list_heap (@list_heap_ok (list Z)) ds Hne) as (tree' & Et' & _).
    transitivity (total_bits ds (code_in sc_eqb tree'));
      [exact (same_bits sc_ty sc_eqb sc_eqb_ok ds Hne ord (fun l => l) Ho Idp H list_heap HH (@list_heap_ok _) tree tree' Et Et')|].
    clear - Et' Hrgb. unfold ds in *. destruct r, g, b; try discriminate Hrgb; vm_compute in Et'; injection Et' as <-; vm_compute; reflexivity. }
  split.
  - exists tree, (code_in sc_eqb tree). split; [exact Et|]. split; [exact Hcode|]. split; [exact B|].
    intros ->. clear - F Hrgb. unfold ds in F. destruct r, g, b; try discriminate Hrgb; cbn [tree_map readme_tree fair] in F;
      destruct F as (_ & _ & _ & (F & _)); vm_compute in F; now apply F.
  - set (cs := map (tint_diff r g b) [3; 0; 2; -1; 1]%Z).
    assert (Hcs : NoDup cs /\ forall c, In c cs <-> In c ds).
    { clear - Hrgb. unfold cs, ds. split.
      - destruct r, g, b; try discriminate Hrgb; cbn; repeat constructor; cbn; intuition discriminate.
      - intros c. rewrite !in_map_iff. split; intros (z & E & Hz); exists z; (split; [exact E|]); cbn in *; intuition. }
    assert (Hin : Forall (inside (im_w im) (im_h im)) (scan (im_w im) (im_h im))).
    { rewrite Ew, Eh, Es. repeat constructor. }
    destruct (delta_size p scan ord H im cs Hi Hin) as (out & B' & Ro & Lo & (code & Hpf & HB) & Hmin & _).
    + rewrite Ew, Eh, Es. discriminate.
    + exact Ho.
    + exact HH.
    + apply Hcs.
    + rewrite Ed. apply Hcs.
    + rewrite Ed in *. exists out. split; [exact Ro|].
      assert (B' = 36%N).
      { apply N.le_antisymm.
        - rewrite <- B. apply Hmin. intros x y Hx Hy Hp. apply Hcs in Hx. apply Hcs in Hy.
          exact (proj2 (path_prefix (Hcode x Hx) (Hcode y Hy) Hp)).
        - destruct (@huf_optimal sc_ty sc_eqb sc_eqb_ok ord Ho H HH ds Hne) as (t0 & code0 & E0 & Hc & Hopt).
          pose proof (eq_trans (eq_sym Et) E0) as Q. injection Q as <-. rewrite HB, <- B.
          replace (total_bits ds (code_in sc_eqb tree)) with (total_bits ds code0).
          + apply Hopt. intros x y Hx Hy. apply Hpf; now apply Hcs.
          + unfold total_bits. f_equal. apply map_ext_in. intros x Hx. do 2 f_equal. exact (path_unique HN (Hc x Hx) (Hcode x Hx)). }
      subst B'. change (length cs) with 5%nat in Lo. apply Nat2N.inj. rewrite Lo, H0. reflexivity.
Qed.
Lemma readme_visits : visits_all 4 4 readme_curve.
Proof.
  split.
  - unfold readme_curve. repeat (constructor; [cbn [In]; intros Q; repeat destruct Q as [Q|Q]; try discriminate Q; exact Q|]). constructor.
  - intros x y. split.
    + intros Q. cbn [In readme_curve] in Q. repeat destruct Q as [Q|Q]; try (injection Q as <- <-; lia). destruct Q.
    + intros [Hx Hy]. assert (x = 0 \/ x = 1 \/ x = 2 \/ x = 3)%N as [-> |[-> |[-> | ->]]] by lia;
        assert (y = 0 \/ y = 1 \/ y = 2 \/ y = 3)%N as [-> |[-> |[-> | ->]]] by lia; cbn [In readme_curve]; tauto.
Qed.
