(** * The shape of the trees that the encoders build (C87). *)
From Verif Require Import Base Ser SerSpec SerProofs Bit BitSpec BitProofs Utils UtilsProofs Huf HufSpec HufProofs HufOpt HufTop
  Dict DictSpec DictProofs Img Float HilbertC CodecSpec CodecBytes CodecHilbert CodecTop HufShapeSpec HufShape.
From Coq Require Import ZifyBool ZifyNat ZifyN.

Lemma weight_branch {A} (eqb : A -> A -> bool) items l r :
  weight eqb items (Branch l r) = (weight eqb items l + weight eqb items r)%N.
Proof. unfold weight. cbn [leaves]. rewrite map_app. apply sumN_app. Qed.

Lemma deepest {A} (t : bintrie A) : exists c x, path t c x /\ depth t = S (length c).
Proof.
  induction t as [v|l (c1 & x1 & P1 & D1) r (c2 & x2 & P2 & D2)]; [exists [], v; split; [constructor|reflexivity]|].
  cbn [depth]. destruct (Nat.max_spec (depth l) (depth r)) as [[_ ->]|[_ ->]].
  - exists (true :: c2), x2. split; [now constructor|]. cbn [length]. now rewrite D2.
  - exists (false :: c1), x1. split; [now constructor|]. cbn [length]. now rewrite D1.
Qed.

Section Items.
  Context {A : Type} (eqb : A -> A -> bool) (Heqb : eqb_ok eqb).
  Context (ord : list (A * N) -> list (A * N)) (Hord : ord_ok ord).
  Context (H : heap (suffix A)) (HH : heap_ok suffix_cmp H).

  Lemma items_shape items : items <> [] ->
    exists tree, build_tree H (ord (count_freqs eqb items)) = Ok tree
      /\ NoDup (leaves tree) /\ (forall x, In x (leaves tree) <-> In x items)
      /\ weight eqb items tree = N.of_nat (length items) /\ fair (weight eqb items) tree
      /\ exists ps, Permutation ps (siblings tree) /\ rising (pairs_of (weight eqb items) ps).
  Proof.
    intros Hne. destruct (@encode_tree _ eqb Heqb ord Hord H HH items Hne) as [t [Et [HN [Hl Pl]]]].
    assert (Po := Hord (count_freqs eqb items)).
    assert (Hf : ord (count_freqs eqb items) <> []).
    { intros E. rewrite E in Et. rewrite (build_tree_empty HH) in Et. discriminate. }
    destruct (build_shape (weight eqb items) (weight_branch eqb items) HH (freqs := ord (count_freqs eqb items)) Hf) as (t' & Et' & F & S).
    { intros x n Hx. apply (Permutation_in _ Po) in Hx. apply (count_freqs_in Heqb) in Hx as [_ ->].
      unfold weight. cbn. lia. }
    rewrite Et in Et'. injection Et' as <-. exists t. split; [exact Et|]. split; [exact HN|]. split; [exact Hl|].
    split; [|auto]. unfold weight. rewrite <- (count_freqs_sum eqb items).
    fold (sumN (map (fun x => occurs eqb x items) (leaves t))).
    rewrite (sumN_perm (Permutation_map (fun x => occurs eqb x items) Pl)), map_map. f_equal. apply map_ext_in.
    intros [x n] Hx. apply (count_freqs_in Heqb) in Hx as [_ ->]. reflexivity.
  Qed.
  Lemma leaf_weight items x : In x items -> (1 <= weight eqb items (Leaf x))%N.
  Proof. intros Hx. apply (occurs_pos Heqb) in Hx. unfold weight. cbn. lia. Qed.

  Lemma swap_bits items (code : A -> list bool) x y : x <> y ->
    (total_bits items (fun z => code (if eqb z x then y else if eqb z y then x else z))
     + occurs eqb x items * N.of_nat (length (code x)) + occurs eqb y items * N.of_nat (length (code y))
     = total_bits items code + occurs eqb x items * N.of_nat (length (code y)) + occurs eqb y items * N.of_nat (length (code x)))%N.
  Proof.
    intros Hxy. assert (E : forall a b, eqb a b = eqb b a).
    { intros a b. apply eq_true_iff_eq. rewrite (Heqb a b), (Heqb b a). split; congruence. }
    induction items as [|z l IH]; [reflexivity|]. unfold total_bits in *. cbn [map fold_right occurs].
    rewrite (E x z), (E y z). destruct (eqb z x) eqn:E1.
    - apply Heqb in E1. subst z. destruct (eqb x y) eqn:E2; [apply Heqb in E2; contradiction|]. nia.
    - destruct (eqb z y) eqn:E2; [apply Heqb in E2; subst z|]; nia.
  Qed.
End Items.

Section Top.
  Context (t : ty) (eqb : val t -> val t -> bool) (Heqb : eqb_ok eqb).
  Context (ord : list (val t * N) -> list (val t * N)) (Hord : ord_ok ord).
  Context (H : heap (suffix (val t))) (HH : heap_ok suffix_cmp H).

  Lemma huf_siblings items : items <> [] ->
    exists tree ps, build_tree H (ord (count_freqs eqb items)) = Ok tree /\ Permutation ps (siblings tree)
      /\ rising (flat_map (fun p => [weight eqb items (fst p); weight eqb items (snd p)]) ps).
  Proof.
    intros Hne. destruct (items_shape eqb Heqb ord Hord H HH items Hne) as (tr & E & _ & _ & _ & _ & ps & P & R).
    exists tr, ps. auto.
  Qed.
  Lemma huf_lighter items : items <> [] ->
    exists tree, build_tree H (ord (count_freqs eqb items)) = Ok tree
      /\ forall l r, In (l, r) (siblings tree) -> (weight eqb items l <= weight eqb items r)%N.
  Proof.
    intros Hne. destruct (items_shape eqb Heqb ord Hord H HH items Hne) as (tr & E & _ & _ & _ & F & _).
    exists tr. split; [exact E|]. clear E. revert F. generalize (weight eqb items). intros w. induction tr as [v|a IHa b IHb]; intros F l r Hin.
    - destruct Hin.
    - destruct F as (F1 & _ & F3 & F4). destruct Hin as [[= <- <-]|Hin]; [exact F1|]. apply in_app_iff in Hin as [Hin|Hin]; auto.
  Qed.
  Lemma huf_lengths items : items <> [] ->
    exists tree, build_tree H (ord (count_freqs eqb items)) = Ok tree
      /\ forall c x, path tree c x ->
           (fib (S (length c)) <= N.of_nat (length items))%N
           /\ ((N.of_nat (length items) <= 2 * occurs eqb x items)%N -> (length c <= 1)%nat)
           /\ (forall c' y, path tree c' y -> (occurs eqb y items < occurs eqb x items)%N -> (length c <= length c')%nat).
  Proof.
    intros Hne. destruct (items_shape eqb Heqb ord Hord H HH items Hne) as (tr & E & HN & Hl & W & F & _).
    exists tr. split; [exact E|]. intros c x P.
    assert (L1 : forall x, In x (leaves tr) -> (1 <= weight eqb items (Leaf x))%N).
    { intros y Hy. apply (leaf_weight eqb Heqb), Hl, Hy. }
    split; [|split].
    - rewrite <- W. apply (fair_deep _ (weight_branch eqb items) P F L1).
    - intros Hh. apply (fair_half _ (weight_branch eqb items) P F L1). rewrite W. unfold weight. cbn [leaves map fold_right]. rewrite N.add_0_r. exact Hh.
    - intros c' y P' Hlt. destruct (@huf_optimal t eqb Heqb ord Hord H HH items Hne) as (tr' & code & E' & Hc & Ho).
      rewrite E in E'. injection E' as <-.
      assert (Ix : In x items) by apply Hl, (path_in P). assert (Iy : In y items) by apply Hl, (path_in P').
      assert (Ec : code x = c) by exact (path_unique HN (Hc x Ix) P).
      assert (Ec' : code y = c') by exact (path_unique HN (Hc y Iy) P').
      assert (Hxy : x <> y) by (intros ->; lia).
      pose proof (swap_bits eqb Heqb items code x y Hxy) as Sw. rewrite Ec, Ec' in Sw.
      specialize (Ho (fun z => code (if eqb z x then y else if eqb z y then x else z))).
      assert (Hs : forall z, In z items -> In (if eqb z x then y else if eqb z y then x else z) items).
      { intros z Hz. destruct (eqb z x); [exact Iy|]. destruct (eqb z y); [exact Ix|exact Hz]. }
      assert (Hpf : prefix_free items (fun z => code (if eqb z x then y else if eqb z y then x else z))).
      { intros a b Ha Hb Hp. pose proof (proj2 (path_prefix (Hc _ (Hs a Ha)) (Hc _ (Hs b Hb)) Hp)) as Q.
        assert (Sp : forall u v, Bool.reflect (u = v) (eqb u v)).
        { intros u v. destruct (eqb u v) eqn:Q'; constructor; [now apply Heqb|]. intros E1. apply Heqb in E1. congruence. }
        destruct (Sp a x), (Sp b x), (Sp a y), (Sp b y); congruence. }
      specialize (Ho Hpf). nia.
  Qed.
  Lemma huf_depth items tree : items <> [] -> build_tree H (ord (count_freqs eqb items)) = Ok tree ->
    forall k, (N.of_nat (length items) < fib (S k))%N -> (depth tree <= k)%nat.
  Proof.
    intros Hne E k Hk. destruct (huf_lengths items Hne) as (tr & E' & Hp). rewrite E in E'. injection E' as <-.
    destruct (deepest tree) as (c & x & P & ->). destruct (Hp c x P) as [F _].
    destruct (Nat.le_gt_cases (S (length c)) k) as [G|G]; [exact G|]. pose proof (fib_mono (n := S k) (m := S (length c)) ltac:(lia)). lia.
  Qed.
End Top.

Lemma fib_90 : fib 90 = 4660046610375530309%N.
Proof. vm_compute. reflexivity. Qed.

(** ** The image codecs *)
Lemma hufman_depth ord H im : img_ok im -> ord_ok ord -> heap_ok suffix_cmp H -> im_px im <> [] ->
  exists out, run_vec (hufman_encode ord H im) = Ok out /\
  forall fuel, (im_w im * im_h im < fib (S fuel))%N \/ (89 <= fuel)%nat ->
  forall S (next : nextf S N) s s', yields next s out s' -> hufman_decode fuel next s = Some (Ok (opaque im)).
Proof.
  intros Hi Ho HH Hne. destruct (hufman_run ord H im Hi Ho HH Hne) as [tr [pay [lb [hdr [R Eh]]]]].
  exists ((le32 (im_w im) ++ le32 (im_h im)) ++ hdr ++ pay ++ lb). split; [eapply hufman_out; eassumption|].
  intros fuel Hd S next s s' Hy.
  assert (Hf : (depth tr <= fuel)%nat).
  { assert (Hn : map to_rgb (im_px im) <> []) by (destruct (im_px im); [contradiction|discriminate]).
    assert (D : forall k, (im_w im * im_h im < fib (1 + k))%N -> (depth tr <= k)%nat).
    { intros k Hk. apply (huf_depth (TRgb TU8) rgb_eqb rgb_eqb_ok ord Ho H HH _ tr Hn (er_tree R)).
      change (N.of_nat (length (map to_rgb (im_px im))) < fib (1 + k))%N. rewrite (img_len _ Hi). lia. }
    destruct Hd as [Hd|Hd].
    - exact (D fuel Hd).
    - apply (Nat.le_trans _ 89); [|exact Hd]. apply D. change (fib (1 + 89)) with (fib 90). rewrite fib_90. destruct Hi as (_ & _ & H3 & _). lia. }
  apply yields_app_inv in Hy as [s1 [Hy1 Hy2]]. apply yields_app_inv in Hy2 as [s2 [Hy2 Hy3]].
  unfold hufman_decode. rewrite (create_ok _ Hi _ _ _ _ Hy1).
  unfold huf_decode_all. rewrite (deser_trie_rt (deser_ty_ok (TRgb TU8)) tr (er_P R) Eh Hf Hy2).
  destruct (er_bits R) as [k [Hk Hbits]].
  pose proof (br_prefix MsbFirst Hy3) as Hbr. rewrite Hbits in Hbr. apply yields_app_inv in Hbr as [br1 [Hbr _]].
  assert (Y : yields (dec_next tr next) (bit_reader s2) (map to_rgb (im_px im)) br1).
  { unfold dec_next. apply lookup_seq with (code := code_in rgb_eqb tr); [|exact Hbr].
    intros x Hx. apply (code_in_path rgb_eqb_ok), (er_leaves R), Hx. }
  rewrite rd_repeat_times, <- (img_len _ Hi), (times_yields _ _ _ _ Y). cbn [app]. now rewrite opaque_from.
Qed.

Lemma delta_depth p scan ord H im : img_ok im -> visits_all (im_w im) (im_h im) (scan (im_w im) (im_h im)) -> im_px im <> [] ->
  ord_ok ord -> heap_ok suffix_cmp H ->
  exists out, run_vec (delta_encode p scan ord H im) = Ok out /\
  forall fuel, (im_w im * im_h im < fib (S fuel))%N \/ (89 <= fuel)%nat ->
  forall p2 S (next : nextf S N) s s', yields next s out s' -> delta_decode p2 scan fuel next s = Some (Ok (opaque im)).
Proof.
  intros Hi Hv Hne Ho HH. pose proof (visits_inside _ _ _ Hv) as Hs. pose proof (visits_length _ _ _ Hv) as HL.
  assert (Hn : scan (im_w im) (im_h im) <> []).
  { intros E. rewrite E in HL. destruct Hi as (_ & _ & _ & L & _). destruct (im_px im); [contradiction|]. cbn in *. lia. }
  pose proof Hi as (Hw & Hh & H3 & _). set (ps := scan (im_w im) (im_h im)) in *.
  pose proof (colours_ok im ps Hi) as Hc. set (cs := colours im ps) in *.
  assert (Lc : length cs = length ps) by apply map_length.
  pose proof (diffs_ok cs Hc black black_ok) as Hd. set (ds := diffs black cs) in *.
  assert (Ld : length ds = length cs) by apply diffs_length.
  assert (Hnd : ds <> []) by (destruct ds; [destruct ps; [contradiction|cbn in *; lia]|discriminate]).
  assert (HE : Forall (encodable sc_ty) ds) by (eapply Forall_impl; [|exact Hd]; apply diff_encodable).
  destruct (@run_of_encodable sc_ty sc_eqb sc_eqb_ok ord Ho H HH ds Hnd HE) as [tr [pay [lb [hdr [R Eh]]]]].
  assert (Hp : forall d, In d ds -> path tr (code_in sc_eqb tr d) d).
  { intros d Hin. apply (code_in_path sc_eqb_ok), (er_leaves R), Hin. }
  exists (dims im ++ hdr ++ pay ++ lb). split.
  - unfold run_vec, delta_encode, io_bind. rewrite (dims_emits _ _ Hw Hh).
    unfold put, io_bind, write_all, vec_writer, io_lift. cbn [room written flush_fails].
    rewrite (linearize_ok _ _ Hi Hs), map_map. fold ps. fold (colours im ps). fold cs.
    change START with (signed_of black). rewrite (diff_stream_ok p cs Hc black black_ok). fold ds.
    rewrite (er_ok R Eh). now apply vec_append.
  - intros fuel Hfu p2 S next s s' Hy.
    assert (Hf : (depth tr <= fuel)%nat).
    { assert (D : forall k, (im_w im * im_h im < fib (1 + k))%N -> (depth tr <= k)%nat).
      { intros k Hk. apply (huf_depth sc_ty sc_eqb sc_eqb_ok ord Ho H HH ds tr Hnd (er_tree R)).
        change (N.of_nat (length ds) < fib (1 + k))%N. rewrite Ld, Lc, HL. lia. }
      destruct Hfu as [Hfu|Hfu].
      - exact (D fuel Hfu).
      - apply (Nat.le_trans _ 89); [|exact Hfu]. apply D. change (fib (1 + 89)) with (fib 90). rewrite fib_90. lia. }
    apply yields_app_inv in Hy as [s1 [Hy1 Hy2]]. apply yields_app_inv in Hy2 as [s2 [Hy2 Hy3]].
    unfold delta_decode. rewrite (create_ok _ Hi _ _ _ _ Hy1).
    unfold huf_decode_all. rewrite (deser_trie_rt (deser_ty_ok sc_ty) tr (er_P R) Eh Hf Hy2).
    destruct (er_bits R) as [k [Hk Hbits]].
    pose proof (br_prefix MsbFirst Hy3) as Hbr. rewrite Hbits in Hbr. apply yields_app_inv in Hbr as [br1 [Hbr _]].
    assert (Y : yields (dec_next tr next) (bit_reader s2) ds br1) by (unfold dec_next; now apply lookup_seq with (code := code_in sc_eqb tr)).
    destruct (undiff p2 (dec_next tr next) cs Hc black _ _ black_ok Y) as [c YD]. fold ps.
    change START with (signed_of black).
    rewrite (paint_yields _ _ _ _ _ _ _ _ Hs YD) by (rewrite Lc; apply le_n). cbn [res_bind]. do 2 f_equal.
    rewrite <- (only_at_all im ps Hi) by (intros x y Hx Hy'; now apply (proj2 Hv)).
    rewrite <- (firstn_all ps) at 2. rewrite <- (painted_only_at im ps _ Hi Hs). fold cs. now rewrite <- Lc, firstn_all.
Qed.
