(** * The Huffman properties, assembled (C10-C16). *)
From Verif Require Import Base Ser SerSpec SerProofs Bit BitSpec BitProofs Utils Huf HufSpec UtilsProofs HufProofs HufOpt.
From Coq Require Import ZifyBool ZifyNat ZifyN.
Set Implicit Arguments.

Lemma freqs_spec A (eqb : A -> A -> bool) (items : list A) : eqb_ok eqb ->
  NoDup (map fst (count_freqs eqb items))
  /\ (forall x n, In (x, n) (count_freqs eqb items) <-> In x items /\ n = occurs eqb x items)
  /\ fold_right N.add 0%N (map snd (count_freqs eqb items)) = N.of_nat (length items).
Proof.
  intros Heqb. split; [now apply count_freqs_nodup|]. split; [intros; now apply count_freqs_in|].
  apply count_freqs_sum.
Qed.

(** ** The code built from any frequency table *)
Lemma build_code A (eqb : A -> A -> bool) (H : heap (suffix A)) freqs :
  eqb_ok eqb -> heap_ok suffix_cmp H -> freqs <> [] -> NoDup (map fst freqs) ->
  exists tree enc code,
    build_tree H freqs = Ok tree /\ enc_from eqb tree = Ok enc
    /\ (forall x, In x (map fst freqs) ->
          exists a, hm_get eqb x enc = Some a /\ ba_from_slice (code x) MsbFirst = Ok a)
    /\ (forall x, ~ In x (map fst freqs) -> hm_get eqb x enc = None)
    /\ (forall x S (next : nextf S bool) s s', In x (map fst freqs) ->
          yields next s (code x) s' -> trie_lookup tree next s = (Ok x, s'))
    /\ prefix_free (map fst freqs) code
    /\ (forall L, (forall x, In x (map fst freqs) -> (length (code x) <= L)%nat) ->
          kraft L (map fst freqs) code = (2 ^ N.of_nat L)%N)
    /\ (forall c, prefix_free (map fst freqs) c -> (table_bits freqs code <= table_bits freqs c)%N).
Proof.
  intros Heqb HH Hne HN.
  destruct (build_tree_leaves HH Hne) as [t [Et Pt]].
  assert (HNt : NoDup (leaves t)) by (apply (Permutation_NoDup (Permutation_sym Pt) HN)).
  destruct (enc_from_spec Heqb t HNt) as [m [Em [Hm1 Hm2]]].
  assert (Hin : forall x, In x (leaves t) <-> In x (map fst freqs)).
  { intros x. split; apply Permutation_in; [exact Pt|now symmetry]. }
  assert (Hc : forall x, In x (map fst freqs) -> path t (code_in eqb t x) x).
  { intros x Hx. apply (code_in_path Heqb), Hin, Hx. }
  assert (Ecodes : codes t = map (fun x => (code_in eqb t x, x)) (leaves t)).
  { rewrite <- codes_leaves, map_map. rewrite <- (map_id (codes t)) at 1. apply map_ext_in. intros [b x] Hb.
    cbn [snd]. f_equal. apply codes_path in Hb. apply (path_unique HNt Hb).
    apply (code_in_path Heqb). apply leaves_path. eauto. }
  assert (Etab : forall c : A -> list bool, table_bits freqs c =
            sumN (map (fun p => snd p * N.of_nat (length (c (fst p))))%N freqs)) by reflexivity.
  exists t, m, (code_in eqb t). split; [exact Et|]. split; [exact Em|].
  split; [|split; [|split; [|split; [|split]]]].
  - intros x Hx. destruct (Hm1 _ _ (Hc x Hx)) as [a [E1 E2]]. eauto.
  - intros x Hx. apply Hm2. now rewrite Hin.
  - intros x S next s s' Hx Hy. exact (lookup_path (Hc x Hx) Hy).
  - intros x y Hx Hy Hp. exact (proj2 (path_prefix (Hc x Hx) (Hc y Hy) Hp)).
  - intros L HL. unfold kraft.
    transitivity (kr L (map (fun p => length (fst p)) (codes t))).
    + rewrite Ecodes. unfold kr. rewrite (map_map (fun x => (code_in eqb t x, x))), (map_map (fun x => length (fst (code_in eqb t x, x)))).
      cbn [fst]. apply sumN_perm. apply (Permutation_map (fun x => (2 ^ N.of_nat (L - length (code_in eqb t x)))%N)). now symmetry.
    + apply tree_kraft. rewrite Ecodes, map_map. cbn [fst]. intros d Hd. apply in_map_iff in Hd as [x [<- Hx]].
      apply HL, Hin, Hx.
  - intros c Hpf.
    set (w := fun x => match hm_get eqb x freqs with Some n => n | None => 0%N end).
    assert (Hw : forall x n, In (x, n) freqs -> n = w x).
    { intros x n Hx. unfold w. now rewrite (hm_in_get Heqb _ _ _ HN Hx). }
    destruct (@build_tree_opt A H HH w freqs (fun x => length (c x)) Hne Hw) as [t' [Et' Hcost]].
    { rewrite <- (map_map fst (fun x => length (c x))). now apply prefix_free_kraft. }
    rewrite Et in Et'. injection Et' as <-. rewrite !Etab.
    etransitivity; [|exact Hcost]. unfold tree_cost. rewrite Ecodes, map_map. cbn [fst snd].
    rewrite (sumN_perm (Permutation_map (fun x => w x * N.of_nat (length (code_in eqb t x)))%N Pt)).
    rewrite map_map. apply N.eq_le_incl. f_equal. apply map_ext_in. intros [x n] Hx. cbn [fst snd]. now rewrite <- (Hw x n Hx).
Qed.

Section Top.
  Context (t : ty) (eqb : val t -> val t -> bool) (Heqb : eqb_ok eqb).
  Context (ord : list (val t * N) -> list (val t * N)) (Hord : ord_ok ord).
  Context (H : heap (suffix (val t))) (HH : heap_ok suffix_cmp H).
  Notation encode items := (huf_encode_all eqb (ser t) ord H items).

  Lemma trie_encodable tree : Forall (encodable t) (leaves tree) -> exists bs, trie_format (format t) tree = Some bs.
  Proof.
    induction tree as [v|l IHl r IHr]; cbn [leaves trie_format]; intros F.
    - apply Forall_cons_iff in F as [[_ [bs E]] _]. rewrite E, app_opt_eq. eauto.
    - apply Forall_app in F as [Fl Fr]. destruct (IHl Fl) as [a ->], (IHr Fr) as [b ->].
      rewrite concat_opt3_eq. eauto.
  Qed.
  Lemma trie_format_len tree bs : trie_format (format t) tree = Some bs ->
    length bs = (2 * length (leaves tree) - 1 + list_sum (map (@ser_len t) (leaves tree)))%nat.
  Proof.
    assert (Pos : forall tr : bintrie (val t), (0 < length (leaves tr))%nat).
    { induction tr as [v|l IHl r IHr]; cbn [leaves length]; [lia|]. rewrite app_length. lia. }
    revert bs. induction tree as [v|l IHl r IHr]; cbn [leaves trie_format]; intros bs E.
    - apply app_opt_some in E as [x [y [[= <-] [Ey ->]]]]. cbn [map list_sum fold_right length app]. unfold ser_len. rewrite Ey. lia.
    - apply concat_opt3 in E as [x [y [z [[= <-] [Ey [Ez ->]]]]]].
      rewrite map_app, list_sum_app, !app_length, (IHl _ Ey), (IHr _ Ez). cbn [length].
      pose proof (Pos l). pose proof (Pos r). lia.
  Qed.

  Lemma run_of_encodable items : items <> [] -> Forall (@encodable t) items ->
    exists tree pay lastb hdr, enc_run eqb (wf t) (format t) (ser t) ord H items tree pay lastb
      /\ trie_format (format t) tree = Some hdr.
  Proof.
    intros Hne HE.
    destruct (@encode_run _ eqb Heqb (wf t) (format t) (ser t) (ser_ty_ok t) ord Hord H HH items Hne) as [tr [pay [lb R]]].
    { eapply Forall_impl; [|exact HE]. intros x [Hx _]. exact Hx. }
    destruct (@trie_encodable tr) as [hdr Eh].
    { apply Forall_forall. intros x Hx. apply (er_leaves R) in Hx. now apply (proj1 (Forall_forall _ _) HE). }
    exists tr, pay, lb, hdr. auto.
  Qed.

  Lemma staged_vec hdr pay lastb : run_vec (staged hdr pay lastb) = Ok (hdr ++ pay ++ lastb).
  Proof.
    unfold run_vec, staged, io_bind, io_unwrap, write_all, vec_writer, flush. cbn.
    now rewrite <- app_assoc.
  Qed.
  Lemma staged_short hdr pay lastb k :
    let r := staged hdr pay lastb (short_writer k) in
    written (snd r) = firstn k (hdr ++ pay ++ lastb) /\
    fst r = (if (k <? length hdr)%nat then Err
             else if (k <? length hdr + length pay)%nat then Panic
             else if (k <? length hdr + length pay + length lastb)%nat then Err else Ok tt).
  Proof.
    cbn zeta. unfold staged, io_bind, io_unwrap, write_all, short_writer, flush. cbn [room written flush_fails].
    rewrite !firstn_app.
    destruct (Nat.leb_spec (length hdr) k) as [H1|H1], (Nat.ltb_spec k (length hdr)) as [H1'|H1']; try lia.
    - cbn [room written flush_fails].
      rewrite (firstn_all2 hdr) by lia.
      destruct (Nat.leb_spec (length pay) (k - length hdr)) as [H2|H2],
               (Nat.ltb_spec k (length hdr + length pay)) as [H2'|H2']; try lia.
      + cbn [room written flush_fails unwrap].
        rewrite (firstn_all2 pay) by lia.
        destruct (Nat.leb_spec (length lastb) (k - length hdr - length pay)) as [H3|H3],
                 (Nat.ltb_spec k (length hdr + length pay + length lastb)) as [H3'|H3']; try lia.
        * cbn [fst snd written]. rewrite (firstn_all2 lastb) by lia. rewrite <- app_assoc. auto.
        * cbn [fst snd written app]. rewrite <- app_assoc. auto.
      + cbn [unwrap fst snd written app]. replace (k - length hdr - length pay)%nat with 0%nat by lia.
        cbn [firstn app]. rewrite app_nil_r. auto.
    - cbn [fst snd written app]. replace (k - length hdr)%nat with 0%nat by lia. cbn [firstn app Nat.sub].
      rewrite app_nil_r. auto.
  Qed.
  Lemma staged_flush hdr pay lastb :
    staged hdr pay lastb (mkW [] None true) = (Err, mkW (hdr ++ pay ++ lastb) None true).
  Proof.
    unfold staged, io_bind, io_unwrap, write_all, flush. cbn. now rewrite <- app_assoc.
  Qed.

  (** C11 *)
  Lemma huf_roundtrip items : items <> [] -> Forall (@encodable t) items ->
    exists out, run_vec (encode items) = Ok out /\
    forall S (next : nextf S N) s s', yields next s out s' ->
    exists f0, forall fuel, (f0 <= fuel)%nat ->
    exists tree bits s1 bits', huf_decode_all (deser t) fuel next s = Some (Ok (tree, bits), s1)
      /\ yields (dec_next tree next) bits items bits'.
  Proof.
    intros Hne HE. destruct (run_of_encodable Hne HE) as [tr [pay [lb [hdr [R Eh]]]]].
    exists (hdr ++ pay ++ lb). split.
    { unfold run_vec. rewrite (er_ok R Eh). apply staged_vec. }
    intros S next s s' Hy. apply yields_app_inv in Hy as [s1 [Hy1 Hy2]].
    exists (depth tr). intros fuel Hf.
    destruct (er_bits R) as [k [Hk Hbits]].
    pose proof (br_prefix MsbFirst Hy2) as Hbr. rewrite Hbits in Hbr.
    apply yields_app_inv in Hbr as [br1 [Hbr _]].
    exists tr, (bit_reader s1), s1, br1. split.
    - unfold huf_decode_all. rewrite (deser_trie_rt (deser_ty_ok t) tr (er_P R) Eh Hf Hy1). reflexivity.
    - unfold dec_next. apply lookup_seq with (code := code_in eqb tr); [|exact Hbr].
      intros x Hx. apply (code_in_path Heqb), (er_leaves R), Hx.
  Qed.

  Lemma sum_const_tree items tree pay lastb :
    enc_run eqb (wf t) (format t) (ser t) ord H items tree pay lastb ->
    total_bits items (code_in eqb tree) = N.of_nat (length (flat_map (code_in eqb tree) items)).
  Proof.
    intros _. unfold total_bits. induction items as [|x l IH]; [reflexivity|].
    cbn [map fold_right flat_map]. rewrite IH, app_length. lia.
  Qed.

  (** C13 for sequences *)
  Lemma huf_optimal items : items <> [] ->
    exists tree code, build_tree H (ord (count_freqs eqb items)) = Ok tree
      /\ (forall x, In x items -> path tree (code x) x)
      /\ forall c, prefix_free items c -> (total_bits items code <= total_bits items c)%N.
  Proof.
    intros Hne. destruct (@encode_tree _ eqb Heqb ord Hord H HH items Hne) as [tr [Et [HN [Hl Pl]]]].
    assert (Po := Hord (count_freqs eqb items)).
    assert (HNf : NoDup (map fst (ord (count_freqs eqb items)))).
    { apply (Permutation_NoDup (Permutation_map fst (Permutation_sym Po))), (count_freqs_nodup Heqb). }
    assert (Hnf : ord (count_freqs eqb items) <> []).
    { intros E. rewrite E in Et. rewrite (build_tree_empty HH) in Et. discriminate. }
    destruct (@build_code _ eqb H _ Heqb HH Hnf HNf) as [tr' [enc [code [Et' [_ [_ [_ [Hdec [_ [_ Hopt]]]]]]]]]].
    rewrite Et in Et'. injection Et' as <-.
    assert (Hkeys : forall x, In x (map fst (ord (count_freqs eqb items))) <-> In x items).
    { intros x. rewrite <- (count_freqs_keys Heqb items x). split; apply Permutation_in, Permutation_map; [exact Po|now symmetry]. }
    assert (Etot : forall c, total_bits items c = table_bits (ord (count_freqs eqb items)) c).
    { intros c. unfold total_bits, table_bits. symmetry.
      etransitivity; [|exact (count_freqs_weighted Heqb (fun x => N.of_nat (length (c x))) items)].
      apply sumN_perm, Permutation_map, Po. }
    exists tr, code. split; [exact Et|]. split.
    - intros x Hx. apply Hkeys in Hx.
      assert (Hy : yields list_next (code x) (code x) []) by (rewrite <- (app_nil_r (code x)) at 1; apply yields_list).
      apply (Hdec x _ _ _ _ Hx) in Hy.
      assert (G : forall (tr : bintrie (val t)) bits v, trie_lookup tr list_next bits = (Ok v, []) -> path tr bits v).
      { clear. induction tr as [u|l IHl r IHr]; intros bits v E; cbn [trie_lookup] in E.
        - injection E as <- ->. constructor.
        - destruct bits as [|[] bits]; cbn [list_next] in E; [discriminate| |]; constructor; auto. }
      now apply G.
    - intros c Hc. rewrite !Etot. apply Hopt. intros x y Hx Hy. apply Hc; now apply Hkeys.
  Qed.

  (** C14-C16 *)
  Lemma huf_output items : items <> [] -> Forall (@encodable t) items ->
    exists tree code hdr pay lastb,
      build_tree H (ord (count_freqs eqb items)) = Ok tree
      /\ (forall x, In x items <-> In x (leaves tree)) /\ NoDup (leaves tree)
      /\ (forall x, In x items -> path tree (code x) x)
      /\ trie_format (format t) tree = Some hdr
      /\ length hdr = (2 * length (leaves tree) - 1 + list_sum (map (@ser_len t) (leaves tree)))%nat
      /\ N.of_nat (length pay) = (total_bits items code / 8)%N
      /\ N.of_nat (length lastb) = (if (total_bits items code mod 8 =? 0)%N then 0%N else 1%N)
      /\ run_vec (encode items) = Ok (hdr ++ pay ++ lastb)
      /\ (forall k, let r := encode items (short_writer k) in
            written (snd r) = firstn k (hdr ++ pay ++ lastb) /\
            fst r = (if (k <? length hdr)%nat then Err
                     else if (k <? length hdr + length pay)%nat then Panic
                     else if (k <? length hdr + length pay + length lastb)%nat then Err else Ok tt))
      /\ encode items (mkW [] None true) = (Err, mkW (hdr ++ pay ++ lastb) None true).
  Proof.
    intros Hne HE. destruct (run_of_encodable Hne HE) as [tr [pay [lb [hdr [R Eh]]]]].
    exists tr, (code_in eqb tr), hdr, pay, lb.
    split; [exact (er_tree R)|]. split; [intros x; symmetry; apply (er_leaves R)|]. split; [exact (er_nodup R)|].
    split; [intros x Hx; apply (code_in_path Heqb), (er_leaves R), Hx|]. split; [exact Eh|].
    split; [now apply trie_format_len|].
    assert (L : exists k, (k < 8)%nat /\ (8 * (length pay + length lb) = length (flat_map (code_in eqb tr) items) + k)%nat).
    { destruct (er_bits R) as [k [Hk E]]. exists k. split; [exact Hk|].
      apply (f_equal (@length _)) in E. rewrite bytes_bits_length, !app_length, repeat_length in E. exact E. }
    destruct L as [k [Hk L]]. pose proof (er_last R) as Hl. pose proof (er_aligned R) as Ha.
    rewrite (sum_const_tree R). set (B := length (flat_map (code_in eqb tr) items)) in *.
    assert (DM : (B = 8 * (B / 8) + B mod 8 /\ B mod 8 < 8)%nat).
    { split; [apply Nat.div_mod|apply Nat.mod_upper_bound]; lia. }
    assert (HL : (length lb = if (B mod 8 =? 0)%nat then 0 else 1)%nat).
    { destruct (Nat.eqb_spec (B mod 8) 0) as [E|E].
      - apply Ha in E. now rewrite E.
      - destruct lb as [|x [|]]; cbn in *; try lia. exfalso. apply E, Ha. reflexivity. }
    assert (EB8 : (N.of_nat B / 8 = N.of_nat (B / 8))%N) by (change 8%N with (N.of_nat 8); now rewrite Nat2N.inj_div).
    assert (EBm : (N.of_nat B mod 8 = N.of_nat (B mod 8))%N) by (change 8%N with (N.of_nat 8); now rewrite Nat2N.inj_mod).
    split; [|split; [|split; [|split]]].
    - rewrite EB8. f_equal. destruct (Nat.eqb_spec (B mod 8) 0); lia.
    - rewrite EBm, HL. destruct (Nat.eqb_spec (B mod 8) 0), (N.eqb_spec (N.of_nat (B mod 8)) 0); lia.
    - unfold run_vec. rewrite (er_ok R Eh). apply staged_vec.
    - intros n. cbn zeta. rewrite (er_ok R Eh). apply staged_short.
    - rewrite (er_ok R Eh). apply staged_flush.
  Qed.

  Lemma huf_never_aborts items : items <> [] -> Forall (@encodable t) items ->
    exists out, run_vec (encode items) = Ok out.
  Proof.
    intros Hne HE. destruct (huf_output Hne HE) as [tree [code [hdr [pay [lb [_ [_ [_ [_ [_ [_ [_ [_ [E _]]]]]]]]]]]]]]. eauto.
  Qed.
  Lemma huf_crash items : items <> [] -> Forall (@encodable t) items ->
    exists tree code hdr pay lastb,
      build_tree H (ord (count_freqs eqb items)) = Ok tree
      /\ (forall x, In x items -> path tree (code x) x)
      /\ trie_format (format t) tree = Some hdr
      /\ N.of_nat (length pay) = (total_bits items code / 8)%N
      /\ run_vec (encode items) = Ok (hdr ++ pay ++ lastb)
      /\ (forall k, let r := encode items (short_writer k) in
            written (snd r) = firstn k (hdr ++ pay ++ lastb) /\
            fst r = (if (k <? length hdr)%nat then Err
                     else if (k <? length hdr + length pay)%nat then Panic
                     else if (k <? length hdr + length pay + length lastb)%nat then Err else Ok tt))
      /\ encode items (mkW [] None true) = (Err, mkW (hdr ++ pay ++ lastb) None true).
  Proof.
    intros Hne HE. destruct (huf_output Hne HE) as [tree [code [hdr [pay [lb [E1 [_ [_ [E4 [E5 [_ [E7 [_ [E9 [E10 E11]]]]]]]]]]]]]]].
    exists tree, code, hdr, pay, lb. auto 10.
  Qed.
  Lemma huf_size items : items <> [] -> Forall (@encodable t) items ->
    exists tree code out,
      build_tree H (ord (count_freqs eqb items)) = Ok tree
      /\ (forall x, In x items <-> In x (leaves tree)) /\ NoDup (leaves tree)
      /\ (forall x, In x items -> path tree (code x) x)
      /\ run_vec (encode items) = Ok out
      /\ N.of_nat (length out) = (N.of_nat (2 * length (leaves tree) - 1 + list_sum (map (@ser_len t) (leaves tree)))
                                + (total_bits items code + 7) / 8)%N.
  Proof.
    intros Hne HE. destruct (huf_output Hne HE) as [tree [code [hdr [pay [lb [E1 [E2 [E3 [E4 [E5 [E6 [E7 [E8 [E9 _]]]]]]]]]]]]]].
    exists tree, code, (hdr ++ pay ++ lb). repeat (split; [assumption|]).
    rewrite !app_length, !Nat2N.inj_add, E6, E7, E8. set (B := total_bits items code).
    assert (DM : (B = 8 * (B / 8) + B mod 8)%N) by (apply N.div_mod; lia).
    assert (LT : (B mod 8 < 8)%N) by (apply N.mod_lt; lia).
    assert (R : ((B + 7) / 8 = B / 8 + if (B mod 8 =? 0)%N then 0 else 1)%N).
    { destruct (N.eqb_spec (B mod 8) 0) as [Z|Z].
      - symmetry. apply N.div_unique with (r := 7%N); lia.
      - symmetry. apply N.div_unique with (r := (B mod 8 - 1)%N); lia. }
    rewrite R. lia.
  Qed.
  Lemma huf_empty w : encode [] w = (Panic, w).
  Proof. now apply encode_empty. Qed.

  (** A single distinct symbol: no payload, and the stream never ends. *)
  Lemma huf_single x items : items <> [] -> (forall y, In y items -> y = x) -> encodable t x ->
    exists out, run_vec (encode items) = Ok out /\ length out = (1 + ser_len t x)%nat /\
    forall S (next : nextf S N) s s', yields next s out s' ->
    forall fuel, (1 <= fuel)%nat ->
    exists tree, huf_decode_all (deser t) fuel next s = Some (Ok (tree, bit_reader s'), s')
      /\ forall b, dec_next tree next b = (Ok x, b).
  Proof.
    intros Hne Hall Hx.
    assert (HE : Forall (@encodable t) items) by (apply Forall_forall; intros y Hy; now rewrite (Hall y Hy)).
    destruct (run_of_encodable Hne HE) as [tr [pay [lb [hdr [R Eh]]]]].
    assert (Etr : tr = Leaf x).
    { pose proof (er_nodup R) as HN. pose proof (er_leaves R) as Hl.
      destruct tr as [v|l r].
      - f_equal. apply Hall, Hl. now left.
      - exfalso. cbn [leaves] in *. apply NoDup_app_inv in HN as [_ [_ D]].
        assert (Ex : forall tr : bintrie (val t), exists v, In v (leaves tr)).
        { clear. induction tr as [u|l [v IHl] r IHr]; [exists u; now left|]. exists v. apply in_or_app. now left. }
        destruct (Ex l) as [v1 H1], (Ex r) as [v2 H2].
        assert (v1 = x) by (apply Hall, Hl, in_or_app; now left).
        assert (v2 = x) by (apply Hall, Hl, in_or_app; now right). subst. eauto. }
    subst tr.
    assert (Ef : flat_map (code_in eqb (Leaf x)) items = []).
    { unfold code_in. cbn [codes find snd].
      clear. induction items as [|y l IH]; [reflexivity|]. cbn [flat_map]. rewrite IH. destruct (eqb y x); reflexivity. }
    assert (Epl : pay = [] /\ lb = []).
    { destruct (er_bits R) as [k [Hk E]]. apply (f_equal (@length _)) in E.
      rewrite Ef, bytes_bits_length, !app_length, repeat_length in E. cbn [length] in E.
      destruct pay, lb; cbn in E; try lia. auto. }
    destruct Epl as [-> ->]. exists hdr. split.
    { unfold run_vec. rewrite (er_ok R Eh). rewrite <- (app_nil_r hdr) at 2. apply staged_vec. }
    split; [rewrite (trie_format_len _ Eh); cbn; lia|].
    intros S next s s' Hy fuel Hf. exists (Leaf x). split; [|reflexivity].
    unfold huf_decode_all. now rewrite (deser_trie_rt (deser_ty_ok t) (Leaf x) (er_P R) Eh Hf Hy).
  Qed.
End Top.

(** ** A concrete heap (a sorted list), to show the contract can be met *)
Section ListHeap.
  Context {A : Type}.
  Fixpoint ins (s : suffix A) (l : list (suffix A)) : list (suffix A) :=
    match l with
    | [] => [s]
    | x :: l => if (fst s <=? fst x)%N then s :: x :: l else x :: ins s l
    end.
  Definition sorted_fst (l : list (suffix A)) : Prop := ForallOrdPairs (fun a b => (fst a <= fst b)%N) l.
  Lemma ins_perm s l : Permutation (ins s l) (s :: l).
  Proof.
    induction l as [|x l IH]; cbn [ins]; [reflexivity|]. destruct (_ <=? _)%N; [reflexivity|].
    rewrite IH. apply perm_swap.
  Qed.
  Lemma ins_sorted s l : sorted_fst l -> sorted_fst (ins s l).
  Proof.
    induction 1 as [|x l Hx Hl IH]; cbn [ins]; [repeat constructor|].
    destruct (N.leb_spec (fst s) (fst x)) as [H|H].
    - constructor; [|now constructor]. constructor; [exact H|].
      eapply Forall_impl; [|exact Hx]. intros y Hy. cbn in Hy. lia.
    - constructor; [|exact IH]. apply (Permutation_Forall (Permutation_sym (ins_perm s l))).
      constructor; [lia|exact Hx].
  Qed.
  Lemma sorted_tl s l : sorted_fst (s :: l) -> sorted_fst l.
  Proof. now inversion 1. Qed.
  Definition sheap : Type := { l : list (suffix A) | sorted_fst l }.
  Definition list_heap : heap (suffix A) := {|
    hp := sheap;
    hp_of := fun l => fold_right (fun s h => exist _ (ins s (proj1_sig h)) (ins_sorted s (proj2_sig h)))
                                 (exist _ [] (FOP_nil _)) l;
    hp_push := fun s h => exist _ (ins s (proj1_sig h)) (ins_sorted s (proj2_sig h));
    hp_pop := fun h => match h with
                       | exist _ [] _ => None
                       | exist _ (s :: l) p => Some (s, exist _ l (sorted_tl p))
                       end;
    hp_elems := fun h => proj1_sig h |}.
  Lemma list_heap_ok : heap_ok suffix_cmp list_heap.
  Proof.
    split.
    - intros l. cbn [hp_elems hp_of list_heap]. induction l as [|s l IH]; cbn [fold_right proj1_sig]; [reflexivity|].
      rewrite ins_perm. now apply perm_skip.
    - intros e h. apply ins_perm.
    - intros [[|s l] p]; [reflexivity|discriminate].
    - intros [[|s l] p] e h' E; [discriminate|]. cbn in E. injection E as <- <-. split; [reflexivity|].
      cbn [hp_elems list_heap proj1_sig]. intros x Hx. inversion p as [|? ? Hs _]; subst.
      apply (proj1 (Forall_forall _ _) Hs) in Hx. unfold suffix_cmp. rewrite <- N.compare_antisym.
      intros E. rewrite N.compare_lt_iff in E. cbn in Hx. lia.
  Qed.
End ListHeap.

(** ** Serialized trees (the tree part of C01-C03, C05) *)
Section TreeSer.
  Context (t : ty).
  Lemma ser_trie_run tree bs : Forall (wf t) (leaves tree) -> run_vec (ser_trie (ser t) tree) = Ok bs ->
    trie_format (format t) tree = Some bs.
  Proof.
    intros HP E. destruct (trie_format (format t) tree) as [b|] eqn:F.
    - pose proof (so_ok (ser_trie_ok (ser_ty_ok t)) tree HP F) as Hs.
      rewrite (emits_run_vec Hs) in E. injection E as <-. reflexivity.
    - destruct (so_err (ser_trie_ok (ser_ty_ok t)) tree HP F) as [b Hb].
      rewrite (emits_run_vec Hb) in E. discriminate.
  Qed.
  Lemma tree_roundtrip tree bs : Forall (wf t) (leaves tree) -> run_vec (ser_trie (ser t) tree) = Ok bs ->
    forall S (next : nextf S N) s s', yields next s bs s' ->
    exists f0, forall fuel, (f0 <= fuel)%nat -> deser_trie (deser t) fuel next s = Some (Ok tree, s').
  Proof.
    intros HP E S next s s' Hy. exists (depth tree). intros fuel Hf.
    exact (deser_trie_rt (deser_ty_ok t) tree HP (ser_trie_run _ HP E) Hf Hy).
  Qed.
  Lemma tree_canonical S (next : nextf S N) s tree s' fuel : byte_source next s ->
    deser_trie (deser t) fuel next s = Some (Ok tree, s') ->
    exists bs, run_vec (ser_trie (ser t) tree) = Ok bs /\ yields next s bs s'.
  Proof.
    intros Hb E. destruct (deser_trie_canon (deser_ty_ok t) fuel Hb E) as [HP [bs [F Y]]].
    exists bs. split; [|exact Y]. apply (emits_run_vec (so_ok (ser_trie_ok (ser_ty_ok t)) tree HP F)).
  Qed.
  Lemma tree_truncated tree bs p : Forall (wf t) (leaves tree) -> run_vec (ser_trie (ser t) tree) = Ok bs ->
    strict_prefix p bs ->
    exists f0, forall fuel, (f0 <= fuel)%nat -> deser_trie (deser t) fuel list_next p = Some (Err, []).
  Proof.
    intros HP E Hp. exists (depth tree). intros fuel Hf.
    assert (Hy : yields list_next p p []) by (rewrite <- (app_nil_r p) at 1; apply yields_list).
    exact (deser_trie_trunc (deser_ty_ok t) tree HP (ser_trie_run _ HP E) Hp Hf Hy eq_refl).
  Qed.
  Lemma tree_no_panic S (next : nextf S N) s s' fuel : byte_source next s ->
    deser_trie (deser t) fuel next s <> Some (Panic, s').
  Proof. intros Hb. apply (deser_trie_nopanic (deser_ty_ok t) fuel Hb). Qed.
  (** On a finite input the recursion is bounded by its length. *)
  Lemma tree_fuel_mono da fuel : forall S (next : nextf S N) s x,
    deser_trie (A := val t) da fuel next s = Some x -> deser_trie da (Datatypes.S fuel) next s = Some x.
  Proof.
    induction fuel as [|fuel IH]; intros S next s x E; [discriminate|].
    remember (Datatypes.S fuel) as f1. cbn [deser_trie]. rewrite Heqf1 in E. cbn [deser_trie] in E.
    destruct (deser_u8 S next s) as [[b| |] s1]; try exact E.
    destruct b as [|[| |]]; try exact E. subst f1.
    destruct (deser_trie da fuel next s1) as [[[l| |] s2]|] eqn:E1; try discriminate;
      rewrite (IH _ _ _ _ E1); try exact E.
    destruct (deser_trie da fuel next s2) as [[[r| |] s3]|] eqn:E2; try discriminate; now rewrite (IH _ _ _ _ E2).
  Qed.
End TreeSer.
