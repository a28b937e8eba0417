(** * Kraft's inequality and optimality of the Huffman tree (C12, C13). *)
From Verif Require Import Base Ser SerSpec SerProofs Bit BitSpec BitProofs Utils Huf HufSpec UtilsProofs HufProofs.
From Coq Require Import ZifyBool ZifyNat ZifyN.
Set Implicit Arguments.

(** ** Kraft sums over lists of lengths *)
Definition kr (L : nat) (ds : list nat) : N := sumN (map (fun d => 2 ^ N.of_nat (L - d))%N ds).
Definition below (L : nat) (ds : list nat) : Prop := forall d, In d ds -> (d <= L)%nat.

Lemma pow2_S k : (2 ^ N.of_nat (S k) = 2 * 2 ^ N.of_nat k)%N.
Proof. rewrite Nat2N.inj_succ, N.pow_succ_r'. reflexivity. Qed.
Lemma pow2_pos k : (0 < 2 ^ N.of_nat k)%N.
Proof. apply N.neq_0_lt_0, N.pow_nonzero. lia. Qed.

Lemma kr_cons L d ds : kr L (d :: ds) = (2 ^ N.of_nat (L - d) + kr L ds)%N.
Proof. reflexivity. Qed.
Lemma kr_app L a b : kr L (a ++ b) = (kr L a + kr L b)%N.
Proof. unfold kr. now rewrite map_app, sumN_app. Qed.
Lemma kr_perm L a b : Permutation a b -> kr L a = kr L b.
Proof. intros P. unfold kr. apply sumN_perm. now apply Permutation_map. Qed.
Lemma below_perm L a b : Permutation a b -> below L a -> below L b.
Proof. intros P Ha d Hd. apply Ha. eapply Permutation_in; [symmetry; exact P|exact Hd]. Qed.
Lemma kr_S L ds : below L ds -> kr (S L) ds = (2 * kr L ds)%N.
Proof.
  induction ds as [|d ds IH]; intros Hb; [reflexivity|]. rewrite !kr_cons, IH.
  - replace (S L - d)%nat with (S (L - d)) by (specialize (Hb d (or_introl eq_refl)); lia). rewrite pow2_S. lia.
  - intros x Hx. apply Hb. now right.
Qed.
Lemma kr_scale L k ds : below L ds -> kr (L + k) ds = (2 ^ N.of_nat k * kr L ds)%N.
Proof.
  intros Hb. induction k as [|k IH].
  - rewrite Nat.add_0_r. change (2 ^ N.of_nat 0)%N with 1%N. lia.
  - rewrite Nat.add_succ_r, kr_S, IH, pow2_S by (intros d Hd; specialize (Hb d Hd); lia). lia.
Qed.
Definition kraft_le (ds : list nat) : Prop := exists L, below L ds /\ (kr L ds <= 2 ^ N.of_nat L)%N.
Lemma kraft_le_at L ds : kraft_le ds -> below L ds -> (kr L ds <= 2 ^ N.of_nat L)%N.
Proof.
  intros [M [HM K]] HL. destruct (le_lt_dec L M) as [H|H].
  - assert (E : kr M ds = (2 ^ N.of_nat (M - L) * kr L ds)%N)
      by (rewrite <- kr_scale by exact HL; f_equal; lia).
    assert (E2 : (2 ^ N.of_nat M = 2 ^ N.of_nat (M - L) * 2 ^ N.of_nat L)%N)
      by (rewrite <- N.pow_add_r; f_equal; lia).
    rewrite E, E2 in K. apply N.mul_le_mono_pos_l in K; [exact K|apply pow2_pos].
  - assert (E : kr L ds = (2 ^ N.of_nat (L - M) * kr M ds)%N)
      by (rewrite <- kr_scale by exact HM; f_equal; lia).
    assert (E2 : (2 ^ N.of_nat L = 2 ^ N.of_nat (L - M) * 2 ^ N.of_nat M)%N)
      by (rewrite <- N.pow_add_r; f_equal; lia).
    rewrite E, E2. now apply N.mul_le_mono_l.
Qed.
Lemma kraft_le_perm a b : Permutation a b -> kraft_le a -> kraft_le b.
Proof.
  intros P [L [HL K]]. exists L. split; [now apply (below_perm P)|]. now rewrite <- (kr_perm L P).
Qed.

(** ** Prefix-free codes satisfy Kraft's inequality *)
Definition incomparable (a b : list bool) : Prop := ~ prefix a b /\ ~ prefix b a.
Fixpoint tails_at (b : bool) (cs : list (list bool)) : list (list bool) :=
  match cs with
  | [] => []
  | [] :: cs => tails_at b cs
  | (c :: t) :: cs => if Bool.eqb b c then t :: tails_at b cs else tails_at b cs
  end.
Lemma tails_at_in b cs t : In t (tails_at b cs) -> In (b :: t) cs.
Proof.
  induction cs as [|[|c u] cs IH]; cbn [tails_at In]; [tauto|auto|].
  destruct (Bool.eqb b c) eqn:E; cbn [In]; [|auto].
  apply Bool.eqb_prop in E. subst c. intros [->|H]; auto.
Qed.
Lemma tails_at_incomp b cs : ForallOrdPairs incomparable cs -> ForallOrdPairs incomparable (tails_at b cs).
Proof.
  induction 1 as [|c cs Hc Hcs IH]; cbn [tails_at]; [constructor|].
  destruct c as [|c u]; [exact IH|]. destruct (Bool.eqb b c) eqn:E; [|exact IH].
  apply Bool.eqb_prop in E. subst c. constructor; [|exact IH].
  apply Forall_forall. intros t Ht. apply tails_at_in in Ht.
  destruct (proj1 (Forall_forall _ _) Hc _ Ht) as [H1 H2]. split; intros [r E]; subst.
  - apply H1. now exists r.
  - apply H2. now exists r.
Qed.
Lemma kr_tails L cs : ~ In [] cs ->
  kr (S L) (map (@length _) cs) = (kr L (map (@length _) (tails_at false cs)) + kr L (map (@length _) (tails_at true cs)))%N.
Proof.
  induction cs as [|[|c u] cs IH]; intros Hn.
  - reflexivity.
  - exfalso. apply Hn. now left.
  - cbn [map tails_at length]. rewrite kr_cons, IH by (intros H; apply Hn; now right).
    replace (S L - S (length u))%nat with (L - length u)%nat by lia.
    destruct c; cbn [Bool.eqb map]; rewrite kr_cons; lia.
Qed.
Lemma kraft_incomp L : forall cs, ForallOrdPairs incomparable cs -> below L (map (@length _) cs) ->
  (kr L (map (@length _) cs) <= 2 ^ N.of_nat L)%N.
Proof.
  assert (One : forall cs, ForallOrdPairs incomparable cs -> In [] cs -> cs = [[]]).
  { intros cs F Hin. destruct F as [|c cs Hc F]; [contradiction|]. destruct Hin as [->|Hin].
    - destruct cs as [|d cs]; [reflexivity|]. apply Forall_cons_iff in Hc as [[H _] _].
      exfalso. apply H. now exists d.
    - destruct (proj1 (Forall_forall _ _) Hc _ Hin) as [_ H]. exfalso. apply H. now exists c. }
  assert (D : forall cs : list (list bool), {In [] cs} + {~ In [] cs}).
  { intros cs. apply in_dec. apply list_eq_dec. apply Bool.bool_dec. }
  induction L as [|L IH]; intros cs F Hb.
  - destruct cs as [|c cs]; [cbn; lia|].
    assert (c = []) as ->.
    { destruct c; [reflexivity|]. specialize (Hb (S (length c)) (or_introl eq_refl)). lia. }
    rewrite (One _ F (or_introl eq_refl)). cbn. lia.
  - destruct (D cs) as [Hin|Hn].
    + rewrite (One _ F Hin). cbn [map length]. rewrite kr_cons. cbn [kr map sumN fold_right]. unfold kr. cbn.
      lia.
    + rewrite kr_tails by exact Hn. rewrite pow2_S.
      assert (B : forall b, below L (map (@length _) (tails_at b cs))).
      { intros b d Hd. apply in_map_iff in Hd as [t [<- Ht]]. apply tails_at_in in Ht.
        assert (In (length (b :: t)) (map (@length _) cs)) by now apply in_map.
        specialize (Hb _ H). cbn in Hb. lia. }
      pose proof (IH _ (tails_at_incomp false F) (B false)). pose proof (IH _ (tails_at_incomp true F) (B true)). lia.
Qed.
Lemma max_below ds : exists L, below L ds.
Proof.
  induction ds as [|d ds [L IH]]; [exists 0%nat; intros ? []|].
  exists (Nat.max d L). intros x [<-|Hx]; [lia|]. specialize (IH x Hx). lia.
Qed.
Lemma prefix_free_kraft {A} (syms : list A) code : NoDup syms -> prefix_free syms code ->
  kraft_le (map (fun x => length (code x)) syms).
Proof.
  intros HN HP. destruct (max_below (map (fun x => length (code x)) syms)) as [L HL].
  exists L. split; [exact HL|].
  replace (map (fun x => length (code x)) syms) with (map (@length bool) (map code syms)) in * by apply map_map.
  apply kraft_incomp; [|exact HL].
  clear L HL. induction HN as [|x syms Hx HN IH]; cbn [map]; constructor.
  - apply Forall_forall. intros c Hc. apply in_map_iff in Hc as [y [<- Hy]]. split; intros Hpre.
    + apply HP in Hpre; [subst; contradiction|now left|now right].
    + apply HP in Hpre; [subst; contradiction|now right|now left].
  - apply IH. intros a b Ha Hb. apply HP; now right.
Qed.

(** Kraft equality of a tree *)
Lemma kr_map_S L ds : kr (S L) (map S ds) = kr L ds.
Proof. unfold kr. rewrite map_map. reflexivity. Qed.
Lemma tree_kraft {A} (t : bintrie A) : forall L, below L (map (fun p => length (fst p)) (codes t)) ->
  kr L (map (fun p => length (fst p)) (codes t)) = (2 ^ N.of_nat L)%N.
Proof.
  induction t as [v|l IHl r IHr]; intros L Hb; cbn [codes] in *.
  - cbn [map fst length]. rewrite kr_cons. unfold kr. cbn. rewrite Nat.sub_0_r. lia.
  - rewrite map_app, !map_map in *. cbn [fst length] in *.
    destruct L as [|L].
    { exfalso. assert (Ex : exists p, In p (codes l)).
      { destruct (codes l) eqn:E; [|eexists; now left]. pose proof (codes_length l). rewrite E in H. cbn in H.
        clear -H. exfalso. assert (0 < leaf_count l)%nat by (clear; induction l; cbn; lia). lia. }
      destruct Ex as [p Hp]. specialize (Hb (S (length (fst p)))). cut (S (length (fst p)) <= 0)%nat; [lia|].
      apply Hb, in_or_app. left. apply in_map_iff. eauto. }
    rewrite kr_app, pow2_S.
    rewrite <- (map_map (fun p : list bool * A => length (fst p)) S), kr_map_S.
    rewrite <- (map_map (fun p : list bool * A => length (fst p)) S (codes r)), kr_map_S.
    rewrite IHl, IHr; [lia| |]; intros d Hd; apply in_map_iff in Hd as [p [<- Hp]];
      cut (S (length (fst p)) <= S L)%nat; try lia; apply Hb, in_or_app; [right|left]; apply in_map_iff; eauto.
Qed.

(** ** The exchange argument *)
Definition cost (l : list (N * nat)) : N := sumN (map (fun p => fst p * N.of_nat (snd p))%N l).
Lemma cost_cons w d l : cost ((w, d) :: l) = (w * N.of_nat d + cost l)%N.
Proof. reflexivity. Qed.
Lemma cost_perm a b : Permutation a b -> cost a = cost b.
Proof. intros P. apply sumN_perm. now apply Permutation_map. Qed.

Lemma raise_depth a : forall l da, (forall w, In w (map fst l) -> (a <= w)%N) ->
  exists D l', map fst l' = map fst l /\ Permutation (da :: map snd l) (D :: map snd l')
    /\ (forall d, In d (map snd l') -> (d <= D)%nat)
    /\ (cost ((a, D) :: l') <= cost ((a, da) :: l))%N.
Proof.
  induction l as [|[w d] l IH]; intros da Ha.
  - exists da, []. repeat split; auto. intros d []. reflexivity.
  - destruct (IH da) as [D [l' [E1 [E2 [E3 E4]]]]].
    { intros w' Hw. apply Ha. now right. }
    assert (Haw : (a <= w)%N) by (apply Ha; now left).
    rewrite !cost_cons in *. destruct (le_lt_dec d D) as [H|H].
    + exists D, ((w, d) :: l'). cbn [map fst snd]. split; [now rewrite E1|]. split.
      { rewrite perm_swap, E2. apply perm_swap. }
      split; [intros x [<-|Hx]; auto|]. rewrite !cost_cons. lia.
    + exists d, ((w, D) :: l'). cbn [map fst snd]. split; [now rewrite E1|]. split.
      { rewrite perm_swap. now apply perm_skip. }
      split; [intros x [<-|Hx]; [lia|]; specialize (E3 x Hx); lia|].
      rewrite !cost_cons. nia.
Qed.

(** Depth [D1] can be lowered to the next greatest depth [D2]. *)
Lemma kr_div L D ds : (D <= L)%nat -> below D ds -> kr L ds = (2 ^ N.of_nat (L - D) * kr D ds)%N.
Proof. intros H Hb. rewrite <- kr_scale by exact Hb. f_equal. lia. Qed.

Lemma lower_kraft D1 D2 ds : (D2 <= D1)%nat -> below D2 ds -> kraft_le (D1 :: D2 :: ds) -> kraft_le (D2 :: D2 :: ds).
Proof.
  intros HD Hb HK.
  assert (HB : below D1 (D1 :: D2 :: ds)).
  { intros d [<-|[<-|Hd]]; [lia|lia|]. specialize (Hb d Hd). lia. }
  apply (kraft_le_at HK) in HB. exists D2. split.
  { intros d [<-|[<-|Hd]]; [lia|lia|]. specialize (Hb d Hd). lia. }
  rewrite !kr_cons in *. rewrite (kr_div HD Hb) in HB. rewrite !Nat.sub_diag in *.
  change (2 ^ N.of_nat 0)%N with 1%N in *.
  set (k := (D1 - D2)%nat) in *. replace (N.of_nat D1) with (N.of_nat k + N.of_nat D2)%N in HB by lia.
  rewrite N.pow_add_r in HB. set (M := kr D2 ds) in *. set (q := (2 ^ N.of_nat k)%N) in *. set (T := (2 ^ N.of_nat D2)%N) in *.
  assert (Hq : (0 < q)%N) by apply pow2_pos. nia.
Qed.

Lemma merge_kraft D ds : kraft_le (D :: D :: ds) -> below D ds -> (0 < D)%nat /\ kraft_le ((D - 1)%nat :: ds).
Proof.
  intros HK Hb.
  assert (HB : below D (D :: D :: ds)).
  { intros d [<-|[<-|Hd]]; [lia|lia|]. auto. }
  apply (kraft_le_at HK) in HB. rewrite !kr_cons, Nat.sub_diag in HB. change (2 ^ N.of_nat 0)%N with 1%N in HB.
  assert (HD : (0 < D)%nat) by (destruct D; [change (2 ^ N.of_nat 0)%N with 1%N in HB; lia|lia]).
  split; [exact HD|]. exists D. split.
  - intros d [<-|Hd]; [lia|auto].
  - rewrite kr_cons. replace (D - (D - 1))%nat with 1%nat by lia. change (2 ^ N.of_nat 1)%N with 2%N. lia.
Qed.

Lemma merge_step a b rest l : Permutation (map fst l) (a :: b :: rest) ->
  (forall w, In w (b :: rest) -> (a <= w)%N) -> (forall w, In w rest -> (b <= w)%N) ->
  kraft_le (map snd l) ->
  exists l', map fst l' = (a + b)%N :: rest /\ kraft_le (map snd l') /\ (cost l' + a + b <= cost l)%N.
Proof.
  intros P Ha Hb HK.
  apply Permutation_sym, Permutation_map_inv in P as [l0 [E P]].
  rewrite (cost_perm P). apply (kraft_le_perm (Permutation_map snd P)) in HK. clear l P.
  destruct l0 as [|[a' da] [|[b' db] l]]; try discriminate. cbn [map fst] in E. injection E as E1 E2 E3. subst a' b' rest.
  destruct (@raise_depth a ((b, db) :: l) da) as [D1 [l1 [F1 [F2 [F3 F4]]]]].
  { cbn [map fst]. exact Ha. }
  destruct l1 as [|[b' db1] l1]; [discriminate|]. cbn [map fst] in F1. injection F1 as -> F1.
  destruct (@raise_depth b l1 db1) as [D2 [l2 [G1 [G2 [G3 G4]]]]].
  { rewrite F1. exact Hb. }
  assert (K1 : kraft_le (D1 :: D2 :: map snd l2)).
  { eapply kraft_le_perm; [|exact HK]. cbn [map snd]. etransitivity; [exact F2|]. cbn [map snd]. now apply perm_skip. }
  assert (HD : (D2 <= D1)%nat).
  { apply F3. cbn [map snd]. eapply Permutation_in; [symmetry; exact G2|]. now left. }
  apply (lower_kraft HD G3) in K1. destruct (merge_kraft K1 G3) as [HD2 K2].
  exists (((a + b)%N, (D2 - 1)%nat) :: l2). cbn [map fst snd]. split; [now rewrite G1, F1|]. split; [exact K2|].
  rewrite !cost_cons in *. nia.
Qed.

(** ** Optimality of [build] *)
Section Opt.
  Context {A : Type} (H : heap (suffix A)) (HH : heap_ok suffix_cmp H).
  Context (w : A -> N).

  Definition tree_weight (t : bintrie A) : N := sumN (map w (leaves t)).
  Definition tree_cost (t : bintrie A) : N := sumN (map (fun p => w (snd p) * N.of_nat (length (fst p)))%N (codes t)).
  Lemma sum_S (cs : list (list bool * A)) b :
    sumN (map (fun p => w (snd p) * N.of_nat (length (fst p)))%N (map (fun p => (b :: fst p, snd p)) cs))
    = (sumN (map (fun p => w (snd p) * N.of_nat (length (fst p)))%N cs) + sumN (map w (map snd cs)))%N.
  Proof.
    induction cs as [|[c x] cs IH]; [reflexivity|]. cbn [map sumN fold_right fst snd length] in *. unfold sumN in *. cbn [fold_right] in *.
    rewrite IH. lia.
  Qed.
  Lemma tree_cost_branch l r :
    tree_cost (Branch l r) = (tree_cost l + tree_cost r + tree_weight l + tree_weight r)%N.
  Proof.
    unfold tree_cost, tree_weight. cbn [codes]. rewrite map_app, sumN_app, !sum_S, !codes_leaves. lia.
  Qed.

  Definition opt_inv (bound : N) (l : list (suffix A)) : Prop :=
    (forall s, In s l -> fst s = tree_weight (snd s)) /\
    exists ds, Permutation (map fst ds) (map fst l) /\ kraft_le (map snd ds)
      /\ (cost ds + sumN (map (fun s => tree_cost (snd s)) l) <= bound)%N.

  Lemma build_tree_opt freqs (len : A -> nat) :
    freqs <> [] -> (forall x n, In (x, n) freqs -> n = w x) ->
    kraft_le (map (fun p => len (fst p)) freqs) ->
    exists t, build_tree H freqs = Ok t /\
      (tree_cost t <= sumN (map (fun p => snd p * N.of_nat (len (fst p)))%N freqs))%N.
  Proof.
    intros Hne Hw HK. set (bound := sumN _).
    destruct (@build_tree_inv A H HH (opt_inv bound) freqs) as [s [E [Hs [ds [P1 [K1 C1]]]]]].
    - intros l1 l2 P [I1 [ds [I2 [I3 I4]]]]. split.
      + intros s Hs. apply I1. eapply Permutation_in; [symmetry; exact P|exact Hs].
      + exists ds. split; [rewrite I2; now apply Permutation_map|]. split; [exact I3|].
        rewrite (sumN_perm (Permutation_map (fun s => tree_cost (snd s)) (Permutation_sym P))). exact I4.
    - intros a b rest [I1 [ds [I2 [I3 I4]]]] Ma Mb. split.
      + intros s [<-|Hs]; [|apply I1; right; now right]. cbn [fst snd]. unfold tree_weight. cbn [leaves].
        rewrite map_app, sumN_app. rewrite (I1 a), (I1 b); [reflexivity|right; now left|now left].
      + cbn [map fst] in I2. destruct (merge_step ds I2) as [l' [J1 [J2 J3]]].
        * intros x Hx. change (In x (map fst (b :: rest))) in Hx. apply in_map_iff in Hx as [s [<- Hs]]. auto.
        * intros x Hx. apply in_map_iff in Hx as [s [<- Hs]]. auto.
        * exact I3.
        * exists l'. cbn [map fst snd]. split; [now rewrite J1|]. split; [exact J2|].
          cbn [map snd] in I4. unfold sumN in *. cbn [fold_right] in *. rewrite tree_cost_branch.
          rewrite <- (I1 a), <- (I1 b); [lia|right; now left|now left].
    - split.
      + intros s Hs. apply in_map_iff in Hs as [[x n] [<- Hx]]. cbn [suffix_from fst snd]. unfold tree_weight.
        cbn. rewrite (Hw _ _ Hx). lia.
      + exists (map (fun p => (snd p, len (fst p))) freqs). rewrite !map_map. cbn [fst snd]. split; [reflexivity|].
        split; [exact HK|]. unfold cost. rewrite map_map. cbn [fst snd]. fold bound.
        assert (Z : sumN (map (fun p : A * N => tree_cost (snd (suffix_from p))) freqs) = 0%N).
        { clear. induction freqs as [|[x n] f IH]; [reflexivity|]. unfold sumN in *. cbn [map fold_right]. rewrite IH.
          cbn. lia. }
        rewrite Z. lia.
    - exact Hne.
    - exists (snd s). split; [exact E|]. unfold sumN in C1. cbn in C1. lia.
  Qed.
End Opt.
