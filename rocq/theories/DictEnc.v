(** * zip-dict: encoder is greedy, decoder expands. *)
From Verif Require Import Base Ser SerSpec SerProofs Bit BitSpec BitProofs Utils UtilsProofs Huf HufSpec Dict DictSpec DictProofs.
From Coq Require Import ZifyBool ZifyNat ZifyN.
Set Implicit Arguments.

Lemma prefix_refl {A} (l : list A) : prefix l l.
Proof. exists []. now rewrite app_nil_r. Qed.
Lemma prefix_nil_inv {A} (l : list A) : prefix l [] -> l = [].
Proof. intros [r H]. destruct l; [reflexivity|discriminate]. Qed.
Lemma prefix_app {A} (l r : list A) : prefix l (l ++ r).
Proof. exists r. reflexivity. Qed.
Lemma prefix_trans {A} (a b c : list A) : prefix a b -> prefix b c -> prefix a c.
Proof. intros [x ->] [y ->]. exists (x ++ y). now rewrite app_assoc. Qed.
Lemma prefix_length {A} (a b : list A) : prefix a b -> (length a <= length b)%nat.
Proof. intros [x ->]. rewrite app_length. lia. Qed.
Lemma prefix_snoc_inv {A} (s p : list A) b : prefix s (p ++ [b]) -> prefix s p \/ s = p ++ [b].
Proof.
  intros [r H]. destruct r as [|x r] using rev_ind.
  - right. now rewrite app_nil_r in H.
  - left. clear IHr. rewrite app_assoc in H. apply app_inj_tail in H as [-> _]. apply prefix_app.
Qed.
Lemma prefix_app_cases {A} (s p r : list A) : prefix s (p ++ r) -> prefix s p \/ strict_prefix p s.
Proof.
  revert p. induction s as [|x s IH]; intros p [t H].
  - left. exists p. reflexivity.
  - destruct p as [|y p]; [right; exists x, s; reflexivity|].
    cbn in H. injection H as -> H. destruct (IH p) as [[u ->]|[u [v ->]]]; [exists t; exact H| |].
    + left. exists u. reflexivity.
    + right. exists u, v. reflexivity.
Qed.

(** [dict] as represented by the trie *)
Record trie_rep (n : node N) (d : dictionary) : Prop := {
  tr_wf : node_wf n;
  tr_get : forall k c, tget n k = Some c <-> nth_error d (N.to_nat c) = Some k;
  tr_follow : forall p, follow n p <> None <-> p = [] \/ exists k, In k d /\ strict_prefix p k;
}.
Record dict_ok (d : dictionary) : Prop := {
  dk_nodup : NoDup d;
  dk_key : Forall byte_key d;
  dk_len : (N.of_nat (length d) <= 65535)%N;
}.
Definition full_alphabet (d : dictionary) := forall b, u8_ok b -> In [b] d.

Lemma tr_get_none n d k : trie_rep n d -> tget n k = None -> ~ In k d.
Proof.
  intros H E Hin. apply In_nth_error in Hin as [i Hi].
  assert (G : tget n k = Some (N.of_nat i)) by (apply (tr_get H); now rewrite Nat2N.id).
  congruence.
Qed.

Lemma grow_spec {T} (z : dict_enc T) d k : trie_rep (de_trie z) d -> dict_ok d -> byte_key k -> ~ In k d ->
  de_abbrev z = N.of_nat (length d) ->
  exists z', create_symbol z k = Ok z' /\ trie_rep (de_trie z') (grow d k) /\ dict_ok (grow d k)
  /\ de_abbrev z' = N.of_nat (length (grow d k)) /\ de_input z' = de_input z.
Proof.
  intros Ht Hd Hk Hnin Ha. unfold create_symbol, abbrev_next, grow. rewrite Ha.
  change ZIP_SPECIAL_EOF with 65535%N.
  pose proof (dk_len Hd) as HL.
  destruct (N.eqb_spec (N.of_nat (length d)) 65535) as [E|E].
  - destruct (N.ltb_spec (N.of_nat (length d)) 65535); [lia|].
    eexists. split; [reflexivity|]. cbn. auto.
  - destruct (N.ltb_spec (N.of_nat (length d)) 65535); [|lia].
    destruct (insert_spec (N.of_nat (length d)) (tr_wf Ht) Hk) as [n' [Ei [Hw [Hg Hf]]]].
    rewrite Ei. cbn [res_bind]. eexists. split; [reflexivity|]. cbn [de_trie de_abbrev de_input].
    split; [|split; [|split]].
    + split; [exact Hw| |].
      * intros k' c. rewrite Hg. destruct (list_eq_dec N.eq_dec k' k) as [->|Hne].
        -- split.
           ++ intros [= <-]. rewrite Nat2N.id, nth_error_app2, Nat.sub_diag by lia. reflexivity.
           ++ intros Hn. destruct (Nat.lt_ge_cases (N.to_nat c) (length d)) as [Hlt|Hge].
              ** rewrite nth_error_app1 in Hn by exact Hlt. apply nth_error_In in Hn. contradiction.
              ** rewrite nth_error_app2 in Hn by exact Hge.
                 destruct (N.to_nat c - length d)%nat eqn:E2; [f_equal; lia|destruct n; discriminate].
        -- rewrite (tr_get Ht). split.
           ++ intros Hn. rewrite nth_error_app1; [exact Hn|]. apply nth_error_Some. congruence.
           ++ intros Hn. destruct (Nat.lt_ge_cases (N.to_nat c) (length d)) as [Hlt|Hge].
              ** now rewrite nth_error_app1 in Hn by exact Hlt.
              ** rewrite nth_error_app2 in Hn by exact Hge.
                 destruct (N.to_nat c - length d)%nat as [|[|?]]; cbn in Hn; congruence.
      * intros p. rewrite Hf, (tr_follow Ht). split.
        -- intros [[->|[k' [Hin Hs]]]|Hs]; [now left| |].
           ++ right. exists k'. split; [apply in_or_app; now left|exact Hs].
           ++ right. exists k. split; [apply in_or_app; right; now left|exact Hs].
        -- intros [->|[k' [Hin Hs]]]; [left; now left|].
           apply in_app_or in Hin as [Hin|[<-|[]]]; [|now right]. left. right. eauto.
    + split.
      * apply nodup_snoc; [apply Hd|exact Hnin].
      * apply Forall_app. split; [apply Hd|auto].
      * rewrite app_length. cbn. lia.
    + rewrite app_length. cbn. lia.
    + reflexivity.
Qed.

Lemma grow_in d k x : In x d -> In x (grow d k).
Proof. unfold grow. destruct (_ <? _)%N; [|auto]. intros. apply in_or_app. auto. Qed.
Lemma create_all_spec {T} l : forall (z : dict_enc T) d, trie_rep (de_trie z) d -> dict_ok d ->
  de_abbrev z = N.of_nat (length d) -> Forall u8_ok l -> NoDup (d ++ map (fun b => [b]) l) ->
  (N.of_nat (length (d ++ map (fun b => [b]) l)) <= 65535)%N ->
  exists z', create_all z l = Ok z' /\ trie_rep (de_trie z') (d ++ map (fun b => [b]) l)
  /\ dict_ok (d ++ map (fun b => [b]) l) /\ de_input z' = de_input z
  /\ de_abbrev z' = N.of_nat (length (d ++ map (fun b => [b]) l)).
Proof.
  induction l as [|b l IH]; intros z d Ht Hd Ha HF HN HL.
  - cbn. rewrite app_nil_r in *. exists z. auto.
  - inversion HF as [|? ? Hb HF']; subst. cbn [create_all map].
    destruct (@grow_spec T z d [b]) as [z1 [E1 [Ht1 [Hd1 [Ha1 Hi1]]]]]; try assumption.
    { split; [discriminate|auto]. }
    { intros Hin. apply NoDup_app_inv in HN as [_ [_ HN]]. apply (HN [b]); [exact Hin|now left]. }
    rewrite E1. cbn [res_bind].
    assert (Eg : grow d [b] = d ++ [[b]]).
    { unfold grow. destruct (N.ltb_spec (N.of_nat (length d)) 65535); [reflexivity|].
      rewrite app_length in HL. cbn in HL. lia. }
    rewrite Eg in *.
    assert (EE : d ++ [b] :: map (fun b => [b]) l = (d ++ [[b]]) ++ map (fun b => [b]) l) by now rewrite <- app_assoc.
    cbn [map] in HN, HL. rewrite EE in *.
    destruct (IH z1 (d ++ [[b]])) as [z' [E' [G1 [G2 [G3 G4]]]]]; try assumption.
    exists z'. split; [exact E'|]. split; [exact G1|]. split; [exact G2|]. split; [congruence|exact G4].
Qed.

Lemma all_bytes_u8 : Forall u8_ok all_bytes.
Proof.
  unfold all_bytes. apply Forall_forall. intros x H. apply in_map_iff in H as [i [<- H]].
  apply in_seq in H. unfold u8_ok. lia.
Qed.
Lemma all_bytes_in b : u8_ok b -> In b all_bytes.
Proof.
  intros H. unfold u8_ok in H. apply in_map_iff. exists (N.to_nat b). split; [lia|].
  apply in_seq. lia.
Qed.
Lemma all_bytes_nodup : NoDup all_bytes.
Proof. apply FinFun.Injective_map_NoDup; [intros x y; lia|apply seq_NoDup]. Qed.
Lemma initial_eq : initial_dict = map (fun b => [b]) all_bytes.
Proof. unfold initial_dict, all_bytes. now rewrite map_map. Qed.
Lemma initial_nodup : NoDup initial_dict.
Proof. rewrite initial_eq. apply FinFun.Injective_map_NoDup; [intros x y [=]; assumption|apply all_bytes_nodup]. Qed.
Lemma initial_length : length initial_dict = 256%nat.
Proof. reflexivity. Qed.
Lemma initial_alphabet : full_alphabet initial_dict.
Proof. intros b H. rewrite initial_eq. apply in_map_iff. exists b. split; [reflexivity|]. now apply all_bytes_in. Qed.
Lemma initial_nth c : u8_ok c -> nth_error initial_dict (N.to_nat c) = Some [c].
Proof.
  intros H. unfold u8_ok in H. unfold initial_dict.
  rewrite (map_nth_error _ _ _ (d := N.to_nat c)); [f_equal; f_equal; lia|].
  rewrite nth_error_nth' with (d := 0%nat) by (rewrite seq_length; lia).
  rewrite seq_nth by lia. reflexivity.
Qed.
Lemma nil_rep : trie_rep node_new [].
Proof.
  split; [apply node_new_wf| |].
  - intros k c. rewrite tget_new. destruct (N.to_nat c); split; discriminate.
  - intros p. rewrite follow_new. split; [auto|]. intros [H|[k [[] _]]]. exact H.
Qed.
Lemma dict_enc_new_spec {T} (s : T) : exists z, dict_enc_new s = Ok z /\ trie_rep (de_trie z) initial_dict
  /\ dict_ok initial_dict /\ de_input z = mkInput s [] /\ de_abbrev z = N.of_nat (length initial_dict).
Proof.
  destruct (@create_all_spec T all_bytes (mkDE (mkInput s []) node_new 0%N) []) as [z [E [H1 [H2 [H3 H4]]]]].
  - apply nil_rep.
  - split; [constructor|constructor|cbn; lia].
  - reflexivity.
  - apply all_bytes_u8.
  - apply initial_nodup.
  - change (N.of_nat (length initial_dict) <= 65535)%N. rewrite initial_length. lia.
  - unfold dict_enc_new. rewrite E. cbn [res_bind].
    change (de_abbrev z = N.of_nat (length initial_dict)) in H4.
    rewrite initial_length in H4. rewrite H4. change (N.of_nat 256 =? 256)%N with true.
    cbn [assert_ res_bind]. exists z. rewrite initial_length. auto.
Qed.

Section Enc.
  Context {T : Type} (next : nextf T N).

  Definition holds (i : input T) (l : list N) : Prop :=
    exists r, l = rev (in_left i) ++ r /\ delivers next (in_src i) r.

  Lemma ended_next s : ended next s -> exists s', next s = (Err, s') /\ ended next s'.
  Proof.
    intros [I [Hs HI]]. destruct (HI s Hs) as [s' [E H]]. exists s'. split; [exact E|]. exists I. auto.
  Qed.
  Lemma delivers_nil s : delivers next s [] -> exists s', next s = (Err, s') /\ delivers next s' [].
  Proof.
    intros [s1 [Hy He]]. inversion Hy; subst. destruct (ended_next He) as [s' [E H]].
    exists s'. split; [exact E|]. exists s'. split; [constructor|exact H].
  Qed.
  Lemma delivers_cons s b l : delivers next s (b :: l) -> exists s', next s = (Ok b, s') /\ delivers next s' l.
  Proof.
    intros [s1 [Hy He]]. apply yields_cons_inv in Hy as [s' [E H]]. exists s'. split; [exact E|]. exists s1. auto.
  Qed.
  Lemma vec_pop_snoc {A} (l : list A) x : vec_pop (l ++ [x]) = Some (x, l).
  Proof. unfold vec_pop. rewrite rev_app_distr. cbn. now rewrite rev_involutive. Qed.
  Lemma holds_cons i b l : holds i (b :: l) -> exists i', input_next next i = (Ok b, i') /\ holds i' l.
  Proof.
    intros [r [E Hd]]. unfold input_next. destruct i as [s lf]. cbn [in_left in_src] in *.
    destruct lf as [|x lf _] using rev_ind.
    - cbn in *. subst r. apply delivers_cons in Hd as [s' [-> H]]. eexists. split; [reflexivity|].
      exists l. auto.
    - rewrite vec_pop_snoc. rewrite rev_app_distr in E. cbn in E. injection E as -> E.
      eexists. split; [reflexivity|]. exists r. auto.
  Qed.
  Lemma holds_nil i : holds i [] -> in_left i = [] /\
    exists s', next (in_src i) = (Err, s') /\ input_next next i = (Err, mkInput s' [])
               /\ holds (mkInput s' []) [].
  Proof.
    intros [r [E Hd]]. unfold input_next. destruct i as [s lf]. cbn [in_left in_src] in *.
    symmetry in E. apply app_eq_nil in E as [E ->].
    destruct lf as [|x lf _] using rev_ind; [|rewrite rev_app_distr in E; discriminate].
    split; [reflexivity|]. apply delivers_nil in Hd as [s' [Hn H]]. exists s'. split; [exact Hn|].
    cbn. rewrite Hn. split; [reflexivity|]. exists []. auto.
  Qed.
  Lemma holds_save i l u : holds i l -> holds (save_unused i u) (u ++ l).
  Proof.
    intros [r [-> Hd]]. exists r. split; [|exact Hd]. cbn. rewrite rev_app_distr, rev_involutive, app_assoc. reflexivity.
  Qed.

  (** the longest dictionary string starting [p], if any *)
  Definition best (d : dictionary) (p : list N) (sym : option N) (seq : list N) : Prop :=
    prefix seq p /\
    match sym with
    | None => seq = [] /\ forall s, In s d -> ~ prefix s p
    | Some c => nth_error d (N.to_nat c) = Some seq /\
                forall s, In s d -> prefix s p -> (length s <= length seq)%nat
    end.

  Lemma best_end d p rest sym seq : best d p sym seq ->
    (forall s, In s d -> ~ strict_prefix p s) -> best d (p ++ rest) sym seq.
  Proof.
    intros [H1 H2] Hno. split; [eapply prefix_trans; [exact H1|apply prefix_app]|].
    assert (Hp : forall s, In s d -> prefix s (p ++ rest) -> prefix s p).
    { intros s Hin H. destruct (prefix_app_cases p rest H) as [G|G]; [exact G|]. exfalso. eapply Hno; eassumption. }
    destruct sym; destruct H2 as [H2 H3]; split; try exact H2; intros s Hin H.
    - apply H3; auto.
    - apply (H3 s Hin). auto.
  Qed.

  Lemma find_loop_spec root d (Ht : trie_rep root d) fuel : forall cur i sym seq extra rest,
    holds i rest -> (length rest < fuel)%nat ->
    follow root (seq ++ extra) = Some cur -> best d (seq ++ extra) sym seq ->
    exists sym' seq' rest' i', find_loop next fuel cur i sym seq extra = Ok (sym', seq', i')
    /\ holds i' rest' /\ seq ++ extra ++ rest = seq' ++ rest' /\ best d (seq ++ extra ++ rest) sym' seq'.
  Proof.
    induction fuel as [|fuel IH]; intros cur i sym seq extra rest Hh Hf Hc Hb; [lia|].
    cbn [find_loop]. destruct rest as [|b rest].
    - apply holds_nil in Hh as [El [s' [En [Ei Hh]]]]. rewrite Ei.
      apply holds_save with (u := extra) in Hh. rewrite app_nil_r in *.
      exists sym, seq, extra. eexists. split; [reflexivity|]. auto.
    - apply holds_cons in Hh as [i1 [Ei Hh]]. rewrite Ei. unfold down.
      pose proof (tget_follow (seq ++ extra) b root) as Hg. rewrite Hc in Hg.
      pose proof (follow_app (seq ++ extra) [b] root) as Hfl. rewrite Hc in Hfl. cbn in Hfl.
      (* the new best *)
      remember (match value_of cur b with
                | Some symbol => (Some symbol, seq ++ extra ++ [b], [])
                | None => (sym, seq, extra ++ [b])
                end) as nb eqn:Enb.
      destruct nb as [[sym1 seq1] extra1].
      assert (Hb1 : seq1 ++ extra1 = (seq ++ extra) ++ [b] /\ best d ((seq ++ extra) ++ [b]) sym1 seq1).
      { destruct (value_of cur b) as [c|] eqn:Ev; injection Enb as -> -> ->.
        - rewrite app_nil_r, app_assoc. split; [reflexivity|]. split; [apply prefix_refl|].
          split; [now apply (tr_get Ht)|]. intros s _ H. now apply prefix_length.
        - rewrite !app_assoc. split; [reflexivity|]. destruct Hb as [H1 H2].
          pose proof (tr_get_none _ Ht Hg) as Hnin.
          assert (Hp : forall s, In s d -> prefix s ((seq ++ extra) ++ [b]) -> prefix s (seq ++ extra)).
          { intros s Hin H. apply prefix_snoc_inv in H as [H| ->]; [exact H|]. contradiction. }
          split; [eapply prefix_trans; [exact H1|apply prefix_app]|].
          destruct sym; destruct H2 as [H2 H3]; split; try exact H2; intros s Hin H.
          + apply H3; auto.
          + apply (H3 s Hin). auto. }
      destruct Hb1 as [Ee Hb1].
      assert (Etot : seq ++ extra ++ b :: rest = seq1 ++ extra1 ++ rest).
      { rewrite (app_assoc seq1), Ee, <- !app_assoc. reflexivity. }
      destruct (child cur b) as [cur'|] eqn:Ech.
      + destruct (IH cur' i1 sym1 seq1 extra1 rest Hh) as [sym' [seq' [rest' [i' [E [H1 [H2 H3]]]]]]].
        * cbn in Hf. lia.
        * now rewrite Ee.
        * now rewrite Ee.
        * exists sym', seq', rest', i'. split; [|rewrite Etot; auto].
          destruct (value_of cur b); injection Enb as -> -> ->; exact E.
      + exists sym1, seq1, (extra1 ++ rest). eexists. split.
        * destruct (value_of cur b); injection Enb as -> -> ->; reflexivity.
        * split; [now apply holds_save|]. split; [exact Etot|].
          rewrite Etot. rewrite app_assoc, Ee. apply best_end; [exact Hb1|].
          intros s Hin Hs. assert (G : follow root ((seq ++ extra) ++ [b]) <> None).
          { apply (tr_follow Ht). right. eauto. }
          congruence.
  Qed.

  Record enc_ok (z : dict_enc T) (d : dictionary) (rest : list N) : Prop := {
    eo_trie : trie_rep (de_trie z) d;
    eo_dict : dict_ok d;
    eo_full : full_alphabet d;
    eo_ctr : de_abbrev z = N.of_nat (length d);
    eo_in : holds (de_input z) rest;
    eo_u8 : Forall u8_ok rest;
  }.

  Lemma find_symbol_spec z d rest fuel : enc_ok z d rest -> (length rest < fuel)%nat ->
    (rest = [] /\ exists z', find_symbol next fuel z = Ok (None, [], z') /\ enc_ok z' d [])
    \/ exists c s rest' z', rest = s ++ rest' /\ s <> [] /\ longest d rest c s
       /\ find_symbol next fuel z = Ok (Some c, s, z') /\ enc_ok z' d rest'.
  Proof.
    intros Hz Hf. destruct Hz as [Ht Hd Hfa Ha Hi H8].
    destruct (@find_loop_spec (de_trie z) d Ht fuel (de_trie z) (de_input z) None [] [] rest Hi Hf)
      as [sym [seq [rest' [i' [E [H1 [H2 H3]]]]]]].
    - reflexivity.
    - split; [apply prefix_refl|]. split; [reflexivity|]. intros s Hin H. apply prefix_nil_inv in H as ->.
      pose proof (dk_key Hd) as HK. rewrite Forall_forall in HK. destruct (HK _ Hin). congruence.
    - cbn [app] in *. unfold find_symbol. rewrite E. cbn [res_bind].
      destruct rest as [|b rest].
      + left. split; [reflexivity|]. destruct seq; [|discriminate]. destruct rest'; [|discriminate].
        destruct H3 as [_ H3]. destruct sym as [c|].
        { destruct H3 as [H3 _]. apply nth_error_In in H3. pose proof (dk_key Hd) as HK.
          rewrite Forall_forall in HK. destruct (HK _ H3). congruence. }
        eexists. split; [reflexivity|]. split; cbn; auto.
      + right. destruct H3 as [Hp H3]. inversion H8; subst. destruct sym as [c|].
        * destruct H3 as [H3 H6]. exists c, seq, rest'. eexists. split; [exact H2|].
          split; [|split; [|split; [reflexivity|split; cbn; auto]]].
          -- pose proof (H6 [b] (Hfa b ltac:(assumption)) (ex_intro _ rest eq_refl)) as G.
             destruct seq; [cbn in G; lia|discriminate].
          -- split; [exact H3|]. split; [exact Hp|exact H6].
          -- rewrite H2 in H8. apply Forall_app in H8. apply H8.
        * destruct H3 as [_ H3]. exfalso. apply (H3 [b]); [apply Hfa; assumption|].
          exists rest. reflexivity.
  Qed.

  Lemma input_over_spec z d : enc_ok z d [] -> exists i, input_over next (de_input z) = Ok (true, i)
    /\ enc_ok (mkDE i (de_trie z) (de_abbrev z)) d [].
  Proof.
    intros Hz. pose proof (eo_in Hz) as Hi. apply holds_nil in Hi as [El [s' [En [_ Hh]]]].
    unfold input_over. rewrite El. cbn [is_nil]. rewrite En. eexists. split; [reflexivity|].
    destruct Hz. split; cbn; auto.
  Qed.

  Lemma next_pair_spec z d rest fuel : enc_ok z d rest -> (length rest < fuel)%nat ->
    (rest = [] /\ exists z', next_pair next fuel z = Ok (None, z'))
    \/ (exists c z', next_pair next fuel z = Ok (Some (c, 65535%N), z') /\ rest <> [] /\ longest d rest c rest
        /\ enc_ok z' d [])
    \/ (exists c1 s1 c2 s2 rest' z', next_pair next fuel z = Ok (Some (c1, c2), z')
        /\ rest = s1 ++ s2 ++ rest' /\ longest d rest c1 s1 /\ s1 <> [] /\ longest d (s2 ++ rest') c2 s2 /\ s2 <> []
        /\ ~ In (s1 ++ s2) d /\ enc_ok z' (grow d (s1 ++ s2)) rest').
  Proof.
    intros Hz Hf. unfold next_pair.
    destruct (@find_symbol_spec z d rest fuel Hz Hf) as [[-> [z1 [E1 H1]]]|[c1 [s1 [r1 [z1 [-> [N1 [L1 [E1 H1]]]]]]]]];
      rewrite E1; cbn [res_bind].
    - left. split; [reflexivity|]. destruct (input_over_spec H1) as [i [Ei _]].
      cbn [is_nil assert_ res_bind]. rewrite Ei. cbn. eauto.
    - right. rewrite app_length in Hf. assert (HN : (0 <? length s1)%nat = true) by (destruct s1; [congruence|reflexivity]).
      rewrite HN. cbn [assert_ res_bind].
      destruct (@find_symbol_spec z1 d r1 fuel H1) as [[-> [z2 [E2 H2]]]|[c2 [s2 [r2 [z2 [-> [N2 [L2 [E2 H2]]]]]]]]];
        [lia| |]; rewrite E2; cbn [res_bind].
      + left. destruct (input_over_spec H2) as [i [Ei G]].
        cbn [is_nil assert_ res_bind]. rewrite Ei. cbn. exists c1. eexists. split; [reflexivity|].
        rewrite app_nil_r in *. auto.
      + right. assert (HN2 : (0 <? length s2)%nat = true) by (destruct s2; [congruence|reflexivity]).
        rewrite HN2. cbn [assert_ res_bind].
        assert (Hnin : ~ In (s1 ++ s2) d).
        { intros Hin. destruct L1 as [_ [_ L1]]. specialize (L1 (s1 ++ s2) Hin).
          rewrite app_length in L1. assert (0 < length s2)%nat by (destruct s2; [congruence|cbn; lia]).
          assert (prefix (s1 ++ s2) (s1 ++ s2 ++ r2)) by (exists r2; now rewrite app_assoc).
          specialize (L1 H0). lia. }
        destruct H2 as [Ht2 Hd2 Hfa2 Ha2 Hi2 H82].
        destruct (@grow_spec T z2 d (s1 ++ s2) Ht2 Hd2) as [z3 [E3 [Ht3 [Hd3 [Ha3 Hi3]]]]].
        { pose proof (eo_u8 Hz) as H8. pose proof (eo_u8 H1) as H81.
          apply Forall_app in H8. apply Forall_app in H81.
          split; [destruct s1; [congruence|discriminate]|]. apply Forall_app. tauto. }
        { exact Hnin. }
        { exact Ha2. }
        rewrite E3. cbn [res_bind]. exists c1, s1, c2, s2, r2, z3.
        repeat (split; [now eauto|]). split; auto.
        * intros b Hb. apply grow_in. now apply Hfa2.
        * now rewrite Hi3.
  Qed.

  Lemma longest_u16 d rest c s : dict_ok d -> longest d rest c s -> (c < 65535)%N.
  Proof.
    intros Hd [H _]. assert (G : (N.to_nat c < length d)%nat) by (apply nth_error_Some; congruence).
    pose proof (dk_len Hd). lia.
  Qed.

  Lemma encode_loop_spec fuel pairs : forall z d rest, enc_ok z d rest ->
    (length rest < fuel)%nat -> (length rest < pairs)%nat ->
    exists syms, greedy d rest syms /\ emits (dict_encode_loop next fuel pairs z) (words syms) (Ok tt).
  Proof.
    induction pairs as [|pairs IH]; intros z d rest Hz Hf Hp; [lia|].
    cbn [dict_encode_loop].
    destruct (next_pair_spec Hz Hf) as [[-> [z' E]]|[[c [z' [E [Hn [HL Hz']]]]]|
      [c1 [s1 [c2 [s2 [r [z' [E [Er [L1 [N1 [L2 [N2 [Hnin Hz']]]]]]]]]]]]]]]; rewrite E.
    - exists []. split; [constructor|]. apply emits_ret.
    - assert (0 < length rest)%nat by (destruct rest; [congruence|cbn; lia]).
      destruct (IH z' d [] Hz') as [syms [Hg He]]; [cbn; lia|cbn; lia|].
      assert (Es : syms = []).
      { inversion Hg as [|? ? ? _ Hne|? ? s1 ? s2 ? ? _ Hne _ _ _ _ EE]; subst; [reflexivity|congruence|].
        destruct s1; [congruence|discriminate]. }
      subst syms. exists [c; 65535%N]. split; [now constructor|].
      unfold words in *. cbn [flat_map] in *.
      change (le16 c ++ le16 65535 ++ []) with (le16 c ++ (le16 65535 ++ [])).
      eapply emits_bind; [|eapply emits_bind; [|exact He]].
      + unfold ser_u16. rewrite le16_eq; [apply emits_write|].
        pose proof (longest_u16 (eo_dict Hz) HL). unfold u16_ok. lia.
      + unfold ser_u16, ZIP_SPECIAL_EOF. rewrite le16_eq; [apply emits_write|]. unfold u16_ok. lia.
    - subst rest. rewrite !app_length in *.
      assert (0 < length s1)%nat by (destruct s1; [congruence|cbn; lia]).
      destruct (IH z' _ r Hz') as [syms [Hg He]]; [lia|lia|].
      exists (c1 :: c2 :: syms). split; [now constructor|].
      unfold words in *. cbn [flat_map].
      eapply emits_bind; [|eapply emits_bind; [|exact He]].
      + unfold ser_u16. rewrite le16_eq; [apply emits_write|].
        pose proof (longest_u16 (eo_dict Hz) L1). unfold u16_ok. lia.
      + unfold ser_u16. rewrite le16_eq; [apply emits_write|].
        pose proof (longest_u16 (eo_dict Hz) L2). unfold u16_ok. lia.
  Qed.

  Lemma dict_encode_spec s l fuel : delivers next s l -> Forall u8_ok l -> (length l < fuel)%nat ->
    exists syms, greedy initial_dict l syms /\ emits (zip_dict_encode next fuel s) (words syms) (Ok tt).
  Proof.
    intros Hs H8 Hf. unfold zip_dict_encode.
    destruct (dict_enc_new_spec s) as [z [E [Ht [Hd [Hi Ha]]]]]. rewrite E.
    apply encode_loop_spec; try exact Hf. split; try assumption.
    - apply initial_alphabet.
    - rewrite Hi. exists l. auto.
  Qed.
End Enc.

(** ** Facts about greedy parsings *)
Lemma greedy_size d l syms : greedy d l syms -> exists p, length syms = (2 * p)%nat
  /\ (p = 0 <-> l = [])%nat /\ (2 * p <= length l + 1)%nat.
Proof.
  induction 1 as [d|d rest c HL Hne|d c1 s1 c2 s2 rest syms HL1 Hn1 HL2 Hn2 Hnin Hg [p [E1 [E2 E3]]]].
  - exists 0%nat. cbn. repeat split; lia.
  - exists 1%nat. destruct rest; [congruence|]. cbn. repeat split; try lia; discriminate.
  - exists (S p). destruct s1; [congruence|]. destruct s2; [congruence|]. cbn [length app].
    rewrite !app_length. cbn [length]. rewrite app_length. repeat split; try lia; discriminate.
Qed.
Lemma words_length syms : length (words syms) = (2 * length syms)%nat.
Proof. induction syms as [|c syms IH]; [reflexivity|].
  unfold words in *. cbn [flat_map]. rewrite app_length. cbn [length]. change (length (le16 c)) with 2%nat. lia. Qed.

Lemma greedy_expands d l syms : greedy d l syms -> dict_ok d -> (forall s, In s d -> s <> []) ->
  expands d syms l Finished.
Proof.
  assert (CS : forall d rest c s, dict_ok d -> longest d rest c s -> code_string d c = Some s).
  { intros d0 rest c s Hd HL. unfold code_string. pose proof (longest_u16 Hd HL).
    destruct (N.eqb_spec c 65535); [lia|]. apply HL. }
  induction 1 as [d|d rest c HL Hne|d c1 s1 c2 s2 rest syms HL1 Hn1 HL2 Hn2 Hnin Hg IH]; intros Hd Hk.
  - constructor.
  - replace rest with (rest ++ [] ++ []) at 1 by now rewrite !app_nil_r.
    econstructor; [eapply CS; eassumption|reflexivity|constructor].
  - econstructor; [eapply CS; eassumption|eapply CS; eassumption|].
    apply IH.
    + unfold grow. destruct (N.ltb_spec (N.of_nat (length d)) 65535); [|exact Hd].
      destruct HL1 as [G1 _]. destruct HL2 as [G2 _]. apply nth_error_In in G1, G2.
      pose proof (dk_key Hd) as HK. rewrite Forall_forall in HK. destruct (HK _ G1) as [_ K1]. destruct (HK _ G2) as [_ K2].
      split; [apply nodup_snoc; [apply Hd|exact Hnin]| |rewrite app_length; cbn; lia].
      apply Forall_app. split; [apply Hd|]. constructor; [|constructor].
      split; [destruct s1; [congruence|discriminate]|]. apply Forall_app. auto.
    + intros s. unfold grow. destruct (_ <? _)%N; [|apply Hk]. rewrite in_app_iff.
      intros [H|[<-|[]]]; [auto|]. destruct s1; [congruence|discriminate].
Qed.

(** ** The decoder *)
Lemma cons_inj {A} (x y : A) l m : x :: l = y :: m -> x = y /\ l = m.
Proof. intros [=]. auto. Qed.
Record dec_rep {T} (st : dict_dec T) (d : dictionary) : Prop := {
  dr_ctr : dd_abbrev st = N.of_nat (length d);
  dr_map : forall c, hm_get N.eqb c (dd_mapping st) = code_string d c;
  dr_len : (N.of_nat (length d) <= 65535)%N;
}.
Lemma fold_insert_get l : forall m c,
  hm_get N.eqb c (fold_left (fun m b => hm_insert N.eqb b [b] m) l m) =
  if existsb (N.eqb c) l then Some [c] else hm_get N.eqb c m.
Proof.
  induction l as [|b l IH]; intros m c; cbn; [reflexivity|].
  rewrite IH, (hm_get_insert N.eqb_eq). destruct (N.eqb_spec c b) as [->|]; cbn; [|reflexivity].
  destruct (existsb _ l); reflexivity.
Qed.
Lemma dec_new_rep {T} (s : T) : dec_rep (zip_dict_decode s) initial_dict.
Proof.
  split.
  - reflexivity.
  - intros c. unfold zip_dict_decode. cbn [dd_mapping]. rewrite (hm_get_insert N.eqb_eq), fold_insert_get.
    unfold code_string, ZIP_SPECIAL_EOF. destruct (N.eqb_spec c 65535); [reflexivity|].
    destruct (existsb (N.eqb c) all_bytes) eqn:E.
    + apply existsb_exists in E as [b [Hb E]]. apply N.eqb_eq in E as <-.
      pose proof all_bytes_u8 as H. rewrite Forall_forall in H. symmetry. apply initial_nth. auto.
    + cbn [hm_get]. symmetry. apply nth_error_None. rewrite initial_length.
      destruct (N.lt_ge_cases c 256) as [H|H]; [|lia].
      assert (existsb (N.eqb c) all_bytes = true); [|congruence].
      apply existsb_exists. exists c. split; [now apply all_bytes_in|apply N.eqb_refl].
  - rewrite initial_length. lia.
Qed.

Section Dec.
  Context {T : Type} (next : nextf T N).

  Lemma code_string_grow d s c : (N.of_nat (length d) < 65535)%N ->
    code_string (d ++ [s]) c = if (c =? N.of_nat (length d))%N then Some s else code_string d c.
  Proof.
    intros HL. unfold code_string. destruct (N.eqb_spec c 65535) as [->|].
    - destruct (N.eqb_spec 65535 (N.of_nat (length d))); [lia|reflexivity].
    - destruct (N.eqb_spec c (N.of_nat (length d))) as [->|].
      + rewrite Nat2N.id, nth_error_app2, Nat.sub_diag by lia. reflexivity.
      + destruct (Nat.lt_ge_cases (N.to_nat c) (length d)).
        * now rewrite nth_error_app1 by assumption.
        * rewrite nth_error_app2 by assumption.
          destruct (N.to_nat c - length d)%nat as [|[|k]] eqn:E; [lia| |]; cbn; symmetry; apply nth_error_None; assumption.
  Qed.

  Lemma read_word s lo hi r s' : yields next s (lo :: hi :: r) s' ->
    exists s1, deser_u16 T next s = (Ok (lo + 256 * hi)%N, s1) /\ yields next s1 r s'.
  Proof.
    intros H. apply (yields_app_inv [lo; hi]) in H as [s1 [H1 H2]]. exists s1. split; [|exact H2].
    unfold deser_u16. rewrite (@deser_le_rt 2 T next s [lo; hi] s1 []) by (reflexivity || exact H1).
    cbn [app of_le_bytes]. f_equal. f_equal. lia.
  Qed.
  Lemma read_short s p s1 s2 : (length p < 2)%nat -> yields next s p s1 -> next s1 = (Err, s2) ->
    deser_u16 T next s = (Err, s2).
  Proof.
    intros HL Hy He. unfold deser_u16. cbn [deser_le]. unfold rd_bind.
    destruct p as [|a [|b p]]; [| |cbn in HL; lia].
    - inversion Hy; subst. now rewrite He.
    - apply yields_cons_inv in Hy as [s3 [Hn Hy]]. inversion Hy; subst. now rewrite Hn, He.
  Qed.

  Lemma dd_prev_next stack st b prev : dd_prev st = b :: prev ->
    dd_next next (S stack) st = (Ok b, mkDD (dd_stream st) prev (dd_mapping st) (dd_abbrev st)).
  Proof. intros E. cbn [dd_next]. now rewrite E. Qed.
  Lemma dd_drain stack l : forall st r, dd_prev st = l ++ r ->
    yields (dd_next next (S stack)) st l (mkDD (dd_stream st) r (dd_mapping st) (dd_abbrev st)).
  Proof.
    induction l as [|b l IH]; intros st r E.
    - cbn in E. destruct st; cbn in *; subst. constructor.
    - econstructor; [apply dd_prev_next; exact E|]. apply (IH (mkDD _ _ _ _) r). reflexivity.
  Qed.

  (** one pair *)
  Lemma dd_pair st d b1 b2 b3 b4 bs s' s1 s2 : dec_rep st d -> dd_prev st = [] ->
    yields next (dd_stream st) (b1 :: b2 :: b3 :: b4 :: bs) s' ->
    code_string d (b1 + 256 * b2)%N = Some s1 -> code_string d (b3 + 256 * b4)%N = Some s2 ->
    exists st1, (forall stack, dd_next next (S stack) st = dd_next next stack st1)
      /\ dec_rep st1 (grow d (s1 ++ s2)) /\ dd_prev st1 = s1 ++ s2 /\ yields next (dd_stream st1) bs s'.
  Proof.
    intros [Hc Hm HL] Hp Hy H1 H2. apply read_word in Hy as [t1 [R1 Hy]]. apply read_word in Hy as [t2 [R2 Hy]].
    assert (G : exists mapping counter, match abbrev_next (dd_abbrev st) with
                        | (Some new_code, counter) => (hm_insert N.eqb new_code (s1 ++ s2) (dd_mapping st), counter)
                        | (None, counter) => (dd_mapping st, counter)
                        end = (mapping, counter) /\ dec_rep (mkDD t2 (s1 ++ s2) mapping counter) (grow d (s1 ++ s2))).
    { unfold abbrev_next, grow. rewrite Hc. unfold ZIP_SPECIAL_EOF.
      destruct (N.eqb_spec (N.of_nat (length d)) 65535), (N.ltb_spec (N.of_nat (length d)) 65535); try lia.
      - do 2 eexists. split; [reflexivity|]. split; cbn [dd_abbrev dd_mapping]; assumption || reflexivity.
      - do 2 eexists. split; [reflexivity|]. split; cbn [dd_abbrev dd_mapping].
        + rewrite app_length. cbn. lia.
        + intros c. rewrite (hm_get_insert N.eqb_eq), code_string_grow by assumption. now rewrite Hm.
        + rewrite app_length. cbn. lia. }
    destruct G as [mp [ctr [E G]]]. exists (mkDD t2 (s1 ++ s2) mp ctr).
    split; [|split; [exact G|split; [reflexivity|exact Hy]]].
    intros stack. cbn [dd_next]. rewrite Hp, R1, R2, !Hm, H1, H2, E. reflexivity.
  Qed.

  (** the stack only has to be deep enough for runs of empty pairs *)
  Lemma stack_more k : forall st bs s' s'', (1 <= k)%nat -> (length bs < 4 * k)%nat ->
    yields next (dd_stream st) bs s' -> next s' = (Err, s'') ->
    dd_next next (S k) st = dd_next next k st.
  Proof.
    induction k as [|k IH]; intros st bs s' s'' Hk HL Hy He; [lia|].
    cbn [dd_next]. destruct (dd_prev st); [|reflexivity].
    destruct bs as [|b1 [|b2 bs]].
    - rewrite (read_short (p := [])) with (s1 := s') (s2 := s''); [reflexivity|cbn; lia|assumption..].
    - rewrite (read_short (p := [b1])) with (s1 := s') (s2 := s''); [reflexivity|cbn; lia|assumption..].
    - apply read_word in Hy as [t1 [R1 Hy]]. rewrite R1. destruct bs as [|b3 [|b4 bs]].
      + rewrite (read_short (p := [])) with (s1 := s') (s2 := s''); [reflexivity|cbn; lia|assumption..].
      + rewrite (read_short (p := [b3])) with (s1 := s') (s2 := s''); [reflexivity|cbn; lia|assumption..].
      + apply read_word in Hy as [t2 [R2 Hy]]. rewrite R2.
        destruct (hm_get N.eqb (b1 + 256 * b2)%N (dd_mapping st)) as [q1|]; [|reflexivity].
        destruct (hm_get N.eqb (b3 + 256 * b4)%N (dd_mapping st)) as [q2|]; [|reflexivity].
        destruct (match abbrev_next (dd_abbrev st) with
                  | (Some new_code, counter) => (hm_insert N.eqb new_code (q1 ++ q2) (dd_mapping st), counter)
                  | (None, counter) => (dd_mapping st, counter)
                  end) as [mp ctr].
        cbn [length] in HL. destruct k as [|k].
        * cbn in HL. lia.
        * eapply IH; [lia| |cbn [dd_stream]; exact Hy|exact He]. lia.
  Qed.

  Lemma expands_dec d syms out e : expands d syms out e ->
    forall st bs s' s'' k, dec_rep st d -> dd_prev st = [] ->
    yields next (dd_stream st) bs s' -> next s' = (Err, s'') -> words_of bs = syms ->
    (length bs < 4 * k)%nat ->
    exists st', yields (dd_next next (S k)) st out st' /\
    fst (dd_next next (S k) st') = match e with Finished => Err | Aborted => Panic end.
  Proof.
    induction 1 as [d|d c|d c1 c2 syms Hbad|d c1 s1 c2 s2 syms out e H1 H2 Hx IH];
      intros st bs s' s'' k Hr Hp Hy He Hw HL.
    - exists st. split; [constructor|]. cbn [dd_next]. rewrite Hp.
      rewrite (@read_short (dd_stream st) bs s' s''); [reflexivity| |exact Hy|exact He].
      destruct bs as [|? [|? ?]]; cbn in *; try lia; discriminate.
    - exists st. split; [constructor|]. cbn [dd_next]. rewrite Hp.
      destruct bs as [|b1 [|b2 bs]]; try discriminate. cbn [words_of] in Hw. apply cons_inj in Hw as [<- Hw].
      apply read_word in Hy as [t1 [R1 Hy]]. rewrite R1.
      rewrite (@read_short t1 bs s' s''); [reflexivity| |exact Hy|exact He].
      destruct bs as [|? [|? ?]]; cbn in *; try lia; discriminate.
    - exists st. split; [constructor|]. cbn [dd_next]. rewrite Hp.
      destruct bs as [|b1 [|b2 [|b3 [|b4 bs]]]]; try discriminate. cbn [words_of] in Hw. apply cons_inj in Hw as [<- Hw]. apply cons_inj in Hw as [<- Hw].
      apply read_word in Hy as [t1 [R1 Hy]]. rewrite R1.
      apply read_word in Hy as [t2 [R2 Hy]]. rewrite R2, !(dr_map Hr).
      destruct Hbad as [->| ->]; [reflexivity|]. destruct (code_string d _); reflexivity.
    - destruct bs as [|b1 [|b2 [|b3 [|b4 bs]]]]; try discriminate. cbn [words_of] in Hw. apply cons_inj in Hw as [<- Hw]. apply cons_inj in Hw as [<- Hw].
      cbn [length] in HL.
      destruct (@dd_pair st d b1 b2 b3 b4 bs s' s1 s2 Hr Hp Hy H1 H2) as [st1 [En [Hr1 [Hp1 Hy1]]]].
      set (st2 := mkDD (dd_stream st1) [] (dd_mapping st1) (dd_abbrev st1)).
      assert (Hr2 : dec_rep st2 (grow d (s1 ++ s2))) by (destruct Hr1; split; assumption).
      destruct (IH st2 bs s' s'' k Hr2) as [st' [G1 G2]]; [reflexivity|exact Hy1|exact He|exact Hw|lia|].
      destruct (s1 ++ s2) as [|x l] eqn:Es.
      + (* empty pair: the call recurses *)
        apply app_eq_nil in Es as [-> ->]. cbn [app] in *.
        assert (E12 : st1 = st2) by (destruct st1; cbn in *; unfold st2; cbn; congruence).
        assert (EE : dd_next next (S k) st = dd_next next (S k) st2).
        { rewrite En, E12. symmetry. eapply stack_more; [lia| |exact Hy1|exact He]. lia. }
        destruct out as [|x out].
        * clearbody st2. inversion G1; subst. exists st. split; [constructor|]. now rewrite EE.
        * apply yields_cons_inv in G1 as [st3 [N1 Y1]]. exists st'. split; [|exact G2].
          econstructor; [|exact Y1]. now rewrite EE.
      + exists st'. split; [|exact G2]. rewrite app_assoc, Es. cbn [app].
        destruct k as [|k]; [lia|].
        econstructor; [rewrite En; apply dd_prev_next; exact Hp1|].
        eapply yields_app; [apply (@dd_drain (S k) l (mkDD _ _ _ _) []); cbn; now rewrite app_nil_r|].
        exact G1.
  Qed.
End Dec.

Lemma grow_app d k : exists t, grow d k = d ++ t.
Proof. unfold grow. destruct (_ <? _)%N; [exists [k]; reflexivity|exists []; now rewrite app_nil_r]. Qed.
Lemma expands_total n : forall d syms, (length syms <= n)%nat -> exists out e, expands d syms out e.
Proof.
  induction n as [|n IH]; intros d syms HL.
  - destruct syms; [|cbn in HL; lia]. exists [], Finished. constructor.
  - destruct syms as [|c1 [|c2 syms]].
    + exists [], Finished. constructor.
    + exists [], Aborted. constructor.
    + destruct (code_string d c1) as [s1|] eqn:E1; [|exists [], Aborted; constructor; auto].
      destruct (code_string d c2) as [s2|] eqn:E2; [|exists [], Aborted; constructor; auto].
      destruct (IH (grow d (s1 ++ s2)) syms) as [out [e H]]; [cbn in HL; lia|].
      exists (s1 ++ s2 ++ out), e. econstructor; eassumption.
Qed.
Lemma expands_fun d syms out e : expands d syms out e ->
  forall out' e', expands d syms out' e' -> out' = out /\ e' = e.
Proof.
  induction 1 as [d|d c|d c1 c2 syms Hbad|d c1 s1 c2 s2 syms out e H1 H2 Hx IH]; intros out' e' H'.
  - inversion H'; auto.
  - inversion H'; auto.
  - inversion H' as [| | |? ? q1 ? q2 ? ? ? Q1 Q2 Qx]; subst; [auto|]. destruct Hbad; congruence.
  - inversion H' as [| |? ? ? ? Hbad|? ? q1 ? q2 ? o ? Q1 Q2 Qx]; subst.
    + destruct Hbad; congruence.
    + rewrite H1 in Q1. rewrite H2 in Q2. injection Q1 as <-. injection Q2 as <-.
      destruct (IH _ _ Qx) as [-> ->]. auto.
Qed.

(** a greedy code never has an empty pair, so two nested calls are enough, and
    nothing after it is touched *)
Lemma greedy_dec {T} (next : nextf T N) d l syms : greedy d l syms ->
  forall st s' k, dict_ok d -> dec_rep st d -> dd_prev st = [] ->
  yields next (dd_stream st) (words syms) s' ->
  exists st', yields (dd_next next (S (S k))) st l st' /\ dd_prev st' = [] /\ dd_stream st' = s'.
Proof.
  assert (CS : forall d rest c s, dict_ok d -> longest d rest c s -> code_string d c = Some s /\ (c < 65535)%N).
  { intros d0 rest c s Hd HL. unfold code_string. pose proof (longest_u16 Hd HL).
    destruct (N.eqb_spec c 65535); [lia|]. split; [apply HL|assumption]. }
  assert (LE : forall c, u16_ok c -> (c mod 256 + 256 * (c / 256) = c)%N) by (intros c _; pose proof (N.div_mod c 256); lia).
  induction 1 as [d|d rest c HL Hne|d c1 s1 c2 s2 rest syms HL1 Hn1 HL2 Hn2 Hnin Hg IH]; intros st s' k Hd Hr Hp Hy.
  - inversion Hy; subst. exists st. split; [constructor|]. auto.
  - destruct (CS _ _ _ _ Hd HL) as [C1 B1]. unfold words in Hy. cbn [flat_map] in Hy.
    unfold le16 at 1 in Hy. cbn [app] in Hy.
    destruct (@dd_pair T next st d (c mod 256) (c / 256) 255 255 [] s' rest []) as [st1 [En [Hr1 [Hp1 Hy1]]]]; try assumption.
    { rewrite LE by (unfold u16_ok; lia). exact C1. }
    { reflexivity. }
    rewrite app_nil_r in *. destruct rest as [|x l]; [congruence|].
    inversion Hy1; subst.
    eexists. split; [|split].
    + econstructor; [rewrite En; apply dd_prev_next; exact Hp1|].
      apply (@dd_drain T next (S k) l (mkDD _ _ _ _) []). cbn. now rewrite app_nil_r.
    + reflexivity.
    + reflexivity.
  - destruct (CS _ _ _ _ Hd HL1) as [C1 B1]. destruct (CS _ _ _ _ Hd HL2) as [C2 B2].
    unfold words in Hy. cbn [flat_map] in Hy. unfold le16 at 1 2 in Hy. cbn [app] in Hy.
    destruct (@dd_pair T next st d (c1 mod 256) (c1 / 256) (c2 mod 256) (c2 / 256) (words syms) s' s1 s2)
      as [st1 [En [Hr1 [Hp1 Hy1]]]]; try assumption.
    { rewrite LE by (unfold u16_ok; lia). exact C1. }
    { rewrite LE by (unfold u16_ok; lia). exact C2. }
    set (st2 := mkDD (dd_stream st1) [] (dd_mapping st1) (dd_abbrev st1)).
    assert (Hr2 : dec_rep st2 (grow d (s1 ++ s2))) by (destruct Hr1; split; assumption).
    destruct (IH st2 s' k) as [st' [G1 [G2 G3]]]; try assumption; [|reflexivity|].
    { unfold grow. destruct (N.ltb_spec (N.of_nat (length d)) 65535); [|exact Hd].
      destruct HL1 as [Q1 _]. destruct HL2 as [Q2 _]. apply nth_error_In in Q1, Q2.
      pose proof (dk_key Hd) as HK. rewrite Forall_forall in HK. destruct (HK _ Q1) as [_ K1]. destruct (HK _ Q2) as [_ K2].
      split; [apply nodup_snoc; [apply Hd|exact Hnin]| |rewrite app_length; cbn; lia].
      apply Forall_app. split; [apply Hd|]. constructor; [|constructor].
      split; [destruct s1; [congruence|discriminate]|]. apply Forall_app. auto. }
    exists st'. split; [|auto]. destruct s1 as [|x s1]; [congruence|]. cbn [app] in *.
    econstructor; [rewrite En; apply dd_prev_next; exact Hp1|]. rewrite app_assoc.
    eapply yields_app; [|exact G1].
    apply (@dd_drain T next (S k) (s1 ++ s2) (mkDD _ _ _ _) []). cbn. now rewrite app_nil_r.
Qed.

(** ** Top level *)
(* computing implicit arguments would normalise [zip_dict_encode] *)
Unset Implicit Arguments.
Lemma initial_ok : dict_ok initial_dict.
Proof.
  split; [apply initial_nodup| |rewrite initial_length; lia].
  apply Forall_forall. intros s H. rewrite initial_eq in H. apply in_map_iff in H as [b [<- H]]. split; [discriminate|].
  constructor; [|constructor]. pose proof all_bytes_u8 as G. rewrite Forall_forall in G. auto.
Qed.

Lemma dict_encode_top T (next : nextf T N) s l fuel : delivers next s l -> Forall u8_ok l -> (length l < fuel)%nat ->
  exists syms, greedy initial_dict l syms /\ run_vec (zip_dict_encode next fuel s) = Ok (words syms)
  /\ forall k, let r := zip_dict_encode next fuel s (short_writer k) in
       fst r = (if (length (words syms) <=? k)%nat then Ok tt else Err)
       /\ written (snd r) = firstn k (words syms).
Proof.
  intros Hs H8 Hf. destruct (dict_encode_spec Hs H8 Hf) as [syms [Hg He]]. exists syms.
  split; [exact Hg|]. split; [now rewrite (emits_run_vec He)|]. intros k. now apply emits_short.
Qed.
Lemma dict_encode_out T (next : nextf T N) s l fuel out : delivers next s l -> Forall u8_ok l -> (length l < fuel)%nat ->
  run_vec (zip_dict_encode next fuel s) = Ok out -> exists syms, greedy initial_dict l syms /\ out = words syms.
Proof.
  intros Hs H8 Hf. destruct (dict_encode_spec Hs H8 Hf) as [syms [Hg He]]. rewrite (emits_run_vec He).
  intros H. exists syms. split; [exact Hg|]. congruence.
Qed.
Lemma dict_encodes T (next : nextf T N) s l fuel :
  delivers next s l -> Forall u8_ok l -> (length l < fuel)%nat ->
  exists out, run_vec (zip_dict_encode next fuel s) = Ok out
  /\ forall k, let r := zip_dict_encode next fuel s (short_writer k) in
       fst r = (if (length out <=? k)%nat then Ok tt else Err) /\ written (snd r) = firstn k out.
Proof.
  intros Hs H8 Hf. destruct (dict_encode_top _ _ _ _ _ Hs H8 Hf) as [syms [_ [E H]]].
  exists (words syms). split; [exact E|exact H].
Qed.
Lemma words_inj_example syms : words [1; 2; 256; 1]%N = words syms -> syms = [1; 2; 256; 1]%N.
Proof.
  assert (D : forall a b, le16 a = le16 b -> a = b).
  { intros a b [= H1 H2]. rewrite (N.div_mod a 256), (N.div_mod b 256) by lia. congruence. }
  intros H. pose proof (f_equal (@length N) H) as HL. rewrite !words_length in HL.
  destruct syms as [|a [|b [|c [|d [|e syms]]]]]; try (cbn in HL; lia).
  unfold words in H. cbn [flat_map] in H. unfold le16 in H. cbn [app] in H.
  injection H as H1 H2 H3 H4 H5 H6 H7 H8.
  assert (E : forall a b, (a mod 256 = b mod 256 -> a / 256 = b / 256 -> b = a)%N).
  { intros x y X1 X2. symmetry. apply D. unfold le16. congruence. }
  rewrite (E _ _ H1 H2), (E _ _ H3 H4), (E _ _ H5 H6), (E _ _ H7 H8). reflexivity.
Qed.
Lemma dict_roundtrip T (next : nextf T N) s l fuel out :
  delivers next s l -> Forall u8_ok l -> (length l < fuel)%nat ->
  run_vec (zip_dict_encode next fuel s) = Ok out ->
  forall S (next2 : nextf S N) s2 stack, (2 <= stack)%nat ->
  (forall s2', yields next2 s2 out s2' ->
     exists st, yields (dd_next next2 stack) (zip_dict_decode s2) l st /\ dd_stream st = s2')
  /\ (yields_all next2 s2 out -> yields_all (dd_next next2 stack) (zip_dict_decode s2) l).
Proof.
  intros Hs H8 Hf E S next2 s2 stack Hst.
  destruct (dict_encode_out _ _ _ _ _ _ Hs H8 Hf E) as [syms [Hg ->]]. clear E.
  destruct stack as [|[|k]]; try lia.
  assert (G : forall s2', yields next2 s2 (words syms) s2' ->
     exists st, yields (dd_next next2 (Datatypes.S (Datatypes.S k))) (zip_dict_decode s2) l st /\ dd_prev st = [] /\ dd_stream st = s2').
  { intros s2' Hy. eapply (@greedy_dec S next2); [exact Hg|apply initial_ok|apply dec_new_rep|reflexivity|exact Hy]. }
  split.
  - intros s2' Hy. destruct (G _ Hy) as [st [G1 [_ G2]]]. eauto.
  - intros [s3 [s4 [Hy He]]]. destruct (G _ Hy) as [st [G1 [G2 G3]]].
    exists st. eexists. split; [exact G1|]. cbn [dd_next]. rewrite G2.
    rewrite (@read_short S next2 (dd_stream st) [] s3 s4); [reflexivity|cbn; lia|rewrite G3; constructor|exact He].
Qed.
Lemma dict_size T (next : nextf T N) s l fuel out :
  delivers next s l -> Forall u8_ok l -> (length l < fuel)%nat ->
  run_vec (zip_dict_encode next fuel s) = Ok out ->
  exists p, length out = (4 * p)%nat /\ (out = [] <-> l = []) /\ (2 * p <= length l + 1)%nat.
Proof.
  intros Hs H8 Hf E. destruct (dict_encode_out _ _ _ _ _ _ Hs H8 Hf E) as [syms [Hg ->]]. clear E.
  destruct (greedy_size Hg) as [p [E1 [E2 E3]]]. exists p. rewrite words_length. split; [lia|]. split; [|exact E3].
  rewrite <- E2. pose proof (words_length syms) as HL. split.
  - intros E0. rewrite E0 in HL. cbn in HL. lia.
  - intros ->. destruct syms; [reflexivity|cbn in E1; lia].
Qed.
Lemma dict_foreign T (next : nextf T N) s bs : yields_all next s bs ->
  exists out e, expands initial_dict (words_of bs) out e
  /\ (forall out' e', expands initial_dict (words_of bs) out' e' -> out' = out /\ e' = e)
  /\ forall stack, (length bs < 4 * stack)%nat ->
  exists st, yields (dd_next next (S stack)) (zip_dict_decode s) out st /\
  fst (dd_next next (S stack) st) = match e with Finished => Err | Aborted => Panic end.
Proof.
  intros [s' [s'' [Hy He]]].
  destruct (@expands_total _ initial_dict (words_of bs) (le_n _)) as [out [e Hx]].
  exists out, e. split; [exact Hx|]. split; [apply expands_fun; exact Hx|].
  intros stack Hk. eapply expands_dec; [exact Hx|apply dec_new_rep|reflexivity|exact Hy|exact He|reflexivity|exact Hk].
Qed.

(** every pair of end-of-data symbols costs one more nested call *)
Lemma eof_pairs_deep k : forall d st, dec_rep st d -> dd_prev st = [] ->
  (exists r, dd_stream st = repeat 255%N (4 * k) ++ r) -> fst (dd_next list_next k st) = Panic.
Proof.
  induction k as [|k IH]; intros d st Hr Hp [r Hs]; [reflexivity|].
  replace (4 * S k)%nat with (4 + 4 * k)%nat in Hs by lia.
  destruct (@dd_pair (list N) list_next st d 255 255 255 255 [] (repeat 255%N (4 * k) ++ r) [] [])
    as [st1 [En [Hr1 [Hp1 Hy1]]]]; try assumption; try reflexivity.
  { rewrite Hs. change (repeat 255%N (4 + 4 * k) ++ r) with ([255; 255; 255; 255]%N ++ (repeat 255%N (4 * k) ++ r)).
    apply yields_list. }
  rewrite En. apply (IH _ st1 Hr1 Hp1). exists r. now inversion Hy1.
Qed.
Lemma dict_deep stack : fst (dd_next list_next stack (zip_dict_decode (repeat 255%N (4 * stack)))) = Panic
  /\ expands initial_dict (words_of (repeat 255%N (4 * stack))) [] Finished.
Proof.
  split.
  - apply (eof_pairs_deep stack initial_dict); [apply dec_new_rep|reflexivity|].
    exists []. cbn [dd_stream zip_dict_decode]. now rewrite app_nil_r.
  - generalize initial_dict. induction stack as [|k IH]; intros d; [constructor|].
    replace (4 * S k)%nat with (4 + 4 * k)%nat by lia. cbn [repeat Nat.add words_of].
    change ([] : list N) with ([] ++ [] ++ [] : list N). constructor; [reflexivity|reflexivity|]. apply IH.
Qed.

Lemma expands_examples out e :
  (expands initial_dict (words_of [97; 0; 98; 0; 9]%N) out e -> out = [97; 98]%N /\ e = Finished)
  /\ (expands initial_dict (words_of [97; 0; 98; 0; 1; 1; 0; 0]%N) out e -> out = [97; 98]%N /\ e = Aborted)
  /\ (expands initial_dict (words_of [97; 0; 98; 0; 97; 0]%N) out e -> out = [97; 98]%N /\ e = Aborted).
Proof.
  split; [|split]; apply expands_fun.
  - change (expands initial_dict [97; 98]%N ([97] ++ [98] ++ [])%N Finished).
    constructor; [reflexivity|reflexivity|constructor].
  - change (expands initial_dict [97; 98; 257; 0]%N ([97] ++ [98] ++ [])%N Aborted).
    constructor; [reflexivity|reflexivity|]. constructor. left. reflexivity.
  - change (expands initial_dict [97; 98; 97]%N ([97] ++ [98] ++ [])%N Aborted).
    constructor; [reflexivity|reflexivity|constructor].
Qed.
