(** * The theorems about the trie statistics (C67). *)
From Verif Require Import Base Ser SerSpec SerProofs Bit BitSpec BitProofs Utils UtilsProofs HufSpec Dict DictSpec DictProofs DictEnc Float FloatProofs TrieStats TrieSpec TrieProofs.
From Coq Require Import ZifyBool ZifyNat ZifyN Permutation Reals.
From Flocq Require Import Core BinarySingleNaN.
Open Scope nat_scope.

Lemma loop_more {T} fuel : forall (stack : list (node T)) a st k,
  stats_loop fuel stack a = Some st -> stats_loop (fuel + k) stack a = Some st.
Proof.
  induction fuel as [|fuel IH]; intros stack a st k H; [discriminate|]. cbn in *.
  destruct (vec_pop stack) as [[n r]|]; [|exact H]. now apply IH.
Qed.
Lemma stats_unique {T} (n : node T) f1 f2 s1 s2 : trie_stats f1 n = Some s1 -> trie_stats f2 n = Some s2 -> s1 = s2.
Proof.
  intros H1 H2. apply (loop_more _ _ _ _ f2) in H1. apply (loop_more _ _ _ _ f1) in H2.
  rewrite Nat.add_comm in H2. congruence.
Qed.
Definition counted {T} (n : node T) keys : Prop :=
  (exists fuel, trie_stats fuel n <> None) /\ forall fuel st, trie_stats fuel n = Some st -> figures keys st.
Lemma counts {T} (n : node T) keys : holds_keys n keys ->
  (exists fuel, trie_stats fuel n <> None) /\ forall fuel st, trie_stats fuel n = Some st -> figures keys st.
Proof.
  intros H. destruct (trie_figures n keys H) as [st [Hs [need Hn]]]. split.
  - exists need. rewrite Hn; [discriminate|lia].
  - intros fuel st' E. rewrite (stats_unique n _ _ _ _ E (Hn need (le_n _))). exact Hs.
Qed.
Lemma trie_counts : forall T (hist : list (list N * T)) prevs n, Forall (fun kv => byte_key (fst kv)) hist ->
  insert_all node_new hist = Ok (prevs, n) ->
  (exists fuel, trie_stats fuel n <> None) /\
  forall fuel st, trie_stats fuel n = Some st -> figures (map fst hist) st.
Proof. intros T hist prevs n HF E. apply counts. eapply trie_facts; eassumption. Qed.

(** ** Density *)
Lemma snug_bounds {V} (c : content V) : content_wf c -> snug c ->
  (used_entries c <= tot_entries c /\ 65 * tot_entries c <= 256 * used_entries c)%nat.
Proof.
  intros Hw Hs. rewrite (tot_room c Hw Hs). unfold room.
  destruct (Nat.leb_spec (used_entries c) 64); [lia|]. split; [|lia].
  rewrite (used_len c Hw). destruct (entries_spec c Hw) as [N1 [M1 _]].
  rewrite <- (map_length fst). change 256%nat with (length all_bytes). apply NoDup_incl_length; [exact N1|].
  intros b Hb. apply in_map_iff in Hb as [[b' v] [E Hb]]. cbn in E. subst b'. apply M1 in Hb.
  apply all_bytes_in. unfold u8_ok. destruct Hw as [keys vals HN HF HL|data HL]; cbn in Hb.
  - destruct (content_find keys b) as [i|] eqn:Ef; [|discriminate]. apply find_some, nth_error_In in Ef.
    rewrite Forall_forall in HF. now apply HF.
  - destruct (nth_error data (N.to_nat b)) eqn:En; [|discriminate].
    assert (N.to_nat b < length data)%nat by (apply nth_error_Some; congruence). lia.
Qed.
Definition dense_enough (st : stats) : Prop :=
  (st_used_child st <= st_tot_child st /\ 65 * st_tot_child st <= 256 * st_used_child st)%nat
  /\ (st_used_value st <= st_tot_value st /\ 65 * st_tot_value st <= 256 * st_used_value st)%nat.
Lemma loop_dense {T} fuel : forall (stack : list (node T)) a st, Forall node_snug stack -> dense_enough a ->
  stats_loop fuel stack a = Some st -> dense_enough st.
Proof.
  induction fuel as [|fuel IH]; intros stack a st HS Ha E; [discriminate|]. cbn [stats_loop] in E.
  destruct (vec_pop stack) as [[n r]|] eqn:Ep; [|injection E as <-; exact Ha].
  unfold vec_pop in Ep. destruct (rev stack) as [|x l] eqn:Er; [discriminate|]. injection Ep as -> <-.
  assert (stack = rev l ++ [n]) by (rewrite <- (rev_involutive stack), Er; reflexivity). subst stack.
  apply Forall_app in HS as [HS Hn]. inversion Hn as [|? ? Hn1 _]; subst.
  apply node_snug_iff in Hn1 as [[[Hwc Hwv _] [Sc Sv]] Hrec].
  refine (IH _ _ _ _ _ E).
  - apply Forall_app. split; [exact HS|]. apply Forall_forall. intros c Hc.
    destruct (entries_spec _ Hwc) as [_ [M1 E3]]. rewrite <- E3 in Hc. apply in_map_iff in Hc as [[b c'] [Ec Hc]].
    cbn in Ec. subst c'. apply M1 in Hc. now apply (Hrec b).
  - pose proof (snug_bounds _ Hwc Sc). pose proof (snug_bounds _ Hwv Sv).
    unfold dense_enough in *. cbn [st_used_child st_tot_child st_used_value st_tot_value]. lia.
Qed.
Lemma stats_dense {T} (n : node T) keys fuel st : holds_keys n keys -> trie_stats fuel n = Some st -> dense_enough st.
Proof.
  intros [Hs _] E. refine (loop_dense fuel [n] _ st _ _ E); [|unfold dense_enough; cbn; lia]. constructor; [exact Hs|constructor].
Qed.

Lemma density_nan used tot : (used <= tot)%nat -> (N.of_nat tot < 2 ^ 53)%N ->
  is_nan (density used tot) = true <-> tot = 0%nat.
Proof.
  intros Hu Ht. split.
  - intros H. destruct (Nat.eq_dec tot 0) as [|Hne]; [assumption|]. exfalso.
    unfold density, fdiv in H.
    destruct (of_N_spec (N.of_nat used)) as [F1 V1 _]; [lia|].
    destruct (of_N_spec (N.of_nat tot)) as [F2 V2 _]; [lia|].
    set (x := f64_of_N (N.of_nat used)) in *. set (y := f64_of_N (N.of_nat tot)) in *.
    destruct x as [sx|sx| |sx mx ex Hx], y as [sy|sy| |sy my ey Hy]; try discriminate.
    + cbn in V2. apply (eq_IZR 0) in V2. lia.
    + assert (Hy0 : B2R (B754_finite sy my ey Hy) <> 0%R).
      { intros E. rewrite E in V2. apply (eq_IZR 0) in V2. lia. }
      pose proof (Bdiv_correct 53 1024 _ _ mode_NE (B754_finite sx mx ex Hx) (B754_finite sy my ey Hy) Hy0) as C.
      destruct (Rlt_bool _ _) in C.
      * destruct C as (_ & C & _). change (is_finite (B754_finite sx mx ex Hx)) with true in C.
        destruct (Bdiv mode_NE (B754_finite sx mx ex Hx) (B754_finite sy my ey Hy)); discriminate.
      * apply (f_equal (fun s => match s with SpecFloat.S754_nan => true | _ => false end)) in C.
        revert H C. generalize (Bdiv mode_NE (B754_finite sx mx ex Hx) (B754_finite sy my ey Hy)).
        intros f H C. destruct f; try discriminate H. discriminate C.
  - intros ->. assert (used = 0%nat) by lia. subst used. vm_compute. reflexivity.
Qed.

Lemma places_one keys ps : Forall byte_key keys -> places keys ps ->
  length ps = 1%nat <-> Forall (fun k => length k = 1%nat) keys.
Proof.
  intros HF [HN HP]. split.
  - intros HL. apply Forall_forall. intros k Hk. rewrite Forall_forall in HF. destruct (HF k Hk) as [Hne _].
    destruct k as [|b [|b2 k]]; [congruence|reflexivity|].
    assert (H1 : In [] ps) by (apply HP; now left).
    assert (H2 : In [b] ps) by (apply HP; right; exists (b :: b2 :: k); split; [exact Hk|exists b2, k; reflexivity]).
    destruct ps as [|p [|]]; try discriminate. destruct H1 as [->|[]], H2 as [H2|[]]. discriminate.
  - intros H. rewrite Forall_forall in H. assert (E : Permutation ps [[]]).
    { apply NoDup_Permutation; [exact HN|constructor; [intros []|constructor]|]. intros p. rewrite HP. cbn. split.
      - intros [->|[k [Hk [x [r ->]]]]]; [now left|]. specialize (H _ Hk). rewrite app_length in H. cbn in H.
        destruct p; [now left|cbn in H; lia].
      - intros [<-|[]]. now left. }
    now rewrite (Permutation_length E).
Qed.
Lemma trie_density : forall T (hist : list (list N * T)) prevs n fuel st,
  Forall (fun kv => byte_key (fst kv)) hist ->
  insert_all node_new hist = Ok (prevs, n) -> trie_stats fuel n = Some st ->
  (st_used_child st <= st_tot_child st /\ 65 * st_tot_child st <= 256 * st_used_child st)%nat
  /\ (st_used_value st <= st_tot_value st /\ 65 * st_tot_value st <= 256 * st_used_value st)%nat
  /\ ((N.of_nat (st_tot_child st) < 2 ^ 53)%N ->
      is_nan (density (st_used_child st) (st_tot_child st)) = true <-> Forall (fun kv => length (fst kv) = 1%nat) hist).
Proof.
  intros T hist prevs n fuel st HF E Es. pose proof (trie_facts hist prevs n HF E) as H.
  destruct (stats_dense n _ fuel st H Es) as [D1 D2]. split; [exact D1|]. split; [exact D2|]. intros Hb.
  destruct (counts n _ H) as [_ C]. destruct (C fuel st Es) as (ps & ks & HP & _ & Est).
  assert (HF' : Forall byte_key (map fst hist)) by apply H.
  rewrite density_nan by (try apply D1; exact Hb). 
  assert (EQ : Forall (fun kv => length (fst kv) = 1%nat) hist <-> Forall (fun k => length k = 1%nat) (map fst hist))
    by (rewrite Forall_map; reflexivity).
  rewrite EQ, <- (places_one _ ps HF' HP).
  assert (U : st_used_child st = (length ps - 1)%nat) by (now subst st).
  assert (In [] ps) by (apply HP; now left). destruct ps; [contradiction|]. cbn [length] in *.
  split; intros; lia.
Qed.

(** ** The encoder's trie *)
Section Enc.
  Context {T : Type} (next : nextf T N).
  Lemma rep_holds n d : trie_rep n d -> dict_ok d -> node_snug n -> holds_keys n d.
  Proof.
    intros [Hw Hg Hf] [_ Hk _] Hs. split; [exact Hs|]. split; [exact Hk|]. split; [|exact Hf].
    intros k. split.
    - destruct (tget n k) as [c|] eqn:E; [|congruence]. intros _. apply Hg in E. now apply nth_error_In in E.
    - intros Hi. apply In_nth_error in Hi as [i Hi]. rewrite <- (Nnat.Nat2N.id i) in Hi. apply Hg in Hi. congruence.
  Qed.
  Lemma create_snug (z z' : dict_enc T) k : node_snug (de_trie z) -> byte_key k -> create_symbol z k = Ok z' ->
    node_snug (de_trie z').
  Proof.
    intros Hs Hk E. unfold create_symbol in E. destruct (abbrev_next (de_abbrev z)) as [[c|] ctr].
    - destruct (trie_insert (de_trie z) k c) as [[pr t]| |] eqn:Ei; cbn in E; try discriminate.
      injection E as <-. cbn. eapply insert_snug; eassumption.
    - injection E as <-. exact Hs.
  Qed.
  Lemma create_all_snug l : forall (z z' : dict_enc T), node_snug (de_trie z) -> Forall u8_ok l ->
    create_all z l = Ok z' -> node_snug (de_trie z').
  Proof.
    induction l as [|b l IH]; intros z z' Hs H8 E; cbn [create_all] in E; [injection E as <-; exact Hs|].
    inversion H8; subst. destruct (create_symbol z [b]) as [z1| |] eqn:E1; cbn in E; try discriminate.
    refine (IH z1 z' _ _ E); [|assumption]. eapply create_snug; [exact Hs| |exact E1].
    split; [discriminate|]. now constructor.
  Qed.
  Lemma find_keeps fuel (z : dict_enc T) sym seq z' : find_symbol next fuel z = Ok (sym, seq, z') -> de_trie z' = de_trie z.
  Proof.
    unfold find_symbol. destruct (find_loop next fuel (de_trie z) (de_input z) None [] []) as [[[a b] i]| |]; cbn; try discriminate.
    intros [= _ _ <-]. reflexivity.
  Qed.
  Lemma pair_snug (z : dict_enc T) d rest fuel o z' : enc_ok next z d rest -> (length rest < fuel)%nat -> node_snug (de_trie z) ->
    next_pair next fuel z = Ok (o, z') ->
    node_snug (de_trie z') /\ (o = None -> de_trie z' = de_trie z).
  Proof.
    intros Hz Hf Hs E. unfold next_pair in E.
    destruct (@find_symbol_spec _ next z d rest fuel Hz Hf) as [[-> [z1 [E1 H1]]]|[c1 [s1 [r1 [z1 [-> [N1 [L1 [E1 H1]]]]]]]]];
      rewrite E1 in E; cbn [res_bind] in E; pose proof (find_keeps _ _ _ _ _ E1) as K1.
    - destruct (input_over_spec H1) as [i [Ei _]].
      cbn [is_nil assert_ res_bind] in E. rewrite Ei in E. cbn in E. injection E as <- <-. cbn. rewrite K1. auto.
    - rewrite app_length in Hf.
      assert (HN : (0 <? length s1)%nat = true) by (destruct s1; [congruence|reflexivity]).
      rewrite HN in E. cbn [assert_ res_bind] in E.
      destruct (@find_symbol_spec _ next z1 d r1 fuel H1) as [[-> [z2 [E2 H2]]]|[c2 [s2 [r2 [z2 [-> [N2 [L2 [E2 H2]]]]]]]]];
        [lia| |]; rewrite E2 in E; cbn [res_bind] in E; pose proof (find_keeps _ _ _ _ _ E2) as K2.
      + destruct (input_over_spec H2) as [i [Ei G]].
        cbn [is_nil assert_ res_bind] in E. rewrite Ei in E. cbn in E. injection E as <- <-. cbn. rewrite K2, K1.
        split; [exact Hs|discriminate].
      + assert (HN2 : (0 <? length s2)%nat = true) by (destruct s2; [congruence|reflexivity]).
        rewrite HN2 in E. cbn [assert_ res_bind] in E.
        destruct (create_symbol z2 (s1 ++ s2)) as [z3| |] eqn:E3; cbn in E; try discriminate.
        injection E as <- <-. split; [|discriminate]. eapply create_snug; [rewrite K2, K1; exact Hs| |exact E3].
        pose proof (eo_u8 Hz) as H8. pose proof (eo_u8 H1) as H81.
        apply Forall_app in H8. apply Forall_app in H81.
        split; [destruct s1; [congruence|discriminate]|]. apply Forall_app. tauto.
  Qed.
  Lemma trie_loop_spec fuel pairs : forall (z : dict_enc T) d rest, enc_ok next z d rest -> node_snug (de_trie z) ->
    (length rest < fuel)%nat -> (length rest < pairs)%nat ->
    exists n syms d', dict_trie_loop next fuel pairs z = Ok n /\ greedy d rest syms /\ learnt d syms d'
    /\ (holds_keys n d' /\ NoDup d') /\ emits (dict_encode_loop next fuel pairs z) (words syms) (Ok tt).
  Proof.
    induction pairs as [|pairs IH]; intros z d rest Hz Hs Hf Hp; [lia|].
    cbn [dict_trie_loop dict_encode_loop].
    destruct (next_pair_spec Hz Hf) as [[-> [z' E]]|[[c [z' [E [Hn [HL Hz']]]]]|
      [c1 [s1 [c2 [s2 [r [z' [E [Er [L1 [N1 [L2 [N2 [Hnin Hz']]]]]]]]]]]]]]];
      destruct (pair_snug _ _ _ _ _ _ Hz Hf Hs E) as [Hs' Hk]; rewrite E; cbn [res_bind].
    - exists (de_trie z'), [], d. split; [reflexivity|]. split; [constructor|]. split; [constructor|].
      rewrite Hk by reflexivity. split; [split; [|apply (dk_nodup (eo_dict Hz))]|apply emits_ret].
      apply rep_holds; [apply (eo_trie Hz)|apply (eo_dict Hz)|exact Hs].
    - assert (0 < length rest)%nat by (destruct rest; [congruence|cbn; lia]).
      destruct (IH z' d [] Hz' Hs') as (n & syms & d' & En & Hg & Hl & Hh & He); [cbn; lia|cbn; lia|].
      assert (Es : syms = []).
      { inversion Hg as [|? ? ? _ Hne|? ? s1 ? s2 ? ? _ Hne _ _ _ _ EE]; subst; [reflexivity|congruence|].
        destruct s1; [congruence|discriminate]. }
      subst syms. exists n, [c; 65535%N], d'. split; [exact En|]. split; [now constructor|].
      split; [inversion Hl; subst; constructor|]. split; [exact Hh|].
      unfold words in *. cbn [flat_map] in *.
      change (le16 c ++ le16 65535 ++ []) with (le16 c ++ (le16 65535 ++ [])).
      eapply emits_bind; [|eapply emits_bind; [|exact He]].
      + unfold ser_u16. rewrite le16_eq; [apply emits_write|].
        pose proof (longest_u16 (eo_dict Hz) HL). unfold u16_ok. lia.
      + unfold ser_u16, ZIP_SPECIAL_EOF. rewrite le16_eq; [apply emits_write|]. unfold u16_ok. lia.
    - subst rest. rewrite !app_length in *.
      assert (0 < length s1)%nat by (destruct s1; [congruence|cbn; lia]).
      destruct (IH z' _ r Hz' Hs') as (n & syms & d' & En & Hg & Hl & Hh & He); [lia|lia|].
      exists n, (c1 :: c2 :: syms), d'. split; [exact En|]. split; [now constructor|].
      split; [econstructor; [apply L1|apply L2|exact Hl]|]. split; [exact Hh|].
      unfold words in *. cbn [flat_map].
      eapply emits_bind; [|eapply emits_bind; [|exact He]].
      + unfold ser_u16. rewrite le16_eq; [apply emits_write|].
        pose proof (longest_u16 (eo_dict Hz) L1). unfold u16_ok. lia.
      + unfold ser_u16. rewrite le16_eq; [apply emits_write|].
        pose proof (longest_u16 (eo_dict Hz) L2). unfold u16_ok. lia.
  Qed.
End Enc.
Lemma learnt_length d syms d' : learnt d syms d' -> (N.of_nat (length d) <= 65535)%N ->
  exists tail pairs, d' = d ++ tail /\ N.of_nat (length d') = N.min 65535 (N.of_nat (length d + pairs)) /\
  ((length syms = 2 * pairs)%nat \/ (length syms = 2 * pairs + 2)%nat /\ last syms 0%N = 65535%N).
Proof.
  induction 1 as [d|d c|d c1 s1 c2 s2 syms d' H1 H2 H IH]; intros HL.
  - exists [], 0%nat. rewrite app_nil_r. split; [reflexivity|]. split; [lia|now left].
  - exists [], 0%nat. rewrite app_nil_r. split; [reflexivity|]. split; [lia|now right].
  - unfold grow in *. destruct (N.ltb_spec (N.of_nat (length d)) 65535) as [Hlt|Hge].
    + destruct IH as (tail & pairs & -> & Hlen & Hs); [rewrite app_length; cbn [length]; lia|].
      rewrite (app_length d [_]) in Hlen. cbn [length] in Hlen.
      exists ([s1 ++ s2] ++ tail), (S pairs). split; [now rewrite app_assoc|]. split; [lia|].
      cbn [length]. destruct Hs as [Hs|[Hs Hl]]; [left; lia|right]. split; [lia|].
      destruct syms; [cbn in Hs; lia|exact Hl].
    + destruct IH as (tail & pairs & -> & Hlen & Hs); [exact HL|].
      exists tail, (S pairs). split; [reflexivity|]. split; [lia|].
      cbn [length]. destruct Hs as [Hs|[Hs Hl]]; [left; lia|right]. split; [lia|].
      destruct syms; [cbn in Hs; lia|exact Hl].
Qed.
Lemma bind_ok {A B} (r : res A) (f : A -> res B) y : res_bind r f = Ok y -> exists x, r = Ok x /\ f x = Ok y.
Proof. destruct r as [x| |]; cbn; intros H; try discriminate. eauto. Qed.
Lemma new_enc_snug {T} (s : T) z : dict_enc_new s = Ok z -> node_snug (de_trie z).
Proof.
  unfold dict_enc_new. intros E. apply bind_ok in E as [z1 [Ec E]]. apply bind_ok in E as [u [_ E]].
  injection E as <-. refine (create_all_snug _ _ _ _ all_bytes_u8 Ec). apply new_snug.
Qed.
Lemma some_lt {A} (l : list A) i x : nth_error l i = Some x -> (i < length l)%nat.
Proof. intros H. apply nth_error_Some. congruence. Qed.
Lemma learnt_keys d syms d' : learnt d syms d' -> forall l, greedy d l syms -> (forall k, In k d -> length k = 1%nat) ->
  (N.of_nat (length d) < 65535)%N -> (length l <= 1)%nat <-> Forall (fun k => length k = 1%nat) d'.
Proof.
  intros Hl l Hg Hd Hlen. inversion Hg as [? E1 E2|? ? c L Hne|? c1 s1 c2 s2 rest syms' L1 N1 L2 N2 Hnin Hg'].
  - subst. inversion Hl; subst. split; [|cbn; lia]. intros _. apply Forall_forall. exact Hd.
  - subst. destruct L as [L _]. apply nth_error_In in L as Hin. specialize (Hd _ Hin) as H1.
    inversion Hl as [|? ?|? ? ? ? ? ? ? A1 A2 A3]; subst.
    + split; [|lia]. intros _. apply Forall_forall. exact Hd.
    + exfalso. assert (N.to_nat 65535 < length d)%nat by (apply nth_error_Some; congruence). lia.
  - subst. assert (A : (2 <= length (s1 ++ s2))%nat)
      by (rewrite app_length; destruct s1, s2; try congruence; cbn; lia).
    rewrite app_length in A. rewrite !app_length. split; [intros; exfalso; lia|]. intros HF. exfalso.
    inversion Hl as [|? ?|? ? t1 ? t2 ? ? A1 A2 A3]; subst.
    + destruct L2 as [L2 _]. apply some_lt in L2. lia.
    + destruct L1 as [L1 _], L2 as [L2 _]. rewrite L1 in A1. rewrite L2 in A2. injection A1 as <-. injection A2 as <-.
      destruct (learnt_length _ _ _ A3) as (tail & pairs & -> & _ & _).
      { unfold grow. destruct (N.ltb_spec (N.of_nat (length d)) 65535); rewrite ?app_length; cbn [length]; lia. }
      unfold grow in HF. destruct (N.ltb_spec (N.of_nat (length d)) 65535); [|lia].
      rewrite <- app_assoc in HF. apply Forall_app in HF as [_ HF]. inversion HF as [|? ? H1 _]; subst.
      rewrite app_length in H1. lia.
Qed.
Lemma encoder_counts : forall T (next : nextf T N) s l fuel,
  delivers next s l -> Forall u8_ok l -> (length l < fuel)%nat ->
  exists n syms d pairs, dict_trie next fuel s = Ok n /\ run_vec (zip_dict_encode next fuel s) = Ok (words syms)
  /\ learnt initial_dict syms d /\ NoDup d
  /\ N.of_nat (length d) = N.min 65535 (256 + N.of_nat pairs)
  /\ ((length syms = 2 * pairs)%nat \/ (length syms = 2 * pairs + 2)%nat /\ last syms 0%N = 65535%N)
  /\ (exists need, trie_stats need n <> None)
  /\ forall f st, trie_stats f n = Some st ->
     figures d st /\ st_used_value st = length d
     /\ ((N.of_nat (st_tot_child st) < 2 ^ 53)%N ->
         is_nan (density (st_used_child st) (st_tot_child st)) = true <-> (length l <= 1)%nat).
Proof.
  intros T next s l fuel Hs H8 Hf. unfold dict_trie, zip_dict_encode.
  destruct (dict_enc_new_spec s) as [z [E [Ht [Hd [Hi Ha]]]]]. rewrite E. cbn [res_bind].
  destruct (@trie_loop_spec _ next fuel fuel z initial_dict l) as (n & syms & d & En & Hg & Hl & [Hh Hn] & He); try exact Hf.
  - split; try assumption; [apply initial_alphabet|]. rewrite Hi. exists l. auto.
  - exact (new_enc_snug s z E).
  - pose proof initial_length as IL.
    destruct (learnt_length _ _ _ Hl) as (tail & pairs & Hd' & Hlen & Hp); [rewrite IL; lia|].
    exists n, syms, d, pairs. split; [exact En|]. split; [exact (emits_run_vec He)|]. split; [exact Hl|]. split; [exact Hn|].
    split; [rewrite IL in Hlen; lia|]. split; [exact Hp|].
    destruct (counts n d Hh) as [C1 C2]. split; [exact C1|]. intros f st Est.
    pose proof (C2 f st Est) as Fg. split; [exact Fg|]. pose proof Fg as (ps & ks & HP & [Nk Ik] & Es). split.
    + subst st. cbn. apply Permutation_length. now apply NoDup_Permutation.
    + intros Hb. destruct (stats_dense n _ f st Hh Est) as [D1 D2].
      rewrite density_nan by (try apply D1; exact Hb).
      rewrite (learnt_keys _ _ _ Hl l Hg), <- (places_one d ps).
      * assert (U : st_used_child st = (length ps - 1)%nat) by (now subst st).
        assert (In [] ps) by (apply HP; now left). destruct ps; [contradiction|]. cbn [length] in *.
        split; intros; lia.
      * apply Hh.
      * exact HP.
      * intros k Hk. rewrite initial_eq in Hk. apply in_map_iff in Hk as [b [<- _]]. reflexivity.
      * rewrite IL. lia.
Qed.
Lemma trie_drops : forall T (hist : list (list N * T)) prevs n, Forall (fun kv => byte_key (fst kv)) hist ->
  insert_all node_new hist = Ok (prevs, n) ->
  exists ps freed, places (map fst hist) ps
  /\ Forall2 (fun p m => content_items (children m) = []
       /\ exists m0, follow n p = Some m0 /\ values m = values m0) ps freed
  /\ last ps [0%N] = []
  /\ forall fuel, (length ps <= fuel)%nat -> trie_drop fuel n = Some freed.
Proof. intros T hist prevs n HF E. apply trie_freed. eapply trie_facts; eassumption. Qed.
