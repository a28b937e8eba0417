(** * The theorems about what zip-dict prints (C92) *)
From Verif Require Import Base Ser SerSpec SerProofs Bit BitSpec BitProofs Utils UtilsProofs HufSpec Dict DictSpec DictProofs DictEnc Float TrieStats TrieSpec TrieProofs TrieTop Says BackSaysProofs DictSays DictSaysSpec DictSaysProofs.
From Coq Require Import ZifyBool ZifyNat ZifyN Permutation.
Open Scope nat_scope.

(** The places of a trie: at most one for each byte of a key but the last, and the root *)
Definition weight (d : list (list N)) : nat := list_sum (map (fun k => length k - 1) d).
Lemma weight_grow d s : weight (grow d s) <= weight d + (length s - 1).
Proof. unfold grow, weight. destruct (N.of_nat (length d) <? 65535)%N; [|lia]. rewrite map_app, list_sum_app. cbn. lia. Qed.
Lemma weight_initial : weight initial_dict = 0.
Proof. vm_compute. reflexivity. Qed.
Lemma inner_len keys : length (flat_map (fun k : list N => map (fun i => firstn i k) (seq 1 (length k - 1))) keys) = weight keys.
Proof.
  unfold weight. induction keys as [|k keys IH]; [reflexivity|].
  cbn [flat_map map list_sum fold_right]. rewrite app_length, map_length, seq_length, IH. reflexivity.
Qed.
Lemma places_weight keys ps : places keys ps -> length ps <= 1 + weight keys.
Proof.
  intros [ND HP]. set (q := [] :: flat_map (fun k => map (fun i => firstn i k) (seq 1 (length k - 1))) keys).
  assert (Lq : length q = 1 + weight keys) by (unfold q; cbn [length]; now rewrite inner_len).
  rewrite <- Lq. apply NoDup_incl_length; [exact ND|]. intros p Hp. apply HP in Hp as [->|(k & Hk & x & t & E)]; [now left|].
  destruct p as [|b p]; [now left|]. right. apply in_flat_map. exists k. split; [exact Hk|]. apply in_map_iff. exists (length (b :: p)).
  assert (length k = length (b :: p) + S (length t)) by (subst k; rewrite app_length; reflexivity).
  split; [|apply in_seq; cbn [length] in *; lia]. subst k. rewrite firstn_app, Nat.sub_diag, firstn_all. now rewrite app_nil_r.
Qed.
Lemma figures_weight keys st : figures keys st -> st_nodes st <= 1 + weight keys.
Proof. intros (ps & ks & HP & _ & ->). cbn [st_nodes]. exact (places_weight _ _ HP). Qed.

Lemma looked_step room c1 c2 syms : looked_for room (c1 :: c2 :: syms) = c1 :: c2 ::
  match room with None => syms | Some k => if 4 <=? k then looked_for (Some (k - 4)) syms else [] end.
Proof.
  unfold looked_for. destruct room as [k|]; [|reflexivity]. destruct (Nat.leb_spec 4 k).
  - replace (k / 4) with (S ((k - 4) / 4)).
    + replace (2 * S (S ((k - 4) / 4))) with (S (S (2 * S ((k - 4) / 4)))) by lia. reflexivity.
    + replace k with (k - 4 + 1 * 4) at 2 by lia. rewrite Nat.div_add by lia. lia.
  - rewrite Nat.div_small by lia. reflexivity.
Qed.
Lemma looked_nil room : looked_for room [] = [].
Proof. destruct room; [apply firstn_nil|reflexivity]. Qed.

(** Two words, then [f] *)
Lemma words_fst {A} o c1 c2 (f : says dict_line writer A) w : u16_ok c1 -> u16_ok c2 ->
  match Base.room w with
  | None => exists w', Base.room w' = None /\ fst (after o (says_bind (hush (ser_u16 c1)) (fun _ => says_bind (hush (ser_u16 c2)) (fun _ => f))) w) = o ++ fst (f w')
  | Some k => if 4 <=? k then exists w', Base.room w' = Some (k - 4) /\ fst (after o (says_bind (hush (ser_u16 c1)) (fun _ => says_bind (hush (ser_u16 c2)) (fun _ => f))) w) = o ++ fst (f w')
              else fst (after o (says_bind (hush (ser_u16 c1)) (fun _ => says_bind (hush (ser_u16 c2)) (fun _ => f))) w) = o
  end.
Proof.
  intros H1 H2.
  assert (EM : emits (io_bind (ser_u16 c1) (fun _ => ser_u16 c2)) (le16 c1 ++ le16 c2) (Ok tt)).
  { eapply emits_bind; unfold ser_u16; rewrite le16_eq by assumption; apply emits_write. }
  assert (EW : fst (after o (says_bind (hush (ser_u16 c1)) (fun _ => says_bind (hush (ser_u16 c2)) (fun _ => f))) w)
    = o ++ match io_bind (ser_u16 c1) (fun _ => ser_u16 c2) w with (Ok _, w') => fst (f w') | _ => [] end).
  { unfold after, says_bind, hush, io_bind. destruct (ser_u16 c1 w) as [[[]| |] w1]; cbn; try reflexivity.
    destruct (ser_u16 c2 w1) as [[[]| |] w2]; cbn; try reflexivity. destruct (f w2) as [o2 r2]. reflexivity. }
  rewrite EW, (EM w). clear EW. pose proof (put_room (le16 c1 ++ le16 c2) w) as HP. change (length (le16 c1 ++ le16 c2)) with 4 in HP.
  destruct (put (le16 c1 ++ le16 c2) (Ok tt) w) as [[[]| |] w'].
  - destruct (Base.room w) as [k|]; [|exists w'; auto]. destruct HP as [HP E]. destruct (Nat.leb_spec 4 k); [|lia]. exists w'. auto.
  - destruct HP as (k & -> & HP). destruct (Nat.leb_spec 4 k); [lia|]. apply app_nil_r.
  - destruct HP.
Qed.

Section Enc.
  Context {T : Type} (next : nextf T N).
  Lemma pair_lines (z : dict_enc T) d rest fuel o z' c : enc_ok next z d rest -> (length rest < fuel)%nat -> node_snug (de_trie z) -> lines_are z c ->
    next_pair next fuel z = Ok (o, z') ->
    exists c', fst (next_pair_says next fuel z) = repeat Converting c' /\ lines_are z' (c + c') /\ (o = None -> c' = 0).
  Proof.
    intros Hz Hf Hs L E. unfold next_pair, next_pair_says in *. rewrite tell_quiet.
    destruct (@find_symbol_spec _ next z d rest fuel Hz Hf) as [[-> [z1 [E1 H1]]]|[c1 [s1 [r1 [z1 [-> [N1 [L1 [E1 H1]]]]]]]]];
      rewrite E1 in *; cbn [res_bind] in E; pose proof (find_keeps next _ _ _ _ _ E1) as K1.
    - destruct (input_over_spec H1) as [i [Ei _]].
      rewrite tell_quiet. cbn [is_nil assert_ res_bind] in *. rewrite tell_quiet. rewrite Ei in *. cbn in E |- *. injection E as <- <-. exists 0. split; [reflexivity|]. split; [|reflexivity].
      rewrite Nat.add_0_r. unfold lines_are. cbn [de_trie]. rewrite K1. exact L.
    - rewrite app_length in Hf.
      assert (HN : (0 <? length s1)%nat = true) by (destruct s1; [congruence|reflexivity]).
      rewrite tell_quiet. rewrite HN in *. cbn [assert_ res_bind] in E |- *. rewrite tell_quiet.
      destruct (@find_symbol_spec _ next z1 d r1 fuel H1) as [[-> [z2 [E2 H2]]]|[c2 [s2 [r2 [z2 [-> [N2 [L2 [E2 H2]]]]]]]]];
        [lia| |]; rewrite E2 in *; cbn [res_bind] in E; pose proof (find_keeps next _ _ _ _ _ E2) as K2.
      + destruct (input_over_spec H2) as [i [Ei G]].
        rewrite tell_quiet. cbn [is_nil assert_ res_bind] in *. rewrite tell_quiet. rewrite Ei in *. cbn in E |- *. injection E as <- <-. exists 0. split; [reflexivity|]. split; [|reflexivity].
        rewrite Nat.add_0_r. unfold lines_are. cbn [de_trie]. rewrite K2, K1. exact L.
      + assert (HN2 : (0 <? length s2)%nat = true) by (destruct s2; [congruence|reflexivity]).
        rewrite tell_quiet. rewrite HN2 in *. cbn [assert_ res_bind] in E |- *.
        destruct (create_symbol z2 (s1 ++ s2)) as [z3| |] eqn:E3; cbn in E; try discriminate.
        injection E as <- <-. pose proof (eo_u8 Hz) as H8. pose proof (eo_u8 H1) as H81.
        apply Forall_app in H8. apply Forall_app in H81.
        destruct (create_lines z2 z3 (s1 ++ s2) c) as (c' & A & B); try exact E3.
        * rewrite K2, K1. apply (Hs [] (de_trie z)). reflexivity.
        * split; [destruct s1; [congruence|discriminate]|]. apply Forall_app. tauto.
        * unfold lines_are. rewrite K2, K1. exact L.
        * exists c'. rewrite <- erase_create in E3. destruct (create_says z2 (s1 ++ s2)) as [o r]. cbn [fst snd] in *. subst o r. cbn. rewrite app_nil_r.
          split; [reflexivity|]. split; [exact B|discriminate].
  Qed.

  Definition output_is (o : list dict_line) (room : option nat) d c syms : Prop :=
    exists d' k, learnt d (looked_for room syms) d' /\ crowded d' (c + k)
    /\ if fits room (2 * length syms) then exists st, figures d' st /\ o = repeat Converting k ++ [TrieStats st] else o = repeat Converting k.
  Lemma fits_step room k : fits room (2 * S (S k)) = match room with None => true | Some n => (4 <=? n) && fits (Some (n - 4)) (2 * k) end.
  Proof. destruct room as [n|]; [|reflexivity]. unfold fits. lia. Qed.
  (** one pair, then [f] *)
  Lemma pair_output c1 c2 (f : says dict_line writer unit) d1 d c k syms : u16_ok c1 -> u16_ok c2 ->
    (forall s d', learnt d1 s d' -> (s = [] \/ exists room, s = looked_for room syms) -> learnt d (c1 :: c2 :: s) d') -> crowded d1 (c + k) ->
    (forall w, output_is (fst (f w)) (Base.room w) d1 (c + k) syms) ->
    forall w, output_is (fst (after (repeat Converting k) (says_bind (hush (ser_u16 c1)) (fun _ => says_bind (hush (ser_u16 c2)) (fun _ => f))) w)) (Base.room w) d c (c1 :: c2 :: syms).
  Proof.
    intros H1 H2 HL HC Hf w. unfold output_is. rewrite looked_step. cbn [length]. rewrite fits_step.
    pose proof (words_fst (repeat Converting k) c1 c2 f w H1 H2) as HW.
    destruct (Base.room w) as [n|].
    - destruct (4 <=? n).
      + destruct HW as (w' & E & ->). destruct (Hf w') as (d' & k' & A & B & C). rewrite E in *. cbn [andb].
        exists d', (k + k'). split; [apply HL; [exact A|right; eauto]|]. split; [now rewrite Nat.add_assoc|].
        destruct (fits (Some (n - 4)) (2 * length syms)).
        * destruct C as (st & C1 & ->). exists st. split; [exact C1|]. now rewrite app_assoc, repeat_app.
        * now rewrite C, repeat_app.
      + exists d1, k. split; [apply HL; [constructor|now left]|]. split; [exact HC|]. exact HW.
    - destruct HW as (w' & E & ->). destruct (Hf w') as (d' & k' & A & B & C). rewrite E in *.
      exists d', (k + k'). split; [apply HL; [exact A|right; exists None; reflexivity]|]. split; [now rewrite Nat.add_assoc|].
      cbn [fits] in C. destruct C as (st & C1 & ->). exists st. split; [exact C1|]. now rewrite app_assoc, repeat_app.
  Qed.

  Lemma says_loop_spec fuel pairs : forall (z : dict_enc T) d rest c, enc_ok next z d rest -> node_snug (de_trie z) -> lines_are z c ->
    (length rest < fuel)%nat -> (length rest < pairs)%nat ->
    exists syms, greedy d rest syms /\ forall nodes w, weight d + length rest + 1 < nodes ->
      output_is (fst (encode_loop_says next nodes fuel pairs z w)) (Base.room w) d c syms
      /\ snd (encode_loop_says next nodes fuel pairs z w) = dict_encode_loop next fuel pairs z w.
  Proof.
    induction pairs as [|pairs IH]; intros z d rest c Hz Hs HL Hf Hp; [lia|].
    cbn [encode_loop_says dict_encode_loop].
    destruct (next_pair_spec Hz Hf) as [[-> [z' E]]|[[c0 [z' [E [Hn [Hlg Hz']]]]]|
      [c1 [s1 [c2 [s2 [r [z' [E [Er [L1 [N1 [L2 [N2 [Hnin Hz']]]]]]]]]]]]]]];
      destruct (pair_snug next _ _ _ _ _ _ Hz Hf Hs E) as [Hs' Hk]; destruct (pair_lines _ _ _ _ _ _ _ Hz Hf Hs HL E) as (k & K1 & K2 & K3);
      rewrite E; rewrite <- erase_pair in E; destruct (next_pair_says next fuel z) as [o r0]; cbn [fst snd] in K1, E; subst o r0.
    - rewrite Hk by reflexivity. rewrite K3 by reflexivity. pose proof (rep_holds _ _ (eo_trie Hz) (eo_dict Hz) Hs) as Hh.
      destruct (trie_figures_in (de_trie z) d Hh) as [st [Hst Hneed]].
      exists []. split; [constructor|]. intros nodes w Hnodes. pose proof (figures_weight _ _ Hst) as Hw. rewrite (Hneed nodes) by lia. split; [|reflexivity].
      exists d, 0. rewrite looked_nil. split; [constructor|]. split; [rewrite Nat.add_0_r; now apply (lines_crowded z)|].
      replace (fits (Base.room w) (2 * length (@nil N))) with true by (destruct (Base.room w); reflexivity).
      exists st. split; [exact Hst|reflexivity].
    - assert (0 < length rest)%nat by (destruct rest; [congruence|cbn; lia]).
      destruct (IH z' d [] (c + k) Hz' Hs' K2) as (syms & Hg & Ho); [cbn; lia|cbn; lia|].
      assert (Es : syms = []).
      { inversion Hg as [|? ? ? _ Hne|? ? s1 ? s2 ? ? _ Hne _ _ _ _ EE]; subst; [reflexivity|congruence|].
        destruct s1; [congruence|discriminate]. }
      subst syms. exists [c0; 65535%N]. split; [now constructor|]. intros nodes w Hnodes0. assert (Hnodes : weight d + length (@nil N) + 1 < nodes) by (cbn [length]; lia).
      pose proof (longest_u16 (eo_dict Hz) Hlg) as U1.
      assert (Hh' : crowded d (c + k)).
      { apply (lines_crowded z'); [|exact K2]. exact (rep_holds _ _ (eo_trie Hz') (eo_dict Hz') Hs'). }
      split.
      + apply pair_output with (d1 := d); [unfold u16_ok; lia|unfold u16_ok, ZIP_SPECIAL_EOF; lia| |exact Hh'|intros w'; apply Ho; exact Hnodes].
        intros s d' Hl Hr. assert (s = []) by (destruct Hr as [->|[room ->]]; [reflexivity|apply looked_nil]). subst s. inversion Hl; subst. constructor.
      + unfold after, says_bind, hush, io_bind. destruct (ser_u16 c0 w) as [[[]| |] w1]; try reflexivity.
        change ZIP_SPECIAL_EOF with 65535%N. destruct (ser_u16 65535%N w1) as [[[]| |] w2]; try reflexivity.
        pose proof (proj2 (Ho nodes w2 Hnodes)) as G. destruct (encode_loop_says next nodes fuel pairs z' w2) as [o2 r2]. exact G.
    - subst rest. rewrite !app_length in *.
      assert (0 < length s1)%nat by (destruct s1; [congruence|cbn; lia]).
      destruct (IH z' _ r (c + k) Hz' Hs' K2) as (syms & Hg & Ho); [lia|lia|].
      exists (c1 :: c2 :: syms). split; [now constructor|]. intros nodes w Hnodes0.
      assert (Hnodes : weight (grow d (s1 ++ s2)) + length r + 1 < nodes) by (pose proof (weight_grow d (s1 ++ s2)) as HW; rewrite app_length in HW; lia).
      pose proof (longest_u16 (eo_dict Hz) L1) as U1. pose proof (longest_u16 (eo_dict Hz) L2) as U2.
      assert (Hh' : crowded (grow d (s1 ++ s2)) (c + k)).
      { apply (lines_crowded z'); [|exact K2]. exact (rep_holds _ _ (eo_trie Hz') (eo_dict Hz') Hs'). }
      split.
      + apply pair_output with (d1 := grow d (s1 ++ s2)); [unfold u16_ok; lia|unfold u16_ok; lia| |exact Hh'|intros w'; apply Ho; exact Hnodes].
        intros s d' Hl _. econstructor; [apply L1|apply L2|exact Hl].
      + unfold after, says_bind, hush, io_bind. destruct (ser_u16 c1 w) as [[[]| |] w1]; try reflexivity.
        destruct (ser_u16 c2 w1) as [[[]| |] w2]; try reflexivity.
        pose proof (proj2 (Ho nodes w2 Hnodes)) as G. destruct (encode_loop_says next nodes fuel pairs z' w2) as [o2 r2]. exact G.
  Qed.
End Enc.

(** Success prints at least one [Converting]: the 256 single bytes are crowded at the root. *)
Lemma initial_crowded d c : (exists t, d = initial_dict ++ t) -> crowded d c -> 1 <= c.
Proof.
  intros [t ->] (ps & ks & [NP IP] & [NK IK] & ->).
  assert (H0 : In [] ps) by (apply IP; now left). apply in_split in H0 as (a & b & ->). rewrite map_app, list_sum_app. cbn [map list_sum fold_right].
  assert (HU : 256 <= under [] ks).
  { unfold under. rewrite <- initial_length. apply NoDup_incl_length; [apply initial_nodup|]. intros k Hk.
    apply filter_In. split; [apply IK, in_or_app; now left|]. rewrite initial_eq in Hk. apply in_map_iff in Hk as (x & <- & _). reflexivity. }
  assert (HB : big (under [] ks) = 1) by (unfold big; destruct (Nat.ltb_spec 64 (under [] ks)); lia).
  rewrite HB. lia.
Qed.
Lemma learnt_app d syms d' : learnt d syms d' -> exists t, d' = d ++ t.
Proof.
  induction 1 as [d|d c|d c1 s1 c2 s2 syms d' H1 H2 H [t ->]]; try (exists []; now rewrite app_nil_r).
  unfold grow. destruct (N.of_nat (length d) <? 65535)%N; [|eauto]. rewrite <- app_assoc. eauto.
Qed.

Theorem dict_says : forall T (next : nextf T N) s l fuel, delivers next s l -> Forall u8_ok l -> (length l < fuel)%nat ->
  exists syms, greedy initial_dict l syms /\ forall nodes w, (length l + 1 < nodes)%nat ->
    snd (zip_dict_says next nodes fuel s w) = zip_dict_encode next fuel s w
    /\ exists d c, learnt initial_dict (looked_for (Base.room w) syms) d /\ crowded d c /\ (1 <= c)%nat
       /\ if fits (Base.room w) (2 * length syms)
          then exists st, figures d st /\ fst (zip_dict_says next nodes fuel s w) = repeat Converting c ++ [TrieStats st]
          else fst (zip_dict_says next nodes fuel s w) = repeat Converting c.
Proof.
  intros T next s l fuel Hd H8 Hf. unfold zip_dict_says, zip_dict_encode.
  destruct (dict_enc_new_spec s) as [z [E [Ht [Hk [Hi Ha]]]]]. destruct (new_lines s z E) as (c0 & A & B).
  rewrite E. rewrite <- erase_new in E.
  destruct (says_loop_spec next fuel fuel z initial_dict l c0) as (syms & Hg & Ho); try exact Hf; try exact B.
  - split; try assumption; [apply initial_alphabet|]. rewrite Hi. exists l. auto.
  - rewrite erase_new in E. exact (new_enc_snug s z E).
  - destruct (new_says s) as [o r]. cbn [fst snd] in *. subst o r.
    exists syms. split; [exact Hg|]. intros nodes w Hn. destruct (Ho nodes w Hn) as [(d & k & L & C & O) R]. unfold after.
    destruct (encode_loop_says next nodes fuel fuel z w) as [o2 r2]. cbn [fst snd] in *. split; [exact R|].
    exists d, (c0 + k). split; [exact L|]. split; [exact C|]. split; [exact (initial_crowded d _ (learnt_app _ _ _ L) C)|].
    destruct (fits (Base.room w) (2 * length syms)).
    + destruct O as (st & F & ->). exists st. split; [exact F|]. now rewrite app_assoc, repeat_app.
    + now rewrite O, repeat_app.
Qed.
(** [crowded] is a number *)
Lemma under_perm p l l' : Permutation l l' -> under p l = under p l'.
Proof.
  intros H. unfold under. induction H as [|x l l' _ IH|x y l|l1 l2 l3 _ IH1 _ IH2]; cbn [filter]; try congruence.
  - destruct x; [exact IH|]. destruct (list_eq_dec N.eq_dec (removelast (n :: x)) p); cbn [length]; congruence.
  - destruct x, y; try reflexivity;
    repeat match goal with |- context [if ?b then _ else _] => destruct b end; reflexivity.
Qed.
Lemma crowded_fun keys c c' : crowded keys c -> crowded keys c' -> c = c'.
Proof.
  intros (ps & ks & [NP IP] & [NK IK] & ->) (ps' & ks' & [NP' IP'] & [NK' IK'] & ->).
  assert (P1 : Permutation ps ps') by (apply NoDup_Permutation; [exact NP|exact NP'|]; intros p; rewrite IP, IP'; reflexivity).
  assert (P2 : Permutation ks ks') by (apply NoDup_Permutation; [exact NK|exact NK'|]; intros p; rewrite IK, IK'; reflexivity).
  transitivity (list_sum (map (fun p => big (under p ps') + big (under p ks')) ps)).
  - apply sum_ext. intros p _. now rewrite (under_perm p _ _ P1), (under_perm p _ _ P2).
  - generalize (fun p => big (under p ps') + big (under p ks')). intros g. clear - P1.
    induction P1; cbn [map list_sum fold_right]; unfold list_sum in *; lia.
Qed.
