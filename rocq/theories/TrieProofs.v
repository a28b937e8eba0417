(** * Lemmas about the trie statistics and its destruction (C67). *)
From Verif Require Import Base SerSpec Utils Dict DictSpec DictProofs Float TrieStats TrieSpec.
From Coq Require Import ZifyBool ZifyNat ZifyN Permutation.

(** ** The entries of a content *)
Fixpoint fents {V} (k : nat) (data : list (option V)) : list (N * V) :=
  match data with
  | [] => []
  | o :: r => match o with Some v => [(N.of_nat k, v)] | None => [] end ++ fents (S k) r
  end.
Definition entries {V} (c : content V) : list (N * V) :=
  match c with Partial keys values => combine keys values | Full data => fents 0 data end.

Lemma fents_in {V} (data : list (option V)) : forall k b v,
  In (b, v) (fents k data) <-> exists i, b = N.of_nat (k + i) /\ nth_error data i = Some (Some v).
Proof.
  induction data as [|o r IH]; intros k b v; cbn.
  - split; [tauto|]. intros [[|i] [_ H]]; discriminate.
  - rewrite in_app_iff, IH. split.
    + intros [H|[i [-> H]]].
      * destruct o; [|destruct H]. destruct H as [H|[]]. injection H as <- <-. exists 0%nat.
        split; [f_equal; lia|reflexivity].
      * exists (S i). split; [f_equal; lia|exact H].
    + intros [[|i] [-> H]]; cbn in H.
      * left. injection H as ->. left. f_equal. f_equal. lia.
      * right. exists i. split; [f_equal; lia|exact H].
Qed.
Lemma fents_nodup {V} (data : list (option V)) : forall k, NoDup (map fst (fents k data)).
Proof.
  induction data as [|o r IH]; intros k; cbn; [constructor|].
  destruct o as [v|]; cbn; [|apply IH]. constructor; [|apply IH].
  intros H. apply in_map_iff in H as [[b x] [E H]]. apply fents_in in H as [i [-> _]]. cbn in E. lia.
Qed.
Lemma fents_snd {V} (data : list (option V)) : forall k,
  map snd (fents k data) = flat_map (fun o => match o with Some v => [v] | None => [] end) data.
Proof. induction data as [|o r IH]; intros k; cbn; [reflexivity|]. rewrite map_app, IH. destruct o; reflexivity. Qed.
Lemma combine_nth {A B} (ks : list A) : forall (vs : list B) a b, length ks = length vs ->
  In (a, b) (combine ks vs) <-> exists i, nth_error ks i = Some a /\ nth_error vs i = Some b.
Proof.
  induction ks as [|k ks IH]; intros [|v vs] a b HL; cbn in HL; try discriminate; cbn.
  - split; [tauto|]. intros [[|i] [H _]]; discriminate.
  - injection HL as HL. rewrite (IH vs a b HL). split.
    + intros [H|[i H]]; [injection H as -> ->; exists 0%nat; auto|exists (S i); exact H].
    + intros [[|i] [H1 H2]]; cbn in *; [left; congruence|right; eauto].
Qed.
Lemma combine_maps {A B} (ks : list A) : forall (vs : list B), length ks = length vs ->
  map fst (combine ks vs) = ks /\ map snd (combine ks vs) = vs.
Proof.
  induction ks as [|k ks IH]; intros [|v vs] HL; cbn in HL; try discriminate; cbn; [auto|].
  injection HL as HL. destruct (IH vs HL) as [-> ->]. auto.
Qed.
Lemma entries_spec {V} (c : content V) : content_wf c ->
  NoDup (map fst (entries c)) /\ (forall b v, In (b, v) (entries c) <-> content_get c b = Some v)
  /\ map snd (entries c) = content_items c.
Proof.
  intros [keys values HN HF HL|data HL]; cbn.
  - destruct (combine_maps keys values HL) as [E1 E2]. rewrite E1, E2. split; [exact HN|]. split; [|reflexivity].
    intros b v. rewrite combine_nth by exact HL. split.
    + intros [i [H1 H2]]. rewrite (find_unique _ HN H1). exact H2.
    + destruct (content_find keys b) as [i|] eqn:E; [|discriminate]. intros H. exists i.
      split; [now apply find_some|exact H].
  - split; [apply fents_nodup|]. split; [|apply fents_snd].
    intros b v. rewrite fents_in. split.
    + intros [i [-> H]]. cbn. rewrite Nnat.Nat2N.id, H. reflexivity.
    + intros H. exists (N.to_nat b). split; [cbn; lia|].
      destruct (nth_error data (N.to_nat b)); congruence.
Qed.
Lemma used_items {V} (c : content V) : used_entries c = length (content_items c).
Proof.
  destruct c as [keys values|data]; cbn; [reflexivity|].
  induction data as [|[v|] data IH]; cbn; congruence.
Qed.
Lemma used_len {V} (c : content V) : content_wf c -> used_entries c = length (entries c).
Proof.
  intros H. destruct (entries_spec c H) as [_ [_ E]]. now rewrite used_items, <- E, map_length.
Qed.

(** ** Walking a trie *)
Definition addn {T} (a : stats) (n : node T) : stats :=
  mkStats (st_nodes a + 1)
    (st_used_child a + used_entries (children n)) (st_tot_child a + tot_entries (children n))
    (st_used_value a + used_entries (values n)) (st_tot_value a + tot_entries (values n)).
Definition emptied {T} (n : node T) : node T := fst (handle_children n []).
Definition walk {T} (ns L : list (node T)) : Prop :=
  (forall fuel stack a, stats_loop (length L + fuel) (stack ++ ns) a = stats_loop fuel stack (fold_left addn L a))
  /\ (forall fuel stack, drop_loop (length L + fuel) (stack ++ ns) = option_map (app (map emptied L)) (drop_loop fuel stack)).
Definition all_nodes {T} (n : node T) (L : list (list N * node T)) : Prop :=
  NoDup (map fst L) /\ forall p m, In (p, m) L <-> follow n p = Some m.

Lemma vec_pop_snoc {A} (l : list A) x : vec_pop (l ++ [x]) = Some (x, l).
Proof. unfold vec_pop. rewrite rev_app_distr. cbn. now rewrite rev_involutive. Qed.
Lemma option_map_map {A B C} (f : A -> B) (g : B -> C) o : option_map g (option_map f o) = option_map (fun x => g (f x)) o.
Proof. destruct o; reflexivity. Qed.
Lemma walk_nil {T} : @walk T [] [].
Proof.
  split; intros; cbn; rewrite app_nil_r; [reflexivity|]. now destruct (drop_loop fuel stack).
Qed.
Lemma walk_app {T} (a b La Lb : list (node T)) : walk a La -> walk b Lb -> walk (a ++ b) (Lb ++ La).
Proof.
  intros [A1 A2] [B1 B2]. split; intros; rewrite app_length, app_assoc, <- Nat.add_assoc.
  - rewrite B1, A1, fold_left_app. reflexivity.
  - rewrite B2, A2, option_map_map, map_app. destruct (drop_loop fuel stack); cbn; [now rewrite app_assoc|reflexivity].
Qed.
Lemma walk_node {T} (n : node T) L : walk (content_items (children n)) L -> walk [n] (n :: L).
Proof.
  intros [A1 A2]. split; intros; cbn [length plus].
  - cbn [stats_loop]. rewrite vec_pop_snoc, A1. reflexivity.
  - cbn [drop_loop]. rewrite vec_pop_snoc. cbn [handle_children]. unfold handle_children. rewrite A2, option_map_map. reflexivity.
Qed.

(** the nodes below a list of entries *)
Lemma below {T} (es : list (N * node T)) :
  NoDup (map fst es) ->
  (forall b c, In (b, c) es -> exists L, all_nodes c L /\ walk [c] (map snd L)
     /\ list_sum (map (fun pm => used_entries (children (snd pm))) L) + 1 = length L) ->
  exists L, NoDup (map fst L)
  /\ (forall p m, In (p, m) L <-> exists b c q, In (b, c) es /\ p = b :: q /\ follow c q = Some m)
  /\ walk (map snd es) (map snd L)
  /\ list_sum (map (fun pm => used_entries (children (snd pm))) L) + length es = length L.
Proof.
  induction es as [|[b c] es IH]; intros HN HP.
  - exists []. split; [constructor|]. split; [|split; [apply walk_nil|reflexivity]].
    intros p m. split; [intros []|]. intros [b [c [q [[] _]]]].
  - cbn in HN. apply NoDup_cons_iff in HN as [Hb HN].
    destruct IH as [L1 [N1 [M1 [W1 S1]]]]; [exact HN|intros; apply (HP b0); now right|].
    destruct (HP b c) as [L2 [[N2 M2] [W2 S2]]]; [now left|].
    exists (L1 ++ map (fun pm => (b :: fst pm, snd pm)) L2). split; [|split; [|split]].
    + rewrite map_app, map_map. cbn.
      assert (D : forall p, In p (map fst L1) -> In p (map (fun x => b :: fst x) L2) -> False).
      { intros p H1 H2. apply in_map_iff in H1 as [[p' m] [<- H1]]. apply M1 in H1 as [b' [c' [q [Hin [E _]]]]].
        apply in_map_iff in H2 as [pm [H2 _]]. cbn in *. subst p'. injection H2 as <- _. apply Hb.
        apply in_map_iff. exists (b, c'). auto. }
      rewrite <- map_map with (g := cons b).
      clear - N1 N2 D. rewrite <- map_map with (g := cons b) in D.
      revert N1 D. generalize (map fst L1). intros l N1 D. induction l as [|x l IHl]; cbn.
      * revert N2. generalize (map fst L2). clear. induction l as [|x l IHl]; cbn; constructor; inversion N2; subst.
        -- intros H. apply in_map_iff in H as [y [E H]]. injection E as ->. contradiction.
        -- now apply IHl.
      * inversion N1; subst. constructor; [|apply IHl; [assumption|intros; eapply D; [right|]; eassumption]].
        rewrite in_app_iff. intros [H|H]; [contradiction|]. apply (D x); [now left|exact H].
    + intros p m. rewrite in_app_iff, M1. split.
      * intros [[b' [c' [q [H1 H2]]]]|H].
        -- exists b', c', q. split; [now right|exact H2].
        -- apply in_map_iff in H as [[q m'] [E H]]. cbn in E. injection E as <- <-.
           apply M2 in H. exists b, c, q. split; [now left|auto].
      * intros [b' [c' [q [[H1|H1] [-> H2]]]]].
        -- injection H1 as <- <-. right. apply in_map_iff. exists (q, m). split; [reflexivity|now apply M2].
        -- left. eauto 8.
    + rewrite map_app, map_map. cbn [map]. change (snd (b, c) :: map snd es) with ([c] ++ map snd es).
      apply walk_app; assumption.
    + rewrite map_app, map_map, list_sum_app, !app_length, !map_length. cbn [snd length]. lia.
Qed.
Lemma tree {T} (n : node T) : node_wf n ->
  exists L, all_nodes n (([], n) :: L) /\ walk [n] (n :: map snd L)
  /\ walk (content_items (children n)) (map snd L)
  /\ list_sum (map (fun pm => used_entries (children (snd pm))) (([], n) :: L)) = length L.
Proof.
  induction 1 as [n Hc Hv _ IH].
  destruct (entries_spec _ Hc) as [E1 [E2 E3]].
  destruct (below (entries (children n)) E1) as [L [N1 [M1 [W1 S1]]]].
  { intros b c H. apply E2 in H. destruct (IH b c H) as [L [A [W [_ S]]]].
    exists (([], c) :: L). split; [exact A|]. split; [exact W|]. rewrite S. cbn. lia. }
  rewrite E3 in W1. exists L. split; [|split; [now apply walk_node|split; [exact W1|]]].
  - split.
    + cbn. constructor; [|exact N1]. intros H. apply in_map_iff in H as [[p m] [E H]]. cbn in E. subst p.
      apply M1 in H as [b [c [q [_ [H _]]]]]. discriminate.
    + intros p m. cbn [In]. rewrite M1. split.
      * intros [H|[b [c [q [H1 [-> H2]]]]]]; [injection H as <- <-; reflexivity|].
        apply E2 in H1. cbn. unfold child. rewrite H1. exact H2.
      * destruct p as [|b p]; cbn; [intros [= <-]; now left|]. unfold child.
        destruct (content_get (children n) b) as [c|] eqn:E; [|discriminate]. intros H. right.
        exists b, c, p. split; [now apply E2|auto].
  - cbn [map list_sum fold_right snd]. rewrite (used_len _ Hc). unfold list_sum in *. lia.
Qed.

Lemma fold_addn {T} (L : list (node T)) : forall a, fold_left addn L a =
  mkStats (st_nodes a + length L)
    (st_used_child a + list_sum (map (fun m => used_entries (children m)) L))
    (st_tot_child a + list_sum (map (fun m => tot_entries (children m)) L))
    (st_used_value a + list_sum (map (fun m => used_entries (values m)) L))
    (st_tot_value a + list_sum (map (fun m => tot_entries (values m)) L)).
Proof.
  induction L as [|n L IH]; intros a; cbn [fold_left].
  - destruct a. cbn. f_equal; lia.
  - rewrite IH. unfold addn. cbn [st_nodes st_used_child st_tot_child st_used_value st_tot_value map length list_sum fold_right].
    unfold list_sum. f_equal; lia.
Qed.

(** ** How full the contents are *)
Definition snug {V} (c : content V) : Prop :=
  match c with Partial keys _ => length keys <= 64 | Full _ => 65 <= used_entries c end.
Lemma tot_room {V} (c : content V) : content_wf c -> snug c -> tot_entries c = room (used_entries c).
Proof.
  intros [keys values HN HF HL|data HL]; unfold room; cbn [snug]; intros H; cbn [tot_entries].
  - cbn [used_entries]. destruct (Nat.leb_spec (length values) 64); lia.
  - destruct (Nat.leb_spec (used_entries (Full data)) 64); lia.
Qed.
Lemma used_incl {V} (c c' : content V) bs : content_wf c -> content_wf c' ->
  NoDup bs -> (forall b, In b bs -> content_get c b = None /\ content_get c' b <> None) ->
  (forall b, content_get c b <> None -> content_get c' b <> None) ->
  used_entries c + length bs <= used_entries c'.
Proof.
  intros H H' Hbs Hnew Hinc. rewrite !used_len by assumption.
  destruct (entries_spec c H) as [N1 [M1 _]], (entries_spec c' H') as [N2 [M2 _]].
  rewrite <- (map_length fst (entries c)), <- (map_length fst (entries c')), <- app_length.
  apply NoDup_incl_length.
  - revert Hbs Hnew. revert N1 M1. clear. intros N1 M1 Hbs Hnew.
    apply (Permutation_NoDup (Permutation_app_comm bs _)).
    induction Hbs as [|b bs Hb Hbs IH]; cbn; [exact N1|]. constructor; [|apply IH; intros; apply Hnew; now right].
    rewrite in_app_iff. intros [Hi|Hi]; [contradiction|].
    apply in_map_iff in Hi as [[b' v] [E Hi]]. cbn in E. subst b'. apply M1 in Hi.
    destruct (Hnew b) as [G _]; [now left|]. congruence.
  - intros b Hi. assert (G : content_get c' b <> None).
    { apply in_app_or in Hi as [Hi|Hi]; [|now apply Hnew].
      apply in_map_iff in Hi as [[b' v] [E Hi]]. cbn in E. subst b'. apply M1 in Hi. apply Hinc. congruence. }
    destruct (content_get c' b) as [v|] eqn:E; [|congruence]. apply M2 in E.
    apply in_map_iff. exists (b, v). auto.
Qed.
Lemma upsert_snug {V} (c : content V) b v o c' : content_wf c -> snug c -> u8_ok b ->
  content_upsert c b v = (o, c') -> snug c'.
Proof.
  intros Hw Hs Hb E. destruct (upsert_spec v Hw Hb) as [c2 [E2 [Hw' Hg]]].
  rewrite E in E2. injection E2 as -> <-.
  destruct Hw as [keys vals HN HF HL|data HL].
  - unfold content_upsert in E. destruct (content_find keys b) as [i|] eqn:Ef.
    + destruct (nth_error vals i); injection E as _ <-; exact Hs.
    + destruct (Nat.ltb_spec (length keys) THRESHOLD) as [Ht|Ht].
      * injection E as _ <-. cbn [snug]. rewrite app_length. cbn. unfold THRESHOLD in Ht. lia.
      * cbn [full_upsert] in E. unfold full_upsert in E. injection E as _ <-. cbn [snug].
        unfold THRESHOLD in Ht.
        assert (used_entries (Partial keys vals) + length [b] <=
                used_entries (Full (set_nth (to_full keys vals) (N.to_nat b) (Some v)))).
        { apply used_incl; [now constructor|exact Hw'|constructor; [intros []|constructor]| |].
          - intros b' [<-|[]]. split; [cbn; now rewrite Ef|]. rewrite Hg, N.eqb_refl. discriminate.
          - intros b' H. rewrite Hg. destruct (b' =? b)%N; [discriminate|exact H]. }
        cbn [used_entries length] in H. cbn [used_entries]. lia.
  - apply (f_equal snd) in E. cbn in E. subst c'. cbn [snug] in *.
    assert (used_entries (Full data) + length (@nil N) <= used_entries (Full (set_nth data (N.to_nat b) (Some v)))).
    { apply used_incl; [now constructor|exact Hw'|constructor|intros ? []|].
      intros b' H. rewrite Hg. destruct (b' =? b)%N; [discriminate|exact H]. }
    cbn [length] in H. lia.
Qed.
Lemma set_snug {V} (c : content V) b v : content_wf c -> snug c -> u8_ok b -> content_get c b <> None ->
  snug (content_set c b v).
Proof.
  intros Hw Hs Hb Hget. destruct (set_spec v Hw Hb Hget) as [Hw' Hg].
  destruct Hw as [keys vals HN HF HL|data HL].
  - cbn. destruct (content_find keys b); exact Hs.
  - cbn [content_set snug] in *.
    assert (used_entries (Full data) + length (@nil N) <= used_entries (Full (set_nth data (N.to_nat b) (Some v)))).
    { apply used_incl; [now constructor|exact Hw'|constructor|intros ? []|].
      intros b' H. change (content_set (Full data) b v) with (Full (set_nth data (N.to_nat b) (Some v))) in Hg.
      rewrite Hg. destruct (b' =? b)%N; [discriminate|exact H]. }
    cbn [length] in H. lia.
Qed.
Definition node_snug {T} (n : node T) : Prop :=
  forall p m, follow n p = Some m -> node_wf m /\ snug (children m) /\ snug (values m).
Lemma node_snug_iff {T} (n : node T) : node_snug n <->
  (node_wf n /\ snug (children n) /\ snug (values n)) /\ forall b c, child n b = Some c -> node_snug c.
Proof.
  split.
  - intros H. split; [apply (H [] n); reflexivity|]. intros b c Hc p m Hf. apply (H (b :: p)). cbn. now rewrite Hc.
  - intros [H1 H2] [|b p] m Hf; cbn in Hf; [injection Hf as <-; exact H1|].
    destruct (child n b) as [c|] eqn:E; [|discriminate]. now apply (H2 b c E p).
Qed.
Lemma new_snug {T} : node_snug (@node_new T).
Proof.
  apply node_snug_iff. split; [|discriminate]. split; [apply node_new_wf|]. cbn. lia.
Qed.
Lemma insert_snug {T} k : forall (n : node T) v prev n', node_snug n -> byte_key k ->
  trie_insert n k v = Ok (prev, n') -> node_snug n'.
Proof.
  induction k as [|b k IH]; intros n v prev n' Hn Hk E; [destruct Hk; congruence|].
  apply node_snug_iff in Hn as [[Hw [Sc Sv]] Hrec].
  destruct (insert_spec v Hw Hk) as [n2 [E2 [Hw' _]]]. rewrite E in E2. injection E2 as -> <-.
  destruct Hk as [_ HF]. inversion HF as [|? ? Hb HF']; subst.
  pose proof Hw as [Hch Hvals _].
  destruct k as [|b2 k].
  - cbn [trie_insert] in E. destruct (content_upsert (values n) b v) as [[pr| |] vals] eqn:Eu; try discriminate.
    injection E as _ <-. apply node_snug_iff. cbn [children values]. split; [|exact Hrec].
    split; [exact Hw'|]. split; [exact Sc|]. eapply upsert_snug; [| | |exact Eu]; assumption.
  - remember (b2 :: k) as kk eqn:Ekk.
    assert (Hkk : byte_key kk) by (split; [subst; discriminate|exact HF']).
    rewrite trie_insert_cons in E by apply Hkk.
    assert (G : exists n1 c, match child n b with
                | Some _ => Ok n
                | None => match content_upsert (children n) b node_new with
                          | (Ok None, ch) => Ok (Node ch (values n))
                          | (_, _) => Panic
                          end
                end = Ok n1 /\ values n1 = values n /\ content_wf (children n1) /\ snug (children n1)
                /\ child n1 b = Some c /\ node_snug c
                /\ (forall b', b' <> b -> child n1 b' = child n b')).
    { destruct (child n b) as [c|] eqn:Ec.
      - exists n, c. split; [reflexivity|]. split; [reflexivity|]. split; [exact Hch|]. split; [exact Sc|].
        split; [exact Ec|]. split; [now apply (Hrec b)|auto].
      - destruct (@upsert_spec _ (children n) b node_new Hch Hb) as [ch [Eu [Hw1 Hg]]].
        unfold child in Ec. rewrite Eu, Ec. exists (Node ch (values n)), node_new.
        split; [reflexivity|]. split; [reflexivity|]. split; [exact Hw1|].
        split; [eapply upsert_snug; [| | |exact Eu]; assumption|].
        split; [unfold child; cbn [children]; rewrite Hg, N.eqb_refl; reflexivity|].
        split; [apply new_snug|].
        intros b' Hne. unfold child. cbn [children]. rewrite Hg. destruct (N.eqb_spec b' b); [congruence|reflexivity]. }
    destruct G as [n1 [c [E1 [Hv1 [Hch1 [Sc1 [Hc [Hcs Hoth]]]]]]]].
    rewrite E1 in E. cbn [res_bind] in E. rewrite Hc in E.
    destruct (trie_insert c kk v) as [[pr c']| |] eqn:Ei; cbn [res_bind] in E; try discriminate.
    injection E as _ <-. pose proof (IH c v pr c' Hcs Hkk Ei) as Hc'.
    assert (Hget : content_get (children n1) b <> None) by (unfold child in Hc; congruence).
    destruct (set_spec c' Hch1 Hb Hget) as [_ Hg2].
    apply node_snug_iff. cbn [children values]. split.
    + split; [exact Hw'|]. split; [now apply set_snug|rewrite Hv1; exact Sv].
    + intros b' c2 H. unfold child in H. cbn [children] in H. rewrite Hg2 in H.
      destruct (N.eqb_spec b' b) as [->|Hne]; [injection H as <-; exact Hc'|].
      change (child n1 b' = Some c2) in H. rewrite Hoth in H by exact Hne. eauto.
Qed.
Lemma insert_all_snug {T} hist : forall (n : node T) prevs n', node_snug n ->
  Forall (fun kv => byte_key (fst kv)) hist -> insert_all n hist = Ok (prevs, n') -> node_snug n'.
Proof.
  induction hist as [|[k v] hist IH]; intros n prevs n' Hn HF E; cbn in E; [injection E as _ <-; exact Hn|].
  inversion HF; subst. destruct (trie_insert n k v) as [[pr n1]| |] eqn:E1; cbn in E; try discriminate.
  destruct (insert_all n1 hist) as [[prs n2]| |] eqn:E2; cbn in E; try discriminate. injection E as _ <-.
  eapply IH; [|eassumption|exact E2]. eapply insert_snug; eassumption.
Qed.

(** ** The figures *)
Lemma under_used {V} p l (c : content V) : NoDup l -> content_wf c ->
  (forall b, In (p ++ [b]) l <-> content_get c b <> None) -> under p l = used_entries c.
Proof.
  intros Hl Hc H. rewrite (used_len _ Hc). destruct (entries_spec c Hc) as [N1 [M1 _]].
  rewrite <- (map_length (fun e => p ++ [fst e]) (entries c)). unfold under. apply Permutation_length, NoDup_Permutation.
  - now apply NoDup_filter.
  - rewrite <- map_map with (g := fun b => p ++ [b]). apply FinFun.Injective_map_NoDup; [|exact N1].
    intros x y E. apply app_inj_tail in E. apply E.
  - intros k. rewrite filter_In, in_map_iff. split.
    + intros [Hk E]. destruct k as [|x k]; [discriminate|]. remember (x :: k) as kk.
      assert (Hne : kk <> []) by (subst; discriminate).
      destruct (list_eq_dec N.eq_dec (removelast kk) p) as [Ep|]; [|discriminate].
      rewrite (app_removelast_last 0%N Hne), Ep in Hk |- *.
      apply H in Hk. destruct (content_get c (last kk 0%N)) as [v|] eqn:Eg; [|congruence].
      exists (last kk 0%N, v). split; [reflexivity|now apply M1].
    + intros [[b v] [<- Hi]]. apply M1 in Hi. cbn [fst]. split; [apply H; congruence|].
      destruct (p ++ [b]) as [|x k] eqn:E; [now destruct p|]. rewrite <- E, removelast_last.
      destruct (list_eq_dec N.eq_dec p p); congruence.
Qed.
Lemma nodup_app {A} (l1 l2 : list A) : NoDup l1 -> NoDup l2 -> (forall x, In x l1 -> In x l2 -> False) -> NoDup (l1 ++ l2).
Proof.
  intros H1 H2 HD. induction H1 as [|x l Hx H1 IH]; cbn; [exact H2|]. constructor.
  - rewrite in_app_iff. intros [H|H]; [contradiction|]. apply (HD x); [now left|exact H].
  - apply IH. intros y Hy. apply HD. now right.
Qed.
Lemma nodup_flat {A B} (f : A -> list B) (key : A -> list N) (kb : B -> list N) l :
  NoDup (map key l) -> (forall a, In a l -> NoDup (f a)) -> (forall a b, In a l -> In b (f a) -> kb b = key a) ->
  NoDup (flat_map f l).
Proof.
  induction l as [|a l IH]; intros HN HF HK; cbn; [constructor|]. cbn in HN. apply NoDup_cons_iff in HN as [Ha HN].
  apply nodup_app.
  - apply HF. now left.
  - apply IH; [exact HN|intros; apply HF; now right|intros; apply HK; [now right|assumption]].
  - intros b H1 H2. apply in_flat_map in H2 as [a' [Hi H2]]. apply Ha.
    rewrite <- (HK a b), (HK a' b); try assumption; [|now right|now left]. now apply in_map.
Qed.
Lemma latest_in {T} (h : list (list N * T)) k : latest h k <> None <-> exists v, In (k, v) h.
Proof.
  induction h as [|[k' v] h IH]; cbn.
  - split; [congruence|]. intros [v []].
  - destruct (latest h k) as [x|].
    + split; [|congruence]. intros _. destruct IH as [IH _]. destruct IH as [w H]; [congruence|]. exists w. now right.
    + destruct (list_eq_dec N.eq_dec k k') as [->|Hne].
      * split; [|congruence]. intros _. exists v. now left.
      * split; [congruence|]. intros [w [H|H]]; [congruence|]. apply IH. eauto.
Qed.
Lemma sum_ext {A} (f g : A -> nat) l : (forall a, In a l -> f a = g a) -> list_sum (map f l) = list_sum (map g l).
Proof. intros H. f_equal. now apply map_ext_in. Qed.
Lemma len_flat {A B} (f : A -> list B) l : length (flat_map f l) = list_sum (map (fun a => length (f a)) l).
Proof. induction l as [|a l IH]; [reflexivity|]. cbn. rewrite app_length, IH. reflexivity. Qed.

Definition holds_keys {T} (n : node T) (keys : list (list N)) : Prop :=
  node_snug n /\ Forall byte_key keys /\ (forall k, tget n k <> None <-> In k keys)
  /\ (forall p, follow n p <> None <-> p = [] \/ exists k, In k keys /\ strict_prefix p k).
Lemma trie_facts {T} (hist : list (list N * T)) prevs n : Forall (fun kv => byte_key (fst kv)) hist ->
  insert_all node_new hist = Ok (prevs, n) -> holds_keys n (map fst hist).
Proof.
  intros HF E. assert (Hs : node_snug n) by (eapply insert_all_snug; [apply new_snug|exact HF|exact E]).
  destruct (@insert_all_spec T hist node_new [] node_new_wf HF) as [pr [n' [E' [_ [Hg Hf]]]]].
  - apply tget_new.
  - intros p. rewrite follow_new. split; [auto|]. intros [H|[k [v [[] _]]]]. exact H.
  - rewrite E in E'. injection E' as <- <-. split; [exact Hs|]. split; [now apply Forall_map|].
    split.
    + intros k. rewrite Hg. cbn [app]. rewrite latest_in, in_map_iff. split.
      * intros [v H]. exists (k, v). auto.
      * intros [[k' v] [Ek H]]. cbn in Ek. subst k'. eauto.
    + intros p. rewrite Hf. cbn [app]. split; (intros [->|H]; [now left|right]).
      * destruct H as [k [v [Hi Hp]]]. exists k. split; [apply in_map_iff; exists (k, v); auto|exact Hp].
      * destruct H as [k [Hi Hp]]. apply in_map_iff in Hi as [[k' v] [Ek Hi]]. cbn in Ek. subst k'. eauto.
Qed.

Lemma trie_figures_in {T} (n : node T) keys : holds_keys n keys ->
  exists st, figures keys st /\ forall fuel, (st_nodes st < fuel)%nat -> trie_stats fuel n = Some st.
Proof.
  intros (Hs & HF & Hv & Hf).
  assert (Hw : node_wf n) by (apply (Hs [] n); reflexivity).
  destruct (tree n Hw) as [L0 [[N1 M1] [[W _] [_ S1]]]]. set (L := ([], n) :: L0) in *.
  set (ps := map fst L).
  set (ks := flat_map (fun pm => map (fun e => fst pm ++ [fst e]) (entries (values (snd pm)))) L).
  assert (Hps : forall p, In p ps <-> follow n p <> None).
  { intros p. unfold ps. rewrite in_map_iff. split.
    - intros [[p' m] [Ep H]]. cbn in Ep. subst p'. apply M1 in H. congruence.
    - destruct (follow n p) as [m|] eqn:Em; [|congruence]. intros _. exists (p, m). split; [reflexivity|now apply M1]. }
  assert (Hks : forall p m b, follow n p = Some m -> In (p ++ [b]) ks <-> value_of m b <> None).
  { intros p m b Hm. unfold ks. rewrite in_flat_map. split.
    - intros [[p' m'] [Hi H]]. apply in_map_iff in H as [[b' v] [Eb H]]. cbn [fst snd] in *.
      apply app_inj_tail in Eb as [-> ->]. apply M1 in Hi. rewrite Hm in Hi. injection Hi as <-.
      destruct (Hs p m Hm) as [[_ Hwv _] _]. destruct (entries_spec _ Hwv) as [_ [M2 _]]. apply M2 in H.
      unfold value_of. congruence.
    - intros H. exists (p, m). split; [now apply M1|]. apply in_map_iff.
      destruct (Hs p m Hm) as [[_ Hwv _] _]. destruct (entries_spec _ Hwv) as [_ [M2 _]].
      unfold value_of in H. destruct (content_get (values m) b) as [v|] eqn:Eg; [|congruence].
      exists (b, v). split; [reflexivity|now apply M2]. }
  assert (Nks : NoDup ks).
  { unfold ks. apply nodup_flat with (key := fst) (kb := @removelast N); [exact N1| |].
    - intros [p m] Hi. apply M1 in Hi. destruct (Hs p m Hi) as [[_ Hwv _] _].
      destruct (entries_spec _ Hwv) as [N2 _]. cbn [fst snd]. rewrite <- map_map with (g := fun b => p ++ [b]).
      apply FinFun.Injective_map_NoDup; [|exact N2]. intros x y Ex. apply app_inj_tail in Ex. apply Ex.
    - intros [p m] k _ Hk. apply in_map_iff in Hk as [e [<- _]]. apply removelast_last. }
  eexists. split; [exists ps, ks; split; [|split; [|reflexivity]]|].
  - split; [exact N1|]. intros p. rewrite Hps. apply Hf.
  - split; [exact Nks|]. intros k. rewrite <- Hv. split.
    + intros Hk. pose proof Hk as Hk'. unfold ks in Hk'. apply in_flat_map in Hk' as [[p m] [Hi H]].
      apply in_map_iff in H as [[b v] [<- H]]. cbn [fst snd] in *. apply M1 in Hi.
      rewrite tget_follow, Hi. now apply (Hks p m b Hi).
    + intros Hk. assert (Hkey : byte_key k) by (rewrite Forall_forall in HF; apply HF; now apply Hv).
      assert (Ek : k = removelast k ++ [last k 0%N]) by (apply app_removelast_last, Hkey).
      rewrite Ek, tget_follow in Hk. destruct (follow n (removelast k)) as [m|] eqn:Em; [|congruence].
      rewrite Ek. now apply (Hks _ m _ Em).
  - intros fuel Hfuel. cbn [st_nodes] in Hfuel. unfold ps in Hfuel. rewrite map_length in Hfuel.
    unfold trie_stats. replace fuel with (length (n :: map snd L0) + S (fuel - length L - 1))%nat
      by (cbn [length]; rewrite map_length; cbn [length] in Hfuel |- *; unfold L in *; cbn [length] in *; lia).
    change [n] with ([] ++ [n]). rewrite W. cbn [stats_loop]. change (vec_pop (@nil (node T))) with (@None (node T * list (node T))).
    cbn iota. f_equal. change (n :: map snd L0) with (map snd L). rewrite fold_addn.
    cbn [st_nodes st_used_child st_tot_child st_used_value st_tot_value plus]. rewrite !map_map.
    unfold ps. rewrite !map_length, !map_map. fold ps.
    f_equal.
    + rewrite S1. unfold L. cbn [length]. lia.
    + apply sum_ext. intros [p m] Hi. cbn [fst snd]. apply M1 in Hi.
      destruct (Hs p m Hi) as [[Hwc _ _] [Sc _]]. rewrite (tot_room _ Hwc Sc). f_equal. symmetry.
      apply under_used; [exact N1|exact Hwc|]. intros b. rewrite Hps, follow_app, Hi. cbn. unfold child.
      destruct (content_get (children m) b); split; congruence.
    + unfold ks. rewrite len_flat. apply sum_ext. intros [p m] Hi. cbn [fst snd]. apply M1 in Hi.
      destruct (Hs p m Hi) as [[_ Hwv _] _]. now rewrite map_length, used_len.
    + apply sum_ext. intros [p m] Hi. cbn [fst snd]. apply M1 in Hi.
      destruct (Hs p m Hi) as [[_ Hwv _] [_ Sv]]. rewrite (tot_room _ Hwv Sv). f_equal. symmetry.
      apply under_used; [exact Nks|exact Hwv|]. intros b. now apply Hks.
Qed.
Lemma trie_figures {T} (n : node T) keys : holds_keys n keys ->
  exists st, figures keys st /\ exists need, forall fuel, (need <= fuel)%nat -> trie_stats fuel n = Some st.
Proof. intros H. destruct (trie_figures_in n keys H) as (st & F & G). exists st. split; [exact F|]. exists (S (st_nodes st)). exact G. Qed.

(** ** Destruction *)
Lemma emptied_items {T} (n : node T) : content_items (children (emptied n)) = [] /\ values (emptied n) = values n.
Proof.
  destruct n as [[keys vals|data] v]; cbn; split; try reflexivity.
  induction data; cbn; auto.
Qed.
Lemma trie_freed {T} (n : node T) keys : holds_keys n keys ->
  exists ps freed, places keys ps
  /\ Forall2 (fun p m => content_items (children m) = [] /\ exists m0, follow n p = Some m0 /\ values m = values m0) ps freed
  /\ last ps [0%N] = []
  /\ forall fuel, (length ps <= fuel)%nat -> trie_drop fuel n = Some freed.
Proof.
  intros (Hs & _ & _ & Hf).
  assert (Hw : node_wf n) by (apply (Hs [] n); reflexivity).
  destruct (tree n Hw) as [L [[N1 M1] [_ [[_ W] _]]]].
  exists (map fst L ++ [[]]), (map emptied (map snd L) ++ [emptied n]). split; [|split; [|split]].
  - split.
    + apply (Permutation_NoDup (Permutation_cons_append _ _)). exact N1.
    + intros p. rewrite <- Hf, in_app_iff. cbn [In]. split.
      * intros [H|[<-|[]]]; [|discriminate]. apply in_map_iff in H as [[p' m] [Ep H]]. cbn in Ep. subst p'.
        rewrite (proj1 (M1 p m)); [discriminate|now right].
      * destruct (follow n p) as [m|] eqn:Em; [|congruence]. intros _. apply M1 in Em as [Em|Em].
        -- injection Em as <- _. right. now left.
        -- left. apply in_map_iff. exists (p, m). auto.
  - apply Forall2_app.
    + assert (G : forall p m, In (p, m) L -> follow n p = Some m) by (intros; apply M1; now right).
      clear - G. induction L as [|[p m] L IH]; cbn; constructor.
      * split; [apply emptied_items|]. exists m. split; [apply G; now left|apply emptied_items].
      * apply IH. intros. apply G. now right.
    + constructor; [|constructor]. split; [apply emptied_items|]. exists n. split; [reflexivity|apply emptied_items].
  - apply last_last.
  - intros fuel Hfuel. rewrite app_length, map_length in Hfuel. cbn [length] in Hfuel.
    unfold trie_drop, emptied. cbn [handle_children]. unfold handle_children at 1. cbn [app].
    replace fuel with (length (map snd L) + S (fuel - length L - 1))%nat by (rewrite map_length; lia).
    change (content_items (children n)) with ([] ++ content_items (children n)) at 1. rewrite W.
    cbn [drop_loop]. change (vec_pop (@nil (node T))) with (@None (node T * list (node T))). cbn [option_map].
    rewrite app_nil_r. reflexivity.
Qed.
