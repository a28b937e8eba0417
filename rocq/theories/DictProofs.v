(** * Lemmas about the zip-dict trie, encoder and decoder. *)
From Verif Require Import Base Ser SerSpec SerProofs Bit BitSpec BitProofs Utils UtilsProofs Huf HufSpec Dict DictSpec.
From Coq Require Import ZifyBool ZifyNat ZifyN.
Set Implicit Arguments.

Lemma list_delivers {A} (l : list A) : delivers list_next l l.
Proof.
  exists []. split; [pose proof (yields_list l []) as H; now rewrite app_nil_r in H|].
  exists (eq []). split; [reflexivity|]. intros s <-. exists []. split; reflexivity.
Qed.

(** ** Contents as finite maps *)
Lemma set_nth_length {X} (l : list X) : forall i x, length (set_nth l i x) = length l.
Proof. induction l as [|y l IH]; intros [|i] x; cbn; try reflexivity. now rewrite IH. Qed.
Lemma nth_set_nth {X} (l : list X) : forall i x j, (i < length l)%nat ->
  nth_error (set_nth l i x) j = if (j =? i)%nat then Some x else nth_error l j.
Proof.
  induction l as [|y l IH]; intros [|i] x [|j] H; cbn in *; try lia; try reflexivity.
  apply IH. lia.
Qed.
Lemma find_some keys b : forall i, content_find keys b = Some i -> nth_error keys i = Some b.
Proof.
  induction keys as [|k keys IH]; cbn; intros i; [discriminate|].
  destruct (N.eqb_spec k b) as [->|E]; [intros [= <-]; reflexivity|].
  destruct (content_find keys b); cbn; [|discriminate]. intros [= <-]. now apply IH.
Qed.
Lemma find_none keys b : content_find keys b = None -> ~ In b keys.
Proof.
  induction keys as [|k keys IH]; cbn; [tauto|].
  destruct (N.eqb_spec k b) as [->|E]; [discriminate|].
  destruct (content_find keys b); cbn; [discriminate|]. intros _ [H|H]; [congruence|now apply IH].
Qed.
Lemma find_unique keys i b : NoDup keys -> nth_error keys i = Some b -> content_find keys b = Some i.
Proof.
  intros HN H. destruct (content_find keys b) as [j|] eqn:E.
  - f_equal. apply find_some in E. rewrite NoDup_nth_error in HN. apply HN; [|congruence].
    apply nth_error_Some. congruence.
  - apply find_none in E. apply nth_error_In in H. contradiction.
Qed.
Lemma find_snoc keys b b' : ~ In b keys ->
  content_find (keys ++ [b]) b' = if (b' =? b)%N then Some (length keys) else content_find keys b'.
Proof.
  induction keys as [|k keys IH]; intros H; cbn.
  - rewrite N.eqb_sym. reflexivity.
  - cbn in H. rewrite IH by tauto. destruct (N.eqb_spec k b'), (N.eqb_spec b' b); subst; try reflexivity.
    exfalso. tauto.
Qed.

Inductive content_wf {V} : content V -> Prop :=
| wf_partial keys values : NoDup keys -> Forall u8_ok keys -> length keys = length values ->
    content_wf (Partial keys values)
| wf_full data : length data = 256%nat -> content_wf (Full data).

Lemma content_new_wf {V} : content_wf (@content_new V).
Proof. constructor; constructor. Qed.

Lemma to_full_aux {V} keys : forall (values : list V) data,
  NoDup keys -> Forall u8_ok keys -> length keys = length values -> length data = 256%nat ->
  let r := fold_left (fun data kv => set_nth data (N.to_nat (fst kv)) (Some (snd kv))) (combine keys values) data in
  length r = 256%nat /\ forall b, nth_error r (N.to_nat b) =
    match content_find keys b with Some i => option_map Some (nth_error values i) | None => nth_error data (N.to_nat b) end.
Proof.
  induction keys as [|k keys IH]; intros [|v values] data HN HF HL HD; cbn in HL; try discriminate; cbn.
  - auto.
  - inversion HN as [|? ? Hk HN']; subst. inversion HF as [|? ? Hk8 HF']; subst.
    unfold u8_ok in Hk8.
    destruct (IH values (set_nth data (N.to_nat k) (Some v)) HN' HF') as [H1 H2];
      [congruence|rewrite set_nth_length; exact HD|].
    split; [exact H1|]. intros b. rewrite H2. rewrite nth_set_nth by lia.
    destruct (N.eqb_spec k b) as [->|E].
    + destruct (content_find keys b) as [j|] eqn:E.
      * apply find_some, nth_error_In in E. contradiction.
      * rewrite Nat.eqb_refl. reflexivity.
    + destruct (content_find keys b); cbn; [reflexivity|].
      destruct (Nat.eqb_spec (N.to_nat b) (N.to_nat k)); [|reflexivity]. lia.
Qed.
Lemma to_full_spec {V} keys (values : list V) : content_wf (Partial keys values) ->
  content_wf (Full (to_full keys values)) /\
  forall b, content_get (Full (to_full keys values)) b = content_get (Partial keys values) b.
Proof.
  intros H. inversion H; subst.
  destruct (@to_full_aux V keys values (repeat None 256)) as [K1 K2]; try assumption; [reflexivity|].
  fold (to_full keys values) in K1, K2. split; [now constructor|].
  intros b. unfold content_get. rewrite K2. destruct (content_find keys b).
  - destruct (nth_error values n); reflexivity.
  - destruct (nth_error (repeat None 256) (N.to_nat b)) eqn:E; [|reflexivity].
    apply nth_error_In, repeat_spec in E. exact E.
Qed.
Lemma get_full_set {V} (data : list (option V)) b v b' : length data = 256%nat -> u8_ok b ->
  content_get (Full (set_nth data (N.to_nat b) (Some v))) b' =
  if (b' =? b)%N then Some v else content_get (Full data) b'.
Proof.
  intros HL Hb. unfold u8_ok in Hb. cbn. rewrite nth_set_nth by lia.
  destruct (Nat.eqb_spec (N.to_nat b') (N.to_nat b)), (N.eqb_spec b' b); try reflexivity; lia.
Qed.
Lemma upsert_spec {V} (c : content V) b v : content_wf c -> u8_ok b ->
  exists c', content_upsert c b v = (Ok (content_get c b), c') /\ content_wf c' /\
  forall b', content_get c' b' = if (b' =? b)%N then Some v else content_get c b'.
Proof.
  intros Hc Hb. destruct Hc as [keys values HN HF HL|data HL].
  - unfold content_upsert. destruct (content_find keys b) as [i|] eqn:E.
    + assert (Hi : (i < length values)%nat).
      { rewrite <- HL. apply nth_error_Some. apply find_some in E. congruence. }
      destruct (nth_error values i) as [p|] eqn:Ep; [|apply nth_error_None in Ep; lia].
      eexists. split; [cbn [content_get]; rewrite E, Ep; reflexivity|]. split.
      * constructor; try assumption. now rewrite set_nth_length.
      * intros b'. cbn [content_get]. destruct (N.eqb_spec b' b) as [->|Hne].
        -- rewrite E, nth_set_nth, Nat.eqb_refl by exact Hi. reflexivity.
        -- destruct (content_find keys b') as [j|] eqn:Ej; [|reflexivity].
           rewrite nth_set_nth by exact Hi. destruct (Nat.eqb_spec j i) as [->|]; [|reflexivity].
           apply find_some in E, Ej. congruence.
    + pose proof (find_none _ _ E) as Hnb. destruct (length keys <? THRESHOLD)%nat.
      * eexists. split; [cbn [content_get]; rewrite E; reflexivity|]. split.
        -- constructor; [now apply nodup_snoc| |rewrite !app_length; cbn; congruence].
           apply Forall_app. auto.
        -- intros b'. cbn [content_get]. rewrite find_snoc by exact Hnb.
           destruct (N.eqb_spec b' b) as [->|Hne].
           ++ rewrite HL, nth_error_app2, Nat.sub_diag by lia. reflexivity.
           ++ destruct (content_find keys b') as [j|] eqn:Ej; [|reflexivity].
              apply nth_error_app1. rewrite <- HL. apply nth_error_Some. apply find_some in Ej. congruence.
      * destruct (@to_full_spec V keys values) as [Hw Hg]; [now constructor|].
        assert (HF2 : length (to_full keys values) = 256%nat) by now inversion Hw.
        unfold full_upsert. eexists. split; [|split].
        -- rewrite <- Hg. reflexivity.
        -- constructor. now rewrite set_nth_length.
        -- intros b'. rewrite get_full_set by assumption. now rewrite Hg.
  - eexists. split; [reflexivity|]. split; [constructor; now rewrite set_nth_length|].
    intros b'. now apply get_full_set.
Qed.
Lemma set_spec {V} (c : content V) b v : content_wf c -> u8_ok b -> content_get c b <> None ->
  content_wf (content_set c b v) /\
  forall b', content_get (content_set c b v) b' = if (b' =? b)%N then Some v else content_get c b'.
Proof.
  intros Hc Hb. destruct Hc as [keys values HN HF HL|data HL]; intros Hg.
  - unfold content_set. cbn [content_get] in Hg. destruct (content_find keys b) as [i|] eqn:E; [|congruence].
    assert (Hi : (i < length values)%nat) by (now apply nth_error_Some).
    split.
    + constructor; try assumption. now rewrite set_nth_length.
    + intros b'. cbn [content_get]. destruct (N.eqb_spec b' b) as [->|Hne].
      * rewrite E, nth_set_nth, Nat.eqb_refl by exact Hi. reflexivity.
      * destruct (content_find keys b') as [j|] eqn:Ej; [|reflexivity].
        rewrite nth_set_nth by exact Hi. destruct (Nat.eqb_spec j i) as [->|]; [|reflexivity].
        apply find_some in E, Ej. congruence.
  - split; [constructor; now rewrite set_nth_length|]. intros b'. now apply get_full_set.
Qed.

(** ** The trie *)
Inductive node_wf {T} (n : node T) : Prop :=
  nwf : content_wf (children n) -> content_wf (values n) ->
        (forall b c, child n b = Some c -> node_wf c) -> node_wf n.
Lemma node_new_wf {T} : node_wf (@node_new T).
Proof. constructor; [apply content_new_wf|apply content_new_wf|]. intros b c H. discriminate. Qed.

Fixpoint tget {T} (n : node T) (k : list N) : option T :=
  match k with
  | [] => None
  | b :: k' => match k' with
               | [] => value_of n b
               | _ => match child n b with Some c => tget c k' | None => None end
               end
  end.
Lemma tget_cons {T} (n : node T) b k : k <> [] ->
  tget n (b :: k) = match child n b with Some c => tget c k | None => None end.
Proof. destruct k; [congruence|reflexivity]. Qed.
Lemma tget_new {T} k : tget (@node_new T) k = None.
Proof. destruct k as [|b [|b' k]]; reflexivity. Qed.
Lemma follow_new {T} p : follow (@node_new T) p <> None <-> p = [].
Proof. destruct p; cbn; split; congruence. Qed.
Lemma follow_app {T} p q : forall n : node T,
  follow n (p ++ q) = match follow n p with Some m => follow m q | None => None end.
Proof. induction p as [|b p IH]; intros n; cbn; [reflexivity|]. destruct (child n b); auto. Qed.
Lemma tget_follow {T} p b : forall n : node T,
  tget n (p ++ [b]) = match follow n p with Some m => value_of m b | None => None end.
Proof.
  induction p as [|x p IH]; intros n; [reflexivity|].
  cbn [app]. rewrite tget_cons by (destruct p; discriminate). cbn. destruct (child n x); auto.
Qed.

Lemma trie_insert_cons {T} (n : node T) byte k v : k <> [] ->
  trie_insert n (byte :: k) v =
      res_bind (match child n byte with
                | Some _ => Ok n
                | None => match content_upsert (children n) byte node_new with
                          | (Ok None, ch) => Ok (Node ch (values n))
                          | (_, _) => Panic
                          end
                end) (fun n =>
      match child n byte with
      | None => Panic
      | Some c => res_bind (trie_insert c k v) (fun '(prev, c) =>
                  Ok (prev, Node (content_set (children n) byte c) (values n)))
      end).
Proof. destruct k; [congruence|reflexivity]. Qed.
Lemma insert_spec {T} k : forall (n : node T) v, node_wf n -> byte_key k ->
  exists n', trie_insert n k v = Ok (tget n k, n') /\ node_wf n'
  /\ (forall k', tget n' k' = if list_eq_dec N.eq_dec k' k then Some v else tget n k')
  /\ (forall p, follow n' p <> None <-> follow n p <> None \/ strict_prefix p k).
Proof.
  induction k as [|b k IH]; intros n v Hn [Hk HF]; [congruence|].
  inversion HF as [|? ? Hb HF']; subst. destruct Hn as [Hch Hvals Hrec].
  destruct k as [|b2 k].
  - destruct (@upsert_spec T (values n) b v Hvals Hb) as [vals [E [Hw Hg]]].
    cbn [trie_insert]. rewrite E. eexists. split; [reflexivity|]. split; [|split].
    + constructor; [exact Hch|exact Hw|exact Hrec].
    + intros [|x [|y k']]; [destruct (list_eq_dec N.eq_dec [] [b]); [discriminate|reflexivity]| |].
      * cbn [tget]. unfold value_of. cbn [values]. rewrite Hg.
        destruct (N.eqb_spec x b) as [->|Hne].
        -- destruct (list_eq_dec N.eq_dec [b] [b]); [reflexivity|congruence].
        -- destruct (list_eq_dec N.eq_dec [x] [b]); [congruence|reflexivity].
      * destruct (list_eq_dec N.eq_dec (x :: y :: k') [b]); [discriminate|]. reflexivity.
    + intros [|x p].
      * cbn. split; [|congruence]. intros _. left. discriminate.
      * cbn. unfold child. cbn [children]. split; [auto|].
        intros [H|[y [r H]]]; [exact H|]. injection H as <- H. destruct p; discriminate.
  - remember (b2 :: k) as kk eqn:Ekk.
    assert (Hkk : byte_key kk) by (split; [subst; discriminate|exact HF']).
    rewrite trie_insert_cons by apply Hkk.
    assert (G : exists n1 c, match child n b with
                | Some _ => Ok n
                | None => match content_upsert (children n) b node_new with
                          | (Ok None, ch) => Ok (Node ch (values n))
                          | (_, _) => Panic
                          end
                end = Ok n1 /\ values n1 = values n /\ content_wf (children n1)
                /\ child n1 b = Some c /\ node_wf c
                /\ (forall b', b' <> b -> child n1 b' = child n b')
                /\ match child n b with Some c0 => c = c0 | None => c = node_new end).
    { destruct (child n b) as [c|] eqn:Ec.
      - exists n, c. split; [reflexivity|]. split; [reflexivity|]. split; [exact Hch|]. split; [exact Ec|].
        split; [eapply Hrec; eassumption|]. split; reflexivity.
      - destruct (@upsert_spec _ (children n) b node_new Hch Hb) as [ch [E [Hw Hg]]].
        unfold child in Ec. rewrite E, Ec. exists (Node ch (values n)), node_new.
        split; [reflexivity|]. split; [reflexivity|]. split; [exact Hw|].
        split; [unfold child; cbn [children]; rewrite Hg, N.eqb_refl; reflexivity|].
        split; [apply node_new_wf|]. split; [|reflexivity].
        intros b' Hne. unfold child. cbn [children]. rewrite Hg.
        destruct (N.eqb_spec b' b); [congruence|reflexivity]. }
    destruct G as [n1 [c [E1 [Hv1 [Hch1 [Hc [Hcw [Hoth Hold]]]]]]]].
    rewrite E1. cbn [res_bind]. rewrite Hc.
    destruct (IH c v Hcw Hkk) as [c' [Ei [Hw' [Hg' Hf']]]]. rewrite Ei. cbn [res_bind].
    destruct (@set_spec _ (children n1) b c' Hch1 Hb) as [Hw2 Hg2]; [unfold child in Hc; congruence|].
    assert (Eget : tget c kk = tget n (b :: kk)).
    { rewrite tget_cons by apply Hkk. destruct (child n b); [congruence|]. subst c. apply tget_new. }
    eexists. split; [rewrite Eget; reflexivity|]. split; [|split].
    + constructor; cbn [children values]; [exact Hw2|rewrite Hv1; exact Hvals|].
      intros b' c2 H. unfold child in H. cbn [children] in H. rewrite Hg2 in H.
      destruct (N.eqb_spec b' b) as [->|Hne]; [congruence|].
      change (child n1 b' = Some c2) in H. rewrite Hoth in H by exact Hne. eauto.
    + intros [|x k'].
      { destruct (list_eq_dec N.eq_dec [] (b :: kk)); [discriminate|reflexivity]. }
      destruct k' as [|y k'].
      { cbn [tget]. unfold value_of. cbn [values]. rewrite Hv1.
        destruct (list_eq_dec N.eq_dec [x] (b :: kk)) as [H|H]; [|reflexivity].
        injection H as _ H. destruct Hkk. congruence. }
      rewrite !tget_cons by discriminate. unfold child at 1. cbn [children]. rewrite Hg2.
      destruct (N.eqb_spec x b) as [->|Hne].
      * rewrite Hg'. destruct (list_eq_dec N.eq_dec (y :: k') kk) as [->|Hk'].
        -- destruct (list_eq_dec N.eq_dec (b :: kk) (b :: kk)); congruence.
        -- destruct (list_eq_dec N.eq_dec (b :: y :: k') (b :: kk)); [congruence|].
           destruct (child n b); [now subst|]. subst c. apply tget_new.
      * destruct (list_eq_dec N.eq_dec (x :: y :: k') (b :: kk)); [congruence|].
        change (content_get (children n1) x) with (child n1 x). rewrite Hoth by exact Hne. reflexivity.
    + intros [|x p].
      { cbn. split; [|congruence]. intros _. left. discriminate. }
      cbn. unfold child at 1. cbn [children]. rewrite Hg2. destruct (N.eqb_spec x b) as [->|Hne].
      * rewrite Hf'. destruct (child n b) as [c0|].
        -- subst c0. split.
           ++ intros [H|[y [r ->]]]; [now left|right; exists y, r; reflexivity].
           ++ intros [H|[y [r H]]]; [now left|right]. injection H as ->. exists y, r. reflexivity.
        -- subst c. rewrite follow_new. split.
           ++ intros [->|[y [r ->]]]; right; [subst kk; exists b2, k; reflexivity|exists y, r; reflexivity].
           ++ intros [H|[y [r H]]]; [congruence|right]. injection H as ->. exists y, r. reflexivity.
      * change (content_get (children n1) x) with (child n1 x). rewrite Hoth by exact Hne.
        split; [auto|]. intros [H|[y [r H]]]; [exact H|]. injection H as H _. congruence.
Qed.

Lemma latest_snoc {T} (h : list (list N * T)) k v k' :
  latest (h ++ [(k, v)]) k' = if list_eq_dec N.eq_dec k' k then Some v else latest h k'.
Proof.
  induction h as [|[k1 v1] h IH]; cbn.
  - reflexivity.
  - rewrite IH. destruct (list_eq_dec N.eq_dec k' k); reflexivity.
Qed.
Lemma insert_all_spec {T} hist : forall (n : node T) h0, node_wf n ->
  Forall (fun kv => byte_key (fst kv)) hist ->
  (forall k, tget n k = latest h0 k) ->
  (forall p, follow n p <> None <-> p = [] \/ exists k v, In (k, v) h0 /\ strict_prefix p k) ->
  exists prevs n', insert_all n hist = Ok (prevs, n')
  /\ (forall i k v, nth_error hist i = Some (k, v) ->
      nth_error prevs i = Some (latest (h0 ++ firstn i hist) k))
  /\ (forall k, tget n' k = latest (h0 ++ hist) k)
  /\ (forall p, follow n' p <> None <-> p = [] \/ exists k v, In (k, v) (h0 ++ hist) /\ strict_prefix p k).
Proof.
  induction hist as [|[k v] hist IH]; intros n h0 Hn HF Hg Hf.
  - exists [], n. rewrite app_nil_r. split; [reflexivity|]. split; [|split; assumption].
    intros [|i]; discriminate.
  - inversion HF as [|? ? Hk HF']; subst. cbn in Hk.
    destruct (insert_spec v Hn Hk) as [n1 [E [Hn1 [Hg1 Hf1]]]]. cbn [insert_all]. rewrite E. cbn [res_bind].
    destruct (IH n1 (h0 ++ [(k, v)]) Hn1 HF') as [prevs [n' [E2 [Hp [Hg2 Hf2]]]]].
    { intros k'. rewrite Hg1, latest_snoc. now rewrite Hg. }
    { intros p. rewrite Hf1, Hf. split.
      - intros [[->|[k' [v' [Hin Hs]]]]|Hs]; [now left| |].
        + right. exists k', v'. split; [apply in_or_app; now left|exact Hs].
        + right. exists k, v. split; [apply in_or_app; right; now left|exact Hs].
      - intros [->|[k' [v' [Hin Hs]]]]; [left; now left|].
        apply in_app_or in Hin as [Hin|[H|[]]].
        + left. right. eauto.
        + right. injection H as <- <-. exact Hs. }
    rewrite E2. cbn [res_bind]. exists (tget n k :: prevs), n'. split; [reflexivity|]. split; [|split].
    + intros [|i] k' v' H; cbn in *.
      * injection H as <- <-. rewrite app_nil_r. now rewrite Hg.
      * rewrite (Hp i k' v' H), <- app_assoc. reflexivity.
    + intros k'. rewrite Hg2, <- app_assoc. reflexivity.
    + intros p. rewrite Hf2, <- app_assoc. reflexivity.
Qed.
Lemma trie_map {T} (hist : list (list N * T)) : Forall (fun kv => byte_key (fst kv)) hist ->
  exists prevs n, insert_all node_new hist = Ok (prevs, n)
  /\ (forall i k v, nth_error hist i = Some (k, v) -> nth_error prevs i = Some (latest (firstn i hist) k))
  /\ (forall p m b, follow n p = Some m -> fst (down m b) = latest hist (p ++ [b]))
  /\ (forall p, follow n p <> None <-> p = [] \/ exists k v, In (k, v) hist /\ strict_prefix p k).
Proof.
  intros HF. destruct (@insert_all_spec T hist node_new [] node_new_wf HF) as [prevs [n [E [Hp [Hg Hf]]]]].
  - apply tget_new.
  - intros p. rewrite follow_new. split; [auto|]. intros [H|[k [v [[] _]]]]. exact H.
  - exists prevs, n. split; [exact E|]. split; [exact Hp|]. split; [|exact Hf].
    intros p m b H. pose proof (tget_follow p b n) as G. rewrite H in G. cbn. rewrite <- G. apply Hg.
Qed.
