(** * Proofs about what zip-dict prints *)
From Verif Require Import Base Ser SerSpec SerProofs Bit BitSpec BitProofs Utils UtilsProofs HufSpec Dict DictSpec DictProofs DictEnc Float TrieStats TrieSpec TrieProofs TrieTop Says DictSays DictSaysSpec.
From Coq Require Import ZifyBool ZifyNat ZifyN Permutation.
Open Scope nat_scope.

(** ** Erasing the output *)
Lemma tell_snd {M A B} (m : tells M A) (f : A -> tells M B) : snd (tell_bind m f) = res_bind (snd m) (fun a => snd (f a)).
Proof. destruct m as [o [a| |]]; cbn; try reflexivity. now destruct (f a). Qed.
Lemma tell_quiet {M A B} (r : res A) (f : A -> tells M B) :
  tell_bind (quietly r) f = match r with Ok a => f a | Err => ([], Err) | Panic => ([], Panic) end.
Proof. destruct r as [a| |]; cbn; try reflexivity. now destruct (f a). Qed.
Lemma erase_upsert {V} (c : content V) b v : snd (upsert_says c b v) = content_upsert c b v.
Proof.
  unfold upsert_says, content_upsert. destruct c as [keys vals|data].
  - destruct (content_find keys b) as [i|]; [reflexivity|]. destruct (length keys <? THRESHOLD)%nat; [reflexivity|].
    now destruct (full_upsert (to_full keys vals) b v).
  - now destruct (full_upsert data b v).
Qed.
Lemma insert_says_cons {T} (n : node T) byte k v : k <> [] ->
  insert_says n (byte :: k) v =
      tell_bind (match child n byte with
                 | Some _ => quietly (Ok n)
                 | None => match upsert_says (children n) byte node_new with
                           | (o, (Ok None, ch)) => (o, Ok (Node ch (values n)))
                           | (o, _) => (o, Panic)
                           end
                 end) (fun n =>
      match child n byte with
      | None => quietly Panic
      | Some c => tell_bind (insert_says c k v) (fun '(prev, c) =>
                  quietly (Ok (prev, Node (content_set (children n) byte c) (values n))))
      end).
Proof. destruct k; [congruence|reflexivity]. Qed.
Lemma bind_ext {A B} (r r' : res A) (f f' : A -> res B) : r = r' -> (forall a, f a = f' a) -> res_bind r f = res_bind r' f'.
Proof. intros <- H. destruct r; cbn; auto. Qed.
Lemma erase_insert {T} k : forall (n : node T) v, snd (insert_says n k v) = trie_insert n k v.
Proof.
  induction k as [|b k IH]; intros n v; [reflexivity|]. destruct k as [|b2 k].
  - cbn [insert_says trie_insert]. rewrite <- erase_upsert. destruct (upsert_says (values n) b v) as [o [[p| |] c]]; reflexivity.
  - rewrite insert_says_cons, trie_insert_cons by discriminate. rewrite tell_snd. apply bind_ext.
    + destruct (child n b); [reflexivity|]. rewrite <- erase_upsert.
      destruct (upsert_says (children n) b node_new) as [o [[[p|]| |] c]]; reflexivity.
    + intros n1. destruct (child n1 b) as [c|]; [|reflexivity]. rewrite tell_snd. apply bind_ext; [apply IH|]. now intros [p c'].
Qed.
Section Erase.
  Context {T : Type} (next : nextf T N).
  Lemma erase_create (z : dict_enc T) k : snd (create_says z k) = create_symbol z k.
  Proof.
    unfold create_says, create_symbol. destruct (abbrev_next (de_abbrev z)) as [[c|] ctr]; [|reflexivity].
    rewrite tell_snd. apply bind_ext; [apply erase_insert|]. now intros [p t].
  Qed.
  Lemma erase_all l : forall z : dict_enc T, snd (create_all_says z l) = create_all z l.
  Proof.
    induction l as [|b l IH]; intros z; [reflexivity|]. cbn [create_all_says create_all]. rewrite tell_snd. apply bind_ext; [apply erase_create|exact IH].
  Qed.
  Lemma erase_new (s : T) : snd (new_says s) = dict_enc_new s.
  Proof.
    unfold new_says, dict_enc_new. rewrite tell_snd. apply bind_ext; [apply erase_all|]. intros z. rewrite tell_snd. now apply bind_ext.
  Qed.
  Lemma erase_pair fuel (z : dict_enc T) : snd (next_pair_says next fuel z) = next_pair next fuel z.
  Proof.
    unfold next_pair_says, next_pair. rewrite tell_snd. apply bind_ext; [reflexivity|]. intros [[[s1|] q1] z1].
    - rewrite tell_snd. apply bind_ext; [reflexivity|]. intros _. rewrite tell_snd. apply bind_ext; [reflexivity|]. intros [[[s2|] q2] z2].
      + rewrite tell_snd. apply bind_ext; [reflexivity|]. intros _. rewrite tell_snd. apply bind_ext; [apply erase_create|]. reflexivity.
      + rewrite tell_snd. apply bind_ext; [reflexivity|]. intros _. rewrite tell_snd. apply bind_ext; [reflexivity|]. intros [ov i].
        rewrite tell_snd. now apply bind_ext.
    - rewrite tell_snd. apply bind_ext; [reflexivity|]. intros _. rewrite tell_snd. apply bind_ext; [reflexivity|]. intros [ov i].
      rewrite tell_snd. now apply bind_ext.
  Qed.
End Erase.

(** ** Counting the full contents *)
Definition isf {V} (c : content V) : nat := match c with Partial _ _ => 0 | Full _ => 1 end.
Definition full_at {T} (n : node T) (p : list N) : nat := match follow n p with Some m => isf (children m) + isf (values m) | None => 0 end.
Definition fullsum {T} (U : list (list N)) (n : node T) : nat := list_sum (map (full_at n) U).

Lemma upsert_lines {V} (c : content V) b v : exists k, fst (upsert_says c b v) = repeat Converting k /\ isf (snd (content_upsert c b v)) = isf c + k.
Proof.
  unfold upsert_says, content_upsert. destruct c as [keys vals|data].
  - destruct (content_find keys b) as [i|].
    + exists 0. destruct (nth_error vals i); auto.
    + destruct (length keys <? THRESHOLD)%nat; [exists 0; auto|]. unfold full_upsert. exists 1. auto.
  - exists 0. unfold full_upsert. auto.
Qed.
Lemma isf_set {V} (c : content V) b v : isf (content_set c b v) = isf c.
Proof. destruct c as [keys vals|data]; cbn; [destruct (content_find keys b); reflexivity|reflexivity]. Qed.

Lemma fullsum_perm {T} U U' (n : node T) : Permutation U U' -> fullsum U n = fullsum U' n.
Proof.
  intros H. unfold fullsum. induction H as [|x l l' _ IH|x y l|l1 l2 l3 _ IH1 _ IH2]; cbn [map list_sum fold_right]; try lia.
  unfold list_sum in *. lia.
Qed.
Lemma fullsum_app {T} U U' (n : node T) : fullsum (U ++ U') n = fullsum U n + fullsum U' n.
Proof. unfold fullsum. now rewrite map_app, list_sum_app. Qed.
Lemma fullsum_ext {T T'} U (n : node T) (n' : node T') : (forall p, In p U -> full_at n p = full_at n' p) -> fullsum U n = fullsum U n'.
Proof. intros H. unfold fullsum. now apply sum_ext. Qed.

(** [U] by its first byte *)
Lemma split_paths (U : list (list N)) b : NoDup U -> In [] U ->
  exists Ub Uo, Permutation U ([] :: map (cons b) Ub ++ Uo) /\ NoDup Ub
  /\ (forall q, In q Ub <-> In (b :: q) U) /\ (forall p, In p Uo -> exists b' q, p = b' :: q /\ b' <> b).
Proof.
  intros HN H0. apply in_split in H0 as (U1 & U2 & ->).
  assert (P0 : Permutation (U1 ++ [] :: U2) ([] :: U1 ++ U2)) by (symmetry; apply Permutation_middle).
  apply (Permutation_NoDup P0) in HN. apply NoDup_cons_iff in HN as [H0 HN].
  assert (G : exists Ub Uo, Permutation (U1 ++ U2) (map (cons b) Ub ++ Uo) /\ (forall p, In p Uo -> exists b' q, p = b' :: q /\ b' <> b)).
  { clear HN P0. induction (U1 ++ U2) as [|p l IH]; [exists [], []; split; [constructor|intros p []]|].
    destruct IH as (Ub & Uo & P & F); [intros H; apply H0; now right|].
    destruct p as [|b' q]; [exfalso; apply H0; now left|]. destruct (N.eq_dec b' b) as [->|Hne].
    - exists (q :: Ub), Uo. split; [cbn; now constructor|exact F].
    - exists Ub, ((b' :: q) :: Uo). split; [now apply Permutation_cons_app|]. intros p [<-|H]; eauto. }
  destruct G as (Ub & Uo & P & F). exists Ub, Uo.
  assert (P1 : Permutation (U1 ++ [] :: U2) ([] :: map (cons b) Ub ++ Uo)) by (rewrite P0; now constructor).
  split; [exact P1|]. split; [|split; [|exact F]].
  - apply (Permutation_NoDup P) in HN. clear - HN. induction Ub as [|q Ub IH]; [constructor|]. cbn in HN. apply NoDup_cons_iff in HN as [H HN].
    constructor; [|now apply IH]. intros Hq. apply H, in_or_app. left. now apply in_map.
  - intros q. split.
    + intros Hq. apply (Permutation_in _ (Permutation_sym P1)). right. apply in_or_app. left. now apply in_map.
    + intros Hq. apply (Permutation_in _ P1) in Hq. destruct Hq as [Hq|Hq]; [discriminate|]. apply in_app_or in Hq as [Hq|Hq].
      * apply in_map_iff in Hq as (q' & [= ->] & Hq). exact Hq.
      * apply F in Hq as (b' & q' & [= <- <-] & Hne). congruence.
Qed.
Lemma fullsum_cons {T} b Ub (n : node T) : fullsum (map (cons b) Ub) n = match child n b with Some c => fullsum Ub c | None => 0 end.
Proof.
  unfold fullsum. rewrite map_map. destruct (child n b) as [c|] eqn:E.
  - apply sum_ext. intros q _. unfold full_at. cbn [follow down snd]. now rewrite E.
  - induction Ub as [|q Ub IH]; [reflexivity|]. cbn [map list_sum fold_right]. unfold list_sum in IH. rewrite IH. unfold full_at. cbn [follow down snd]. now rewrite E.
Qed.
Lemma fullsum_new {T} Ub : fullsum Ub (@node_new T) = 0.
Proof. unfold fullsum. induction Ub as [|q Ub IH]; [reflexivity|]. cbn [map list_sum fold_right]. unfold list_sum in IH. rewrite IH. now destruct q. Qed.

(** An insertion prints a line for each content that becomes full. *)
Lemma insert_lines {T} k : forall (n : node T) v prev n', node_wf n -> byte_key k -> trie_insert n k v = Ok (prev, n') ->
  exists c, fst (insert_says n k v) = repeat Converting c
  /\ forall U, NoDup U -> (forall p, strict_prefix p k -> In p U) -> fullsum U n' = fullsum U n + c.
Proof.
  induction k as [|b k IH]; intros n v prev n' Hw Hk E; [destruct Hk; congruence|].
  pose proof Hw as [Hch Hvals Hrec]. destruct Hk as [_ HF]. inversion HF as [|? ? Hb HF']; subst.
  assert (SP0 : strict_prefix [] (b :: k)) by (exists b, k; reflexivity).
  destruct k as [|b2 k].
  - cbn [insert_says trie_insert] in *. destruct (upsert_lines (values n) b v) as (c & L1 & L2).
    rewrite <- erase_upsert in E, L2. destruct (upsert_says (values n) b v) as [o [[pr| |] vals]]; cbn [snd fst] in *; try discriminate.
    injection E as _ <-. exists c. split; [exact L1|]. intros U HN HU.
    destruct (split_paths U b HN (HU [] SP0)) as (Ub & Uo & P & _ & _ & Fo).
    rewrite !(fullsum_perm _ _ _ P). change ([] :: map (cons b) Ub ++ Uo) with ([[]] ++ map (cons b) Ub ++ Uo). rewrite !fullsum_app, !fullsum_cons.
    change (child (Node (children n) vals) b) with (child n b).
    assert (EO : fullsum Uo (Node (children n) vals) = fullsum Uo n).
    { apply fullsum_ext. intros p Hp. destruct (Fo p Hp) as (b' & q & -> & _). reflexivity. }
    rewrite EO. cbn [fullsum map list_sum fold_right full_at follow]. unfold fullsum. cbn [map list_sum fold_right]. unfold full_at. cbn [follow children values]. lia.
  - remember (b2 :: k) as kk eqn:Ekk. assert (Hkk : byte_key kk) by (split; [subst; discriminate|exact HF']).
    rewrite trie_insert_cons in E by apply Hkk. rewrite insert_says_cons by apply Hkk.
    assert (G : exists n1 c c0, (match child n b with
                 | Some _ => quietly (Ok n)
                 | None => match upsert_says (children n) b node_new with
                           | (o, (Ok None, ch)) => (o, Ok (Node ch (values n)))
                           | (o, _) => (o, Panic)
                           end
                 end) = (repeat Converting c0, Ok n1) /\ values n1 = values n /\ isf (children n1) = isf (children n) + c0
                /\ child n1 b = Some c /\ node_wf c /\ (forall Ub, fullsum Ub c = match child n b with Some c => fullsum Ub c | None => 0 end)
                /\ content_wf (children n1)
                /\ (forall b', b' <> b -> child n1 b' = child n b')).
    { destruct (child n b) as [c|] eqn:Ec.
      - exists n, c, 0. repeat (split; [first [reflexivity|lia|exact Ec|exact Hch|exact (Hrec b c Ec)|intros; reflexivity]|]). reflexivity.
      - destruct (@upsert_spec _ (children n) b node_new Hch Hb) as [ch [Eu [Hw1 Hg]]].
        destruct (upsert_lines (children n) b (@node_new T)) as (c & L1 & L2). rewrite Eu in L2. rewrite <- erase_upsert in Eu.
        unfold child in Ec. rewrite Ec in Eu. destruct (upsert_says (children n) b node_new) as [o r]. cbn [fst snd] in *. subst r o.
        exists (Node ch (values n)), node_new, c. split; [reflexivity|]. split; [reflexivity|]. split; [exact L2|].
        split; [unfold child; cbn [children]; rewrite Hg, N.eqb_refl; reflexivity|]. split; [apply node_new_wf|]. split; [apply fullsum_new|]. split; [exact Hw1|].
        intros b' Hne. unfold child. cbn [children]. rewrite Hg. destruct (N.eqb_spec b' b); [congruence|reflexivity]. }
    destruct G as (n1 & c & c0 & E1 & Hv1 & If1 & Hc & Hcw & Hsum & Hch1 & Hoth).
    assert (E2 : match child n b with
                | Some _ => Ok n
                | None => match content_upsert (children n) b node_new with
                          | (Ok None, ch) => Ok (Node ch (values n))
                          | (_, _) => Panic
                          end
                end = Ok n1).
    { apply (f_equal snd) in E1. cbn [snd] in E1. rewrite <- E1. destruct (child n b); [reflexivity|]. rewrite <- erase_upsert.
      destruct (upsert_says (children n) b node_new) as [o [[[p|]| |] ch]]; reflexivity. }
    rewrite E2 in E. cbn [res_bind] in E. rewrite Hc in E. rewrite E1. cbn [tell_bind]. rewrite Hc.
    destruct (trie_insert c kk v) as [[pr c']| |] eqn:Ei; cbn [res_bind] in E; try discriminate. injection E as _ <-.
    destruct (IH c v pr c' Hcw Hkk Ei) as (c1 & L1 & L2). rewrite <- erase_insert in Ei.
    destruct (insert_says c kk v) as [o r]. cbn [fst snd] in L1, Ei. subst o r. cbn [tell_bind quietly]. cbn [fst].
    exists (c0 + c1). rewrite app_nil_r. split; [now rewrite repeat_app|]. intros U HN HU.
    destruct (split_paths U b HN (HU [] SP0)) as (Ub & Uo & P & Nb & Ib & Fo).
    assert (HB : forall p, strict_prefix p kk -> In p Ub).
    { intros p (x & r & ->). apply Ib, HU. exists x, r. reflexivity. }
    specialize (L2 Ub Nb HB).
    assert (Hget : content_get (children n1) b <> None) by (unfold child in Hc; congruence).
    destruct (set_spec c' Hch1 Hb Hget) as [_ Hg2]. set (n' := Node (content_set (children n1) b c') (values n1)).
    assert (Cb : child n' b = Some c') by (unfold child, n'; cbn [children]; rewrite Hg2, N.eqb_refl; reflexivity).
    assert (Co : forall b', b' <> b -> child n' b' = child n b').
    { intros b' Hne. rewrite <- (Hoth b' Hne). unfold child, n'. cbn [children]. rewrite Hg2. destruct (N.eqb_spec b' b); [congruence|reflexivity]. }
    rewrite !(fullsum_perm _ _ _ P). change ([] :: map (cons b) Ub ++ Uo) with ([[]] ++ map (cons b) Ub ++ Uo). rewrite !fullsum_app, !fullsum_cons, Cb.
    rewrite <- Hsum, L2.
    assert (EO : fullsum Uo n' = fullsum Uo n).
    { apply fullsum_ext. intros p Hp. destruct (Fo p Hp) as (b' & q & -> & Hne). unfold full_at. cbn [follow down snd]. now rewrite Co. }
    assert (ER : fullsum [[]] n' = fullsum [[]] n + c0).
    { unfold fullsum, full_at, n'. cbn [map list_sum fold_right follow children values]. rewrite isf_set, Hv1. lia. }
    rewrite EO, ER. lia.
Qed.

(** ** The full contents of a trie with given keys *)
Lemma snug_big {V} (c : content V) : content_wf c -> snug c -> isf c = big (used_entries c).
Proof.
  intros [keys values HN HF HL|data HL]; unfold big; cbn [snug isf]; intros H.
  - cbn [used_entries]. destruct (Nat.ltb_spec 64 (length values)); lia.
  - destruct (Nat.ltb_spec 64 (used_entries (Full data))); lia.
Qed.
Lemma fullsum_crowded {T} (n : node T) keys ps ks : holds_keys n keys -> places keys ps -> distinct keys ks ->
  fullsum ps n = list_sum (map (fun p => big (under p ps) + big (under p ks)) ps).
Proof.
  intros (Hs & HF & Hv & Hf) [NP IP] [NK IK]. unfold fullsum. apply sum_ext. intros p Hp.
  assert (Hps : forall p, In p ps <-> follow n p <> None) by (intros q; rewrite IP; symmetry; apply Hf).
  unfold full_at. destruct (follow n p) as [m|] eqn:Em; [|apply Hps in Hp; congruence].
  destruct (Hs p m Em) as [[Hwc Hwv _] [Sc Sv]]. rewrite (snug_big _ Hwc Sc), (snug_big _ Hwv Sv). f_equal; f_equal; symmetry.
  - apply under_used; [exact NP|exact Hwc|]. intros b. rewrite Hps, follow_app, Em. cbn. unfold child.
    destruct (content_get (children m) b); split; congruence.
  - apply under_used; [exact NK|exact Hwv|]. intros b. rewrite IK, <- Hv, tget_follow, Em. reflexivity.
Qed.

(** ** The encoder *)
Definition lines_are {T} (z : dict_enc T) (c : nat) : Prop :=
  forall U, NoDup U -> (forall p, follow (de_trie z) p <> None -> In p U) -> fullsum U (de_trie z) = c.
Lemma lines_crowded {T} (z : dict_enc T) d c : holds_keys (de_trie z) d -> lines_are z c -> crowded d c.
Proof.
  intros H L. pose proof H as (Hs & HF & Hv & Hf).
  destruct (trie_figures (de_trie z) d H) as [st [(ps & ks & HP & HD & _) _]].
  exists ps, ks. split; [exact HP|]. split; [exact HD|]. rewrite <- (fullsum_crowded (de_trie z) d ps ks H HP HD). symmetry. apply L; [apply HP|].
  intros p Hp. apply HP. now apply Hf.
Qed.
Lemma create_lines {T} (z z' : dict_enc T) k c : node_wf (de_trie z) -> byte_key k -> create_symbol z k = Ok z' -> lines_are z c ->
  exists c', fst (create_says z k) = repeat Converting c' /\ lines_are z' (c + c').
Proof.
  intros Hw Hk E L. unfold create_symbol, create_says in *. destruct (abbrev_next (de_abbrev z)) as [[code|] ctr].
  - destruct (trie_insert (de_trie z) k code) as [[pr t]| |] eqn:Ei; cbn in E; try discriminate. injection E as <-.
    destruct (insert_lines k _ _ _ _ Hw Hk Ei) as (c' & L1 & L2). exists c'.
    pose proof (insert_spec code Hw Hk) as (n2 & E2 & _ & _ & Hf). rewrite Ei in E2. injection E2 as -> <-.
    rewrite <- erase_insert in Ei. destruct (insert_says (de_trie z) k code) as [o r]. cbn [fst snd] in *. subst r o. cbn. rewrite app_nil_r.
    split; [reflexivity|]. intros U HN HU. cbn [de_trie] in *. rewrite (L2 U HN).
    + f_equal. apply L; [exact HN|]. intros p Hp. apply HU, Hf. now left.
    + intros p Hp. apply HU, Hf. now right.
  - injection E as <-. exists 0. split; [reflexivity|]. rewrite Nat.add_0_r. exact L.
Qed.
Lemma all_lines {T} l : forall (z z' : dict_enc T) c, node_snug (de_trie z) -> Forall u8_ok l -> create_all z l = Ok z' -> lines_are z c ->
  exists c', fst (create_all_says z l) = repeat Converting c' /\ lines_are z' (c + c').
Proof.
  induction l as [|b l IH]; intros z z' c Hs H8 E L; cbn [create_all create_all_says] in *.
  - injection E as <-. exists 0. rewrite Nat.add_0_r. auto.
  - inversion H8; subst. destruct (create_symbol z [b]) as [z1| |] eqn:E1; cbn in E; try discriminate.
    assert (Hk : byte_key [b]) by (split; [discriminate|now constructor]).
    assert (Hw : node_wf (de_trie z)) by (apply (Hs [] (de_trie z)); reflexivity).
    destruct (create_lines z z1 [b] c Hw Hk E1 L) as (c1 & A1 & A2).
    destruct (IH z1 z' (c + c1)) as (c2 & B1 & B2); try assumption; [eapply create_snug; [exact Hs| |exact E1]; exact Hk|].
    exists (c1 + c2). rewrite Nat.add_assoc. split; [|exact B2].
    rewrite <- erase_create in E1. destruct (create_says z [b]) as [o r]. cbn [fst snd] in *. subst o r. cbn [tell_bind].
    destruct (create_all_says z1 l) as [o2 r2]. cbn [fst] in *. subst o2. now rewrite repeat_app.
Qed.
Lemma new_lines {T} (s : T) z : dict_enc_new s = Ok z -> exists c, fst (new_says s) = repeat Converting c /\ lines_are z c.
Proof.
  unfold dict_enc_new, new_says. intros E. apply bind_ok in E as [z1 [Ec E]]. apply bind_ok in E as [[] [Ea E]]. injection E as <-.
  destruct (all_lines all_bytes (mkDE (mkInput s []) node_new 0) z1 0 new_snug all_bytes_u8 Ec) as (c & A & B).
  { intros U HN HU. cbn [de_trie]. apply fullsum_new. }
  exists c. split; [|exact B]. rewrite <- erase_all in Ec. destruct (create_all_says _ all_bytes) as [o r]. cbn [fst snd] in *. subst o r.
  cbn [tell_bind]. rewrite tell_quiet, Ea. cbn. now rewrite app_nil_r.
Qed.
