(** * Repetitions that the zip codecs find and miss. *)
From Verif Require Import Base Ser SerSpec SerProofs Bit HufSpec Dict DictSpec DictProofs DictEnc DictProofs Back BackSpec BackRing BackLong BackDec.
From Coq Require Import ZifyBool ZifyNat ZifyN.
Local Open Scope nat_scope.

(** ** zip-back *)
Definition no_repeat (l : list N) : Prop := forall i j, i + 6 <= j -> j + 6 <= length l -> firstn 6 (skipn i l) <> firstn 6 (skipn j l).
Lemma agree_firstn rest from k : k <= agree rest from -> firstn k rest = firstn k from /\ k <= length rest /\ k <= length from.
Proof.
  revert rest from. induction k as [|k IH]; intros rest from H; [cbn; split; [reflexivity|lia]|].
  destruct rest as [|x rest], from as [|y from]; cbn [agree] in H; try lia. destruct (N.eqb_spec x y) as [->|]; [|lia].
  destruct (IH rest from) as (E & A & B); [lia|]. cbn [firstn length]. rewrite E. split; [reflexivity|lia].
Qed.
Lemma firstn_agree k rest from : firstn k rest = firstn k from -> k <= length rest -> k <= agree rest from.
Proof.
  revert rest from. induction k as [|k IH]; intros rest from H HL; [lia|]. destruct rest as [|x rest]; [cbn in HL; lia|].
  destruct from as [|y from]; cbn [firstn] in H; [discriminate|]. injection H as -> H. cbn [agree]. rewrite N.eqb_refl.
  cbn [length] in HL. specialize (IH rest from H ltac:(lia)). lia.
Qed.
Lemma best_repeats R h rest len back : best_match R h rest len back -> exists i, i + 6 <= length h /\ 6 <= length rest
  /\ firstn 6 (skipn i (h ++ rest)) = firstn 6 (skipn (length h) (h ++ rest)).
Proof.
  intros (pos & Hw & _ & Hl & H6 & _). unfold match_at in Hl. destruct (agree_firstn rest (skipn (N.to_nat pos) h) 6) as (E & A & B); [lia|].
  rewrite skipn_length in B. exists (N.to_nat pos). split; [lia|]. split; [exact A|].
  rewrite (skipn_app (length h)), skipn_all, Nat.sub_diag. cbn [skipn app]. rewrite E, skipn_app, firstn_app, skipn_length.
  replace (6 - (length h - N.to_nat pos)) with 0 by lia. cbn [firstn]. now rewrite app_nil_r.
Qed.
Lemma parses_literal R l h lits rest syms : no_repeat l -> parses R h lits rest syms -> h ++ rest = l -> syms = literal (lits ++ rest).
Proof.
  intros Hn HP. induction HP as [h lits rest len back syms HB HP IH|h lits rest syms HN HL HP IH|h lits rest HN HL]; intros E.
  - exfalso. destruct (best_repeats _ _ _ _ _ HB) as (i & Hi & Hr & Er). rewrite E in Er. apply (Hn i (length h)); [lia| |exact Er].
    rewrite <- E, app_length. lia.
  - rewrite IH; [rewrite <- app_assoc; now rewrite firstn_skipn|]. rewrite <- app_assoc. now rewrite firstn_skipn.
  - reflexivity.
Qed.
Lemma back_one_literal T (next : nextf T N) s l pr caps fuel : delivers next s l -> caps_ok caps -> (length l < fuel)%nat ->
  l <> [] -> (N.of_nat (length l) <= 32767)%N ->
  (forall i j, (i + 6 <= j)%nat -> (j + 6 <= length l)%nat -> firstn 6 (skipn i l) <> firstn 6 (skipn j l)) ->
  run_vec (zip_back_encode next pr caps fuel s) = Ok (le16 (N.of_nat (length l)) ++ l).
Proof.
  intros Hd Hc Hf Hne Hl Hn. destruct (back_short _ next s l pr caps fuel Hd Hc Hf Hl) as [out E].
  destruct (back_follows _ next s l pr caps fuel Hd Hc Hf) as (syms & HP & _ & HO & _). rewrite E. f_equal. rewrite (HO out E).
  rewrite (parses_literal _ l _ _ _ _ Hn HP eq_refl). cbn [app]. unfold literal. destruct l; [contradiction|]. cbn [map concat symbol_bytes].
  apply app_nil_r.
Qed.

(** A literal run is tested at the powers of two. *)
Lemma tested R h lits rest syms : parses R h lits rest syms -> lits = h -> (forall len back, ~ In (LookBack len back) syms) ->
  (length h = 0 \/ exists e, length h = 2 ^ S e) -> forall i, length h <= 2 ^ S i -> 2 ^ S i <= length (h ++ rest) ->
  no_match R (firstn (2 ^ S i) (h ++ rest)) (skipn (2 ^ S i) (h ++ rest)).
Proof.
  intros HP. induction HP as [h lits rest len back syms HB HP IH|h lits rest syms HN HL HP IH|h lits rest HN HL]; intros E HS HE i H1 H2.
  - exfalso. apply (HS len back). apply in_or_app. right. now left.
  - subst lits. destruct (Nat.eq_dec (length h) (2 ^ S i)) as [EQ|NE].
    + rewrite <- EQ, firstn_app, firstn_all, Nat.sub_diag, skipn_app, skipn_all, Nat.sub_diag. cbn [firstn skipn app]. now rewrite app_nil_r.
    + assert (Er : h ++ rest = (h ++ firstn (grow_by h) rest) ++ skipn (grow_by h) rest) by (rewrite <- app_assoc; now rewrite firstn_skipn).
      assert (Lh : length (h ++ firstn (grow_by h) rest) = length h + grow_by h) by (rewrite app_length, firstn_length; lia).
      rewrite Er. apply IH; [reflexivity|exact HS| | |now rewrite <- Er].
      * right. rewrite Lh. unfold grow_by. destruct HE as [HE|[e HE]]; [exists 0; rewrite HE; reflexivity|]. exists (S e). rewrite HE.
        pose proof (Nat.pow_nonzero 2 e ltac:(lia)). rewrite !Nat.pow_succ_r'. lia.
      * rewrite Lh. unfold grow_by. destruct HE as [HE|[e HE]]; [rewrite HE; rewrite Nat.pow_succ_r'; pose proof (Nat.pow_nonzero 2 i ltac:(lia)); lia|].
        rewrite HE in *. assert (e < i).
        { destruct (Nat.lt_ge_cases e i) as [C|C]; [exact C|]. pose proof (Nat.pow_le_mono_r 2 (S i) (S e) ltac:(lia) ltac:(lia)). lia. }
        pose proof (Nat.pow_le_mono_r 2 (S (S e)) (S i) ltac:(lia) ltac:(lia)) as Q. rewrite (Nat.pow_succ_r' 2 (S e)) in Q.
        pose proof (Nat.pow_nonzero 2 e ltac:(lia)) as Z0. pose proof (Nat.pow_succ_r' 2 e) as Z1. lia.
  - subst lits. destruct (Nat.eq_dec (length h) (2 ^ S i)) as [EQ|NE].
    + rewrite <- EQ, firstn_app, firstn_all, Nat.sub_diag, skipn_app, skipn_all, Nat.sub_diag. cbn [firstn skipn app]. now rewrite app_nil_r.
    + exfalso. rewrite app_length in H2. unfold grow_by in HL. destruct HE as [HE|[e HE]].
      * rewrite HE in *. rewrite Nat.pow_succ_r' in *. pose proof (Nat.pow_nonzero 2 i ltac:(lia)). lia.
      * rewrite HE in *. assert (e < i).
        { destruct (Nat.lt_ge_cases e i) as [C|C]; [exact C|]. pose proof (Nat.pow_le_mono_r 2 (S i) (S e) ltac:(lia) ltac:(lia)). lia. }
        pose proof (Nat.pow_le_mono_r 2 (S (S e)) (S i) ltac:(lia) ltac:(lia)) as Q. rewrite (Nat.pow_succ_r' 2 (S e)) in Q.
        pose proof (Nat.pow_nonzero 2 e ltac:(lia)) as Z0. pose proof (Nat.pow_succ_r' 2 e) as Z1. lia.
Qed.
Lemma power_between n : 2 <= n -> exists i, n <= 2 ^ S i <= 2 * n.
Proof.
  intros Hn. destruct (Nat.log2_up_spec n ltac:(lia)) as [A B]. exists (Nat.pred (Nat.log2_up n)).
  assert (P : 1 <= Nat.log2_up n) by (apply Nat.log2_up_pos; lia). rewrite Nat.succ_pred by lia. split; [exact B|].
  assert (Z1 : 2 ^ Nat.log2_up n = 2 * 2 ^ Nat.pred (Nat.log2_up n)) by (rewrite <- Nat.pow_succ_r'; f_equal; lia). lia.
Qed.
Lemma has_lookback syms : (exists len back, In (LookBack len back) syms) \/ (forall len back, ~ In (LookBack len back) syms).
Proof.
  induction syms as [|x syms [(len & back & H)|H]]; [right; intros ? ? []|left; exists len, back; now right|].
  destruct x as [d|len back]; [right|left; exists len, back; now left]. intros len back [E|E]; [discriminate|exact (H len back E)].
Qed.
Lemma back_triple T (next : nextf T N) s u pr caps fuel : delivers next s (u ++ u ++ u) -> caps_ok caps -> (length (u ++ u ++ u) < fuel)%nat ->
  (6 <= N.of_nat (length u) <= 32767)%N ->
  exists syms, text [] syms = u ++ u ++ u /\ (exists len back, In (LookBack len back) syms /\ (6 <= len)%N)
  /\ forall out, run_vec (zip_back_encode next pr caps fuel s) = Ok out -> out = concat (map symbol_bytes syms).
Proof.
  intros Hd Hc Hf Hu. destruct (back_follows _ next s (u ++ u ++ u) pr caps fuel Hd Hc Hf) as (syms & HP & HT & HO & HB). exists syms.
  split; [exact HT|]. split; [|exact HO]. destruct (has_lookback syms) as [(len & back & H)|H].
  - exists len, back. split; [exact H|]. apply in_split in H as (a & b & E). destruct (HB a len back b E) as (pos & _ & _ & _ & H6 & _). exact H6.
  - exfalso. destruct (power_between (length u)) as [i Hi]; [lia|]. set (l := u ++ u ++ u) in *.
    assert (Ll : length l = 3 * length u) by (unfold l; rewrite !app_length; lia).
    pose proof (tested _ _ _ _ _ HP eq_refl H (or_introl eq_refl) i ltac:(cbn; lia) ltac:(cbn [app]; lia)) as HN. cbn [app] in HN.
    set (t := 2 ^ S i) in *. specialize (HN (N.of_nat (t - length u))).
    assert (Lf : length (firstn t l) = t) by (rewrite firstn_length; lia).
    unfold in_window in HN. rewrite Lf in HN. unfold MAX_RING_BUFFER_SIZE in HN. specialize (HN ltac:(lia)). unfold match_at in HN.
    assert (K : 6 <= agree (skipn t l) (skipn (N.to_nat (N.of_nat (t - length u))) (firstn t l))); [|lia].
    rewrite Nat2N.id. apply firstn_agree; [|rewrite skipn_length; lia].
    assert (E1 : skipn t l = skipn (t - length u) (u ++ u)).
    { unfold l. rewrite skipn_app. rewrite (skipn_all2 u) by lia. reflexivity. }
    assert (E2 : skipn (t - length u) (firstn t l) = firstn (length u) (skipn (t - length u) l)).
    { rewrite skipn_firstn_comm. f_equal. lia. }
    rewrite E1, E2, firstn_firstn. replace (Nat.min 6 (length u)) with 6 by lia.
    unfold l. rewrite app_assoc, (skipn_app (t - length u) (u ++ u) u), firstn_app, skipn_length, app_length.
    replace (6 - (length u + length u - (t - length u))) with 0 by lia. cbn [firstn]. now rewrite app_nil_r.
Qed.

(** ** zip-dict: a pair repeated *)
Definition pairs (a b : N) (n : nat) : list N := concat (repeat [a; b] n).
Lemma pairs_length a b n : length (pairs a b n) = 2 * n.
Proof. unfold pairs. induction n as [|n IH]; [reflexivity|]. cbn [repeat concat app length]. rewrite IH. lia. Qed.
Lemma pairs_app a b m n : pairs a b (m + n) = pairs a b m ++ pairs a b n.
Proof. unfold pairs. now rewrite repeat_app, concat_app. Qed.
Lemma prefix_same {A} (p q l : list A) : prefix p l -> prefix q l -> length p = length q -> p = q.
Proof.
  intros [r ->] [r' E] HL. apply (f_equal (firstn (length p))) in E. rewrite HL in E at 2. rewrite !firstn_app, !Nat.sub_diag, !firstn_all in E.
  cbn [firstn] in E. now rewrite !app_nil_r in E.
Qed.
Definition paired (a b : N) (i : nat) : dictionary := initial_dict ++ map (fun j => pairs a b (2 ^ j)) (seq 0 i).
Lemma paired_length a b i : length (paired a b i) = 256 + i.
Proof. unfold paired. rewrite app_length, map_length, seq_length. reflexivity. Qed.
Lemma initial_length : length initial_dict = 256.
Proof. reflexivity. Qed.
Lemma initial_nth k : k < 256 -> nth_error initial_dict k = Some [N.of_nat k].
Proof.
  intros H. unfold initial_dict. rewrite nth_error_map, (nth_error_nth' _ 0) by (rewrite seq_length; lia). rewrite seq_nth by lia. reflexivity.
Qed.
Lemma paired_nth a b i k s : nth_error (paired a b i) k = Some s ->
  (k < 256 /\ s = [N.of_nat k]) \/ (exists j, j < i /\ k = 256 + j /\ s = pairs a b (2 ^ j)).
Proof.
  intros H. unfold paired in H. destruct (Nat.lt_ge_cases k 256) as [C|C].
  - rewrite nth_error_app1 in H by (rewrite initial_length; exact C). rewrite initial_nth in H by exact C. left. split; [exact C|congruence].
  - rewrite nth_error_app2 in H by (rewrite initial_length; exact C). rewrite initial_length, nth_error_map in H.
    destruct (nth_error (seq 0 i) (k - 256)) as [j|] eqn:E; [|discriminate]. cbn in H. injection H as <-. right.
    assert (Hk : k - 256 < i) by (rewrite <- (seq_length i 0); apply nth_error_Some; congruence).
    apply (nth_error_nth _ _ 0) in E. rewrite seq_nth in E by exact Hk. exists j. split; [lia|]. split; [lia|reflexivity].
Qed.
Lemma paired_in a b i j : j < i -> In (pairs a b (2 ^ j)) (paired a b i).
Proof. intros H. apply in_or_app. right. apply in_map_iff. exists j. split; [reflexivity|]. apply in_seq. lia. Qed.
Lemma paired_grow a b i : (N.of_nat (256 + i) < 65535)%N -> grow (paired a b i) (pairs a b (2 ^ i)) = paired a b (S i).
Proof.
  intros H. unfold grow. rewrite paired_length. destruct (N.ltb_spec (N.of_nat (256 + i)) 65535); [|lia].
  unfold paired. rewrite <- app_assoc. f_equal. rewrite seq_S, map_app. reflexivity.
Qed.
Lemma longest_start a b rest c s : u8_ok a -> longest (paired a b 0) (a :: rest) c s -> c = a /\ s = [a].
Proof.
  intros Ha (H1 & H2 & H3). destruct (paired_nth _ _ _ _ _ H1) as [[C ->]|(j & Hj & _)]; [|lia].
  destruct H2 as [r E]. injection E as E _. split; [lia|congruence].
Qed.
Lemma longest_pairs a b i m c s : longest (paired a b (S i)) (pairs a b m) c s -> 2 ^ i <= m -> c = N.of_nat (256 + i) /\ s = pairs a b (2 ^ i).
Proof.
  intros (H1 & H2 & H3) Hm.
  assert (P : prefix (pairs a b (2 ^ i)) (pairs a b m)) by (exists (pairs a b (m - 2 ^ i)); rewrite <- pairs_app; f_equal; lia).
  specialize (H3 _ (paired_in a b (S i) i ltac:(lia)) P). rewrite pairs_length in H3. pose proof (Nat.pow_nonzero 2 i ltac:(lia)).
  destruct (paired_nth _ _ _ _ _ H1) as [[C ->]|(j & Hj & Hk & ->)]; [cbn in H3; lia|]. rewrite pairs_length in H3.
  destruct (Nat.eq_dec j i) as [->|D]; [split; [lia|reflexivity]|].
  pose proof (Nat.pow_lt_mono_r 2 j i ltac:(lia) ltac:(lia)). lia.
Qed.
Fixpoint doubling (k i : nat) : list N := match k with O => [] | S k => N.of_nat (256 + i) :: N.of_nat (256 + i) :: doubling k (S i) end.
Lemma doubling_greedy a b k : forall i syms, (N.of_nat (256 + i + k) < 65535)%N -> greedy (paired a b (S i)) (pairs a b (2 ^ (i + S k) - 2 ^ S i)) syms -> syms = doubling k i.
Proof.
  induction k as [|k IH]; intros i syms HK HG.
  - replace (i + 1) with (S i) in HG by lia. rewrite Nat.sub_diag in HG. cbn [pairs repeat concat] in HG. unfold pairs in HG. cbn [repeat concat] in HG.
    inversion HG as [d E1 E2 E3|d r c HL HN E1 E2 E3|d c1 s1 c2 s2 r syms' HL1 HN1 HL2 HN2 HI HG' E1 E2 E3].
    + reflexivity.
    + contradiction.
    + destruct s1; [exfalso; congruence|discriminate].
  - set (m := 2 ^ (i + S (S k)) - 2 ^ S i) in *.
    assert (Hm : 2 ^ S i <= m).
    { unfold m. pose proof (Nat.pow_le_mono_r 2 (S (S i)) (i + S (S k)) ltac:(lia) ltac:(lia)). rewrite (Nat.pow_succ_r' 2 (S i)) in H. lia. }
    pose proof (Nat.pow_nonzero 2 i ltac:(lia)) as P0. rewrite Nat.pow_succ_r' in Hm.
    inversion HG as [d E1 E2 E3|d r c HL HN E1 E2 E3|d c1 s1 c2 s2 r syms' HL1 HN1 HL2 HN2 HI HG' E1 E2 E3].
    + exfalso. apply (f_equal (@length _)) in E2. rewrite pairs_length in E2. cbn in E2. lia.
    + exfalso. subst r. destruct (longest_pairs _ _ _ _ _ _ HL ltac:(lia)) as [_ E]. apply (f_equal (@length _)) in E. rewrite !pairs_length in E. lia.
    + rewrite E2 in HL1. destruct (longest_pairs _ _ _ _ _ _ HL1 ltac:(lia)) as [-> ->].
      assert (Er : s2 ++ r = pairs a b (m - 2 ^ i)).
      { apply (app_inv_head (pairs a b (2 ^ i))). rewrite E2, <- pairs_app. f_equal. lia. }
      rewrite Er in HL2. destruct (longest_pairs _ _ _ _ _ _ HL2 ltac:(lia)) as [-> ->].
      assert (Er2 : r = pairs a b (m - 2 ^ S i)).
      { apply (app_inv_head (pairs a b (2 ^ i))). rewrite Er, <- pairs_app. f_equal. rewrite Nat.pow_succ_r'. lia. }
      rewrite <- pairs_app in HG'. replace (2 ^ i + 2 ^ i) with (2 ^ S i) in HG' by (rewrite Nat.pow_succ_r'; lia).
      rewrite paired_grow in HG' by lia. cbn [doubling]. f_equal. f_equal. apply IH; [lia|]. rewrite Er2 in HG'.
      replace (2 ^ (S i + S k) - 2 ^ S (S i)) with (m - 2 ^ S i); [exact HG'|]. unfold m.
      replace (i + S (S k)) with (S i + S k) by lia. rewrite (Nat.pow_succ_r' 2 (S i)). lia.
Qed.
Lemma pairs_greedy a b k syms : u8_ok a -> u8_ok b -> (N.of_nat (256 + k) < 65535)%N -> greedy initial_dict (pairs a b (2 ^ S k - 1)) syms -> syms = a :: b :: doubling k 0.
Proof.
  intros Ha Hb HK HG. change initial_dict with (initial_dict ++ map (fun j => pairs a b (2 ^ j)) (seq 0 0)) in HG || idtac.
  assert (E0 : paired a b 0 = initial_dict) by (unfold paired; cbn [seq map]; apply app_nil_r).
  assert (HG0 : greedy (paired a b 0) (pairs a b (2 ^ S k - 1)) syms) by (rewrite E0; first [exact HG | rewrite app_nil_r in HG; exact HG]). clear HG.
  pose proof (Nat.pow_nonzero 2 k ltac:(lia)) as P0.
  set (m := 2 ^ S k - 1) in *. assert (Hm : 1 <= m) by (unfold m; rewrite Nat.pow_succ_r'; lia).
  assert (Ep : pairs a b m = a :: b :: pairs a b (m - 1)).
  { replace m with (1 + (m - 1)) at 1 by lia. now rewrite pairs_app. }
  inversion HG0 as [d E1 E2 E3|d r c HL HN E1 E2 E3|d c1 s1 c2 s2 r syms' HL1 HN1 HL2 HN2 HI HG' E1 E2 E3].
  - rewrite Ep in E2. discriminate.
  - exfalso. subst r. rewrite Ep in HL at 1. destruct (longest_start _ _ _ _ _ Ha HL) as [_ E]. rewrite Ep in E. discriminate.
  - rewrite E2, Ep in HL1. destruct (longest_start _ _ _ _ _ Ha HL1) as [-> ->]. rewrite Ep in E2. cbn [app] in E2. injection E2 as E2.
    rewrite E2 in HL2. assert (HL2' : longest (paired b a 0) (b :: pairs a b (m - 1)) c2 s2) by (unfold paired in *; exact HL2).
    destruct (longest_start _ _ _ _ _ Hb HL2') as [-> ->]. cbn [app] in E2. injection E2 as E2. f_equal. f_equal.
    change ([a] ++ [b]) with (pairs a b (2 ^ 0)) in HG'. rewrite paired_grow in HG' by lia. apply (doubling_greedy a b k 0); [lia|].
    rewrite E2 in HG'. replace (2 ^ (0 + S k) - 2 ^ 1) with (m - 1); [exact HG'|]. unfold m. cbn [Nat.add]. change (2 ^ 1) with 2. lia.
Qed.
Lemma doubling_map k i : doubling k i = flat_map (fun j => [N.of_nat (256 + j); N.of_nat (256 + j)]) (seq i k).
Proof. revert i. induction k as [|k IH]; intros i; [reflexivity|]. cbn [doubling seq flat_map app]. now rewrite IH. Qed.
Lemma dict_pairs T (next : nextf T N) s a b k fuel : let l := concat (repeat [a; b] (2 ^ S k - 1)) in
  delivers next s l -> u8_ok a -> u8_ok b -> (N.of_nat k < 65279)%N -> (length l < fuel)%nat ->
  run_vec (zip_dict_encode next fuel s)
  = Ok (words (a :: b :: flat_map (fun j => [N.of_nat (256 + j); N.of_nat (256 + j)]) (seq 0 k))).
Proof.
  intros l Hd Ha Hb Hk Hf. assert (H8 : Forall u8_ok l).
  { unfold l. apply Forall_concat. apply Forall_forall. intros x Hx. apply repeat_spec in Hx. subst x. repeat constructor; assumption. }
  destruct (dict_encodes T next s l fuel Hd H8 Hf) as (out & E & _). rewrite E. f_equal.
  destruct (dict_encode_out T next s l fuel out Hd H8 Hf E) as (syms & HG & ->). f_equal. rewrite <- doubling_map. apply pairs_greedy; [exact Ha|exact Hb|lia|exact HG].
Qed.

(** ** The worked example, and a long block twice *)
Lemma readme_back : exists l syms, text [] syms = l
  /\ syms = [Explicit [1; 1; 2; 2]; LookBack 2 3; LookBack 2 6]%N /\ l = [1; 1; 2; 2; 1; 2; 1; 1]%N
  /\ (forall pr, yields_all (bd_next list_next MAX_RING_BUFFER_SIZE pr) (zip_back_decode (concat (map symbol_bytes syms))) l)
  /\ (forall T (next : nextf T N) s pr caps fuel, delivers next s l -> caps_ok caps -> (length l < fuel)%nat ->
      run_vec (zip_back_encode next pr caps fuel s) <> Ok (concat (map symbol_bytes syms))).
Proof.
  exists [1; 1; 2; 2; 1; 2; 1; 1]%N, [Explicit [1; 1; 2; 2]; LookBack 2 3; LookBack 2 6]%N.
  split; [vm_compute; reflexivity|]. split; [reflexivity|]. split; [reflexivity|]. split.
  - intros pr. set (syms := [Explicit [1; 1; 2; 2]; LookBack 2 3; LookBack 2 6]%N).
    destruct (@decode_symbols (list N) list_next MAX_RING_BUFFER_SIZE eq_refl pr syms [] _ (concat (map symbol_bytes syms)) [] (ring_new _)) as [hist [H1 _]].
    + unfold syms, MAX_RING_BUFFER_SIZE. cbn. repeat split; try discriminate; lia.
    + unfold syms. repeat constructor; cbn; unfold u8_ok; lia.
    + unfold syms. cbn. reflexivity.
    + rewrite <- (app_nil_r (concat (map symbol_bytes syms))) at 1. apply yields_list.
    + do 2 eexists. split; [exact H1|]. apply decode_stop. reflexivity.
  - intros T next s pr caps fuel Hd Hc Hf. rewrite (back_one_literal T next s _ pr caps fuel Hd Hc Hf); [vm_compute; discriminate|discriminate|cbn; lia|].
    intros i j Hi Hj. cbn [length] in Hj. assert (i = 0) as -> by lia. assert (D : j = 6 \/ j = 7 \/ j = 8) by lia. lia.
Qed.
Definition twice : list N := map N.of_nat (seq 0 129) ++ map N.of_nat (seq 0 129).
Lemma twice_bytes : run_vec (zip_back_encode list_next Debug (fun _ => 16) 300 twice) = Ok (symbol_bytes (Explicit twice)).
Proof. vm_compute. reflexivity. Qed.
Lemma run_vec_ext {A} (m n : io A) : (forall w, m w = n w) -> run_vec m = run_vec n.
Proof. intros H. unfold run_vec. now rewrite H. Qed.
Lemma back_twice : exists u, length u = 129%nat /\ Forall u8_ok u
  /\ forall T (next : nextf T N) s pr caps fuel, delivers next s (u ++ u) -> caps_ok caps -> (length (u ++ u) < fuel)%nat ->
     run_vec (zip_back_encode next pr caps fuel s) = Ok (symbol_bytes (Explicit (u ++ u))).
Proof.
  exists (map N.of_nat (seq 0 129)). split; [reflexivity|]. split.
  { apply Forall_map, Forall_forall. intros x Hx. apply in_seq in Hx. unfold u8_ok. lia. }
  intros T next s pr caps fuel Hd Hc Hf. fold twice in *. rewrite <- twice_bytes. apply run_vec_ext. intros w.
  apply (back_independent T next s (list N) list_next twice twice); [exact Hd|apply list_delivers|exact Hc|intros i; lia|exact Hf|].
  apply Nat.ltb_lt. vm_compute. reflexivity.
Qed.
