(** * zip-back: inputs that do and do not abort. *)
From Verif Require Import Base Ser SerSpec SerProofs Bit BitSpec BitProofs Utils HufSpec UtilsProofs Dict DictSpec DictProofs DictEnc Back BackSpec BackProofs BackRing BackEnc BackDec.
From Coq Require Import ZifyBool ZifyNat ZifyN Sorted.
Set Implicit Arguments.

Lemma pow2_pos i : (1 <= 2 ^ i)%nat.
Proof. induction i; cbn; lia. Qed.
Lemma no_match_nil R h : no_match R h [].
Proof. intros q _. unfold match_at. cbn. lia. Qed.
Lemma no_match_fresh R h x rest : ~ In x h -> no_match R h (x :: rest).
Proof.
  intros H q _. unfold match_at. cbn [agree]. destruct (skipn (N.to_nat q) h) as [|y t] eqn:E; [lia|].
  destruct (N.eqb_spec x y) as [->|]; [|lia]. exfalso. apply H.
  rewrite <- (firstn_skipn (N.to_nat q) h), E. apply in_or_app. right. now left.
Qed.

(** ** One literal run for an input whose probes all see a fresh byte *)
Definition probe_byte (i : nat) : N :=
  let k := N.log2 (N.of_nat i) in if (2 ^ k =? N.of_nat i)%N then k else 0%N.
Definition fresh_probes (n : nat) : list N := map probe_byte (seq 0 n).
Lemma probe_pow k : probe_byte (2 ^ k) = N.of_nat k.
Proof.
  unfold probe_byte. replace (N.of_nat (2 ^ k)) with (2 ^ N.of_nat k)%N.
  - rewrite N.log2_pow2 by lia. now rewrite N.eqb_refl.
  - rewrite Nat2N.inj_pow. reflexivity.
Qed.
Lemma probe_inj i k : (1 <= k)%nat -> probe_byte i = N.of_nat k -> i = (2 ^ k)%nat.
Proof.
  unfold probe_byte. intros Hk. destruct (N.eqb_spec (2 ^ N.log2 (N.of_nat i)) (N.of_nat i)) as [E|E]; [|lia].
  intros E2. rewrite E2 in E. apply Nat2N.inj. rewrite <- E, Nat2N.inj_pow. reflexivity.
Qed.
Lemma fresh_skipn n k : (k < n)%nat -> skipn k (fresh_probes n) = probe_byte k :: skipn (S k) (fresh_probes n).
Proof.
  intros H. unfold fresh_probes. destruct (@skipn_cons_nth _ (map probe_byte (seq 0 n)) k) as [y Ey].
  { rewrite map_length, seq_length. exact H. }
  rewrite Ey. f_equal. apply (f_equal (hd 0%N)) in Ey. cbn [hd] in Ey. rewrite <- Ey.
  rewrite skipn_map. assert (EQ : skipn k (seq 0 n) = seq k (n - k)).
  { replace n with (k + (n - k))%nat at 1 by lia. rewrite seq_app, skipn_app, seq_length, Nat.sub_diag.
    rewrite skipn_all2 by (rewrite seq_length; lia). reflexivity. }
  rewrite EQ. destruct (n - k)%nat eqn:E; [lia|]. reflexivity.
Qed.
Lemma fresh_length n : length (fresh_probes n) = n.
Proof. unfold fresh_probes. now rewrite map_length, seq_length. Qed.

Lemma fresh_parses R K : forall d k, (k + d = K)%nat -> (1 <= k)%nat ->
  let l := fresh_probes (2 ^ K) in
  parses R (firstn (2 ^ k) l) (firstn (2 ^ k) l) (skipn (2 ^ k) l) [Explicit l].
Proof.
  induction d as [|d IH]; intros k Hk H1 l.
  - assert (k = K) as -> by lia. assert (HL := fresh_length (2 ^ K)). fold l in HL.
    rewrite firstn_all2, skipn_all2 by lia. replace [Explicit l] with (literal (l ++ [])).
    + apply parses_last; [apply no_match_nil|]. cbn [length]. unfold grow_by. lia.
    + rewrite app_nil_r. pose proof (pow2_pos K). destruct l; [cbn in HL; lia|reflexivity].
  - assert (HP : (2 ^ k + 2 ^ k <= 2 ^ K)%nat).
    { replace (2 ^ k + 2 ^ k)%nat with (2 ^ S k)%nat by (cbn; lia). apply Nat.pow_le_mono_r; lia. }
    pose proof (pow2_pos k). assert (HL := fresh_length (2 ^ K)). fold l in HL.
    assert (G : grow_by (firstn (2 ^ k) l) = (2 ^ k)%nat).
    { unfold grow_by. rewrite firstn_length. destruct k as [|k]; [lia|]. pose proof (pow2_pos k). cbn [Nat.pow] in *. lia. }
    apply parses_more.
    + subst l. rewrite fresh_skipn by lia. rewrite probe_pow. apply no_match_fresh.
      intros Hin. unfold fresh_probes in Hin. rewrite firstn_map in Hin. apply in_map_iff in Hin as [i [E Hi]].
      apply probe_inj in E; [|lia]. subst i.
      assert (EQ : firstn (2 ^ k) (seq 0 (2 ^ K)) = seq 0 (2 ^ k)).
      { replace (2 ^ K)%nat with (2 ^ k + (2 ^ K - 2 ^ k))%nat by lia. rewrite seq_app, firstn_app, seq_length, Nat.sub_diag.
        rewrite firstn_all2 by (rewrite seq_length; lia). cbn. apply app_nil_r. }
      rewrite EQ in Hi. apply in_seq in Hi. lia.
    + rewrite G, skipn_length. lia.
    + rewrite G. assert (E1 : firstn (2 ^ k) l ++ firstn (2 ^ k) (skipn (2 ^ k) l) = firstn (2 ^ S k) l).
      { replace (2 ^ S k)%nat with (2 ^ k + 2 ^ k)%nat by (cbn; lia).
        rewrite <- (firstn_skipn (2 ^ k) l) at 3. rewrite firstn_app, firstn_firstn, firstn_length.
        replace (Nat.min (2 ^ k + 2 ^ k) (2 ^ k)) with (2 ^ k)%nat by lia. f_equal. f_equal. lia. }
      rewrite E1. rewrite skipn_skipn'. replace (2 ^ k + 2 ^ k)%nat with (2 ^ S k)%nat by (cbn; lia).
      apply IH; lia.
Qed.
Lemma fresh_parses_start R K : (1 <= K)%nat -> parses R [] [] (fresh_probes (2 ^ K)) [Explicit (fresh_probes (2 ^ K))].
Proof.
  intros HK. apply parses_more.
  - intros q [_ H]. cbn in H. lia.
  - rewrite fresh_length. cbn. destruct K as [|K]; [lia|]. pose proof (pow2_pos K). cbn. lia.
  - cbn [app grow_by length Nat.max]. apply (@fresh_parses R K (K - 1) 1); lia.
Qed.
Lemma fresh_bytes K : (K <= 255)%nat -> Forall u8_ok (fresh_probes (2 ^ K)).
Proof.
  intros HK. unfold fresh_probes. apply Forall_map, Forall_forall. intros i Hi%in_seq. unfold probe_byte, u8_ok.
  destruct (N.eqb_spec (2 ^ N.log2 (N.of_nat i)) (N.of_nat i)); [|lia].
  destruct (N.eq_dec (N.of_nat i) 0) as [E|E]; [rewrite E; cbn; lia|].
  assert (N.log2 (N.of_nat i) <= N.log2 (2 ^ N.of_nat K))%N.
  { apply N.log2_le_mono. change 2%N with (N.of_nat 2). rewrite <- Nat2N.inj_pow. lia. }
  rewrite N.log2_pow2 in H by lia. lia.
Qed.

(** ** Constant inputs *)
Lemma repeat_skipn {X} (x : X) : forall k n, skipn k (repeat x n) = repeat x (n - k).
Proof. induction k as [|k IH]; intros [|n]; cbn; try reflexivity. apply IH. Qed.
Lemma repeat_firstn {X} (x : X) : forall k n, firstn k (repeat x n) = repeat x (Nat.min k n).
Proof. induction k as [|k IH]; intros [|n]; cbn; try reflexivity. now rewrite IH. Qed.
Lemma agree_repeat b : forall n m, agree (repeat b n) (repeat b m) = Nat.min n m.
Proof. induction n as [|n IH]; intros [|m]; cbn; try reflexivity. rewrite N.eqb_refl, IH. reflexivity. Qed.
Lemma const_match b p n q : match_at (repeat b p) (repeat b n) q = N.min (N.of_nat n) (N.of_nat p - q).
Proof. unfold match_at. rewrite repeat_skipn, agree_repeat. lia. Qed.
Lemma const_best R b p n : (6 <= p)%nat -> (p <= n)%nat -> (N.of_nat p <= R)%N ->
  best_match R (repeat b p) (repeat b n) (N.of_nat p) (N.of_nat p).
Proof.
  intros H6 Hn HR. exists 0%N. unfold in_window. rewrite repeat_length.
  split; [lia|]. split; [lia|]. split; [rewrite const_match; lia|]. split; [lia|].
  split; intros q Hq; [|intros]; try rewrite const_match; lia.
Qed.
Lemma parses_best_inv R h lits rest syms len back : parses R h lits rest syms -> best_match R h rest len back ->
  exists syms', syms = literal lits ++ LookBack len back :: syms' /\
    parses R (h ++ firstn (N.to_nat len) rest) [] (skipn (N.to_nat len) rest) syms'.
Proof.
  intros H Hb. inversion H; subst.
  - destruct (best_unique Hb H0) as [-> ->]. eexists; split; [reflexivity|assumption].
  - exfalso. eapply best_no; eassumption.
  - exfalso. eapply best_no; eassumption.
Qed.
Lemma parses_more_inv R h lits rest syms : parses R h lits rest syms -> no_match R h rest -> (grow_by lits <= length rest)%nat ->
  parses R (h ++ firstn (grow_by lits) rest) (lits ++ firstn (grow_by lits) rest) (skipn (grow_by lits) rest) syms.
Proof.
  intros H Hn Hg. inversion H; subst.
  - exfalso. eapply best_no; eassumption.
  - assumption.
  - lia.
Qed.
Lemma const_step R b p n lits syms : parses R (repeat b p) lits (repeat b n) syms ->
  (6 <= p)%nat -> (p <= n)%nat -> (N.of_nat p <= R)%N ->
  exists syms', syms = literal lits ++ LookBack (N.of_nat p) (N.of_nat p) :: syms' /\
    parses R (repeat b (p + p)) [] (repeat b (n - p)) syms'.
Proof.
  intros H H6 Hn HR. destruct (parses_best_inv H (const_best b H6 Hn HR)) as [syms' [-> H']].
  exists syms'. split; [reflexivity|]. rewrite Nat2N.id, repeat_skipn, repeat_firstn, <- repeat_app in H'.
  replace (Nat.min p n) with p in H' by lia. exact H'.
Qed.
Lemma const_grow R b p n lits syms : parses R (repeat b p) lits (repeat b n) syms -> (p < 6)%nat -> (grow_by lits <= n)%nat ->
  parses R (repeat b (p + grow_by lits)) (lits ++ repeat b (grow_by lits)) (repeat b (n - grow_by lits)) syms.
Proof.
  intros H Hp Hg. apply parses_more_inv in H; [|intros q Hq; rewrite const_match; lia|rewrite repeat_length; exact Hg].
  rewrite repeat_firstn, repeat_skipn, <- repeat_app in H. replace (Nat.min (grow_by lits) n) with (grow_by lits) in H by lia.
  exact H.
Qed.

(** from a run of [2^j] bytes, [2^j] more, ... up to [2^K] *)
Lemma const_run R b n K : (N.of_nat (2 ^ K) <= R)%N -> (2 ^ K <= n)%nat ->
  forall d j lits syms, (j + d = K)%nat -> (3 <= j)%nat ->
  parses R (repeat b (2 ^ j)) lits (repeat b (2 ^ K + n - 2 ^ j)) syms ->
  exists back, In (LookBack (N.of_nat (2 ^ K)) back) syms.
Proof.
  intros HR Hn. induction d as [|d IH]; intros j lits syms Hj H3 H.
  - assert (j = K) as -> by lia.
    assert (H8 : (2 ^ 3 <= 2 ^ K)%nat) by (apply Nat.pow_le_mono_r; lia). cbn in H8.
    destruct (@const_step R b _ _ _ _ H) as [syms' [-> _]]; [lia|lia|exact HR|].
    eexists. apply in_or_app. right. left. reflexivity.
  - assert (H8 : (2 ^ 3 <= 2 ^ j)%nat) by (apply Nat.pow_le_mono_r; lia).
    assert (HJ : (2 ^ S j <= 2 ^ K)%nat) by (apply Nat.pow_le_mono_r; lia). cbn [Nat.pow] in H8, HJ.
    destruct (@const_step R b _ _ _ _ H) as [syms' [-> H']]; [lia|lia|lia|].
    replace (2 ^ j + 2 ^ j)%nat with (2 ^ S j)%nat in H' by (cbn; lia).
    replace (2 ^ K + n - 2 ^ j - 2 ^ j)%nat with (2 ^ K + n - 2 ^ S j)%nat in H' by (cbn [Nat.pow]; lia).
    destruct (IH (S j) [] syms') as [back Hin]; [lia|lia|exact H'|].
    exists back. apply in_or_app. right. right. exact Hin.
Qed.
Lemma const_parses R b n K syms : (3 <= K)%nat -> (N.of_nat (2 ^ K) <= R)%N -> (2 ^ K <= n)%nat ->
  parses R [] [] (repeat b (2 ^ K + n)) syms -> exists back, In (LookBack (N.of_nat (2 ^ K)) back) syms.
Proof.
  intros HK HR Hn H.
  assert (H8 : (2 ^ 3 <= 2 ^ K)%nat) by (apply Nat.pow_le_mono_r; lia). cbn in H8.
  change ([] : list N) with (repeat b 0) in H at 1. apply const_grow in H; [|lia|cbn; lia].
  change (grow_by []) with 2%nat in H. cbn [app Nat.add] in H.
  apply const_grow in H; [|lia|cbn; lia]. change (grow_by (repeat b 2)) with 2%nat in H.
  rewrite <- repeat_app in H. cbn [Nat.add] in H.
  apply const_grow in H; [|lia|cbn; lia]. change (grow_by (repeat b 4)) with 4%nat in H.
  rewrite <- repeat_app in H. cbn [Nat.add] in H.
  replace (2 ^ K + n - 2 - 2 - 4)%nat with (2 ^ K + n - 2 ^ 3)%nat in H by (cbn; lia).
  change 8%nat with (2 ^ 3)%nat in H. apply (@const_run R b n K HR Hn (K - 3) 3) in H; [exact H|lia|lia].
Qed.

(** ** Images *)
Lemma pixels_length px : length (concat (map pixel_bytes px)) = (11 * length px)%nat.
Proof. induction px as [|[[r g] b] px IH]; [reflexivity|]. cbn [map concat]. rewrite app_length, IH. cbn. lia. Qed.
Lemma image_length w h px : length (image_bytes w h px) = (8 + 11 * length px)%nat.
Proof. unfold image_bytes. rewrite !app_length, pixels_length. reflexivity. Qed.
Lemma pixels_skipn px : forall k, skipn (11 * k) (concat (map pixel_bytes px)) = concat (map pixel_bytes (skipn k px)).
Proof.
  induction px as [|[[r g] b] px IH]; intros [|k]; [reflexivity| |reflexivity|].
  - cbn [map concat]. now rewrite skipn_nil.
  - cbn [map concat]. replace (11 * S k)%nat with (11 + 11 * k)%nat by lia. rewrite <- skipn_skipn'.
    cbn [pixel_bytes app skipn]. apply IH.
Qed.
Lemma image_skipn w h px k : skipn (8 + 11 * k) (image_bytes w h px) = concat (map pixel_bytes (skipn k px)).
Proof.
  unfold image_bytes. rewrite <- skipn_skipn'. rewrite <- pixels_skipn. reflexivity.
Qed.
Lemma image_zeros w h px p : (9 <= p)%nat -> (p < length (image_bytes w h px))%nat -> (p mod 11 = 9 \/ p mod 11 = 10)%nat ->
  firstn 6 (skipn p (image_bytes w h px)) = repeat 0%N 6.
Proof.
  intros H9 Hp Hm. rewrite image_length in Hp.
  pose proof (Nat.div_mod p 11 ltac:(lia)) as HD.
  assert (E : exists k d, p = (8 + 11 * k + d)%nat /\ (d = 1 \/ d = 2)%nat /\ (k < length px)%nat).
  { exists (p / 11)%nat, (p mod 11 - 8)%nat. lia. }
  destruct E as (k & d & -> & Hd & Hk). rewrite <- skipn_skipn', image_skipn.
  destruct (@skipn_cons_nth _ px k Hk) as [[[r g] b] ->]. cbn [map concat pixel_bytes app].
  destruct Hd as [-> | ->]; reflexivity.
Qed.

Definition hit (p : nat) : Prop := (20 <= p)%nat /\ (p mod 11 = 9 \/ p mod 11 = 10)%nat.
Lemma hit_match R w h px p : (11 <= R)%N -> hit p -> (p < length (image_bytes w h px))%nat ->
  ~ no_match R (firstn p (image_bytes w h px)) (skipn p (image_bytes w h px)).
Proof.
  intros HR [H20 Hm] Hp Hn. set (s := image_bytes w h px) in *.
  assert (LF : length (firstn p s) = p) by (rewrite firstn_length; lia).
  specialize (Hn (N.of_nat (p - 11))). unfold in_window in Hn. rewrite LF in Hn. specialize (Hn ltac:(lia)).
  unfold match_at in Hn. rewrite Nat2N.id in Hn.
  assert (6 <= agree (skipn p s) (skipn (p - 11) (firstn p s)))%nat; [|lia].
  assert (Z1 : firstn 6 (skipn p s) = repeat 0%N 6) by (apply image_zeros; [lia|exact Hp|exact Hm]).
  assert (Z2 : firstn 6 (skipn (p - 11) s) = repeat 0%N 6).
  { apply image_zeros; [lia|fold s; lia|]. replace p with ((p - 11) + 1 * 11)%nat in Hm by lia.
    rewrite Nat.mod_add in Hm by lia. exact Hm. }
  apply agree_prefix. split; [|split].
  - apply (f_equal (@length N)) in Z1. rewrite firstn_length in Z1. cbn [repeat length] in Z1. lia.
  - rewrite skipn_length. lia.
  - rewrite Z1, <- Z2. rewrite skipn_firstn_comm. rewrite firstn_firstn. f_equal. lia.
Qed.
Lemma hit_within p0 : p0 = O \/ (12 <= p0)%nat -> exists i, (1 <= i <= 10)%nat /\ hit (p0 + 2 ^ i).
Proof.
  intros H.
  assert (P : forall i v, (2 ^ i = v)%nat -> (20 <= p0 + v)%nat -> (1 <= i <= 10)%nat ->
              ((p0 + v) mod 11 = 9 \/ (p0 + v) mod 11 = 10)%nat -> exists i, (1 <= i <= 10)%nat /\ hit (p0 + 2 ^ i)).
  { intros i v <- H1 H2 H3. exists i. split; [exact H2|]. split; assumption. }
  destruct H as [->|H]; [apply (P 6%nat 64%nat); [reflexivity|lia|lia|left; reflexivity]|].
  pose proof (Nat.div_mod p0 11 ltac:(lia)) as HD. pose proof (Nat.mod_upper_bound p0 11 ltac:(lia)) as HB.
  assert (M : forall v c, (20 <= p0 + v)%nat -> ((p0 mod 11 + v) = 11 * c + 9 \/ (p0 mod 11 + v) = 11 * c + 10)%nat ->
     ((p0 + v) mod 11 = 9 \/ (p0 + v) mod 11 = 10)%nat).
  { intros v c _ [E|E]; [left|right]; symmetry; eapply (Nat.mod_unique _ _ (p0 / 11 + c)); lia. }
  set (q := (p0 / 11)%nat) in *. set (r := (p0 mod 11)%nat) in *. clearbody q r.
  destruct r as [|[|[|[|[|[|[|[|[|[|[|r]]]]]]]]]]].
  - apply (P 6%nat 64%nat); [reflexivity|lia|lia|apply (M _ 5%nat); lia].
  - apply (P 3%nat 8%nat); [reflexivity|lia|lia|apply (M _ 0%nat); lia].
  - apply (P 3%nat 8%nat); [reflexivity|lia|lia|apply (M _ 0%nat); lia].
  - apply (P 7%nat 128%nat); [reflexivity|lia|lia|apply (M _ 11%nat); lia].
  - apply (P 4%nat 16%nat); [reflexivity|lia|lia|apply (M _ 1%nat); lia].
  - apply (P 2%nat 4%nat); [reflexivity|lia|lia|apply (M _ 0%nat); lia].
  - apply (P 2%nat 4%nat); [reflexivity|lia|lia|apply (M _ 0%nat); lia].
  - apply (P 1%nat 2%nat); [reflexivity|lia|lia|apply (M _ 0%nat); lia].
  - apply (P 1%nat 2%nat); [reflexivity|lia|lia|apply (M _ 0%nat); lia].
  - apply (P 10%nat 1024%nat); [reflexivity|lia|lia|apply (M _ 93%nat); lia].
  - apply (P 5%nat 32%nat); [reflexivity|lia|lia|apply (M _ 3%nat); lia].
  - lia.
Qed.

Definition short_literal (s : symbol) : Prop := match s with Explicit data => (length data < 2048)%nat | LookBack _ _ => True end.

Lemma image_runs R w h px : (11 <= R)%N -> forall hist lits rest syms, parses R hist lits rest syms ->
  hist ++ rest = image_bytes w h px ->
  forall p0, length hist = (p0 + length lits)%nat -> (p0 = O \/ (12 <= p0)%nat) ->
  (lits = [] \/ exists i, (1 <= i <= 10)%nat /\ length lits = (2 ^ i)%nat /\ forall j, (1 <= j < i)%nat -> ~ hit (p0 + 2 ^ j)) ->
  Forall short_literal syms.
Proof.
  intros HR. assert (H10 : (2 ^ 10 = 1024)%nat) by reflexivity.
  assert (HLs : forall lits : list N, (lits = [] \/ exists i, (1 <= i <= 10)%nat /\ length lits = (2 ^ i)%nat /\ True) -> (length lits <= 1024)%nat).
  { intros lits [->|(i & Hi & -> & _)]; [cbn; lia|]. rewrite <- H10. apply Nat.pow_le_mono_r; lia. }
  induction 1 as [hist lits rest len back syms Hb _ IH|hist lits rest syms Hn Hg _ IH|hist lits rest Hn Hg];
    intros Es p0 Hp0 Hp12 Hl.
  - pose proof (best_len Hb) as (B1 & B2 & B3). apply Forall_app. split.
    + destruct lits as [|x lits]; [constructor|]. constructor; [|constructor]. cbn [short_literal].
      assert (length (x :: lits) <= 1024)%nat; [|lia]. apply HLs. destruct Hl as [?|(i & ? & ? & _)]; [now left|right; eauto].
    + constructor; [exact I|].
      assert (LF : length (firstn (N.to_nat len) rest) = N.to_nat len) by (rewrite firstn_length; lia).
      apply (IH) with (p0 := (length hist + N.to_nat len)%nat).
      * rewrite <- app_assoc, firstn_skipn. exact Es.
      * rewrite app_length, LF. cbn. lia.
      * lia.
      * now left.
  - assert (LF : length (firstn (grow_by lits) rest) = grow_by lits) by (rewrite firstn_length; lia).
    assert (NH : ~ hit (length hist)).
    { intros Hh. apply (@hit_match R w h px (length hist) HR Hh).
      - rewrite <- Es, app_length. unfold grow_by in Hg. lia.
      - rewrite <- Es. rewrite firstn_app_l, firstn_all, skipn_app_l, skipn_all by lia. exact Hn. }
    apply IH with (p0 := p0).
    + rewrite <- app_assoc, firstn_skipn. exact Es.
    + rewrite !app_length, LF. lia.
    + exact Hp12.
    + right. destruct Hl as [->|(i & Hi & Hlen & Hj)].
      * exists 1%nat. split; [lia|]. split; [rewrite app_length, LF; reflexivity|]. intros j Hj. lia.
      * assert (HJ : forall j, (1 <= j < S i)%nat -> ~ hit (p0 + 2 ^ j)).
        { intros j H. destruct (Nat.eq_dec j i) as [->|]; [|apply Hj; lia]. rewrite <- Hlen, <- Hp0. exact NH. }
        destruct (Nat.eq_dec i 10) as [->|Hne].
        { exfalso. destruct (hit_within Hp12) as (k & Hk & Hh). apply (HJ k); [lia|exact Hh]. }
        exists (S i). split; [lia|]. split; [|exact HJ]. rewrite app_length, LF. unfold grow_by. rewrite Hlen.
        pose proof (pow2_pos (i - 1)). replace i with (S (i - 1)) by lia. cbn [Nat.pow]. lia.
  - destruct (lits ++ rest) as [|x t] eqn:E; [constructor|]. constructor; [|constructor]. cbn [short_literal].
    rewrite <- E, app_length.
    assert (length lits <= 1024)%nat by (apply HLs; destruct Hl as [?|(i & ? & ? & _)]; [now left|right; eauto]).
    unfold grow_by in Hg. lia.
Qed.

(** one colour: the stream repeats itself every 11 bytes *)
Lemma one_colour_skipn w h c n p : (8 <= p)%nat ->
  let s := image_bytes w h (repeat c n) in
  skipn (p + 11) s = firstn (length s - (p + 11)) (skipn p s).
Proof.
  intros H8 s. assert (HL : length s = (8 + 11 * n)%nat) by (unfold s; rewrite image_length, repeat_length; reflexivity).
  replace p with (8 + (p - 8))%nat by lia. set (d := (p - 8)%nat).
  assert (E8 : forall m, skipn 8 (image_bytes w h (repeat c m)) = concat (map pixel_bytes (repeat c m))).
  { intros m. change 8%nat with (8 + 11 * 0)%nat. now rewrite image_skipn. }
  assert (ES : forall m, skipn (8 + m) s = skipn m (concat (map pixel_bytes (repeat c n)))).
  { intros m. rewrite <- skipn_skipn'. unfold s. now rewrite E8. }
  replace (8 + d + 11)%nat with (8 + (11 + d))%nat by lia. rewrite !ES. clearbody s.
  destruct (Nat.le_gt_cases n 0) as [C|C].
  { assert (n = 0)%nat as -> by lia. cbn [repeat map concat]. now rewrite !skipn_nil, firstn_nil. }
  assert (E1 : forall m, skipn 11 (concat (map pixel_bytes (repeat c (S m)))) = concat (map pixel_bytes (repeat c m))).
  { intros m. destruct c as [[r g] b]. reflexivity. }
  assert (E2 : forall m, concat (map pixel_bytes (repeat c (S m))) = concat (map pixel_bytes (repeat c m)) ++ pixel_bytes c).
  { intros m. rewrite <- Nat.add_1_r, repeat_app, map_app, concat_app. cbn [repeat map concat]. now rewrite app_nil_r. }
  destruct n as [|n]; [lia|].
  rewrite <- skipn_skipn', E1, E2.
  set (t := concat (map pixel_bytes (repeat c n))).
  assert (Ht : length t = (11 * n)%nat) by (unfold t; rewrite pixels_length, repeat_length; reflexivity).
  assert (Hc : length (pixel_bytes c) = 11%nat) by (destruct c as [[? ?] ?]; reflexivity).
  rewrite HL. rewrite skipn_app, firstn_app, skipn_length.
  destruct (Nat.le_gt_cases d (length t)) as [D|D].
  - replace (8 + 11 * S n - (8 + (11 + d)) - (length t - d))%nat with O by lia. cbn [firstn]. rewrite app_nil_r.
    symmetry. apply firstn_all2. rewrite skipn_length. lia.
  - rewrite (skipn_all2 t) by lia. rewrite firstn_nil. cbn [app].
    replace (8 + 11 * S n - (8 + (11 + d)) - (length t - d))%nat with O by lia. reflexivity.
Qed.
Lemma one_colour_shift w h c n k : forall p, (8 <= p)%nat ->
  let s := image_bytes w h (repeat c n) in
  skipn (p + 11 * k) s = firstn (length s - (p + 11 * k)) (skipn p s).
Proof.
  induction k as [|k IH]; intros p H8 s.
  - rewrite Nat.mul_0_r, Nat.add_0_r. symmetry. apply firstn_all2. rewrite skipn_length. lia.
  - replace (p + 11 * S k)%nat with ((p + 11) + 11 * k)%nat by lia.
    pose proof (IH (p + 11)%nat ltac:(lia)) as H. fold s in H. cbn zeta in H. rewrite H.
    pose proof (@one_colour_skipn w h c n p H8) as H2. fold s in H2. cbn zeta in H2. rewrite H2.
    rewrite firstn_firstn. f_equal. lia.
Qed.
(** how long a match is guaranteed at position [p] *)
Lemma one_colour_match R w h c n p : (11 <= R)%N ->
  let s := image_bytes w h (repeat c n) in (19 <= p)%nat -> (p <= length s)%nat ->
  exists q, in_window R (firstn p s) q /\
    (N.of_nat (Nat.min (length s - p) (Nat.max 11 (Nat.min (p - 18) (N.to_nat R - 10)))) <= match_at (firstn p s) (skipn p s) q)%N.
Proof.
  intros HR s H19 Hp.
  assert (LF : length (firstn p s) = p) by (rewrite firstn_length; lia).
  assert (Q : exists q k, p = (q + 11 * k)%nat /\ (8 <= q)%nat /\ (p - N.to_nat R <= q)%nat /\ (1 <= k)%nat
              /\ (Nat.max 11 (Nat.min (p - 18) (N.to_nat R - 10)) <= p - q)%nat).
  { set (m := Nat.min (p - 8) (N.to_nat R)).
    pose proof (Nat.div_mod m 11 ltac:(lia)) as HD. pose proof (Nat.mod_upper_bound m 11 ltac:(lia)).
    assert (1 <= m / 11)%nat by (apply Nat.div_le_lower_bound; lia).
    exists (p - 11 * (m / 11))%nat, (m / 11)%nat. lia. }
  destruct Q as (q & k & Ep & Q8 & QR & Qk & Qm).
  exists (N.of_nat q). split; [unfold in_window; rewrite LF; lia|].
  unfold match_at. rewrite Nat2N.id.
  set (len := Nat.min (length s - p) (Nat.max 11 (Nat.min (p - 18) (N.to_nat R - 10)))) in *.
  assert (len <= agree (skipn p s) (skipn q (firstn p s)))%nat; [|lia].
  apply agree_prefix. split; [rewrite skipn_length; lia|]. split; [rewrite skipn_length; lia|].
  pose proof (@one_colour_shift w h c n k q Q8) as HS. fold s in HS. cbn zeta in HS. rewrite <- Ep in HS.
  rewrite HS, skipn_firstn_comm, !firstn_firstn. f_equal. lia.
Qed.

Lemma one_colour_long R w h c n : (65535 <= R)%N -> let s := image_bytes w h (repeat c n) in
  (N.to_nat 98320 <= length s)%nat ->
  forall hist lits rest syms, parses R hist lits rest syms -> hist ++ rest = s ->
  (length lits <= length hist)%nat -> (length hist <= N.to_nat 65552)%nat ->
  Exists (fun x => 32767 < symbol_len x)%N syms.
Proof.
  intros HR s HL.
  induction 1 as [hist lits rest len back syms Hb _ IH|hist lits rest syms Hn Hg _ IH|hist lits rest Hn Hg]; intros Es Hl Hh.
  all: assert (LS : length s = (length hist + length rest)%nat) by (rewrite <- Es; apply app_length).
  all: assert (EF : firstn (length hist) s = hist) by (rewrite <- Es, firstn_app_l, firstn_all by lia; reflexivity).
  all: assert (EK : skipn (length hist) s = rest) by (rewrite <- Es, skipn_app_l, skipn_all by lia; reflexivity).
  all: pose proof (@one_colour_match R w h c n (length hist) ltac:(lia)) as HM; fold s in HM; cbn zeta in HM; rewrite EF, EK in HM.
  - pose proof (best_len Hb) as (B1 & B2 & B3). apply Exists_app. right.
    destruct (N.lt_ge_cases 32767 len) as [C|C]; [now apply Exists_cons_hd|].
    apply Exists_cons_tl. apply IH.
    + rewrite <- app_assoc, firstn_skipn. exact Es.
    + cbn. lia.
    + rewrite app_length, firstn_length. destruct (Nat.lt_ge_cases (length hist) (N.to_nat 32786)) as [D|D]; [lia|].
      exfalso. destruct (HM ltac:(lia) ltac:(lia)) as (q & Wq & Hq).
      destruct Hb as (pos & _ & _ & -> & _ & Hmax & _). specialize (Hmax q Wq). lia.
  - destruct (Nat.lt_ge_cases (length hist) 19) as [D|D].
    + apply IH.
      * rewrite <- app_assoc, firstn_skipn. exact Es.
      * rewrite !app_length. lia.
      * rewrite app_length, firstn_length. unfold grow_by in *. lia.
    + exfalso. destruct (HM D ltac:(lia)) as (q & Wq & Hq). specialize (Hn q Wq).
      lia.
  - exfalso. unfold grow_by in Hg. destruct (HM ltac:(lia) ltac:(lia)) as (q & Wq & Hq). specialize (Hn q Wq). lia.
Qed.

Unset Implicit Arguments.
Opaque MAX_RING_BUFFER_SIZE.
Lemma max_eq : MAX_RING_BUFFER_SIZE = 65535%N. Proof. reflexivity. Qed.
Lemma pow15 : (2 ^ 15)%nat = N.to_nat 32768.
Proof. change (2 ^ 15)%nat with (N.to_nat 2 ^ N.to_nat 15)%nat. rewrite <- N2Nat.inj_pow. reflexivity. Qed.

Lemma back_aborts_with T (next : nextf T N) s l pr caps fuel syms x : delivers next s l -> caps_ok caps -> (length l < fuel)%nat ->
  parses MAX_RING_BUFFER_SIZE [] [] l syms -> In x syms -> (32767 < symbol_len x)%N ->
  run_vec (zip_back_encode next pr caps fuel s) = Panic.
Proof.
  intros Hd Hc Hf Hp Hx Hl. destruct (back_abort T next s l pr caps fuel Hd Hc Hf) as (syms' & Hp' & _ & H).
  apply H. exists x. rewrite (parses_fun Hp' Hp). auto.
Qed.

Lemma back_abort_witness : exists l, N.of_nat (length l) = 32768%N /\ Forall u8_ok l /\
  forall T (next : nextf T N) s pr caps fuel, delivers next s l -> caps_ok caps -> (length l < fuel)%nat ->
  run_vec (zip_back_encode next pr caps fuel s) = Panic.
Proof.
  exists (fresh_probes (2 ^ 15)). assert (HL := fresh_length (2 ^ 15)). rewrite pow15 in HL at 2.
  split; [lia|]. split; [apply fresh_bytes; lia|]. intros T next s pr caps fuel Hd Hc Hf.
  eapply back_aborts_with; [exact Hd|exact Hc|exact Hf|apply fresh_parses_start; lia|now left|]. cbn [symbol_len]. lia.
Qed.

Lemma back_constant T (next : nextf T N) s b n pr caps fuel : delivers next s (repeat b n) -> (65536 <= N.of_nat n)%N ->
  caps_ok caps -> (n < fuel)%nat -> run_vec (zip_back_encode next pr caps fuel s) = Panic.
Proof.
  intros Hd Hn Hc Hf. assert (Hf' : (length (repeat b n) < fuel)%nat) by now rewrite repeat_length.
  destruct (back_spec T next s (repeat b n) pr caps fuel Hd Hc Hf') as (syms & Hp & _). pose proof pow15 as H15.
  replace n with (2 ^ 15 + (n - 2 ^ 15))%nat in Hp by lia.
  destruct (fun H1 H2 H3 => @const_parses MAX_RING_BUFFER_SIZE b (n - 2 ^ 15)%nat 15 syms H1 H2 H3 Hp) as [back Hin].
  - lia.
  - rewrite max_eq, H15. lia.
  - lia.
  - replace (2 ^ 15 + (n - 2 ^ 15))%nat with n in Hp by lia.
    eapply back_aborts_with; [exact Hd|exact Hc|exact Hf'|exact Hp|exact Hin|]. cbn [symbol_len]. rewrite H15. lia.
Qed.

Lemma back_image_runs w h px syms : parses MAX_RING_BUFFER_SIZE [] [] (image_bytes w h px) syms ->
  forall data, In (Explicit data) syms -> (length data < 2048)%nat.
Proof.
  intros Hp data Hin.
  assert (HF : Forall short_literal syms).
  { apply (@image_runs MAX_RING_BUFFER_SIZE w h px ltac:(rewrite max_eq; lia) _ _ _ _ Hp eq_refl 0%nat eq_refl); now left. }
  rewrite Forall_forall in HF. exact (HF _ Hin).
Qed.
Lemma back_image_abort T (next : nextf T N) s w h px pr caps fuel : delivers next s (image_bytes w h px) -> caps_ok caps ->
  (length (image_bytes w h px) < fuel)%nat ->
  exists syms, parses MAX_RING_BUFFER_SIZE [] [] (image_bytes w h px) syms
  /\ (forall data, In (Explicit data) syms -> (length data < 2048)%nat)
  /\ (run_vec (zip_back_encode next pr caps fuel s) = Panic <->
      exists len back, In (LookBack len back) syms /\ (32767 < len)%N).
Proof.
  intros Hd Hc Hf. destruct (back_abort T next s _ pr caps fuel Hd Hc Hf) as (syms & Hp & _ & HA). exists syms.
  split; [exact Hp|]. split; [exact (back_image_runs _ _ _ _ Hp)|]. rewrite HA. split.
  - intros (x & Hx & Hl). destruct x as [data|len back]; [|eauto]. pose proof (back_image_runs _ _ _ _ Hp _ Hx).
    cbn [symbol_len] in Hl. lia.
  - intros (len & back & Hx & Hl). exists (LookBack len back). auto.
Qed.
Lemma back_one_colour T (next : nextf T N) s w h c n pr caps fuel : delivers next s (image_bytes w h (repeat c n)) -> caps_ok caps ->
  (length (image_bytes w h (repeat c n)) < fuel)%nat -> (8938 <= N.of_nat n)%N ->
  run_vec (zip_back_encode next pr caps fuel s) = Panic.
Proof.
  intros Hd Hc Hf Hn. destruct (back_spec T next s _ pr caps fuel Hd Hc Hf) as (syms & Hp & _).
  assert (HE : Exists (fun x => 32767 < symbol_len x)%N syms).
  { eapply (@one_colour_long MAX_RING_BUFFER_SIZE w h c n); [rewrite max_eq; lia| |exact Hp|reflexivity|cbn; lia|cbn; lia].
    rewrite image_length, repeat_length. lia. }
  apply Exists_exists in HE as (x & Hx & Hl). eapply back_aborts_with; eassumption.
Qed.
Lemma back_small_image T (next : nextf T N) s w h px pr caps fuel : delivers next s (image_bytes w h px) -> caps_ok caps ->
  (length (image_bytes w h px) < fuel)%nat -> (8 + 11 * N.of_nat (length px) <= 32767)%N ->
  exists out, run_vec (zip_back_encode next pr caps fuel s) = Ok out.
Proof. intros Hd Hc Hf Hn. apply (back_short T next s _ pr caps fuel Hd Hc Hf). rewrite image_length. lia. Qed.

Lemma back_follows T (next : nextf T N) s l pr caps fuel : delivers next s l -> caps_ok caps -> (length l < fuel)%nat ->
  exists syms, parses MAX_RING_BUFFER_SIZE [] [] l syms /\ text [] syms = l
  /\ (forall out, run_vec (zip_back_encode next pr caps fuel s) = Ok out -> out = concat (map symbol_bytes syms))
  /\ forall a len back b, syms = a ++ LookBack len back :: b ->
     best_match MAX_RING_BUFFER_SIZE (text [] a) (skipn (length (text [] a)) l) len back.
Proof.
  intros Hd Hc Hf. destruct (back_total T next s l pr caps fuel Hd Hc Hf) as (syms & Hp & E). exists syms.
  split; [exact Hp|]. split; [exact (parses_text Hp [] eq_refl)|]. split.
  - intros out. rewrite E. destruct (forallb _ syms); [intros [= <-]; reflexivity|discriminate].
  - intros a len back b Es. exact (parses_best Hp [] eq_refl a len back b Es).
Qed.

Lemma ring_view R h pr : (0 < R)%N -> exists rb, rb_write_all R (rb_default R) h = Ok rb
  /\ fst (as_slices rb) ++ snd (as_slices rb) = window R h
  /\ length (window R h) = Nat.min (length h) (N.to_nat R)
  /\ read_pos R rb = N.of_nat (length h)
  /\ (forall pos, (pos < N.of_nat (length h))%N -> rb_contains rb pos = true <-> in_window R h pos)
  /\ (forall pos, in_window R h pos -> iter_starting pr rb pos = Ok (skipn (N.to_nat pos) h))
  /\ (forall pos, in_window R h pos -> exists back, lookback_value R pr rb pos = Ok back
        /\ (1 <= back <= R)%N /\ nth_error h (length h - N.to_nat back) = nth_error h (N.to_nat pos)
        /\ ((N.of_nat (length h) < 2 ^ 64)%N -> lookback_pos R pr rb back = Ok pos)).
Proof.
  intros HR. destruct (ring_write_all HR h (ring_new R)) as [rb [E Hr]]. cbn [app] in Hr. exists rb.
  split; [exact E|]. split; [exact (ring_slices HR Hr)|]. split; [exact (window_length HR h)|].
  split; [exact (ring_read_pos HR Hr)|]. split; [intros pos Hp; exact (ring_contains HR Hr Hp)|].
  split; [intros pos [H1 H2]; apply (ring_iter HR pr Hr); lia|].
  intros pos Hw. exists (N.of_nat (length h) - pos)%N. split; [apply (ring_lookback HR pr Hr Hw)|].
  destruct Hw as [H1 H2]. split; [lia|]. split; [f_equal; lia|].
  intros H64. unfold lookback_pos, usub, ufit. rewrite (ring_len HR Hr), (ring_start HR Hr).
  match goal with |- context [(?a <=? ?b)%N] => destruct (N.leb_spec a b); [|lia] end. cbn [res_bind].
  match goal with |- context [(?a <? ?b)%N] => destruct (N.ltb_spec a b); [|lia] end. f_equal. lia.
Qed.

Lemma index_view R h key : (0 < R)%N -> length key = 6%nat ->
  exists hi, ih_write_all R (ih_new R) h = Ok hi
  /\ let found := start_indices_for (ih_index hi) key (ih_data hi) in
     (forall pos, In pos found <-> in_window R h pos /\ firstn 6 (skipn (N.to_nat pos) h) = key)
     /\ StronglySorted N.lt found.
Proof.
  intros HR HK. destruct (hist_write_all HR h (hist_new R)) as [hi [E [Hr Hi]]]. cbn [app] in Hr, Hi. exists hi.
  split; [exact E|]. cbn zeta. rewrite (idx_lookup HR key Hi Hr HK). split; [intros pos; apply occurrences_in|].
  unfold occurrences. generalize (length h - (length h - N.to_nat R))%nat as n. generalize (length h - N.to_nat R)%nat as a.
  intros a n. revert a. induction n as [|n IH]; intros a; cbn [seq map filter]; [constructor|].
  destruct (key_eqb _ key); [|apply IH]. constructor; [apply IH|]. apply Forall_forall. intros j Hj.
  apply filter_In in Hj as [Hj _]. apply in_map_iff in Hj as [q [<- Hq%in_seq]]. lia.
Qed.

Lemma symbol_truncated s p : symbol_ok s -> strict_prefix p (symbol_bytes s) ->
  forall S (next : nextf S N) st st1 st2, yields next st p st1 -> next st1 = (Err, st2) ->
  deser_symbol S next st =
    (match s with Explicit _ => if (2 <=? length p)%nat then Panic else Err | LookBack _ _ => Err end, st2).
Proof.
  intros Hs Hp S next st st1 st2 Hy He.
  assert (SP : forall n c, u16_ok n -> strict_prefix p (le16 n ++ c) ->
     ((length p < 2)%nat /\ deser_u16 S next st = (Err, st2)) \/
     exists q s1, p = le16 n ++ q /\ strict_prefix q c /\ deser_u16 S next st = (Ok n, s1) /\ yields next s1 q st1).
  { intros n c Hn HP. unfold le16 in *. cbn [app] in HP.
    destruct (strict_prefix_cons HP) as [->|(p1 & -> & HP1)].
    { left. split; [cbn; lia|]. apply (do_trunc (deser_ty_ok TU16) n Hn eq_refl (p := [])) with (s1 := st1); auto.
      exists (n mod 256)%N, [n / 256]%N. reflexivity. }
    destruct (strict_prefix_cons HP1) as [->|(p2 & -> & HP2)].
    { left. split; [cbn; lia|]. apply (do_trunc (deser_ty_ok TU16) n Hn eq_refl (p := [n mod 256]%N)) with (s1 := st1); auto.
      exists (n / 256)%N, []. reflexivity. }
    right. exists p2. destruct (@read_le16 S next st n p2 st1 Hn Hy) as [s1 [E H]]. exists s1. auto. }
  destruct s as [data|len back]; destruct Hs as [H1 H2]; unfold symbol_bytes in Hp; unfold deser_symbol, rd_bind.
  - destruct (SP (N.of_nat (length data)) data ltac:(unfold u16_ok; lia) Hp) as [[HL ->]|(q & s1 & -> & Hq & -> & Hyq)].
    + destruct (Nat.leb_spec 2 (length p)); [lia|reflexivity].
    + cbn [le16 app length]. rewrite decompress_spec by (unfold u16_ok; lia).
      destruct (N.ltb_spec (N.of_nat (length data)) 32768); [|lia]. change (0 =? ENUM_CODE_EXPLICIT)%N with true. cbn iota.
      assert (HL : (length q < length data)%nat) by (destruct Hq as (x & r & ->); rewrite app_length; cbn; lia).
      rewrite Nat2N.id, (take_short HL Hyq He). unfold rd_lift.
      replace (N.of_nat (length q) =? N.of_nat (length data))%N with false by lia. reflexivity.
  - destruct (SP (32768 + len)%N (le16 back) ltac:(unfold u16_ok; lia) Hp) as [[HL ->]|(q & s1 & -> & Hq & -> & Hyq)]; [reflexivity|].
    rewrite decompress_spec by (unfold u16_ok; lia). destruct (N.ltb_spec (32768 + len) 32768); [lia|].
    change (1 =? ENUM_CODE_EXPLICIT)%N with false. change (1 =? ENUM_CODE_LOOKBACK)%N with true. cbn iota.
    assert (E := do_trunc (deser_ty_ok TU16) back ltac:(cbn; unfold u16_ok; lia) eq_refl Hq Hyq He).
    change (deser TU16 S next s1) with (deser_u16 S next s1) in E. cbv beta iota. rewrite E. reflexivity.
Qed.

Lemma symbol_writes s :
  (symbol_ok s -> run_vec (ser_symbol s) = Ok (symbol_bytes s))
  /\ ((32767 < symbol_len s)%N -> forall w, ser_symbol s w = (Panic, w)).
Proof.
  split.
  - intros H. apply (emits_run_vec (ser_symbol_ok s H)).
  - intros H w. rewrite (ser_symbol_long s H w). unfold put, io_bind. rewrite write_all_nil. reflexivity.
Qed.
