(** * Proofs about what clustering prints: reports, and whole runs. *)
From Flocq Require Import BinarySingleNaN.
From Verif Require Import Base Float Kmeans KmeansSpec KmeansProofs KmeansSays KmeansSaysSpec KmeansSaysProofs.

(** ** From counters to reports *)
Lemma places_eq {T} (asg : list (list T)) : map fst (enumerated 0 asg) = places asg.
Proof.
  unfold places. enough (G : forall s, map fst (enumerated s asg) = concat (map (fun i => repeat (s + i)%nat (length (nth i asg []))) (seq 0 (length asg)))) by exact (G 0%nat).
  induction asg as [|v asg IH]; intros s; [reflexivity|]. cbn [enumerated length seq map concat nth]. rewrite map_app, Nat.add_0_r. f_equal.
  - rewrite map_map. cbn [fst]. induction v as [|x v IHv]; [reflexivity|]. cbn. now rewrite IHv.
  - rewrite IH, <- seq_shift, map_map. f_equal. apply map_ext. intros i. cbn [nth]. now replace (s + S i)%nat with (S s + i)%nat by lia.
Qed.
Lemma enumerated_below {T} (asg : list (list T)) : forall s, Forall (fun i => (s <= i < s + length asg)%nat) (map fst (enumerated s asg)).
Proof.
  induction asg as [|v asg IH]; intros s; [constructor|]. cbn [enumerated length]. rewrite map_app, map_map. apply Forall_app. split.
  - apply Forall_map, Forall_forall. intros x _. cbn. lia.
  - eapply Forall_impl; [|apply IH]. cbn. intros. lia.
Qed.
Lemma is_max_unique l n n' : is_max l n -> is_max l n' -> n = n'.
Proof.
  intros [H1 H2] [H3 H4]. rewrite Forall_forall in H1, H3. destruct H2 as [->|H2], H4 as [->|H4]; auto.
  - specialize (H1 _ H4). lia.
  - specialize (H3 _ H2). lia.
  - specialize (H1 _ H4). specialize (H3 _ H2). lia.
Qed.
Lemma is_max_zero l n : is_max (0%N :: l) n -> is_max l n.
Proof. intros [H1 H2]. inversion_clear H1. split; [assumption|]. destruct H2 as [H2|[H2|H2]]; auto. Qed.
Lemma fold_max l : forall m, (m <= fold_left N.max l m)%N /\ Forall (fun t => (t <= fold_left N.max l m)%N) l /\ In (fold_left N.max l m) (m :: l).
Proof.
  induction l as [|a l IH]; intros m; cbn [fold_left]; [repeat split; [lia|constructor|now left]|]. destruct (IH (N.max m a)) as (H1 & H2 & H3).
  split; [lia|]. split; [constructor; [lia|exact H2]|]. destruct H3 as [H3|H3]; [|right; right; exact H3]. destruct (N.max_spec m a) as [[_ X]|[_ X]]; rewrite X in *; [right; now left|now left].
Qed.
Lemma fold_min l : forall m, (fold_left N.min l m <= m)%N /\ Forall (fun t => (fold_left N.min l m <= t)%N) l /\ In (fold_left N.min l m) (m :: l).
Proof.
  induction l as [|a l IH]; intros m; cbn [fold_left]; [repeat split; [lia|constructor|now left]|]. destruct (IH (N.min m a)) as (H1 & H2 & H3).
  split; [lia|]. split; [constructor; [lia|exact H2]|]. destruct H3 as [H3|H3]; [|right; right; exact H3]. destruct (N.min_spec m a) as [[_ X]|[_ X]]; rewrite X in *; [now left|right; now left].
Qed.
Lemma in_reads t outs : In t (reads outs) <-> exists s, In (Looked t s) outs.
Proof.
  unfold reads. induction outs as [|o outs IH]; cbn [map concat].
  - split; [contradiction|intros (s & [])].
  - rewrite in_app_iff, IH. split.
    + intros [H|(s & H)]; [|exists s; now right]. destruct o as [|t' s]; [contradiction|]. destruct H as [->|[]]. exists s. now left.
    + intros (s & [->|H]); [left; now left|right; eauto].
Qed.
Lemma in_of_cluster i own outs o : In o (of_cluster i own outs) <-> In (i, o) (combine own outs).
Proof.
  unfold of_cluster. rewrite in_map_iff. split.
  - intros ([n o'] & <- & H). apply filter_In in H as [H E]. apply Nat.eqb_eq in E. cbn in E. now subst.
  - intros H. exists (i, o). split; [reflexivity|]. apply filter_In. split; [exact H|]. apply Nat.eqb_refl.
Qed.
Lemma in_combine_own {A} (own : list nat) (outs : list A) o : length own = length outs -> In o outs -> exists i, In i own /\ In (i, o) (combine own outs).
Proof.
  revert outs. induction own as [|i own IH]; intros [|o' outs] L H; try discriminate; [contradiction|]. destruct H as [->|H].
  - exists i. split; now left.
  - destruct (IH outs ltac:(now injection L) H) as (n & H1 & H2). exists n. split; now right.
Qed.
Lemma kept_or_read outs : (count is_kept outs + N.of_nat (length (reads outs)) = N.of_nat (length outs))%N.
Proof. induction outs as [|o outs IH]; [reflexivity|]. rewrite count_cons, reads_cons, app_length. destruct o as [|t s]; [change (reads [Kept]) with (@nil N)|change (reads [Looked t s]) with [t]]; cbn [is_kept length]; lia. Qed.
Lemma stopped_read outs : (count is_stopped outs <= N.of_nat (length (reads outs)))%N.
Proof. induction outs as [|o outs IH]; [cbn; lia|]. rewrite count_cons, reads_cons, app_length. destruct o as [|t s]; [change (reads [Kept]) with (@nil N)|change (reads [Looked t s]) with [t]; destruct s]; cbn [is_stopped length]; lia. Qed.
Lemma both_counts {A} (f : A -> bool) l : (count (fun e => negb (f e)) l + count f l = N.of_nat (length l))%N.
Proof. induction l as [|a l IH]; [reflexivity|]. rewrite !count_cons. cbn [length]. destruct (f a); cbn [negb]; lia. Qed.

Definition report_of (k : counts) : report :=
  mkReport (n_moved k) (n_stayed k) (n_obvious k) (n_cutoff k)
    (match n_max k with m :: l => fold_left N.max l m | [] => 0%N end) (match n_max k with m :: l => fold_left N.min l m | [] => 0%N end)
    (if (n_moved k + n_stayed k - n_obvious k =? 0)%N then None else Some (n_sum k / (n_moved k + n_stayed k - n_obvious k))%N).
Lemma report_right K own to outs k : (0 < K)%nat -> length own = length outs -> length to = length outs -> Forall (fun i => (i < K)%nat) own ->
  tally own to outs (mkCounts 0 0 0 0 (repeat 0%N K) 0) k -> reports K own to outs (report_of k) /\ (n_moved k + n_stayed k = N.of_nat (length outs))%N /\ n_max k <> [].
Proof.
  intros HK L1 L2 Ho [T1 T2 T3 T4 T5 T6 T7]. cbn [n_obvious n_cutoff n_moved n_stayed n_sum n_max] in *. rewrite repeat_length in T6.
  assert (All : (n_moved k + n_stayed k = N.of_nat (length outs))%N).
  { rewrite T3, T4. cbn. rewrite both_counts, combine_length. lia. }
  assert (Mx : forall i m, nth_error (n_max k) i = Some m -> is_max (reads (of_cluster i own outs)) m).
  { intros i m H. assert (i < K)%nat by (rewrite <- T6; apply nth_error_Some; congruence).
    destruct (T7 i 0%N) as (m' & E & M); [now rewrite nth_error_repeat|]. rewrite H in E. injection E as <-. now apply is_max_zero. }
  split; [|split; [exact All|intros Z; rewrite Z in T6; cbn in T6; lia]].
  destruct (n_max k) as [|m0 l0] eqn:EM; [cbn in T6; lia|].
  assert (Hi : forall i, (i < K)%nat -> exists m, nth_error (m0 :: l0) i = Some m).
  { intros i Hi. destruct (nth_error (m0 :: l0) i) as [m|] eqn:E; [eauto|]. apply nth_error_None in E. lia. }
  constructor; cbn [report_of moved stayed radius cutoff highest lowest average]; rewrite ?EM.
  - rewrite T3. lia.
  - rewrite T4. lia.
  - rewrite T1. lia.
  - rewrite T2. lia.
  - destruct (fold_max l0 m0) as (F1 & F2 & F3). split.
    + apply Forall_forall. intros t Ht. apply in_reads in Ht as (s & Ht). destruct (in_combine_own own outs _ L1 Ht) as (i & Hi1 & Hi2).
      rewrite Forall_forall in Ho. destruct (Hi i (Ho i Hi1)) as (m & Hm). destruct (Mx i m Hm) as [M1 _]. rewrite Forall_forall in M1.
      assert (t <= m)%N by (apply M1, in_reads; exists s; now apply in_of_cluster).
      apply nth_error_In in Hm. assert (m <= fold_left N.max l0 m0)%N; [|lia]. destruct Hm as [<-|Hm]; [exact F1|]. rewrite Forall_forall in F2. now apply F2.
    + apply In_nth_error in F3 as (i & F3). destruct (Mx i _ F3) as [_ [M|M]]; [now left|]. right. apply in_reads in M as (s & M). apply in_of_cluster, in_combine_r in M. apply in_reads. eauto.
  - destruct (fold_min l0 m0) as (F1 & F2 & F3). split.
    + apply In_nth_error in F3 as (i & F3). exists i. split; [rewrite <- T6; apply nth_error_Some; congruence|]. now apply Mx.
    + intros i n Hk Hn. destruct (Hi i Hk) as (m & Hm). rewrite (is_max_unique _ _ _ Hn (Mx i m Hm)). apply nth_error_In in Hm.
      destruct Hm as [<-|Hm]; [exact F1|]. rewrite Forall_forall in F2. now apply F2.
  - pose proof (kept_or_read outs) as KR. rewrite All, T1, T5. cbn [N.add]. replace (N.of_nat (length outs) - count is_kept outs)%N with (N.of_nat (length (reads outs))) by lia.
    destruct (reads outs) as [|t l]; [reflexivity|]. destruct (N.eqb_spec (N.of_nat (length (t :: l))) 0) as [E|_]; [cbn in E; lia|reflexivity].
Qed.

(** ** Printing *)
Lemma said_eq {A B} (m : said A) (f : A -> said B) i : said_bind m f i =
  match m i with
  | (o, Some (Ok (a, j))) => (o ++ fst (f a j), snd (f a j))
  | (o, Some Err) => (o, Some Err)
  | (o, Some Panic) => (o, Some Panic)
  | (o, None) => (o, None)
  end.
Proof. unfold said_bind. destruct (m i) as [o [[[a j]| |]|]]; try reflexivity. now destruct (f a j). Qed.
Lemma said_quiet {A B} (m : run A) (f : A -> said B) i : said_bind (quiet m) f i =
  match m i with Some (Ok (a, j)) => f a j | Some Err => ([], Some Err) | Some Panic => ([], Some Panic) | None => ([], None) end.
Proof. rewrite said_eq. unfold quiet. destruct (m i) as [[[a j]| |]|]; try reflexivity. cbn. now destruct (f a j). Qed.
Lemma said_lift {A B} (r : res A) (f : A -> said B) i : said_bind (lift r) f i =
  match r with Ok a => f a i | Err => ([], Some Err) | Panic => ([], Some Panic) end.
Proof. unfold lift. rewrite said_quiet. unfold run_lift. now destruct r. Qed.
Lemma said_say {B} l (f : unit -> said B) i : said_bind (say l) f i = (l :: fst (f tt i), snd (f tt i)).
Proof. now rewrite said_eq. Qed.
Lemma said_split {A B} (m : said A) (f : A -> said B) i o a j : m i = (o, Some (Ok (a, j))) -> said_bind m f i = (o ++ fst (f a j), snd (f a j)).
Proof. rewrite said_eq. now intros ->. Qed.
Lemma said_erase {A B} (m : said A) (m' : run A) (f : A -> said B) (f' : A -> run B) i : snd (m i) = m' i ->
  (forall a j, m' i = Some (Ok (a, j)) -> snd (f a j) = f' a j) -> snd (said_bind m f i) = run_bind m' f' i.
Proof.
  rewrite said_eq. unfold run_bind. destruct (m i) as [o r]. cbn [snd]. intros <- H. destruct r as [[[a j]| |]|]; try reflexivity. cbn [snd]. now apply H.
Qed.
Lemma said_ok {A B} (m : said A) (f : A -> said B) i o b j : said_bind m f i = (o, Some (Ok (b, j))) ->
  exists o1 a i1 o2, m i = (o1, Some (Ok (a, i1))) /\ f a i1 = (o2, Some (Ok (b, j))) /\ o = o1 ++ o2.
Proof.
  rewrite said_eq. destruct (m i) as [o1 [[[a i1]| |]|]]; try discriminate. intros H. injection H as <- H. exists o1, a, i1, (fst (f a i1)). rewrite <- H. now destruct (f a i1).
Qed.

Lemma nth_ext_local {A} (l : list A) : forall l', length l = length l' -> (forall j v, nth_error l j = Some v -> nth_error l' j = Some v) -> l = l'.
Proof.
  induction l as [|a l IH]; intros [|b m] L H; try discriminate; [reflexivity|]. pose proof (H 0%nat a eq_refl) as E. cbn in E. injection E as <-. f_equal.
  apply IH; [now injection L|]. intros j v Hj. exact (H (S j) v Hj).
Qed.
Section Run.
  Context {T : Type} (P : point T).
  Variable sorted : list (nat * f64) -> list (nat * f64).
  Variable rng : nat -> N.
  Hypothesis Hsort : sort_ok sorted.

  Lemma counts_said k i : n_max k <> [] -> (n_obvious k <= n_moved k + n_stayed k < 2 ^ 64)%N -> (n_obvious k + n_cutoff k < 2 ^ 64)%N ->
    say_counts P k i = (report_lines (report_of k), Some (Ok (tt, i))).
  Proof.
    intros Hm H1 H2. unfold say_counts. rewrite said_say, said_lift, plus_ok by lia. rewrite !said_say. destruct (n_max k) as [|m l] eqn:E; [congruence|].
    rewrite !said_say, said_lift, plus_ok by lia. rewrite said_lift. unfold u64_minus. rewrite (proj2 (N.leb_le _ _) (proj1 H1)).
    unfold report_lines, report_of. cbn [moved stayed radius cutoff highest lowest average]. rewrite E. destruct (_ =? 0)%N; reflexivity.
  Qed.

  (** One assignment of all points *)
  Lemma points_said c L i : short L (graph c) -> (N.of_nat (length (concat (assignment c))) * (L + 1) < 2 ^ 64)%N ->
    snd (say_points P c i) = run_lift (assign_points P c) i
    /\ forall c' b, assign_points P c = Ok (c', b) -> exists r to outs, fst (say_points P c i) = report_lines r
       /\ reports (length (assignment c)) (places (assignment c)) to outs r
       /\ Forall2 (fun e o => treated P (centroids c) (graph c) (fst e) (snd e) o) (combine (places (assignment c)) (concat (assignment c))) outs
       /\ Forall2 (fun i jo => snd jo = Kept -> fst jo = i) (places (assignment c)) (combine to outs)
       /\ length to = length (concat (assignment c)) /\ length outs = length (concat (assignment c))
       /\ assignment c' = map (sent_to to (concat (assignment c))) (seq 0 (length (assignment c)))
       /\ b = negb (moved r =? 0)%N.
  Proof.
    intros Hs Hr. unfold say_points, assign_points. destruct (Nat.eqb_spec (length (centroids c)) (length (assignment c))) as [E|]; [|split; [reflexivity|discriminate]].
    set (l := enumerated 0 (assignment c)). set (k0 := mkCounts 0 0 0 0 (repeat 0%N (length (assignment c))) 0).
    assert (Ll : length l = length (concat (assignment c))) by (unfold l; rewrite <- (enumerated_spec (assignment c) 0); now rewrite map_length).
    assert (El : combine (places (assignment c)) (concat (assignment c)) = l).
    { rewrite <- places_eq, <- (enumerated_spec (assignment c) 0). fold l. clear. induction l as [|[i x] l IH]; [reflexivity|]. cbn. now rewrite IH. }
    destruct (N.eq_dec (N.of_nat (length (concat (assignment c)))) 0) as [Z|NZ].
    - (* no points *)
      assert (l = []) by (destruct l; [reflexivity|cbn in Ll; lia]). rewrite H. cbn [assign_loop loop_counting res_bind]. rewrite said_lift.
      destruct (concat (assignment c)) as [|x l1] eqn:EC; [|cbn in Z; lia].
      destruct (Nat.eqb_spec (length (assignment c)) 0) as [E0|N0].
      + split; [|discriminate]. unfold k0. rewrite E0. reflexivity.
      + assert (T0 : tally [] [] [] k0 k0) by apply tally_nil.
        destruct (report_right (length (assignment c)) [] [] [] k0 ltac:(lia) eq_refl eq_refl ltac:(constructor) T0) as (R1 & R2 & R3).
        assert (CS : say_counts P k0 i = (report_lines (report_of k0), Some (Ok (tt, i)))) by (apply counts_said; [exact R3|cbn; lia|cbn; lia]).
        rewrite (said_split _ _ _ _ _ _ CS). split; [reflexivity|]. intros c' b Ec. injection Ec as <- <-. cbn [fst quiet app]. rewrite app_nil_r.
        exists (report_of k0), [], []. split; [reflexivity|]. assert (PL : places (assignment c) = []).
        { rewrite <- places_eq. fold l. now rewrite H. }
        rewrite PL. split; [exact R1|]. split; [constructor|]. split; [constructor|]. split; [reflexivity|]. split; [reflexivity|]. split; [|reflexivity].
        cbn [assignment]. rewrite E. generalize (length (assignment c)). generalize 0%nat. clear. intros s n. revert s. induction n as [|n IH]; intros s; [reflexivity|]. cbn. f_equal. apply IH.
    - assert (HL : (L < 2 ^ 64)%N) by nia.
      assert (R0 : room L (N.of_nat (length l)) k0) by (rewrite Ll; constructor; cbn [k0 n_obvious n_cutoff n_moved n_stayed n_sum]; nia).
      pose proof (loop_counts P (centroids c) L HL l (graph c) (repeat [] (length (centroids c))) false k0 Hs R0) as A.
      destruct (assign_loop P (centroids c) l (graph c) _ false) as [[[g' asg'] b']| |] eqn:EL; [|cbn in A; rewrite A, said_lift; split; [reflexivity|discriminate]..].
      cbn [agrees] in A. destruct A as (r' & EA & k' & to & outs & -> & L1 & L2 & Ta & F1 & F1' & F2 & F3 & F4). rewrite EA, said_lift. cbn [res_bind fst snd] in *.
      assert (NE : length (assignment c) <> 0%nat) by (destruct (assignment c); [cbn in NZ; lia|discriminate]).
      destruct (Nat.eqb_spec (length (assignment c)) 0) as [|_]; [contradiction|].
      assert (PLl : map fst l = places (assignment c)) by apply places_eq. rewrite PLl in Ta, F4.
      destruct (report_right (length (assignment c)) (places (assignment c)) to outs k') as (R1 & R2 & R3); [lia|rewrite <- PLl, map_length; lia|lia| |exact Ta|].
      { rewrite <- PLl. eapply Forall_impl; [|apply enumerated_below]. cbn. intros; lia. }
      assert (CS : say_counts P k' i = (report_lines (report_of k'), Some (Ok (tt, i)))).
      { apply counts_said; [exact R3| |]; destruct Ta as [T1 T2 _ _ _ _ _]; rewrite T1, ?T2; cbn [k0 n_obvious n_cutoff];
          pose proof (kept_or_read outs); pose proof (stopped_read outs); split || idtac; nia. }
      rewrite (said_split _ _ _ _ _ _ CS). split; [reflexivity|]. intros c' b Ec. injection Ec as <- <-. cbn [fst quiet app]. rewrite app_nil_r.
      exists (report_of k'), to, outs. split; [reflexivity|]. split; [exact R1|]. rewrite El. split; [exact F1|]. split.
      { rewrite <- PLl. clear -F1'. revert F1'. generalize (combine to outs). induction l as [|e l IH]; intros q H; inversion_clear H; constructor; auto. }
      split; [lia|]. split; [lia|]. split.
      + cbn [assignment]. apply assign_loop_kept in EL as (_ & EL & _). rewrite repeat_length in EL.
        assert (Sl : map snd l = concat (assignment c)) by apply enumerated_spec. rewrite Sl in F3. apply nth_ext_local. 1: rewrite map_length, seq_length; lia.
        intros j v Hj. assert (Hj' : (j < length (assignment c))%nat) by (rewrite <- E, <- EL; apply nth_error_Some; congruence).
        specialize (F3 j []). rewrite nth_error_repeat in F3 by lia. rewrite (F3 eq_refl) in Hj. cbn [app] in Hj.
        rewrite nth_error_map. assert (Q : nth_error (seq 0 (length (assignment c))) j = Some j); [|now rewrite Q].
        clear -Hj'. rewrite (nth_error_nth' _ 0%nat) by now rewrite seq_length. now rewrite seq_nth.
      + destruct R1 as [R1 _ _ _ _ _ _]. rewrite R1, F4. cbn [orb]. unfold count. clear. induction (combine (places (assignment c)) to) as [|e q IH]; [reflexivity|].
        cbn [existsb filter]. destruct (fst e =? snd e)%nat; cbn [negb orb length]; [exact IH|]. rewrite Nat2N.inj_succ. now destruct (N.of_nat _).
  Qed.
End Run.
