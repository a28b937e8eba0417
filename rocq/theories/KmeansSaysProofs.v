(** * Proofs about what clustering prints: one pass. *)
From Verif Require Import Base Float Kmeans KmeansSpec KmeansProofs KmeansSays KmeansSaysSpec.

Lemma plus_ok p a b : (a + b < 2 ^ 64)%N -> u64_plus p a b = Ok (a + b)%N.
Proof. intros H. unfold u64_plus. now rewrite (proj2 (N.ltb_lt _ _) H). Qed.

(** A counting computation against the plain one *)
Definition agrees {A B} (r : res A) (r' : res B) (R : A -> B -> Prop) : Prop :=
  match r with
  | Ok a => exists b, r' = Ok b /\ R a b
  | Err => r' = Err
  | Panic => r' = Panic
  end.
Lemma agrees_bind {A B A' B'} (m : res A) (m' : res A') (f : A -> res B) (f' : A' -> res B') R R' : agrees m m' R ->
  (forall a a', R a a' -> agrees (f a) (f' a') R') -> agrees (res_bind m f) (res_bind m' f') R'.
Proof. destruct m as [a| |]; cbn; [intros (a' & -> & H) F; now apply F|now intros ->|now intros ->]. Qed.
Lemma agrees_same {A} (m : res A) : agrees m m eq.
Proof. destruct m; cbn; eauto. Qed.
Lemma agrees_weaken {A B} (r : res A) (r' : res B) (R R' : A -> B -> Prop) : agrees r r' R -> (forall a b, R a b -> R' a b) -> agrees r r' R'.
Proof. destruct r; cbn; auto. intros (b & -> & H) W. eauto. Qed.

Section Pass.
  Context {T : Type} (P : point T).

  Lemma looks_first cutoff ts d l : flt cutoff d = true -> looks cutoff ((ts, d) :: l) 1 true.
  Proof. intros H. exists [], ((ts, d) :: l). split; [reflexivity|]. split; [constructor|]. cbn [snd length]. auto. Qed.
  Lemma looks_next cutoff ts d l u s : flt cutoff d = false -> looks cutoff l u s -> looks cutoff ((ts, d) :: l) (1 + u) s.
  Proof.
    intros H (a & b & -> & Ha & Hb). exists ((ts, d) :: a), b. split; [reflexivity|]. split; [now constructor|].
    destruct b as [|e b]; [destruct Hb as [-> ->]|destruct Hb as (-> & He & ->)]; cbn [length]; repeat split; auto; lia.
  Qed.
  Lemma looks_bound cutoff l t s : looks cutoff l t s -> (t <= N.of_nat (length l))%N.
  Proof. intros (a & b & -> & _ & Hb). rewrite app_length. destruct b as [|e b]; [destruct Hb as [_ ->]|destruct Hb as (_ & _ & ->)]; cbn [length]; lia. Qed.

  Lemma probe_counts cs x cutoff l : forall min closest pos tested, (tested + N.of_nat (length l) < 2 ^ 64)%N ->
    agrees (probe P cs x cutoff l min closest pos) (probe_counting P cs x cutoff l min closest pos tested)
      (fun r r' => exists u s, r' = (fst r, snd r, (tested + u)%N, s) /\ looks cutoff l u s).
  Proof.
    induction l as [|[ts d] l IH]; intros min closest pos tested H; cbn [probe probe_counting length] in *.
    - cbn. exists (closest, pos, tested, false). split; [reflexivity|]. exists 0%N, false. split; [now rewrite N.add_0_r|]. exists [], []. now repeat split.
    - rewrite plus_ok by lia. cbn [res_bind]. destruct (flt cutoff d) eqn:E.
      + cbn. exists (closest, pos, (tested + 1)%N, true). split; [reflexivity|]. exists 1%N, true. split; [reflexivity|]. now apply looks_first.
      + apply (agrees_bind _ _ _ _ _ _ (agrees_same _)). intros c ? <-. apply (agrees_bind _ _ _ _ _ _ (agrees_same _)). intros t ? <-.
        destruct (flt t min); (eapply agrees_weaken; [apply IH; lia|]); intros r r' (u & s & -> & L); exists (1 + u)%N, s; (split; [f_equal; f_equal; lia|now apply looks_next]).
  Qed.

  Lemma certain_radius nb d : certain nb d = fle d (certainty_radius nb).
  Proof.
    unfold certain, certainty_radius. destruct (near nb) as [|[j e] l]; [|reflexivity].
    unfold fle. destruct d as [[]|[]| |[] ? ? ?]; reflexivity.
  Qed.
  Definition outcome_of (o : option (nat * N * bool)) : outcome := match o with Some (_, t, s) => Looked t s | None => Kept end.
  Definition mark_of (o : option (nat * N * bool)) : option nat := match o with Some (w, _, _) => Some w | None => None end.
  Definition short (L : N) (g : list neighbours) : Prop := Forall (fun nb => (N.of_nat (length (near nb)) <= L)%N) g.
  Lemma assign_counts cs g i x L : short L g -> (L < 2 ^ 64)%N ->
    agrees (assign_point P cs g i x) (assign_counting P cs g i x)
      (fun r r' => fst r' = fst r /\ mark_of (snd r') = snd r /\ treated P cs g i x (outcome_of (snd r'))
                   /\ match outcome_of (snd r') with Looked t _ => (t <= L)%N | Kept => fst r = i end).
  Proof.
    intros Hs HL. unfold assign_point, assign_counting.
    destruct (index cs i) as [c| |] eqn:Ec; try reflexivity. cbn [res_bind]. destruct (dist P c x) as [d| |] eqn:Ed; try reflexivity. cbn [res_bind].
    destruct (index g i) as [nb| |] eqn:En; try reflexivity. cbn [res_bind]. apply index_ok in Ec, En.
    assert (HB : (N.of_nat (length (near nb)) <= L)%N) by (apply nth_error_In in En; unfold short in Hs; rewrite Forall_forall in Hs; now apply Hs).
    rewrite <- certain_radius. destruct (certain nb d) eqn:F.
    - cbn. eexists. split; [reflexivity|]. cbn. repeat split. exists c, d, nb. auto.
    - pose proof (probe_counts cs x (fmul (f64_of_N 2) d) (near nb) d i 0 0 ltac:(lia)) as A. unfold agrees in A.
      destruct (probe P cs x _ _ d i 0) as [r| |]; [|rewrite A; reflexivity..]. destruct A as (r' & -> & u & s & -> & Lk). cbn [res_map agrees].
      eexists. split; [reflexivity|]. cbn [fst snd mark_of outcome_of]. repeat split.
      + exists c, d, nb. repeat split; auto.
      + apply looks_bound in Lk. lia.
  Qed.

  (** Marks do not matter to the counters. *)
  Lemma treated_mark cs g n w i x o : treated P cs (update_at n (fun nb => mkNb (src_id nb) (near nb) w) g) i x o -> treated P cs g i x o.
  Proof.
    intros (ci & d & nb & H1 & H2 & H3 & H4). rewrite update_at_nth in H3. destruct (n =? i)%nat; [|exists ci, d, nb; auto].
    destruct (nth_error g i) as [nb0|] eqn:E; [|discriminate]. cbn in H3. injection H3 as <-. exists ci, d, nb0. auto.
  Qed.
  Lemma short_mark L n w : forall g, short L g -> short L (update_at n (fun nb => mkNb (src_id nb) (near nb) w) g).
  Proof. induction n as [|n IH]; intros [|nb g] H; cbn [update_at]; auto; inversion_clear H; constructor; auto. apply IH. assumption. Qed.

  (** Room for [m] more points in the counters *)
  Record room (L m : N) (k : counts) : Prop := {
    room_obvious : (n_obvious k + m < 2 ^ 64)%N; room_cutoff : (n_cutoff k + m < 2 ^ 64)%N; room_moved : (n_moved k + m < 2 ^ 64)%N;
    room_stayed : (n_stayed k + m < 2 ^ 64)%N; room_sum : (n_sum k + m * L < 2 ^ 64)%N }.
  Record tally (own to : list nat) (outs : list outcome) (k k' : counts) : Prop := {
    tal_obvious : n_obvious k' = (n_obvious k + count is_kept outs)%N;
    tal_cutoff : n_cutoff k' = (n_cutoff k + count is_stopped outs)%N;
    tal_moved : n_moved k' = (n_moved k + count (fun e : nat * nat => negb (fst e =? snd e)%nat) (combine own to))%N;
    tal_stayed : n_stayed k' = (n_stayed k + count (fun e : nat * nat => (fst e =? snd e)%nat) (combine own to))%N;
    tal_sum : n_sum k' = (n_sum k + sum (reads outs))%N;
    tal_length : length (n_max k') = length (n_max k);
    tal_max : forall i m, nth_error (n_max k) i = Some m -> exists m', nth_error (n_max k') i = Some m' /\ is_max (m :: reads (of_cluster i own outs)) m' }.

  Lemma count_cons {A} (f : A -> bool) a l : count f (a :: l) = ((if f a then 1 else 0) + count f l)%N.
  Proof. unfold count. cbn [filter]. destruct (f a); cbn [length]; lia. Qed.
  Lemma is_max_cons m l n : is_max (m :: l) n -> is_max [m] m -> is_max (m :: l) n.
  Proof. auto. Qed.

  (** One step of the counters *)
  Lemma step_counts L m i j o k : room L (1 + m) k -> match outcome_of o with Looked t _ => (t <= L)%N | Kept => True end ->
    exists k1 k2, note_test P i o k = Ok k1 /\ note_move P i j k1 = Ok k2 /\ room L m k2
    /\ n_obvious k2 = (n_obvious k + (if is_kept (outcome_of o) then 1 else 0))%N
    /\ n_cutoff k2 = (n_cutoff k + (if is_stopped (outcome_of o) then 1 else 0))%N
    /\ n_moved k2 = (n_moved k + (if negb (i =? j)%nat then 1 else 0))%N
    /\ n_stayed k2 = (n_stayed k + (if (i =? j)%nat then 1 else 0))%N
    /\ n_sum k2 = (n_sum k + sum (reads [outcome_of o]))%N
    /\ n_max k2 = match outcome_of o with Looked t _ => update_at i (fun m => N.max m t) (n_max k) | Kept => n_max k end.
  Proof.
    intros [R1 R2 R3 R4 R5] Ho. rewrite N.mul_add_distr_r, N.mul_1_l in R5.
    assert (S : exists k1, note_test P i o k = Ok k1 /\ n_moved k1 = n_moved k /\ n_stayed k1 = n_stayed k
      /\ n_obvious k1 = (n_obvious k + (if is_kept (outcome_of o) then 1 else 0))%N
      /\ n_cutoff k1 = (n_cutoff k + (if is_stopped (outcome_of o) then 1 else 0))%N
      /\ n_sum k1 = (n_sum k + sum (reads [outcome_of o]))%N
      /\ n_max k1 = match outcome_of o with Looked t _ => update_at i (fun m => N.max m t) (n_max k) | Kept => n_max k end).
    { destruct o as [[[w t] s]|]; cbn [outcome_of is_kept is_stopped note_test] in *.
      - assert (Hs : (n_sum k + t < 2 ^ 64)%N) by lia.
        rewrite (plus_ok _ (n_sum k) t Hs). destruct s; [rewrite plus_ok by lia|]; cbn [res_bind res_map]; eexists; (split; [reflexivity|]); cbn; repeat split; lia.
      - rewrite plus_ok by lia. cbn [res_map]. eexists. split; [reflexivity|]. cbn. repeat split; lia. }
    destruct S as (k1 & E1 & S1 & S2 & S3 & S4 & S5 & S6). exists k1. unfold note_move. rewrite S1, S2.
    assert (Q : (sum (reads [outcome_of o]) <= L)%N) by (destruct (outcome_of o); cbn; lia).
    destruct (i =? j)%nat; cbn [negb]; rewrite plus_ok by lia; cbn [res_map]; eexists; (split; [exact E1|]); (split; [reflexivity|]);
      (split; [constructor; cbn [n_obvious n_cutoff n_moved n_stayed n_sum]; rewrite ?S3, ?S4, ?S5;
               [destruct (is_kept (outcome_of o)); lia|destruct (is_stopped (outcome_of o)); lia|lia|lia|lia]|]);
      cbn [n_obvious n_cutoff n_moved n_stayed n_sum n_max]; repeat split; auto; lia.
  Qed.
  Lemma tally_nil k : tally [] [] [] k k.
  Proof. constructor; cbn; try lia. intros i m H. exists m. split; [exact H|]. split; [repeat constructor; lia|right; now left]. Qed.
  Lemma reads_cons o outs : reads (o :: outs) = reads [o] ++ reads outs.
  Proof. destruct o; reflexivity. Qed.
  Lemma sum_app l l' : sum (l ++ l') = (sum l + sum l')%N.
  Proof. induction l as [|a l IH]; [reflexivity|]. change (a + sum (l ++ l') = a + sum l + sum l')%N. rewrite IH. lia. Qed.
  Lemma tally_cons i j o own to outs k k2 k' :
    n_obvious k2 = (n_obvious k + (if is_kept o then 1 else 0))%N -> n_cutoff k2 = (n_cutoff k + (if is_stopped o then 1 else 0))%N ->
    n_moved k2 = (n_moved k + (if negb (i =? j)%nat then 1 else 0))%N -> n_stayed k2 = (n_stayed k + (if (i =? j)%nat then 1 else 0))%N ->
    n_sum k2 = (n_sum k + sum (reads [o]))%N ->
    n_max k2 = match o with Looked t _ => update_at i (fun m => N.max m t) (n_max k) | Kept => n_max k end ->
    tally own to outs k2 k' -> tally (i :: own) (j :: to) (o :: outs) k k'.
  Proof.
    intros H1 H2 H3 H4 H5 H6 [T1 T2 T3 T4 T5 T6 T7]. constructor; cbn [combine]; rewrite ?count_cons; cbn [fst snd].
    - rewrite T1, H1. lia.
    - rewrite T2, H2. lia.
    - rewrite T3, H3. lia.
    - rewrite T4, H4. lia.
    - rewrite T5, H5, (reads_cons o outs), sum_app. lia.
    - rewrite T6, H6. destruct o; [reflexivity|apply update_at_length].
    - intros n m Hn. unfold of_cluster. cbn [combine filter fst]. rewrite H6 in T7. destruct o as [|t s].
      + destruct (T7 n m Hn) as (m' & E & M). exists m'. split; [exact E|]. destruct (i =? n)%nat; exact M.
      + specialize (T7 n). rewrite update_at_nth in T7. destruct (Nat.eqb_spec i n) as [->|Ne].
        * rewrite Hn in T7. destruct (T7 (N.max m t) eq_refl) as (m' & E & M1 & M2). exists m'. split; [exact E|]. cbn [map snd reads concat app].
          change (concat (map _ ?l)) with (reads l). unfold of_cluster in M1, M2. inversion_clear M1 as [|? ? M3 M4]. split; [repeat constructor; [lia|lia|exact M4]|].
          destruct M2 as [M2|[M2|M2]]; [now left| |right; right; right; exact M2]. destruct (N.max_spec m t) as [[_ X]|[_ X]]; rewrite X in M2; subst; [right; right; now left|right; now left].
        * destruct (T7 m Hn) as (m' & E & M). exists m'. split; [exact E|exact M].
  Qed.

  Lemma sent_cons {A} j to (x : A) points i : sent_to (j :: to) (x :: points) i = (if (j =? i)%nat then [x] else []) ++ sent_to to points i.
  Proof. unfold sent_to. cbn [combine filter fst]. destruct (j =? i)%nat; reflexivity. Qed.

  (** The loop over all points *)
  Lemma loop_counts cs L : (L < 2 ^ 64)%N -> forall l g asg b k, short L g -> room L (N.of_nat (length l)) k ->
    agrees (assign_loop P cs l g asg b) (loop_counting P cs l g asg b k)
      (fun r r' => exists k' to outs, r' = (r, k') /\ length to = length l /\ length outs = length l /\ tally (map fst l) to outs k k'
         /\ Forall2 (fun e o => treated P cs g (fst e) (snd e) o) l outs
         /\ Forall2 (fun e jo => snd jo = Kept -> fst jo = fst e) l (combine to outs)
         /\ Forall (fun j => (j < length asg)%nat) to
         /\ (forall j v, nth_error asg j = Some v -> nth_error (snd (fst r)) j = Some (v ++ sent_to to (map snd l) j))
         /\ snd r = (b || existsb (fun e : nat * nat => negb (fst e =? snd e)%nat) (combine (map fst l) to))%bool).
  Proof.
    intros HL. induction l as [|[i x] l IH]; intros g asg b k Hs R; cbn [assign_loop loop_counting].
    - cbn [agrees]. eexists. split; [reflexivity|]. exists k, [], []. split; [reflexivity|]. split; [reflexivity|]. split; [reflexivity|].
      split; [apply tally_nil|]. split; [constructor|]. split; [constructor|]. split; [constructor|]. split.
      + intros j v H. cbn. now rewrite app_nil_r.
      + cbn. now rewrite Bool.orb_false_r.
    - pose proof (assign_counts cs g i x L Hs HL) as A. destruct (assign_point P cs g i x) as [[j w]| |]; [|cbn in A; rewrite A; reflexivity..].
      cbn [agrees] in A. destruct A as ([j' o] & -> & E1 & E2 & E3 & E4). cbn [fst snd] in *. subst j' w. cbn [res_bind fst snd].
      cbn [length] in R. rewrite Nat2N.inj_succ, <- N.add_1_l in R.
      destruct (step_counts L (N.of_nat (length l)) i j o k R) as (k1 & k2 & S1 & S2 & S3 & S4 & S5 & S6 & S7 & S8 & S9); [destruct (outcome_of o); auto|].
      rewrite S1. cbn [res_bind]. destruct (index asg j) as [v| |] eqn:Ej; try reflexivity. cbn [res_bind]. rewrite S2. cbn [res_bind].
      assert (G : match mark_of o with Some w => update_at i (fun nb => mkNb (src_id nb) (near nb) w) g | None => g end
                = match o with Some (w, _, _) => update_at i (fun nb => mkNb (src_id nb) (near nb) w) g | None => g end) by (destruct o as [[[? ?] ?]|]; reflexivity).
      rewrite G. eapply agrees_weaken; [apply IH; [destruct o as [[[w t] s]|]; [now apply short_mark|exact Hs]|exact S3]|].
      intros [[g' asg'] b'] r' (k' & to & outs & -> & L1 & L2 & Ta & F1 & F1' & F2 & F3 & F4). exists k', (j :: to), (outcome_of o :: outs).
      split; [reflexivity|]. split; [cbn; lia|]. split; [cbn; lia|]. split; [cbn [map fst]; eapply tally_cons; eassumption|].
      cbn [fst snd] in *. rewrite update_at_length in F2. apply index_ok in Ej. split; [|split; [|split; [|split]]].
      + constructor; [exact E3|]. destruct o as [[[w t] s]|]; [|exact F1]. eapply Forall2_weaken; [|exact F1]. intros e o'. apply treated_mark.
      + cbn [combine]. constructor; [|exact F1']. cbn [fst snd]. intros EK. rewrite EK in E4. exact E4.
      + constructor; [|exact F2]. apply nth_error_Some. congruence.
      + intros n u Hn. cbn [map snd]. rewrite sent_cons. specialize (F3 n). rewrite update_at_nth, Hn in F3. destruct (j =? n)%nat; cbn [option_map] in F3.
        * rewrite (F3 _ eq_refl). now rewrite <- app_assoc.
        * exact (F3 _ eq_refl).
      + cbn [map combine existsb fst snd]. rewrite F4. now rewrite Bool.orb_assoc.
  Qed.
End Pass.
