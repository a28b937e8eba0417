(** * Proofs about clustering: points are kept, preconditions, neighbour lists. *)
From Coq Require Import Sorted.
From Flocq Require Import BinarySingleNaN.
From Verif Require Import Base Ser Float HilbertC Kmeans CodecSpec KmeansSpec.

(** ** The run monad *)
Lemma run_bind_ok {A B} (m : run A) (f : A -> run B) i b j : run_bind m f i = Some (Ok (b, j)) ->
  exists a k, m i = Some (Ok (a, k)) /\ f a k = Some (Ok (b, j)).
Proof. unfold run_bind. destruct (m i) as [[[a k]| |]|]; try discriminate. eauto. Qed.
Lemma run_lift_ok {A} (r : res A) i a j : run_lift r i = Some (Ok (a, j)) -> r = Ok a /\ j = i.
Proof. unfold run_lift. destruct r; cbn; try discriminate. intros E. injection E as -> ->. auto. Qed.
Lemma res_bind_ok {A B} (m : res A) (f : A -> res B) b : res_bind m f = Ok b -> exists a, m = Ok a /\ f a = Ok b.
Proof. destruct m; cbn; try discriminate. eauto. Qed.
Lemma index_ok {A} (l : list A) i x : index l i = Ok x <-> nth_error l i = Some x.
Proof. unfold index. destruct (nth_error l i); split; congruence. Qed.
Lemma run_mapM_ok {A B} (f : A -> run B) l : forall i r j, run_mapM f l i = Some (Ok (r, j)) ->
  Forall2 (fun x y => exists i j, f x i = Some (Ok (y, j))) l r.
Proof.
  induction l as [|x l IH]; intros i r j H; cbn in H.
  - injection H as <- <-. constructor.
  - apply run_bind_ok in H as (y & k & Hy & H). apply run_bind_ok in H as (ys & k' & Hys & H). injection H as <- <-. constructor; eauto.
Qed.
Lemma res_mapM_ok {A B} (f : A -> res B) l : forall r, res_mapM f l = Ok r -> Forall2 (fun x y => f x = Ok y) l r.
Proof.
  induction l as [|x l IH]; intros r H; cbn in H.
  - injection H as <-. constructor.
  - destruct (f x) as [y| |] eqn:E; try discriminate. destruct (res_mapM f l) as [ys| |]; try discriminate. injection H as <-. constructor; auto.
Qed.

Lemma Forall2_len {A B} (R : A -> B -> Prop) l l' : Forall2 R l l' -> length l = length l'.
Proof. induction 1; cbn; auto. Qed.
Lemma Forall2_weaken {A B} (R R' : A -> B -> Prop) l l' : (forall x y, R x y -> R' x y) -> Forall2 R l l' -> Forall2 R' l l'.
Proof. intros H. induction 1; constructor; auto. Qed.
Lemma NoDup_first {A} n (l : list A) : NoDup l -> NoDup (firstn n l).
Proof.
  intros H. revert n. induction H as [|x l Hx H IH]; intros [|n]; cbn; constructor; auto.
  intros Hin. apply Hx. rewrite <- (firstn_skipn n l). apply in_or_app. now left.
Qed.

(** ** Splitting the points *)
Lemma update_at_length {A} (f : A -> A) l : forall i, length (update_at i f l) = length l.
Proof. induction l as [|x l IH]; intros [|i]; cbn; auto. Qed.
Lemma update_at_nth {A} (f : A -> A) l : forall i j, nth_error (update_at i f l) j = if (i =? j)%nat then option_map f (nth_error l j) else nth_error l j.
Proof. induction l as [|x l IH]; intros [|i] [|j]; cbn; auto. destruct (i =? j)%nat; reflexivity. Qed.
Lemma update_at_push {A} (x : A) l : forall j v, nth_error l j = Some v -> Permutation (concat (update_at j (fun v => v ++ [x]) l)) (x :: concat l).
Proof.
  induction l as [|w l IH]; intros [|j] v H; try discriminate; cbn.
  - rewrite <- app_assoc. cbn. symmetry. apply Permutation_middle.
  - rewrite (IH _ _ H). symmetry. apply Permutation_middle.
Qed.

Section Any.
  Context {T : Type} (P : point T).
  Variable sorted : list (nat * f64) -> list (nat * f64).
  Variable rng : nat -> N.

  Lemma split_loop_ok n ppc : forall (points : list T) acc, (n * ppc <= length points)%nat ->
    exists chunks rest, split_loop n ppc points acc = Ok (acc ++ chunks ++ [rest])
    /\ length chunks = n /\ Forall (fun c => length c = ppc) chunks /\ rest ++ concat (rev chunks) = points.
  Proof.
    induction n as [|n IH]; intros points acc H; cbn [split_loop].
    - exists [], points. cbn. rewrite app_nil_r. auto.
    - destruct (Nat.ltb_spec (length points) ppc); [lia|].
      destruct (IH (firstn (length points - ppc) points) (acc ++ [skipn (length points - ppc) points])) as (ch & rest & E & L & F & C).
      { rewrite firstn_length. lia. }
      exists (skipn (length points - ppc) points :: ch), rest. rewrite E, <- app_assoc. split; [reflexivity|]. split; [cbn; lia|]. split.
      + constructor; [rewrite skipn_length; lia|exact F].
      + cbn [rev]. rewrite concat_app. cbn [concat]. rewrite app_nil_r, app_assoc, C. apply firstn_skipn.
  Qed.

  Lemma init_assignment_spec (points : list T) (k : N) : let n := N.of_nat (length points) in
    if ((k =? 0) || (n <? k))%N then init_assignment points k = Panic
    else exists chunks rest, init_assignment points k = Ok (chunks ++ [rest])
      /\ N.of_nat (length chunks) = (k - 1)%N
      /\ Forall (fun c => N.of_nat (length c) = (n / k)%N) chunks
      /\ N.of_nat (length rest) = (n - (k - 1) * (n / k))%N /\ (0 < n / k <= N.of_nat (length rest))%N
      /\ rest ++ concat (rev chunks) = points.
  Proof.
    cbv zeta. unfold init_assignment. destruct (N.eqb_spec k 0) as [|Hk0]; cbn [orb]; [reflexivity|].
    set (n := N.of_nat (length points)). destruct (N.ltb_spec n k) as [Hnk|Hnk].
    - rewrite (N.div_small n k) by exact Hnk. reflexivity.
    - assert (Hq : (0 < n / k)%N) by (apply N.div_str_pos; lia). destruct (N.ltb_spec 0 (n / k)); [|lia].
      pose proof (N.mul_div_le n k ltac:(lia)) as Hm.
      assert (Hm2 : ((k - 1) * (n / k) + n / k <= n)%N) by nia.
      destruct (split_loop_ok (N.to_nat (k - 1)) (N.to_nat (n / k)) points []) as (ch & rest & E & L & F & C).
      { rewrite <- N2Nat.inj_mul. lia. }
      exists ch, rest. split; [exact E|]. split; [lia|].
      assert (LC : length (concat (rev ch)) = (N.to_nat (k - 1) * N.to_nat (n / k))%nat).
      { rewrite <- L. apply Forall_rev in F. rewrite <- (rev_length ch). clear -F. induction F as [|c l Hc F IH]; [reflexivity|].
        cbn. rewrite app_length, IH, Hc. reflexivity. }
      assert (LR : N.of_nat (length rest) = (n - (k - 1) * (n / k))%N).
      { apply (f_equal (@length T)) in C. rewrite app_length, LC, <- N2Nat.inj_mul in C. lia. }
      split; [eapply Forall_impl; [|exact F]; cbn; lia|]. split; [exact LR|]. split; [lia|exact C].
  Qed.

  (** ** Points are kept *)
  Lemma enumerated_spec (asg : list (list T)) : forall i, map snd (enumerated i asg) = concat asg.
  Proof. induction asg as [|v asg IH]; intros i; cbn; [reflexivity|]. rewrite map_app, map_map, IH. cbn. rewrite map_id. reflexivity. Qed.
  Lemma assign_loop_kept cs l : forall g asg b g' asg' b', assign_loop P cs l g asg b = Ok (g', asg', b') ->
    Permutation (concat asg') (map snd l ++ concat asg) /\ length asg' = length asg /\ length g' = length g.
  Proof.
    induction l as [|[cci x] l IH]; intros g asg b g' asg' b' H; cbn [assign_loop] in H.
    - injection H as <- <- <-. auto.
    - apply res_bind_ok in H as ([j w] & _ & H). cbn [fst snd] in H. apply res_bind_ok in H as (v & Hv & H). apply index_ok in Hv.
      apply IH in H as (Hp & Hl & Hg). rewrite update_at_length in Hl. cbn [map snd]. split; [|split; [exact Hl|]].
      + rewrite Hp, (update_at_push x _ _ _ Hv). symmetry. apply Permutation_middle.
      + rewrite Hg. destruct w; [apply update_at_length|reflexivity].
  Qed.
  Lemma concat_nils n : concat (repeat (@nil T) n) = [].
  Proof. induction n; cbn; auto. Qed.
  Lemma assign_points_kept c c' b : assign_points P c = Ok (c', b) ->
    Permutation (concat (assignment c')) (concat (assignment c)) /\ length (assignment c') = length (assignment c)
    /\ length (graph c') = length (graph c) /\ centroids c' = centroids c /\ length (centroids c) = length (assignment c) /\ assignment c <> [].
  Proof.
    unfold assign_points. destruct (Nat.eqb_spec (length (centroids c)) (length (assignment c))) as [E|]; [|discriminate].
    intros H. apply res_bind_ok in H as ([[g asg] ch] & H & H'). apply assign_loop_kept in H as (Hp & Hl & Hg).
    destruct (Nat.eqb_spec (length (assignment c)) 0); [discriminate|]. injection H' as <- <-. cbn.
    rewrite enumerated_spec, concat_nils, app_nil_r in Hp. rewrite repeat_length in Hl. repeat split; try congruence.
    intros E0. rewrite E0 in *. cbn in *. congruence.
  Qed.
  Lemma centroids_length vfuel asg i cs j : update_centroids P rng vfuel asg i = Some (Ok (cs, j)) -> length cs = length asg.
  Proof. intros H. apply run_mapM_ok, Forall2_len in H. auto. Qed.
  Lemma graph_length cs g i g' j : compute_neighbours P sorted cs g i = Some (Ok (g', j)) -> length g' = length g.
  Proof. intros H. apply run_mapM_ok, Forall2_len in H. auto. Qed.

  Record shape (points : list T) (k : N) (c : clusters T) : Prop := {
    sh_perm : Permutation (concat (assignment c)) points;
    sh_asg : N.of_nat (length (assignment c)) = k;
    sh_cs : N.of_nat (length (centroids c)) = k;
    sh_graph : N.of_nat (length (graph c)) = k
  }.
  Lemma init_shape points k i c j : init P sorted points k i = Some (Ok (c, j)) -> shape points k c.
  Proof.
    intros H. unfold init in H. apply run_bind_ok in H as (asg & i1 & Ha & H). apply run_lift_ok in Ha as [Ha ->].
    apply run_bind_ok in H as (cs & i2 & Hc & H). apply run_lift_ok in Hc as [Hc ->].
    apply run_bind_ok in H as (g & i3 & Hg & H). injection H as <- <-.
    pose proof (init_assignment_spec points k) as S. cbv zeta in S. destruct ((k =? 0) || _)%N eqn:E; [congruence|].
    apply Bool.orb_false_elim in E as [E _]. apply N.eqb_neq in E.
    destruct S as (ch & rest & S & L & _ & _ & _ & C). rewrite S in Ha. injection Ha as <-.
    apply res_mapM_ok, Forall2_len in Hc. apply graph_length in Hg. rewrite map_length, seq_length in Hg. rewrite app_length in Hc. cbn [length] in Hc.
    constructor; cbn [assignment centroids graph]; [|rewrite ?app_length; cbn [length]; lia..].
    rewrite concat_app. cbn. rewrite app_nil_r, <- C. rewrite Permutation_app_comm. apply Permutation_app_head.
    clear. induction ch as [|c l IH]; cbn; [auto|]. rewrite concat_app. cbn. rewrite app_nil_r, IH. apply Permutation_app_comm.
  Qed.
  Lemma pass_shape points k vfuel c i c' b j : shape points k c -> pass P sorted rng vfuel c i = Some (Ok ((c', b), j)) -> shape points k c'.
  Proof.
    intros [S1 S2 S3 S4] H. unfold pass in H. apply run_bind_ok in H as ([c1 b1] & i1 & Ha & H). apply run_lift_ok in Ha as [Ha ->]. cbn [fst snd] in H.
    apply run_bind_ok in H as (cs & i2 & Hc & H). apply run_bind_ok in H as (g & i3 & Hg & H). injection H as <- <- <-.
    apply assign_points_kept in Ha as (H1 & H2 & H3 & H4 & _). apply centroids_length in Hc. apply graph_length in Hg.
    constructor; cbn [assignment centroids graph]; try lia. now rewrite H1.
  Qed.
  Lemma reached_shape points k vfuel c : reached P sorted rng vfuel points k c -> shape points k c.
  Proof. induction 1 as [i c j H|c i c' b j _ IH H]; [eapply init_shape|eapply pass_shape]; eauto. Qed.
  Lemma passes_reached points k vfuel fuel : forall n c i c' j, reached P sorted rng vfuel points k c ->
    passes P sorted rng fuel vfuel n c i = Some (Ok (c', j)) ->
    exists c1 i1 j1, reached P sorted rng vfuel points k c1 /\ pass P sorted rng vfuel c1 i1 = Some (Ok ((c', false), j1)).
  Proof.
    induction fuel as [|fuel IH]; intros n c i c' j R H; cbn [passes] in H; [discriminate|].
    apply run_bind_ok in H as ([c1 b] & i1 & Hp & H). apply run_bind_ok in H as (n' & i2 & _ & H). cbn [fst snd] in H. destruct b.
    - apply IH in H; [exact H|]. eapply reached_pass; eauto.
    - injection H as <- <-. eauto.
  Qed.
  Lemma cluster_reached fuel vfuel points k i c j : cluster P sorted rng fuel vfuel points k i = Some (Ok (c, j)) ->
    (exists c1 i1 j1, reached P sorted rng vfuel points k c1 /\ pass P sorted rng vfuel c1 i1 = Some (Ok ((c, false), j1)))
    /\ check_enough c k = Ok tt.
  Proof.
    intros H. unfold cluster in H. apply run_bind_ok in H as (c0 & i1 & H0 & H). apply run_bind_ok in H as (c1 & i2 & H1 & H).
    apply run_bind_ok in H as (u & i3 & H2 & H). injection H as <- <-. apply run_lift_ok in H2 as [H2 _]. destruct u. split; [|exact H2].
    eapply passes_reached; [|exact H1]. eapply reached_init, H0.
  Qed.
  Lemma cluster_kept fuel vfuel points k i c j : cluster P sorted rng fuel vfuel points k i = Some (Ok (c, j)) ->
    Permutation (concat (assignment c)) points /\ N.of_nat (length (assignment c)) = k /\ N.of_nat (length (centroids c)) = k
    /\ Permutation (concat (map snd (cluster_list c))) points /\ N.of_nat (length (cluster_list c)) = k.
  Proof.
    intros H. apply cluster_reached in H as [(c1 & i1 & j1 & R & Hp) _]. pose proof (reached_pass _ _ _ _ _ _ _ _ _ _ _ R Hp) as R'.
    apply reached_shape in R' as [S1 S2 S3 S4]. repeat split; auto; unfold cluster_list.
    - assert (E : map snd (combine (centroids c) (assignment c)) = assignment c); [|rewrite E; exact S1].
      assert (L : length (centroids c) = length (assignment c)) by lia. revert L. generalize (assignment c). generalize (centroids c).
      clear. induction l as [|a l IH]; intros [|b m] L; try discriminate; [reflexivity|]. cbn. f_equal. apply IH. cbn in L. lia.
    - rewrite combine_length. lia.
  Qed.
  Lemma cluster_refused fuel vfuel points k i : (k = 0 \/ N.of_nat (length points) < k)%N ->
    cluster P sorted rng fuel vfuel points k i = Some Panic.
  Proof.
    intros H. unfold cluster, init, run_bind. pose proof (init_assignment_spec points k) as S. cbv zeta in S.
    destruct ((k =? 0) || _)%N eqn:E.
    - rewrite S. reflexivity.
    - apply Bool.orb_false_elim in E as [E1 E2]. apply N.eqb_neq in E1. apply N.ltb_ge in E2. lia.
  Qed.

  (** ** Neighbour lists *)
  Hypothesis Hsort : sort_ok sorted.
  Lemma others_length i k : (i < k)%nat -> length (filter (fun dst => negb (dst =? i)%nat) (seq 0 k)) = (k - 1)%nat.
  Proof.
    intros H. assert (Hs : seq 0 k = seq 0 i ++ i :: seq (S i) (k - S i)).
    { replace k with (i + S (k - S i))%nat at 1 by lia. rewrite seq_app. reflexivity. }
    rewrite Hs, filter_app. cbn [filter]. rewrite Nat.eqb_refl. cbn [negb].
    assert (F : forall a n, (forall x, In x (seq a n) -> x <> i) -> filter (fun dst => negb (dst =? i)%nat) (seq a n) = seq a n).
    { intros a n. induction (seq a n) as [|x l IH]; intros Hx; [reflexivity|]. cbn. rewrite (proj2 (Nat.eqb_neq x i)) by (apply Hx; now left).
      cbn. rewrite IH; [reflexivity|]. intros y Hy. apply Hx. now right. }
    rewrite !F, app_length, !seq_length; [lia|..]; intros x Hx; apply in_seq in Hx; lia.
  Qed.
  Lemma nb_new_near i k : map fst (near (nb_new i k)) = filter (fun dst => negb (dst =? i)%nat) (seq 0 k).
  Proof. unfold nb_new. cbn. rewrite map_map. cbn. apply map_id. Qed.
  Lemma nb_new_length i k : (i < k)%nat -> length (near (nb_new i k)) = (k - 1)%nat.
  Proof. intros H. rewrite <- (map_length fst), nb_new_near. now apply others_length. Qed.

  Lemma distances_ok cs nb nb' : update_distances P cs nb = Ok nb' -> src_id nb' = src_id nb /\ watermark nb' = watermark nb
    /\ map fst (near nb') = map fst (near nb) /\ Forall (fun e : nat * f64 => is_finite (snd e) = true) (near nb')
    /\ (src_id nb < length cs)%nat
    /\ forall t d, In (t, d) (near nb') -> exists ci ct, nth_error cs (src_id nb) = Some ci /\ nth_error cs t = Some ct /\ dist P ci ct = Ok d /\ is_finite d = true.
  Proof.
    intros H. unfold update_distances in H. apply res_bind_ok in H as (ci & Hi & H). apply index_ok in Hi.
    apply res_bind_ok in H as (l & Hl & H). injection H as <-. cbn [src_id watermark near].
    apply res_mapM_ok in Hl.
    assert (K : Forall2 (fun x y : nat * f64 => fst x = fst y /\ is_finite (snd y) = true /\ exists ct, nth_error cs (fst y) = Some ct /\ dist P ci ct = Ok (snd y)) (near nb) l).
    { eapply Forall2_weaken; [|exact Hl]. intros [t d] [t' d'] E. cbn [fst snd] in *. apply res_bind_ok in E as (ct & Hct & E). apply index_ok in Hct.
      apply res_bind_ok in E as (d1 & Hd & E). destruct (is_finite d1) eqn:F; [|discriminate]. injection E as <- <-. eauto. }
    split; [reflexivity|]. split; [reflexivity|]. split; [|split; [|split]].
    - clear -K. induction K as [|x y l l' (E & _) K IH]; [reflexivity|]. cbn. now rewrite E, IH.
    - clear -K. induction K as [|x y l l' (_ & F & _) K IH]; constructor; auto.
    - apply nth_error_Some. congruence.
    - intros t d Hin. clear -K Hi Hin. induction K as [|x y l l' (_ & F & ct & E1 & E2) K IH]; [contradiction|].
      destruct Hin as [-> | Hin]; [|now apply IH]. cbn in *. eauto 6.
  Qed.
  Lemma sorted_length l : Forall (fun e : nat * f64 => is_finite (snd e) = true) l -> length (sorted l) = length l.
  Proof using Hsort. intros H. apply Hsort in H as [H _]. now apply Permutation_length. Qed.

  Lemma settle_S fuel cs nb : settle P sorted (S fuel) cs nb =
    match update_distances P cs nb with
    | Ok nb => let '(shrunk, nb) := resize (length cs) (mkNb (src_id nb) (sorted (near nb)) (watermark nb)) in
               if shrunk then Some (Ok nb) else settle P sorted fuel cs nb
    | Err => Some Err
    | Panic => Some Panic
    end.
  Proof. reflexivity. Qed.
  (** A fresh list is kept whole. *)
  Lemma new_num_full k m : (k - 1 <= m)%nat -> new_num k m = (k - 1)%nat.
  Proof. unfold new_num. lia. Qed.
  Lemma settle_new fuel cs i : settle P sorted (S fuel) cs (nb_new i (length cs)) =
    match update_distances P cs (nb_new i (length cs)) with
    | Ok nb => Some (Ok (mkNb i (sorted (near nb)) 0))
    | Err => Some Err | Panic => Some Panic
    end.
  Proof using Hsort.
    cbn [settle]. destruct (update_distances P cs (nb_new i (length cs))) as [nb| |] eqn:E; try reflexivity.
    apply distances_ok in E as (E1 & E2 & E3 & E4 & E5 & _). cbn [src_id nb_new] in E1, E5.
    assert (L : length (sorted (near nb)) = (length cs - 1)%nat).
    { rewrite sorted_length by exact E4. apply (f_equal (@length nat)) in E3. rewrite !map_length in E3. rewrite E3. now apply nb_new_length. }
    assert (M : watermark nb = (length cs - 1)%nat).
    { rewrite E2. cbn [nb_new watermark]. rewrite map_length. now apply others_length. }
    unfold resize. cbn [watermark near src_id]. rewrite M, new_num_full by lia.
    destruct (Nat.leb_spec ((length cs - 1) * 3 / 4) (length (sorted (near nb)))) as [H|H].
    - rewrite firstn_all2 by lia. now rewrite E1.
    - exfalso. rewrite L in H. assert ((length cs - 1) * 3 / 4 <= length cs - 1)%nat; [|lia].
      apply Nat.div_le_upper_bound; lia.
  Qed.
  Lemma settle_two fuel cs nb : settle P sorted (2 + fuel) cs nb = settle P sorted 2 cs nb /\ settle P sorted 2 cs nb <> None.
  Proof using Hsort.
    change (2 + fuel)%nat with (S (S fuel)). rewrite (settle_S (S fuel)), (settle_S 1).
    destruct (update_distances P cs nb) as [nb'| |]; try (split; [reflexivity|discriminate]).
    unfold resize. destruct (_ <=? _)%nat; [split; [reflexivity|discriminate]|].
    cbn [src_id]. rewrite !settle_new. split; [reflexivity|]. destruct (update_distances _ _ _); discriminate.
  Qed.

  (** What one maintenance leaves behind. *)
  Definition settled (cs : list T) (nb : neighbours) : Prop :=
    neighbours_of P cs (src_id nb) nb /\ (Nat.min (length cs - 1) (lower_bound (length cs)) <= length (near nb) <= length cs - 1)%nat.
  (** What it needs to find: ids of other clusters, enough of them. *)
  Definition usable (k : nat) (nb : neighbours) : Prop :=
    NoDup (map fst (near nb)) /\ ~ In (src_id nb) (map fst (near nb)) /\ (forall t, In t (map fst (near nb)) -> (t < k)%nat)
    /\ (Nat.min (k - 1) (lower_bound k) <= length (near nb))%nat.
  Lemma usable_max k nb : usable k nb -> (src_id nb < k)%nat -> (length (near nb) <= k - 1)%nat.
  Proof.
    intros (H1 & H2 & H3 & _) Hs. rewrite <- (map_length fst). rewrite <- (others_length (src_id nb) k) by exact Hs.
    apply NoDup_incl_length; [exact H1|]. intros t Ht. apply filter_In. split; [apply in_seq; specialize (H3 t Ht); lia|].
    destruct (Nat.eqb_spec t (src_id nb)); [subst; contradiction|reflexivity].
  Qed.
  Lemma usable_new i k : (i < k)%nat -> usable k (nb_new i k).
  Proof.
    intros H. unfold usable. rewrite nb_new_near, nb_new_length by exact H. cbn [src_id nb_new]. split; [apply NoDup_filter, seq_NoDup|]. split; [|split; [|lia]].
    - intros Hi. apply filter_In in Hi as [_ Hi]. rewrite Nat.eqb_refl in Hi. discriminate.
    - intros t Ht. apply filter_In in Ht as [Ht _]. apply in_seq in Ht. lia.
  Qed.
  Lemma firstn_sorted {A} (R : A -> A -> Prop) n l : StronglySorted R l -> StronglySorted R (firstn n l).
  Proof.
    intros H. revert n. induction H as [|x l H IH F]; intros [|n]; cbn; constructor; auto.
    apply Forall_forall. intros y Hy. rewrite Forall_forall in F. apply F. rewrite <- (firstn_skipn n l). apply in_or_app. now left.
  Qed.
  Lemma trimmed cs nb nb' n : update_distances P cs nb = Ok nb' -> usable (length cs) nb ->
    (Nat.min (length cs - 1) (lower_bound (length cs)) <= n)%nat ->
    settled cs (mkNb (src_id nb') (firstn n (sorted (near nb'))) 0).
  Proof using Hsort.
    intros E U Hn. pose proof (usable_max _ _ U) as UM. destruct U as (U1 & U2 & U3 & U4). apply distances_ok in E as (E1 & E2 & E3 & E4 & E5 & E6).
    specialize (UM E5). destruct (Hsort _ E4) as [HP HS]. pose proof (Permutation_map fst HP) as HPm. rewrite E3 in HPm.
    assert (L : length (sorted (near nb')) = length (near nb)) by (apply (f_equal (@length nat)) in E3; rewrite !map_length in E3; now rewrite (Permutation_length HP)).
    split.
    - constructor; cbn [src_id near].
      + reflexivity.
      + rewrite <- firstn_map. apply (NoDup_first n). eapply Permutation_NoDup; [symmetry; exact HPm|exact U1].
      + intros t d Hin. rewrite E1.
        assert (Hin' : In (t, d) (near nb')).
        { eapply Permutation_in; [exact HP|]. rewrite <- (firstn_skipn n). apply in_or_app. now left. }
        split; [|now apply E6]. intros ->. apply U2. rewrite <- E3. apply in_map_iff. exists (src_id nb, d). auto.
      + apply firstn_sorted, HS.
    - cbn [near]. rewrite firstn_length. lia.
  Qed.
  Lemma settle_settled fuel cs : forall nb nb', usable (length cs) nb -> settle P sorted fuel cs nb = Some (Ok nb') ->
    settled cs nb' /\ src_id nb' = src_id nb /\ watermark nb' = 0%nat.
  Proof using Hsort.
    induction fuel as [|fuel IH]; intros nb nb' U H; cbn [settle] in H; [discriminate|].
    destruct (update_distances P cs nb) as [nb1| |] eqn:E; try discriminate. unfold resize in H. cbn [watermark near src_id] in H.
    pose proof (distances_ok _ _ _ E) as (E1 & _ & _ & _ & E5 & _).
    destruct (_ <=? _)%nat.
    - injection H as <-. split; [|split; [exact E1|reflexivity]]. eapply trimmed; eauto. unfold new_num. lia.
    - apply IH in H as (H1 & H2 & H3); [|apply usable_new; lia]. split; [exact H1|]. cbn [src_id nb_new] in H2. split; [congruence|exact H3].
  Qed.
  Lemma settled_usable cs k nb : length cs = k -> settled cs nb -> usable k nb.
  Proof.
    intros <- [[H1 H2 H3 H4] H5]. split; [exact H2|]. split; [|split].
    - intros Hin. apply in_map_iff in Hin as ([t d] & E & Hin). cbn in E. subst t. apply H3 in Hin as [Hn _]. congruence.
    - intros t Hin. apply in_map_iff in Hin as ([t' d] & E & Hin). cbn in E. subst t'. apply H3 in Hin as (_ & ci & ct & _ & Hct & _).
      apply nth_error_Some. congruence.
    - apply H5.
  Qed.

  Lemma Forall2_nth_r {A B} (R : A -> B -> Prop) l l' i y : Forall2 R l l' -> nth_error l' i = Some y -> exists x, nth_error l i = Some x /\ R x y.
  Proof. intros H. revert i. induction H as [|a b l l' Hab H IH]; intros [|i] E; cbn in *; try discriminate; [|now apply IH]. injection E as <-. eauto. Qed.

  Definition graph_settled (c : clusters T) : Prop :=
    forall i nb, nth_error (graph c) i = Some nb -> settled (centroids c) nb /\ src_id nb = i /\ watermark nb = 0%nat.
  Lemma compute_settled cs g i g' j : (forall n nb, nth_error g n = Some nb -> usable (length cs) nb /\ src_id nb = n) ->
    compute_neighbours P sorted cs g i = Some (Ok (g', j)) ->
    forall n nb, nth_error g' n = Some nb -> settled cs nb /\ src_id nb = n /\ watermark nb = 0%nat.
  Proof using Hsort.
    intros U H n nb Hn. apply run_mapM_ok in H. apply (Forall2_nth_r _ _ _ _ _ H) in Hn as (nb0 & Hn & i1 & j1 & E).
    apply U in Hn as [U1 U2]. destruct (settle P sorted 2 cs nb0) as [r|] eqn:Es; [|discriminate].
    apply run_lift_ok in E as [-> _]. apply settle_settled in Es as (S1 & S2 & S3); [|exact U1]. split; [exact S1|]. split; [congruence|exact S3].
  Qed.
  Lemma nth_seq_map {A} (f : nat -> A) k n x : nth_error (map f (seq 0 k)) n = Some x -> (n < k)%nat /\ x = f n.
  Proof.
    intros H. assert (Hn : (n < k)%nat) by (rewrite <- (seq_length k 0), <- (map_length f); apply nth_error_Some; congruence).
    split; [exact Hn|]. rewrite (nth_error_nth' _ (f 0%nat)) in H by (rewrite map_length, seq_length; exact Hn).
    injection H as <-. rewrite map_nth, seq_nth by exact Hn. reflexivity.
  Qed.
  Lemma init_settled points k i c j : init P sorted points k i = Some (Ok (c, j)) -> graph_settled c
    /\ forall i nb, nth_error (graph c) i = Some nb -> complete (centroids c) i nb.
  Proof using Hsort.
    intros H. unfold init in H. apply run_bind_ok in H as (asg & i1 & Ha & H). apply run_bind_ok in H as (cs & i2 & Hc & H).
    apply run_bind_ok in H as (g & i3 & Hg & H). injection H as <- <-. unfold init_neighbours in Hg. split.
    - intros n nb Hn. cbn [graph centroids] in *. eapply compute_settled; [|exact Hg|exact Hn]. intros m nb0 Hm. apply nth_seq_map in Hm as [Hm ->].
      split; [now apply usable_new|reflexivity].
    - intros n nb Hn t Ht Htn. cbn [graph centroids] in *. apply run_mapM_ok in Hg. apply (Forall2_nth_r _ _ _ _ _ Hg) in Hn as (nb0 & Hn & i4 & j4 & E).
      apply nth_seq_map in Hn as [Hn ->]. destruct (settle P sorted 2 cs (nb_new n (length cs))) as [r|] eqn:Es; [|discriminate].
      apply run_lift_ok in E as [-> _]. rewrite settle_new in Es. destruct (update_distances P cs (nb_new n (length cs))) as [nb1| |] eqn:Eu; try discriminate.
      injection Es as <-. cbn [near]. apply distances_ok in Eu as (_ & _ & E3 & E4 & _). destruct (Hsort _ E4) as [HP _].
      eapply Permutation_in; [symmetry; apply Permutation_map, HP|]. rewrite E3, nb_new_near. apply filter_In. split; [apply in_seq; lia|].
      now rewrite (proj2 (Nat.eqb_neq t n)).
  Qed.
  (** Assigning points only changes watermarks. *)
  Lemma assign_loop_graph cs l : forall g asg b g' asg' b', assign_loop P cs l g asg b = Ok (g', asg', b') ->
    forall i nb', nth_error g' i = Some nb' -> exists nb, nth_error g i = Some nb /\ src_id nb' = src_id nb /\ near nb' = near nb.
  Proof.
    induction l as [|[cci x] l IH]; intros g asg b g' asg' b' H i nb' Hi; cbn [assign_loop] in H.
    - injection H as <- <- <-. eauto.
    - apply res_bind_ok in H as ([jj w] & _ & H). cbn [fst snd] in H. apply res_bind_ok in H as (v & Hv & H).
      destruct (IH _ _ _ _ _ _ H i nb' Hi) as (nb & Hnb & E1 & E2). destruct w as [w|]; [|eauto].
      rewrite update_at_nth in Hnb. destruct (cci =? i)%nat; [|eauto]. destruct (nth_error g i) as [nb0|]; [|discriminate].
      cbn in Hnb. injection Hnb as <-. exists nb0. auto.
  Qed.
  Lemma assign_points_graph c c' b : assign_points P c = Ok (c', b) -> forall i nb', nth_error (graph c') i = Some nb' ->
    exists nb, nth_error (graph c) i = Some nb /\ src_id nb' = src_id nb /\ near nb' = near nb.
  Proof.
    unfold assign_points. destruct (_ =? _)%nat; [|discriminate]. intros H. apply res_bind_ok in H as ([[g asg] ch] & H & H').
    destruct (_ =? _)%nat; [discriminate|]. injection H' as <- <-. cbn [graph]. eapply assign_loop_graph, H.
  Qed.
  Lemma pass_settled points k vfuel c i c' b j : shape points k c -> graph_settled c -> pass P sorted rng vfuel c i = Some (Ok ((c', b), j)) -> graph_settled c'.
  Proof using Hsort.
    intros Sh G H n nb Hn. unfold pass in H. apply run_bind_ok in H as ([c1 b1] & i1 & Ha & H). apply run_lift_ok in Ha as [Ha ->]. cbn [fst snd] in H.
    apply run_bind_ok in H as (cs & i2 & Hc & H). apply run_bind_ok in H as (g & i3 & Hg & H). injection H as <- <- <-.
    pose proof (assign_points_kept _ _ _ Ha) as (_ & H2 & _ & _ & H5 & _). apply centroids_length in Hc. cbn [graph centroids] in *.
    eapply compute_settled; [|exact Hg|exact Hn]. intros m nb0 Hm. apply (assign_points_graph _ _ _ Ha) in Hm as (nb1 & Hm & E1 & E2).
    apply G in Hm as (G1 & G2 & _). split; [|congruence].
    apply (settled_usable (centroids c) (length cs)) in G1; [|destruct Sh; lia]. unfold usable in *. rewrite E1, E2. exact G1.
  Qed.
  Lemma reached_settled points k vfuel c : reached P sorted rng vfuel points k c -> graph_settled c.
  Proof using Hsort.
    induction 1 as [i c j H|c i c' b j R IH H]; [eapply init_settled, H|].
    eapply pass_settled; [eapply reached_shape, R|exact IH|exact H].
  Qed.
End Any.
