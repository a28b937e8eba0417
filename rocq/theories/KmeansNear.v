(** * A pass with complete neighbour lists picks nearest centroids. *)
From Coq Require Import Sorted.
From Flocq Require Import BinarySingleNaN.
From Verif Require Import Base Ser Float HilbertC Kmeans CodecSpec KmeansSpec KmeansProofs KmeansFloat.

Section Near.
  Context {T : Type} (P : point T) (col : T -> rgb N).
  Hypothesis HP : coloured col P.
  Variable cs : list T.
  Hypothesis Hcs : Forall (fun c => rgb_ok (col c)) cs.
  Notation sq a b := (sq_dist (col a) (col b)).

  Lemma cs_ok i c : nth_error cs i = Some c -> rgb_ok (col c).
  Proof using Hcs. intros H. apply nth_error_In in H. rewrite Forall_forall in Hcs. auto. Qed.

  Lemma probe_nearest i ci x : nth_error cs i = Some ci -> rgb_ok (col x) ->
    forall l cl ccl pos, StronglySorted by_distance l ->
    (forall t d, In (t, d) l -> exists ct, nth_error cs t = Some ct /\ d = rgb_dist (col ci) (col ct)) ->
    nth_error cs cl = Some ccl -> (sq ccl x <= sq ci x)%Z ->
    exists j cj w, probe P cs x (fmul (f64_of_N 2) (rgb_dist (col ci) (col x))) l (rgb_dist (col ccl) (col x)) cl pos = Ok (j, w)
    /\ nth_error cs j = Some cj /\ (sq cj x <= sq ccl x)%Z /\ (j = cl \/ (sq cj x < sq ccl x)%Z)
    /\ forall t ct d, In (t, d) l -> nth_error cs t = Some ct -> (sq cj x <= sq ct x)%Z.
  Proof using HP Hcs.
    intros Hi Hx. induction l as [|[t d] l IH]; intros cl ccl pos Hs Hl Hcl Hle; cbn [probe].
    - exists cl, ccl, pos. repeat split; auto; try lia. intros ? ? ? [].
    - destruct (Hl t d ltac:(now left)) as (ct & Ht & ->). inversion Hs as [|? ? Hs' Hf]; subst.
      destruct (flt _ _) eqn:Ec.
      + exists cl, ccl, pos. repeat split; auto; try lia. intros t' ct' d' [E|Hin] Ht'.
        * injection E as <- <-. replace ct' with ct in * by congruence.
          pose proof (cutoff_safe (col ci) (col ct) (col ct) (col x) (cs_ok _ _ Hi) (cs_ok _ _ Ht) (cs_ok _ _ Ht) Hx) as C.
          rewrite (rgb_dist_root (col ci) (col ct)), root_le, Z.leb_refl in C by (first [eapply cs_ok; eassumption | apply sq_dist_bound; eapply cs_ok; eassumption]).
          rewrite <- rgb_dist_root in C by (eapply cs_ok; eassumption). specialize (C eq_refl Ec). lia.
        * destruct (Hl t' d' ltac:(now right)) as (ct1 & Ht1 & ->). replace ct1 with ct' in * by congruence.
          rewrite Forall_forall in Hf. pose proof (Hf _ Hin) as Hd. unfold by_distance in Hd. cbn [snd] in Hd.
          pose proof (cutoff_safe _ _ _ _ (cs_ok _ _ Hi) (cs_ok _ _ Ht) (cs_ok _ _ Ht') Hx Hd Ec). lia.
      + unfold index. rewrite Ht. cbn [res_bind]. rewrite HP. cbn [res_bind].
        rewrite (rgb_dist_root (col ct) (col x)), (rgb_dist_root (col ccl) (col x)) by first [eapply cs_ok; eassumption | assumption].
        rewrite root_lt by (apply sq_dist_bound; first [eapply cs_ok; eassumption | assumption]).
        rewrite <- !rgb_dist_root by first [eapply cs_ok; eassumption | assumption].
        destruct (Z.ltb_spec (sq ct x) (sq ccl x)) as [C|C].
        * destruct (IH t ct (S pos) Hs') as (j & cj & w & E & Hj & H1 & H2 & H3); [intros; apply Hl; now right|exact Ht|lia|].
          exists j, cj, w. split; [exact E|]. split; [exact Hj|]. split; [lia|]. split; [right; lia|].
          intros t' ct' d' [Eq|Hin] Ht'; [injection Eq as <- <-; replace ct' with ct by congruence; lia|eauto].
        * destruct (IH cl ccl (S pos) Hs') as (j & cj & w & E & Hj & H1 & H2 & H3); [intros; apply Hl; now right|exact Hcl|lia|].
          exists j, cj, w. split; [exact E|]. split; [exact Hj|]. split; [lia|]. split; [exact H2|].
          intros t' ct' d' [Eq|Hin] Ht'; [injection Eq as <- <-; replace ct' with ct by congruence; lia|eauto].
  Qed.

  (** One point *)
  Lemma assign_point_nearest g i nb x : nth_error g i = Some nb -> (i < length cs)%nat -> rgb_ok (col x) ->
    neighbours_of P cs i nb -> complete cs i nb ->
    exists j w, assign_point P cs g i x = Ok (j, w) /\ nearest col cs x j /\ (nearest col cs x i -> j = i).
  Proof using HP Hcs.
    intros Hg Hi Hx [N1 N2 N3 N4] Hc. destruct (nth_error cs i) as [ci|] eqn:Ei; [|apply nth_error_None in Ei; lia].
    unfold assign_point, index. rewrite Ei. cbn [res_bind]. rewrite HP. cbn [res_bind]. rewrite Hg. cbn [res_bind].
    assert (Hl : forall t d, In (t, d) (near nb) -> exists ct, nth_error cs t = Some ct /\ d = rgb_dist (col ci) (col ct)).
    { intros t d Hin. apply N3 in Hin as (_ & ci' & ct & E1 & E2 & E3 & _). rewrite HP in E3. exists ct. split; [exact E2|]. congruence. }
    assert (Hall : forall c, In c cs -> c = ci \/ exists t d, In (t, d) (near nb) /\ nth_error cs t = Some c).
    { intros c Hin. apply In_nth_error in Hin as [t Ht]. destruct (Nat.eq_dec t i) as [->|Hne]; [left; congruence|].
      assert (Hlt : (t < length cs)%nat) by (apply nth_error_Some; congruence). specialize (Hc t Hlt Hne).
      apply in_map_iff in Hc as ([t' d] & E & Hin). cbn in E. subst t'. right. eauto. }
    destruct (fle _ _) eqn:Er.
    - assert (Hn : nearest col cs x i).
      { exists ci. split; [exact Ei|]. intros c Hin. destruct (Hall c Hin) as [->|(t & d & Ht & Hct)]; [lia|].
        destruct (Hl t d Ht) as (ct & Hct' & ->). replace ct with c in * by congruence. unfold certainty_radius in Er.
        destruct (near nb) as [|[t1 d1] l]; [contradiction|]. destruct (Hl t1 d1 ltac:(now left)) as (c1 & Hc1 & ->).
        eapply (radius_safe (col ci) (col c1) (col c)); try (eapply cs_ok; eassumption); try eassumption.
        inversion N4 as [|? ? _ Hf]; subst. destruct Ht as [E|Ht].
        - injection E as -> E. rewrite E. rewrite rgb_dist_root, root_le by (first [eapply cs_ok; eassumption | apply sq_dist_bound; eapply cs_ok; eassumption]).
          apply Z.leb_refl.
        - rewrite Forall_forall in Hf. exact (Hf _ Ht). }
      exists i, None. auto.
    - destruct (probe_nearest i ci x Ei Hx (near nb) i ci 0%nat N4 Hl Ei ltac:(lia)) as (j & cj & w & E & Hj & H1 & H2 & H3).
      rewrite E. cbn [res_map fst snd]. exists j, (Some w). split; [reflexivity|].
      assert (Hn : nearest col cs x j).
      { exists cj. split; [exact Hj|]. intros c Hin. destruct (Hall c Hin) as [->|(t & d & Ht & Hct)]; [exact H1|eauto]. }
      split; [exact Hn|]. intros (ci' & Ei' & Hmin). destruct H2 as [->|H2]; [reflexivity|].
      exfalso. apply nth_error_In in Hj. specialize (Hmin _ Hj). replace ci' with ci in * by congruence. lia.
  Qed.

  (** All points *)
  Definition good_graph (g : list neighbours) : Prop :=
    forall i, (i < length cs)%nat -> exists nb, nth_error g i = Some nb /\ neighbours_of P cs i nb /\ complete cs i nb.
  Lemma good_update g i w : good_graph g -> good_graph (update_at i (fun nb => mkNb (src_id nb) (near nb) w) g).
  Proof.
    intros G n Hn. destruct (G n Hn) as (nb & E & [N1 N2 N3 N4] & C). rewrite update_at_nth, E. destruct (i =? n)%nat.
    - cbn. eexists. split; [reflexivity|]. split; [constructor; assumption|exact C].
    - exists nb. split; [reflexivity|]. split; [constructor; assumption|exact C].
  Qed.
  Lemma assign_loop_nearest l : forall g asg b, good_graph g -> length asg = length cs ->
    (forall i x, In (i, x) l -> (i < length cs)%nat /\ rgb_ok (col x)) ->
    (forall j v x, nth_error asg j = Some v -> In x v -> nearest col cs x j) ->
    exists g' asg' b', assign_loop P cs l g asg b = Ok (g', asg', b')
    /\ (forall j v x, nth_error asg' j = Some v -> In x v -> nearest col cs x j)
    /\ (b' = false <-> b = false /\ forall i x, In (i, x) l -> nearest col cs x i).
  Proof using HP Hcs.
    induction l as [|[i x] l IH]; intros g asg b G L Hl Ha; cbn [assign_loop].
    - exists g, asg, b. split; [reflexivity|]. split; [exact Ha|]. split; [intros ->; split; [reflexivity|intros ? ? []]|intros [-> _]; reflexivity].
    - destruct (Hl i x ltac:(now left)) as [Hi Hx]. destruct (G i Hi) as (nb & Hnb & N & C).
      destruct (assign_point_nearest g i nb x Hnb Hi Hx N C) as (j & w & E & Hj & Hstay). rewrite E. cbn [res_bind fst snd].
      assert (Hjl : (j < length cs)%nat) by (destruct Hj as (cj & Hj & _); apply nth_error_Some; congruence).
      destruct (nth_error asg j) as [v|] eqn:Ev; [|apply nth_error_None in Ev; lia]. unfold index. rewrite Ev. cbn [res_bind].
      destruct (IH (match w with Some w => update_at i (fun nb => mkNb (src_id nb) (near nb) w) g | None => g end)
        (update_at j (fun v => v ++ [x]) asg) (b || negb (i =? j)%nat)%bool) as (g' & asg' & b' & E' & H1 & H2).
      + destruct w; [now apply good_update|exact G].
      + now rewrite update_at_length.
      + intros; apply Hl. now right.
      + intros j' v' x' Hv' Hin. rewrite update_at_nth in Hv'. destruct (Nat.eqb_spec j j') as [<-|]; [|eauto].
        rewrite Ev in Hv'. cbn in Hv'. injection Hv' as <-. apply in_app_or in Hin as [Hin|[->|[]]]; eauto.
      + exists g', asg', b'. split; [exact E'|]. split; [exact H1|]. rewrite H2. destruct (Nat.eqb_spec i j) as [<-|Hij].
        * cbn. rewrite Bool.orb_false_r. split.
          -- intros [-> H]. split; [reflexivity|]. intros i' x' [Eq|Hin]; [injection Eq as <- <-; exact Hj|eauto].
          -- intros [-> H]. split; [reflexivity|]. intros i' x' Hin. apply H. now right.
        * cbn. rewrite Bool.orb_true_r. split; [intros [? _]; discriminate|]. intros [-> H]. exfalso. apply Hij. symmetry. apply Hstay, H. now left.
  Qed.
End Near.

Lemma enumerated_in {T} (asg : list (list T)) : forall k i x, In (i, x) (enumerated k asg) <-> exists v, (k <= i)%nat /\ nth_error asg (i - k) = Some v /\ In x v.
Proof.
  induction asg as [|v asg IH]; intros k i x; cbn [enumerated].
  - split; [intros []|]. intros (v & _ & E & _). destruct (i - k)%nat; discriminate.
  - rewrite in_app_iff, in_map_iff, IH. split.
    + intros [(y & E & Hy)|(v' & H1 & H2 & H3)].
      * injection E as <- <-. exists v. rewrite Nat.sub_diag. auto.
      * exists v'. split; [lia|]. replace (i - k)%nat with (S (i - S k)) by lia. auto.
    + intros (v' & H1 & H2 & H3). destruct (Nat.eq_dec i k) as [->|Hne].
      * left. rewrite Nat.sub_diag in H2. injection H2 as <-. eauto.
      * right. exists v'. replace (i - k)%nat with (S (i - S k)) in H2 by lia. cbn in H2. repeat split; auto. lia.
Qed.

(** A whole assignment pass over a state with complete lists. *)
Lemma assign_points_nearest {T} (P : point T) col c : coloured col P ->
  Forall (fun p => rgb_ok (col p)) (centroids c) -> Forall (Forall (fun p => rgb_ok (col p))) (assignment c) ->
  length (assignment c) = length (centroids c) -> assignment c <> [] ->
  (forall i, (i < length (centroids c))%nat -> exists nb, nth_error (graph c) i = Some nb /\ neighbours_of P (centroids c) i nb /\ complete (centroids c) i nb) ->
  exists c' b, assign_points P c = Ok (c', b) /\ centroids c' = centroids c
  /\ (forall j v x, nth_error (assignment c') j = Some v -> In x v -> nearest col (centroids c) x j)
  /\ (b = false <-> forall j v x, nth_error (assignment c) j = Some v -> In x v -> nearest col (centroids c) x j).
Proof.
  intros HP Hcs Ha L Hne G. unfold assign_points. rewrite (proj2 (Nat.eqb_eq _ _) (eq_sym L)).
  destruct (assign_loop_nearest P col HP (centroids c) Hcs (enumerated 0 (assignment c)) (graph c) (repeat [] (length (centroids c))) false)
    as (g' & asg' & b' & E & H1 & H2).
  - exact G.
  - apply repeat_length.
  - intros i x Hin. apply enumerated_in in Hin as (v & _ & Hv & Hx). rewrite Nat.sub_0_r in Hv. split.
    + rewrite <- L. apply nth_error_Some. congruence.
    + apply nth_error_In in Hv. rewrite Forall_forall in Ha. specialize (Ha _ Hv). rewrite Forall_forall in Ha. auto.
  - intros j v x Hv Hx. apply nth_error_In, repeat_spec in Hv. subst. contradiction.
  - rewrite E. cbn [res_bind]. destruct (Nat.eqb_spec (length (assignment c)) 0) as [E0|_].
    + destruct (assignment c); [congruence|discriminate].
    + exists (mkCl (centroids c) asg' g'), b'. split; [reflexivity|]. split; [reflexivity|]. split; [exact H1|]. rewrite H2. split.
      * intros [_ H] j v x Hv Hx. apply H. apply enumerated_in. exists v. rewrite Nat.sub_0_r. repeat split; auto. lia.
      * intros H. split; [reflexivity|]. intros i x Hin. apply enumerated_in in Hin as (v & _ & Hv & Hx). rewrite Nat.sub_0_r in Hv. eauto.
Qed.
