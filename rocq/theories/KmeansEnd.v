(** * How clustering ends: means of the clusters, and complete lists (C42, C43). *)
From Coq Require Import Sorted.
From Flocq Require Import BinarySingleNaN.
From Verif Require Import Base Ser Float HilbertC Kmeans KmeansSpec KmeansProofs KmeansNear CodecSpec.

Lemma Forall2_out {A B} (R : A -> B -> Prop) (Q : B -> Prop) l l' : Forall2 R l l' -> (forall x y, In x l -> R x y -> Q y) -> Forall Q l'.
Proof.
  induction 1 as [|x y l l' Hx H IH]; intros HQ; constructor; [eapply HQ; [now left|exact Hx]|].
  apply IH. intros x' y' Hin. apply HQ. now right.
Qed.

Section End.
  Context {T : Type} (P : point T).
  Variable sorted : list (nat * f64) -> list (nat * f64).
  Variable rng : nat -> N.

  Lemma run_unwrap_ok {A} (m : run A) i a j : run_unwrap m i = Some (Ok (a, j)) -> m i = Some (Ok (a, j)).
  Proof. unfold run_unwrap. destruct (m i) as [[x| |]|]; congruence. Qed.
  Lemma choose_ok {A} (l : list A) i a j : choose rng l i = Some (Ok (a, j)) -> In a l.
  Proof. unfold choose. destruct (nth_error _ _) as [x|] eqn:E; [|discriminate]. intros H. injection H as <- <-. eapply nth_error_In, E. Qed.
  Lemma pick_ok (asg : list (list T)) fuel : forall i v j, pick_victim rng fuel asg i = Some (Ok (v, j)) -> In v asg.
  Proof.
    induction fuel as [|fuel IH]; intros i v j H; [discriminate|]. cbn [pick_victim] in H.
    apply run_bind_ok in H as (w & k & Hw & H). apply run_unwrap_ok, choose_ok in Hw.
    destruct (_ =? _)%nat; [eauto|]. injection H as <- <-. exact Hw.
  Qed.
  Lemma new_centroid_ok fuel asg v i c j : new_centroid P rng fuel asg v i = Some (Ok (c, j)) ->
    mean P v = Ok c \/ (mean P v = Err /\ exists w x, In w asg /\ In x w /\ mean P [x] = Ok c).
  Proof.
    unfold new_centroid. destruct (mean P v) as [m| |] eqn:E; [|intros H; right|discriminate].
    - intros H. injection H as <- <-. now left.
    - split; [reflexivity|]. apply run_bind_ok in H as (w & k & Hw & H). apply run_bind_ok in H as (x & k' & Hx & H).
      apply pick_ok in Hw. apply run_unwrap_ok, choose_ok in Hx. apply run_lift_ok in H as [H _]. exists w, x. repeat (split; [assumption|]).
      unfold fake_clone in H. destruct (mean P [x]); cbn in H; congruence.
  Qed.

  (** Every non-empty cluster is returned with its mean. *)
  Lemma cluster_means fuel vfuel points k i c j : cluster P sorted rng fuel vfuel points k i = Some (Ok (c, j)) ->
    Forall2 (fun v ct => mean P v = Ok ct \/ (mean P v = Err /\ exists w x, In w (assignment c) /\ In x w /\ mean P [x] = Ok ct)) (assignment c) (centroids c).
  Proof.
    intros H. apply cluster_reached in H as [(c1 & i1 & j1 & _ & H) _].
    unfold pass in H. apply run_bind_ok in H as ([c2 b] & k1 & H1 & H). apply run_bind_ok in H as (cs & k2 & H2 & H).
    apply run_bind_ok in H as (g & k3 & H3 & H). cbn [fst snd] in *. injection H as <- _ _. cbn [assignment centroids].
    unfold update_centroids in H2. apply run_mapM_ok in H2. eapply Forall2_weaken; [|exact H2].
    intros v ct (i' & j' & Hn). eapply new_centroid_ok, Hn.
  Qed.

  (** Properties of the points that means keep hold throughout. *)
  Lemma part_length {A} (v : list A) ll : In v ll -> (length v <= length (concat ll))%nat.
  Proof.
    induction ll as [|w ll IH]; intros H; [contradiction|]. cbn [concat]. rewrite app_length. destruct H as [->|H]; [lia|]. specialize (IH H). lia.
  Qed.
  Variable ok : T -> Prop.
  Lemma reached_ok vfuel points k c : (forall v m, Forall ok v -> (length v <= length points)%nat -> mean P v = Ok m -> ok m) ->
    Forall ok points -> reached P sorted rng vfuel points k c ->
    Forall ok (centroids c) /\ Forall (Forall ok) (assignment c).
  Proof.
    intros closed Hp H. apply reached_shape in H as S. destruct S as [S _ _ _]. assert (A : Forall (Forall ok) (assignment c)).
    { apply Forall_forall. intros v Hv. apply Forall_forall. intros x Hx.
      rewrite Forall_forall in Hp. apply Hp. eapply Permutation_in; [exact S|]. apply in_concat. now exists v. }
    assert (B : forall v, In v (assignment c) -> (length v <= length points)%nat).
    { intros v Hv. rewrite <- (Permutation_length S). now apply part_length. }
    assert (A1 : forall v x m, In v (assignment c) -> In x v -> mean P [x] = Ok m -> ok m).
    { intros v x m Hv Hx. apply closed.
      - constructor; [|constructor]. rewrite Forall_forall in A. specialize (A v Hv). rewrite Forall_forall in A. now apply A.
      - specialize (B v Hv). destruct v; [contradiction|]. cbn [length] in *. lia. }
    split; [|exact A]. destruct H as [i c j H|c0 i c b j H0 H].
    - unfold init in H. apply run_bind_ok in H as (asg & k1 & H1 & H). apply run_bind_ok in H as (cs & k2 & H2 & H).
      apply run_bind_ok in H as (g & k3 & H3 & H). injection H as <- _. cbn [centroids assignment] in *.
      apply run_lift_ok in H2 as [H2 _]. unfold init_centroids in H2. apply res_mapM_ok in H2. eapply Forall2_out; [exact H2|].
      intros v ct Hin Hv. cbn beta in Hv. apply res_bind_ok in Hv as (x & Hx & Hv). apply index_ok, nth_error_In in Hx. unfold fake_clone in Hv.
      apply (A1 v x); [exact Hin|exact Hx|]. destruct (mean P [x]); cbn in Hv; congruence.
    - unfold pass in H. apply run_bind_ok in H as ([c2 b2] & k1 & H1 & H). apply run_bind_ok in H as (cs & k2 & H2 & H).
      apply run_bind_ok in H as (g & k3 & H3 & H). cbn [fst snd] in *. injection H as <- _ _. cbn [assignment centroids] in *.
      unfold update_centroids in H2. apply run_mapM_ok in H2. eapply Forall2_out; [exact H2|].
      intros v ct Hv (i' & j' & Hn). apply new_centroid_ok in Hn as [Hn|(_ & w & x & Hw & Hx & Hn)].
      + eapply closed; [| |exact Hn]; [|now apply B]. rewrite Forall_forall in A. now apply A.
      + now apply (A1 w x).
  Qed.
  (** The result is the state after the last pass. *)
  Lemma cluster_result fuel vfuel points k i c j : cluster P sorted rng fuel vfuel points k i = Some (Ok (c, j)) -> reached P sorted rng vfuel points k c.
  Proof. intros H. apply cluster_reached in H as [(c1 & i1 & j1 & H1 & H2) _]. eapply reached_pass; eassumption. Qed.
End End.

(** A settled list of full length misses nobody. *)
Lemma full_complete {T} (P : point T) cs i nb : (i < length cs)%nat -> neighbours_of P cs i nb -> length (near nb) = (length cs - 1)%nat -> complete cs i nb.
Proof.
  intros Hi [H1 H2 H3 _] L t Ht Hn.
  assert (I : incl (map fst (near nb)) (filter (fun d => negb (d =? i)%nat) (seq 0 (length cs)))).
  { intros u Hu. apply in_map_iff in Hu as ([u' d] & E & Hu). cbn in E. subst u'. apply H3 in Hu as (Hu & _ & ct & _ & Hct & _).
    apply filter_In. split; [|now apply negb_true_iff, Nat.eqb_neq]. apply in_seq. split; [lia|]. cbn. apply nth_error_Some. congruence. }
  apply NoDup_length_incl in I; [|exact H2|rewrite map_length, others_length by exact Hi; lia].
  apply I, filter_In. split; [apply in_seq; lia|now apply negb_true_iff, Nat.eqb_neq].
Qed.

Section Colour.
  Context {T : Type} (P : point T) (col : T -> rgb N) (sorted : list (nat * f64) -> list (nat * f64)) (rng : nat -> N).
  Hypothesis Hcol : coloured col P.
  Hypothesis Hsort : sort_ok sorted.

  Lemma full_pass_nearest vfuel points k c :
    (forall v m, Forall (fun p => rgb_ok (col p)) v -> (length v <= length points)%nat -> mean P v = Ok m -> rgb_ok (col m)) ->
    Forall (fun p => rgb_ok (col p)) points ->
    reached P sorted rng vfuel points k c -> full c ->
    exists c' b, assign_points P c = Ok (c', b) /\ centroids c' = centroids c
    /\ (forall j v x, nth_error (assignment c') j = Some v -> In x v -> nearest col (centroids c) x j)
    /\ (b = false <-> forall j v x, nth_error (assignment c) j = Some v -> In x v -> nearest col (centroids c) x j).
  Proof.
    intros Hmean Hp Hr Hf. destruct (reached_ok P sorted rng (fun p => rgb_ok (col p)) vfuel points k c Hmean Hp Hr) as [A B].
    pose proof (reached_settled P sorted rng Hsort _ _ _ _ Hr) as G. apply reached_shape in Hr as S. destruct S as [_ S1 S2 S3].
    assert (K : k <> 0%N).
    { clear -Hr. induction Hr as [i c j H|c0 i c b j Hr IH H]; [|exact IH]. unfold init in H. apply run_bind_ok in H as (asg & k1 & H1 & _).
      apply run_lift_ok in H1 as [H1 _]. intros ->. discriminate. }
    apply assign_points_nearest; [exact Hcol|exact A|exact B|lia| |].
    - intros E. rewrite E in S1. cbn in S1. lia.
    - intros i Hi. destruct (nth_error (graph c) i) as [nb|] eqn:E; [|apply nth_error_None in E; lia]. exists nb. split; [reflexivity|].
      destruct (G i nb E) as (Gs & Gi & _). destruct Gs as [Gn _]. rewrite Gi in Gn. split; [exact Gn|]. apply full_complete with P; [exact Hi|exact Gn|].
      unfold full in Hf. rewrite Forall_forall in Hf. apply Hf. eapply nth_error_In, E.
  Qed.
  Lemma init_full points k i c j : init P sorted points k i = Some (Ok (c, j)) -> full c.
  Proof.
    intros H. destruct (init_settled P sorted Hsort points k i c j H) as [G C]. apply Forall_forall. intros nb Hin.
    apply In_nth_error in Hin as (n & E). destruct (G n nb E) as ((Gn & _ & Gl) & Gi & _). rewrite Gi in Gn. apply Nat.le_antisymm; [exact Gl|].
    assert (N0 : (n < length (centroids c))%nat).
    { apply init_shape in H as [_ _ S2 S3]. assert (n < length (graph c))%nat by (apply nth_error_Some; congruence). lia. }
    rewrite <- (others_length n (length (centroids c)) N0), <- (map_length fst (near nb)).
    apply NoDup_incl_length; [apply NoDup_filter, seq_NoDup|]. intros t Ht. apply filter_In in Ht as [Ht Hne]. apply in_seq in Ht.
    apply negb_true_iff, Nat.eqb_neq in Hne. apply (C n nb E); [lia|exact Hne].
  Qed.
  (** Two clusters at most: always complete. *)
  Lemma two_full vfuel points k c : (k <= 2)%N -> reached P sorted rng vfuel points k c -> full c.
  Proof.
    intros Hk Hr. pose proof (reached_settled P sorted rng Hsort _ _ _ _ Hr) as G. apply reached_shape in Hr as S. destruct S as [_ _ S2 _].
    apply Forall_forall. intros nb Hin. apply In_nth_error in Hin as (n & E). destruct (G n nb E) as ((_ & Gl & Gu) & _).
    assert (L : length (centroids c) = 0%nat \/ length (centroids c) = 1%nat \/ length (centroids c) = 2%nat) by lia.
    assert (B : lower_bound 2 = 1%nat) by (vm_compute; reflexivity).
    destruct L as [L|[L|L]]; rewrite L in *; try lia; rewrite ?B in *; lia.
  Qed.
End Colour.
