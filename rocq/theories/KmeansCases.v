(** * A concrete sort, and runs that end away from the nearest centroids (C55). *)
From Coq Require Import Sorted Reals Lra.
From Flocq Require Import Core BinarySingleNaN.
From Verif Require Import Base Ser Img Float FloatProofs HilbertC Kmeans KmeansSpec KmeansProofs KmeansEnd CodecSpec CodecBytes ClusterC ClusterSpec ClusterProofs.

(** Insertion sort meets the contract of [sort_unstable_by]. *)
Fixpoint insert_by (e : nat * f64) (l : list (nat * f64)) : list (nat * f64) :=
  match l with
  | [] => [e]
  | a :: l => if fle (snd e) (snd a) then e :: a :: l else a :: insert_by e l
  end.
Definition insertion_sort (l : list (nat * f64)) : list (nat * f64) := fold_right insert_by [] l.
Lemma insert_perm e l : Permutation (insert_by e l) (e :: l).
Proof. induction l as [|a l IH]; cbn [insert_by]; [reflexivity|]. destruct (fle _ _); [reflexivity|]. rewrite IH. apply perm_swap. Qed.
Lemma fle_real (a b : f64) : is_finite a = true -> is_finite b = true -> fle a b = true <-> (B2R a <= B2R b)%R.
Proof.
  intros Ha Hb. unfold fle. rewrite Bleb_correct by assumption. split; intros H; [|now apply Rle_bool_true].
  destruct (Rle_bool_spec (B2R a) (B2R b)); [assumption|discriminate].
Qed.
Lemma insertion_sort_ok : sort_ok insertion_sort.
Proof.
  intros l Hl. assert (P : forall l, Permutation (insertion_sort l) l).
  { clear. induction l as [|e l IH]; [reflexivity|]. cbn [insertion_sort fold_right]. fold (insertion_sort l). now rewrite insert_perm, IH. }
  split; [apply P|]. induction Hl as [|e l He Hl IH]; [constructor|]. cbn [insertion_sort fold_right]. fold (insertion_sort l).
  assert (F : Forall (fun e : nat * f64 => is_finite (snd e) = true) (insertion_sort l)).
  { rewrite Forall_forall in *. intros x Hx. apply Hl. eapply Permutation_in; [apply P|exact Hx]. }
  revert IH F. generalize (insertion_sort l). clear -He. intros l Hsorted F. induction Hsorted as [|a l Hs IH Ha]; cbn [insert_by]; [repeat constructor|].
  inversion_clear F as [|? ? Fa Fl]. destruct (fle (snd e) (snd a)) eqn:E.
  - constructor; [constructor; assumption|]. constructor; [exact E|]. rewrite Forall_forall in *. intros x Hx. specialize (Ha x Hx). specialize (Fl x Hx).
    unfold by_distance in *. cbn beta in *. apply fle_real in E, Ha; try assumption. apply fle_real; try assumption. lra.
  - constructor; [now apply IH|]. rewrite Forall_forall in *. intros x Hx. apply (Permutation_in _ (insert_perm e l)) in Hx as [<-|Hx]; [|now apply Ha].
    unfold by_distance. apply fle_real; try assumption. apply Rlt_le, Rnot_le_lt. intros H. apply fle_real in H; try assumption. congruence.
Qed.

(** Grey levels; the cluster that stops after its first pass. *)
Definition grey (n : N) : color_count := mkCC (n, n, n) 1.
Definition no_rng : nat -> N := fun _ => 0%N.
Definition nearest_b (cs : list color_count) (x : color_count) (j : nat) : bool :=
  match nth_error cs j with
  | Some cj => forallb (fun c => (sq_dist (cc_color cj) (cc_color x) <=? sq_dist (cc_color c) (cc_color x))%Z) cs
  | None => false
  end.
Lemma nearest_b_spec cs x j : nearest_b cs x j = false -> ~ nearest cc_color cs x j.
Proof.
  intros H (cj & E & Hc). unfold nearest_b in H. rewrite E in H. assert (forallb (fun c => (sq_dist (cc_color cj) (cc_color x) <=? sq_dist (cc_color c) (cc_color x))%Z) cs = true); [|congruence].
  apply forallb_forall. intros c Hin. apply Z.leb_le. now apply Hc.
Qed.
Definition pts2 : list color_count := map grey [100; 255; 0; 49]%N.
Definition pts3 : list color_count := [mkCC (3,1,0) 1; mkCC (0,2,0) 1; mkCC (1,0,2) 1; mkCC (2,3,3) 2; mkCC (2,2,2) 5]%N.
Definition not_nearest (c : clusters color_count) : Prop :=
  exists j v x, nth_error (assignment c) j = Some v /\ In x v /\ ~ nearest cc_color (centroids c) x j.
Definition bad (c : clusters color_count) : bool :=
  existsb (fun j => match nth_error (assignment c) j with Some v => existsb (fun x => negb (nearest_b (centroids c) x j)) v | None => false end) (seq 0 (length (centroids c))).
Lemma bad_spec c : bad c = true -> not_nearest c.
Proof.
  intros H. apply existsb_exists in H as (j & _ & H). destruct (nth_error (assignment c) j) as [v|] eqn:E; [|discriminate].
  apply existsb_exists in H as (x & Hx & H). exists j, v, x. split; [exact E|]. split; [exact Hx|]. apply nearest_b_spec. now destruct (nearest_b _ _ _).
Qed.
Definition cc_eqb (a b : color_count) : bool := rgb_eqb (cc_color a) (cc_color b) && (cc_count a =? cc_count b)%N.
Fixpoint list_eqb {A} (eqb : A -> A -> bool) (l l' : list A) : bool :=
  match l, l' with
  | [], [] => true
  | x :: l, y :: l' => eqb x y && list_eqb eqb l l'
  | _, _ => false
  end.
Lemma list_eqb_spec {A} (eqb : A -> A -> bool) : (forall x y, eqb x y = true -> x = y) -> forall l l', list_eqb eqb l l' = true -> l = l'.
Proof.
  intros H. induction l as [|x l IH]; intros [|y l'] E; try discriminate; [reflexivity|]. cbn in E. apply andb_prop in E as [E1 E2]. f_equal; auto.
Qed.
Lemma cc_eqb_spec a b : cc_eqb a b = true -> a = b.
Proof.
  destruct a as [ca na], b as [cb nb]. unfold cc_eqb. cbn. intros H. apply andb_prop in H as [H1 H2]. apply rgb_eqb_ok in H1. apply N.eqb_eq in H2. congruence.
Qed.
(** A state that a pass does not change *)
Definition stable (c : clusters color_count) : Prop :=
  forall rng vfuel i, exists c', pass (cc_point Release) insertion_sort rng vfuel c i = Some (Ok ((c', false), i))
  /\ centroids c' = centroids c /\ assignment c' = assignment c.

(** Stops in the first pass: 100 is 76 from the mean 24 but 77 from its own, 177. *)
Lemma stops_early : exists c, cluster (cc_point Release) insertion_sort no_rng 1 0 pts2 2 0 = Some (Ok (c, 0%nat)) /\ not_nearest c.
Proof.
  pose (test := fun r => match r with Some (Ok (c, i)) => bad c && (i =? 0)%nat | _ => false end).
  assert (H : test (cluster (cc_point Release) insertion_sort no_rng 1 0 pts2 2 0) = true) by (vm_compute; reflexivity).
  unfold test in H. destruct (cluster _ _ _ _ _ _ _ _) as [[[c i]| |]|]; try discriminate. apply andb_prop in H as [H1 H2]. apply Nat.eqb_eq in H2. subst i.
  exists c. split; [reflexivity|now apply bad_spec].
Qed.
(** Stable, although (2,2,2) is nearer to the mean of another cluster *)
Lemma stays_away : exists c, cluster (cc_point Release) insertion_sort no_rng 10 10 pts3 3 0 = Some (Ok (c, 0%nat)) /\ not_nearest c /\ stable c.
Proof.
  pose (same := fun (c : clusters color_count) (r : option (res (clusters color_count * bool * nat))) => match r with
    | Some (Ok ((c', false), _)) => list_eqb cc_eqb (centroids c') (centroids c) && list_eqb (list_eqb cc_eqb) (assignment c') (assignment c)
    | _ => false end).
  pose (ended := fun (r : option (res (clusters color_count * bool * nat))) (i : nat) => match r with Some (Ok (_, j)) => j = i | _ => True end : Prop).
  pose (test := fun (r : option (res (clusters color_count * nat))) rng vfuel i => match r with Some (Ok (c, j)) => bad c && (j =? 0)%nat && same c (pass (cc_point Release) insertion_sort rng vfuel c i) | _ => false end).
  pose (test2 := fun (r : option (res (clusters color_count * nat))) rng vfuel i => match r with Some (Ok (c, _)) => ended (pass (cc_point Release) insertion_sort rng vfuel c i) i | _ => True end : Prop).
  assert (H : forall rng vfuel i, test (cluster (cc_point Release) insertion_sort no_rng 10 10 pts3 3 0) rng vfuel i = true) by (intros; vm_compute; reflexivity).
  assert (H' : forall rng vfuel i, test2 (cluster (cc_point Release) insertion_sort no_rng 10 10 pts3 3 0) rng vfuel i) by (intros; vm_compute; reflexivity).
  unfold test, test2 in *. destruct (cluster _ _ _ _ _ _ _ _) as [[[c i]| |]|]; try (specialize (H no_rng 0%nat 0%nat); discriminate).
  pose proof (H no_rng 0%nat 0%nat) as H0. apply andb_prop in H0 as [H0 _]. apply andb_prop in H0 as [H1 H2]. apply Nat.eqb_eq in H2. subst i.
  exists c. split; [reflexivity|]. split; [now apply bad_spec|]. intros rng vfuel i. specialize (H rng vfuel i). specialize (H' rng vfuel i). apply andb_prop in H as [_ H].
  unfold same, ended in *. destruct (pass _ _ _ _ _ _) as [[[[c' [|]] j]| |]|]; try discriminate. subst j. apply andb_prop in H as [H3 H4]. exists c'. split; [reflexivity|].
  split; [exact (list_eqb_spec _ cc_eqb_spec _ _ H3)|exact (list_eqb_spec _ (list_eqb_spec _ cc_eqb_spec) _ _ H4)].
Qed.

(** ** Concrete cases *)
Lemma case39 : exists c, cluster (cc_point Release) insertion_sort no_rng 10 10 pts3 3 0 = Some (Ok (c, 0%nat))
  /\ map (map cc_color) (assignment c) = [[(2, 2, 2); (0, 2, 0); (1, 0, 2)]; [(2, 3, 3)]; [(3, 1, 0)]]%N.
Proof.
  pose (test := fun (r : option (res (clusters color_count * nat))) => match r with Some (Ok (c, i)) => (map (map cc_color) (assignment c), i) | _ => ([], 1%nat) end).
  assert (H : test (cluster (cc_point Release) insertion_sort no_rng 10 10 pts3 3 0)
    = ([[(2, 2, 2); (0, 2, 0); (1, 0, 2)]; [(2, 3, 3)]; [(3, 1, 0)]]%N, 0%nat)) by (vm_compute; reflexivity).
  unfold test in H. destruct (cluster _ _ _ _ _ _ _ _) as [[[c i]| |]|]; try discriminate. injection H as H ->. exists c. now split.
Qed.
Lemma case41 : sort_ok insertion_sort
  /\ exists c j, init (cc_point Release) insertion_sort pts3 3 0 = Some (Ok (c, j))
     /\ map (fun nb => map fst (near nb)) (graph c) = [[1; 2]; [0; 2]; [0; 1]]%nat.
Proof.
  split; [exact insertion_sort_ok|].
  pose (test := fun (r : option (res (clusters color_count * nat))) => match r with Some (Ok (c, i)) => map (fun nb => map fst (near nb)) (graph c) | _ => [] end).
  assert (H : test (init (cc_point Release) insertion_sort pts3 3 0) = [[1; 2]; [0; 2]; [0; 1]]%nat) by (vm_compute; reflexivity).
  unfold test in H. destruct (init _ _ _ _ _) as [[[c i]| |]|]; try discriminate. now exists c, i.
Qed.
Lemma case42 : coloured cc_color (cc_point Release)
  /\ (forall v m, Forall (fun p => rgb_ok (cc_color p)) v -> mean (cc_point Release) v = Ok m -> rgb_ok (cc_color m))
  /\ exists c j c' b, init (cc_point Release) insertion_sort pts3 3 0 = Some (Ok (c, j)) /\ assign_points (cc_point Release) c = Ok (c', b)
     /\ map cc_color (centroids c) = [(2, 2, 2); (2, 3, 3); (3, 1, 0)]%N
     /\ map (map cc_color) (assignment c') = [[(2, 2, 2); (0, 2, 0); (1, 0, 2)]; [(2, 3, 3)]; [(3, 1, 0)]]%N /\ b = true.
Proof.
  split; [now intros a b|]. split; [intros v m; apply cc_mean_closed|].
  pose (test := fun (r : option (res (clusters color_count * nat))) => match r with
     | Some (Ok (c, i)) => match assign_points (cc_point Release) c with
         | Ok (c', b) => (map cc_color (centroids c), map (map cc_color) (assignment c'), b)
         | _ => ([], [], false) end
     | _ => ([], [], false) end).
  assert (H : test (init (cc_point Release) insertion_sort pts3 3 0)
    = ([(2, 2, 2); (2, 3, 3); (3, 1, 0)], [[(2, 2, 2); (0, 2, 0); (1, 0, 2)]; [(2, 3, 3)]; [(3, 1, 0)]], true)%N) by (vm_compute; reflexivity).
  unfold test in H. destruct (init _ _ _ _ _) as [[[c i]| |]|]; try discriminate. destruct (assign_points _ c) as [[c' b]| |] eqn:E; try discriminate.
  injection H as H1 H2 H3. exists c, i, c', b. auto.
Qed.
Lemma not_all c : not_nearest c -> ~ all_nearest cc_color (centroids c) (assignment c).
Proof. intros (j & v & x & H1 & H2 & H3) H. apply H3. eapply H; eassumption. Qed.
Lemma early_stop : exists points c, length points = 4%nat /\ NoDup (map cc_color points)
  /\ cluster (cc_point Release) insertion_sort no_rng 1 0 points 2 0 = Some (Ok (c, 0%nat))
  /\ ~ all_nearest cc_color (centroids c) (assignment c).
Proof.
  destruct stops_early as (c & H1 & H2). exists pts2, c. split; [reflexivity|]. split; [|split; [exact H1|now apply not_all]].
  repeat constructor; cbn; intuition discriminate.
Qed.
Lemma stable_stop : exists points c, length points = 5%nat /\ NoDup (map cc_color points)
  /\ cluster (cc_point Release) insertion_sort no_rng 10 10 points 3 0 = Some (Ok (c, 0%nat))
  /\ ~ all_nearest cc_color (centroids c) (assignment c) /\ stable c.
Proof.
  destruct stays_away as (c & H1 & H2 & H3). exists pts3, c. split; [reflexivity|]. split; [|split; [exact H1|split; [now apply not_all|exact H3]]].
  repeat constructor; cbn; intuition discriminate.
Qed.
