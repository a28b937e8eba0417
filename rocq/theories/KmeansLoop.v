(** * A clustering that never ends (C61). *)
From Coq Require Import Sorted.
From Flocq Require Import Core BinarySingleNaN.
From Verif Require Import Base Ser Utils Huf HufSpec Img Float HilbertC Kmeans KmeansSpec KmeansProofs CodecSpec ClusterC CodecCases.

(** ** Two clusters, none of them empty: a pass without oracles *)
Section Two.
  Context {T : Type} (P : point T).
  Variable sorted : list (nat * f64) -> list (nat * f64).
  Hypothesis Hsort : sort_ok sorted.

  Lemma sorted_one l : (length l <= 1)%nat -> Forall (fun e : nat * f64 => is_finite (snd e) = true) l -> sorted l = l.
  Proof.
    intros L F. apply Hsort in F as [F _]. destruct l as [|a [|b l]]; [now apply Permutation_sym, Permutation_nil in F|now apply Permutation_sym, Permutation_length_1_inv in F|cbn in L; lia].
  Qed.
  Lemma settle_one cs nb nb' : length cs = 2%nat -> (length (near nb) <= 1)%nat -> update_distances P cs nb = Ok nb' ->
    settle P sorted 2 cs nb = Some (Ok (mkNb (src_id nb') (near nb') 0)).
  Proof.
    intros L N H. rewrite settle_S, H. apply distances_ok in H as (_ & _ & E & F & _).
    assert (L' : (length (near nb') <= 1)%nat) by (rewrite <- (map_length fst), E, map_length; exact N).
    rewrite (sorted_one _ L' F), L. unfold resize. cbn [watermark near src_id].
    assert (M : new_num 2 (watermark nb') = 1%nat).
    { unfold new_num. change (lower_bound 2) with 1%nat. lia. }
    rewrite M. cbn [Nat.mul Nat.div Nat.divmod fst Nat.leb]. now rewrite firstn_all2 by exact L'.
  Qed.
  Definition wipe (nb : neighbours) : neighbours := mkNb (src_id nb) (near nb) 0.
  Lemma neighbours_one cs g : forall g' i, length cs = 2%nat -> forallb (fun nb => (length (near nb) <=? 1)%nat) g = true ->
    res_mapM (update_distances P cs) g = Ok g' -> compute_neighbours P sorted cs g i = Some (Ok (map wipe g', i)).
  Proof.
    unfold compute_neighbours. induction g as [|nb g IH]; intros g' i L N H; cbn [res_mapM run_mapM forallb] in *; [injection H as <-; reflexivity|].
    apply andb_prop in N as [N1 N2]. apply Nat.leb_le in N1. apply res_bind_ok in H as (nb' & H1 & H). apply res_bind_ok in H as (l & H2 & H). injection H as <-.
    unfold run_bind. rewrite (settle_one cs nb nb' L N1 H1). cbn [run_lift res_map]. now rewrite (IH l i L N2 H2).
  Qed.
  Lemma centroids_one rng vfuel asg : forall asg0 cs i, res_mapM (mean P) asg = Ok cs -> run_mapM (new_centroid P rng vfuel asg0) asg i = Some (Ok (cs, i)).
  Proof.
    induction asg as [|v asg IH]; intros asg0 cs i H; cbn [res_mapM run_mapM] in *; [injection H as <-; reflexivity|].
    apply res_bind_ok in H as (c & H1 & H). apply res_bind_ok in H as (l & H2 & H). injection H as <-.
    unfold run_bind, new_centroid. rewrite H1. cbn [run_ret]. fold (new_centroid P rng vfuel asg0). now rewrite (IH asg0 l i H2).
  Qed.

  Definition pure_pass (c : clusters T) : option (clusters T * bool) :=
    match assign_points P c with
    | Ok (c1, b) =>
        match res_mapM (mean P) (assignment c1) with
        | Ok cs =>
            match res_mapM (update_distances P cs) (graph c1) with
            | Ok g => if (length cs =? 2)%nat && forallb (fun nb => (length (near nb) <=? 1)%nat) (graph c1)
                      then Some (mkCl cs (assignment c1) (map wipe g), b) else None
            | _ => None
            end
        | _ => None
        end
    | _ => None
    end.
  Lemma pass_pure rng vfuel c c' b i : pure_pass c = Some (c', b) -> pass P sorted rng vfuel c i = Some (Ok ((c', b), i)).
  Proof.
    unfold pure_pass, pass. destruct (assign_points P c) as [[c1 b1]| |] eqn:E; try discriminate.
    destruct (res_mapM (mean P) (assignment c1)) as [cs| |] eqn:Ec; try discriminate.
    destruct (res_mapM (update_distances P cs) (graph c1)) as [g| |] eqn:Eg; try discriminate.
    destruct (length cs =? 2)%nat eqn:L; [|discriminate]. destruct (forallb _ _) eqn:F; [|discriminate]. cbn [andb]. intros H. injection H as <- <-.
    apply Nat.eqb_eq in L. unfold run_bind, run_lift. cbn [res_map fst snd]. unfold update_centroids. rewrite (centroids_one _ _ _ _ _ i Ec).
    now rewrite (neighbours_one _ _ _ i L F Eg).
  Qed.
  Definition pure_init (points : list T) : option (clusters T) :=
    match init_assignment points 2 with
    | Ok asg =>
        match init_centroids P asg with
        | Ok cs =>
            match res_mapM (update_distances P cs) (map (fun i => nb_new i 2) (seq 0 2)) with
            | Ok g => if (length cs =? 2)%nat then Some (mkCl cs asg (map wipe g)) else None
            | _ => None
            end
        | _ => None
        end
    | _ => None
    end.
  Lemma init_pure points c i : pure_init points = Some c -> init P sorted points 2 i = Some (Ok (c, i)).
  Proof.
    unfold pure_init, init. destruct (init_assignment points 2) as [asg| |] eqn:E; try discriminate.
    destruct (init_centroids P asg) as [cs| |] eqn:Ec; try discriminate.
    destruct (res_mapM _ _) as [g| |] eqn:Eg; try discriminate. destruct (length cs =? 2)%nat eqn:L; [|discriminate]. intros H. injection H as <-.
    apply Nat.eqb_eq in L. unfold run_bind, run_lift. cbn [res_map]. rewrite Ec. cbn [res_map]. unfold init_neighbours. rewrite L.
    now rewrite (neighbours_one cs (map (fun i => nb_new i 2) (seq 0 2)) g i L eq_refl Eg).
  Qed.

  (** [n] passes, each of which changes something *)
  Fixpoint restless (n : nat) (c : clusters T) : option (clusters T) :=
    match n with
    | O => Some c
    | S n => match pure_pass c with Some (c', true) => restless n c' | _ => None end
    end.
  Lemma restless_add n m : forall c, restless (n + m) c = match restless n c with Some c' => restless m c' | None => None end.
  Proof. induction n as [|n IH]; intros c; [reflexivity|]. cbn [Nat.add restless]. destruct (pure_pass c) as [[c' [|]]|]; auto. Qed.
  Lemma restless_less n m c : (n <= m)%nat -> restless m c <> None -> restless n c <> None.
  Proof. intros H. replace m with (n + (m - n))%nat by lia. rewrite restless_add. now destruct (restless n c). Qed.
  Lemma restless_for_ever n m c c' : (0 < m)%nat -> restless n c = Some c' -> restless m c' = Some c' -> forall k, restless k c <> None.
  Proof.
    intros Hm H1 H2. assert (R : forall q, restless (q * m) c' = Some c').
    { induction q as [|q IH]; [reflexivity|]. cbn [Nat.mul]. now rewrite restless_add, H2. }
    intros k. apply restless_less with (m := (n + k * m)%nat); [nia|]. now rewrite restless_add, H1, R.
  Qed.
  Lemma restless_passes rng vfuel : forall fuel z c i, (forall k, restless k c <> None) -> (- 2 ^ 31 <= z < 2 ^ 31)%Z ->
    passes P sorted rng fuel vfuel z c i = match build P with
      | Debug => if (2 ^ 31 - z <=? Z.of_nat fuel)%Z then Some Panic else None
      | Release => None
      end.
  Proof.
    induction fuel as [|fuel IH]; intros z c i H Hz; cbn [passes].
    - destruct (build P); [|reflexivity]. destruct (_ <=? _)%Z eqn:Z; [lia|reflexivity].
    - unfold run_bind, run_lift. destruct (pure_pass c) as [[c' b]|] eqn:E; [|now elim (H 1%nat); cbn [restless]; rewrite E].
      destruct b; [|now elim (H 1%nat); cbn [restless]; rewrite E]. rewrite (pass_pure rng vfuel c c' true i E).
      assert (H' : forall k, restless k c' <> None) by (intros k; specialize (H (S k)); cbn [restless] in H; now rewrite E in H).
      unfold count_pass. cbn [fst snd]. destruct (z =? 2 ^ 31 - 1)%Z eqn:Ez.
      + destruct (build P) eqn:EB; cbn [res_map]; [destruct (_ <=? _)%Z eqn:Z; [reflexivity|lia]|]. rewrite IH by (auto; lia). reflexivity.
      + cbn [res_map]. rewrite IH by (auto; lia). destruct (build P); [|reflexivity].
        destruct (2 ^ 31 - (z + 1) <=? Z.of_nat fuel)%Z eqn:Z1, (2 ^ 31 - z <=? Z.of_nat (S fuel))%Z eqn:Z2; try reflexivity; lia.
  Qed.
  Lemma restless_cluster rng vfuel points c : pure_init points = Some c -> (forall k, restless k c <> None) ->
    forall fuel i, cluster P sorted rng fuel vfuel points 2 i = match build P with
      | Debug => if (2 ^ 31 <=? N.of_nat fuel)%N then Some Panic else None
      | Release => None
      end.
  Proof.
    intros H1 H2 fuel i. unfold cluster, run_bind. rewrite (init_pure points c i H1). rewrite (restless_passes rng vfuel fuel 0 c i H2) by lia.
    destruct (build P); [|reflexivity]. destruct (_ <=? _)%Z eqn:Z1, (_ <=? _)%N eqn:Z2; try reflexivity; lia.
  Qed.
End Two.

(** ** States up to the proofs inside floating-point numbers *)
Definition nb_image (nb : neighbours) := (src_id nb, map (fun e : nat * f64 => (fst e, B2SF (snd e))) (near nb), watermark nb).
Definition state_image {T} (c : clusters T) := (centroids c, assignment c, map nb_image (graph c)).
Lemma map_inj {A B} (f : A -> B) (Hf : forall x y, f x = f y -> x = y) : forall l l', map f l = map f l' -> l = l'.
Proof. induction l as [|x l IH]; intros [|y l'] H; try discriminate; [reflexivity|]. injection H as H1 H2. f_equal; auto. Qed.
Lemma state_image_inj {T} (c c' : clusters T) : state_image c = state_image c' -> c = c'.
Proof.
  destruct c as [cs asg g], c' as [cs' asg' g']. unfold state_image. cbn [centroids assignment graph]. intros H. injection H as -> -> H. f_equal.
  revert H. apply map_inj. intros [s n w] [s' n' w'] H. unfold nb_image in H. cbn [src_id near watermark] in H. injection H as -> H ->. f_equal.
  revert H. apply map_inj. intros [t d] [t' d'] H. cbn [fst snd] in H. injection H as -> H. apply B2SF_inj in H. now subst.
Qed.

(** ** Eleven colours that two clusters exchange for ever *)
Definition turning : list color_count :=
  [mkCC (2,1,1) 1; mkCC (5,5,0) 7; mkCC (0,5,2) 3; mkCC (2,0,0) 23; mkCC (2,0,3) 1; mkCC (4,0,5) 12;
   mkCC (0,0,1) 9; mkCC (0,2,0) 18; mkCC (0,0,5) 9; mkCC (1,1,0) 21; mkCC (1,1,1) 25]%N.
Definition after (p : profile) (n : nat) : option (clusters color_count) :=
  match pure_init (cc_point p) turning with Some c => restless (cc_point p) n c | None => None end.
Lemma turning_init p : exists c, pure_init (cc_point p) turning = Some c /\ forall k, restless (cc_point p) k c <> None.
Proof.
  pose (start := fun o : option (clusters color_count) => match o with Some _ => true | None => false end).
  assert (H0 : start (pure_init (cc_point p) turning) = true) by (destruct p; vm_compute; reflexivity).
  assert (H1 : option_map state_image (after p 5) = option_map state_image (after p 9)) by (destruct p; vm_compute; reflexivity).
  assert (H2 : start (after p 5) = true) by (destruct p; vm_compute; reflexivity).
  unfold after, start in *. destruct (pure_init (cc_point p) turning) as [c|]; [|discriminate]. exists c. split; [reflexivity|].
  change 9%nat with (5 + 4)%nat in H1. rewrite (restless_add _ 5 4) in H1. destruct (restless (cc_point p) 5 c) as [c5|] eqn:E5; [|discriminate].
  destruct (restless (cc_point p) 4 c5) as [c9|] eqn:E9; [|discriminate]. cbn [option_map] in H1.
  assert (E : c5 = c9) by (apply state_image_inj; congruence). subst c9.
  apply (restless_for_ever _ 5 4 c c5); [lia|exact E5|exact E9].
Qed.
Lemma never_ends p sorted rng : sort_ok sorted -> forall fuel vfuel i, cluster (cc_point p) sorted rng fuel vfuel turning 2 i = match p with
    | Debug => if (2 ^ 31 <=? N.of_nat fuel)%N then Some Panic else None
    | Release => None
    end.
Proof. intros Hs fuel vfuel i. destruct (turning_init p) as (c & H1 & H2). now rewrite (restless_cluster (cc_point p) sorted Hs rng vfuel turning c H1 H2). Qed.

(** An image with these colours *)
Definition restless_image : img :=
  mkImg 43 3 (concat (map (fun e => repeat (cc_color e, 255%N) (N.to_nat (cc_count e))) turning)).
Lemma restless_image_ok : img_ok restless_image.
Proof.
  split; [unfold u32_ok; cbn; lia|]. split; [unfold u32_ok; cbn; lia|]. split; [cbn; lia|]. split; [vm_compute; reflexivity|].
  assert (H : forallb (fun q : rgba => let '(r, g, b, a) := q in (r <? 256) && (g <? 256) && (b <? 256) && (a <? 256))%N (im_px restless_image) = true)
    by (vm_compute; reflexivity).
  rewrite forallb_forall in H. apply Forall_forall. intros [[[r g] b] a] Hp. specialize (H _ Hp). cbv beta iota in H.
  apply andb_prop in H as [H Ha]. apply andb_prop in H as [H Hb]. apply andb_prop in H as [Hr Hg].
  apply N.ltb_lt in Hr, Hg, Hb, Ha. repeat split; assumption.
Qed.
Lemma encode_never_ends : exists im ord, img_ok im /\ (im_w im * im_h im = 129)%N /\ ord_ok ord
  /\ forall O ord2 H, sort_ok (or_sort O) -> cluster_colors_encode Release O ord ord2 H 2 im = None
     /\ ((N.of_nat (or_fuel O) < 2 ^ 31)%N -> cluster_colors_encode Debug O ord ord2 H 2 im = None)
     /\ ((2 ^ 31 <= N.of_nat (or_fuel O))%N -> cluster_colors_encode Debug O ord ord2 H 2 im = Some io_panic).
Proof.
  exists restless_image, (fun l => l). split; [exact restless_image_ok|]. split; [reflexivity|]. split; [intros l; apply Permutation_refl|].
  intros O ord2 H Hs. unfold cluster_colors_encode, with_clusters.
  assert (E : color_counts (fun l => l) restless_image = turning) by (vm_compute; reflexivity).
  rewrite E. rewrite !never_ends by exact Hs. split; [reflexivity|]. split; intros Hf; destruct (_ <=? _)%N eqn:Z; try reflexivity; lia.
Qed.
