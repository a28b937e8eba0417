(** * Clustering does not abort on the way (C61-C63). *)
From Coq Require Import Sorted ZifyBool ZifyNat ZifyN.
From Flocq Require Import BinarySingleNaN.
From Verif Require Import Base Ser Float HilbertC Kmeans KmeansSpec KmeansProofs KmeansNear KmeansEnd KmeansCheck CodecSpec.

Lemma res_mapM_total {A B} (f : A -> res B) l : (forall x, In x l -> exists y, f x = Ok y) -> exists r, res_mapM f l = Ok r.
Proof.
  induction l as [|x l IH]; intros H; [now exists []|]. cbn [res_mapM]. destruct (H x (or_introl eq_refl)) as (y & ->).
  destruct IH as (r & Hr); [intros z Hz; apply H; now right|]. exists (y :: r). cbn [res_bind]. now rewrite Hr.
Qed.
(** A computation that waits, or succeeds *)
Definition safe {A} (r : option (res A)) : Prop := r = None \/ exists a, r = Some (Ok a).
Lemma safe_bind {A B} (m : run A) (f : A -> run B) i : safe (m i) -> (forall a j, m i = Some (Ok (a, j)) -> safe (f a j)) -> safe (run_bind m f i).
Proof. intros [H|([a j] & H)] Hf; unfold run_bind; rewrite H; [now left|]. now apply Hf. Qed.
Lemma safe_mapM {A B} (f : A -> run B) l : (forall x i, In x l -> safe (f x i)) -> forall i, safe (run_mapM f l i).
Proof.
  induction l as [|x l IH]; intros H i; [right; eexists; reflexivity|]. cbn [run_mapM]. apply safe_bind; [apply H; now left|].
  intros y j _. apply safe_bind; [apply IH; intros z k Hz; apply H; now right|]. intros ys k _. right. eexists. reflexivity.
Qed.

(** Pushing every point into the cluster it comes from *)
Definition push {T} (asg : list (list T)) (e : nat * T) : list (list T) := update_at (fst e) (fun v => v ++ [snd e]) asg.
Lemma update_at_app {A} (f : A -> A) a x b : update_at (length a) f (a ++ x :: b) = a ++ f x :: b.
Proof. induction a as [|y a IH]; [reflexivity|]. cbn [length app update_at]. now rewrite IH. Qed.
Lemma push_all {T} (asg : list (list T)) : forall done, fold_left push (enumerated (length done) asg) (done ++ repeat [] (length asg)) = done ++ asg.
Proof.
  induction asg as [|v asg IH]; intros done; [reflexivity|]. cbn [enumerated length repeat]. rewrite fold_left_app.
  assert (E : forall w u, fold_left push (map (fun x => (length done, x)) w) (done ++ u :: repeat [] (length asg)) = done ++ (u ++ w) :: repeat [] (length asg)).
  { clear. induction w as [|x w IHw]; intros u; [now rewrite app_nil_r|]. cbn [map fold_left]. unfold push at 2. cbn [fst snd]. rewrite update_at_app, IHw.
    now rewrite <- app_assoc. }
  rewrite E. cbn [app]. specialize (IH (done ++ [v])). rewrite app_length, <- !app_assoc in IH. cbn [length app] in IH.
  replace (length done + 1)%nat with (S (length done)) in IH by lia. exact IH.
Qed.

Section Total.
  Context {T : Type} (P : point T).
  Variable sorted : list (nat * f64) -> list (nat * f64).
  Variable rng : nat -> N.

  Lemma assign_loop_same cs l : forall g asg b g' asg', assign_loop P cs l g asg b = Ok (g', asg', false) -> b = false /\ asg' = fold_left push l asg.
  Proof.
    induction l as [|[i x] l IH]; intros g asg b g' asg' H; cbn [assign_loop] in H; [injection H as <- <- ->; auto|].
    apply res_bind_ok in H as ([j w] & _ & H). cbn [fst snd] in H. apply res_bind_ok in H as (v & _ & H). apply IH in H as [Hb H].
    apply orb_false_elim in Hb as [Hb Hj]. apply negb_false_iff, Nat.eqb_eq in Hj. subst j. split; [exact Hb|]. exact H.
  Qed.
  (** A pass that reports no change leaves every cluster as it is. *)
  Lemma unchanged c c' : assign_points P c = Ok (c', false) -> assignment c' = assignment c.
  Proof.
    unfold assign_points. destruct (Nat.eqb_spec (length (centroids c)) (length (assignment c))) as [L|]; [|discriminate]. intros H.
    apply res_bind_ok in H as ([[g asg] b] & H1 & H). destruct (_ =? 0)%nat; [discriminate|]. injection H as <- ->. cbn [assignment].
    apply assign_loop_same in H1 as [_ ->]. rewrite L. exact (push_all (assignment c) []).
  Qed.

  Hypothesis Hsort : sort_ok sorted.
  Variable ok : T -> Prop.
  Hypothesis Hdist : forall a b, ok a -> ok b -> exists d, dist P a b = Ok d /\ is_finite d = true.

  Lemma index_some {A} (l : list A) i : (i < length l)%nat -> exists x, index l i = Ok x /\ In x l.
  Proof. intros H. unfold index. destruct (nth_error l i) as [x|] eqn:E; [|apply nth_error_None in E; lia]. exists x. split; [reflexivity|]. eapply nth_error_In, E. Qed.
  Lemma distances_total cs nb : Forall ok cs -> (src_id nb < length cs)%nat -> (forall t, In t (map fst (near nb)) -> (t < length cs)%nat) ->
    exists nb', update_distances P cs nb = Ok nb'.
  Proof.
    intros Hc Hs Hn. rewrite Forall_forall in Hc. unfold update_distances. destruct (index_some cs _ Hs) as (s & -> & Is). cbn [res_bind].
    match goal with |- context [res_bind (res_mapM ?f ?l)] => destruct (res_mapM_total f l) as (r & ->) end; [|eexists; reflexivity].
    intros [t d] Ht. cbn [fst]. destruct (index_some cs t) as (x & -> & Ix); [apply Hn; now apply (in_map fst) in Ht|]. cbn [res_bind].
    destruct (Hdist s x (Hc s Is) (Hc x Ix)) as (e & -> & Fe). cbn [res_bind]. rewrite Fe. eexists. reflexivity.
  Qed.
  Lemma settle_total cs nb : Forall ok cs -> (src_id nb < length cs)%nat -> usable (length cs) nb -> exists nb', settle P sorted 2 cs nb = Some (Ok nb').
  Proof.
    intros Hc Hs U. rewrite settle_S. destruct (distances_total cs nb Hc Hs) as (nb' & E); [apply U|]. rewrite E. apply distances_ok in E as (E1 & _).
    unfold resize. destruct (_ <=? _)%nat; [eexists; reflexivity|]. cbn [src_id]. rewrite E1. rewrite (settle_new P sorted Hsort).
    destruct (distances_total cs (nb_new (src_id nb) (length cs)) Hc Hs) as (nb2 & ->); [|eexists; reflexivity]. apply (usable_new _ _ Hs).
  Qed.
  Lemma neighbours_total cs g i : Forall ok cs -> (forall nb, In nb g -> (src_id nb < length cs)%nat /\ usable (length cs) nb) ->
    exists g', compute_neighbours P sorted cs g i = Some (Ok (g', i)).
  Proof.
    intros Hc. unfold compute_neighbours. induction g as [|nb g IH]; intros Hg; [now exists []|]. cbn [run_mapM]. unfold run_bind.
    destruct (Hg nb (or_introl eq_refl)) as [H1 H2]. destruct (settle_total cs nb Hc H1 H2) as (nb' & ->). cbn [run_lift res_map].
    destruct IH as (g' & E); [intros x Hx; apply Hg; now right|]. rewrite E. now exists (nb' :: g').
  Qed.

  Lemma probe_total cs x cut l : Forall ok cs -> ok x -> (forall t, In t (map fst l) -> (t < length cs)%nat) ->
    forall md cl pos, (cl < length cs)%nat -> exists j w, probe P cs x cut l md cl pos = Ok (j, w) /\ (j < length cs)%nat.
  Proof.
    intros Hc Hx. pose proof Hc as Hc'. rewrite Forall_forall in Hc. induction l as [|[t d] l IH]; intros Hl md cl pos Hcl; cbn [probe]; [eauto|].
    destruct (flt cut d); [eauto|]. assert (Ht : (t < length cs)%nat) by (apply Hl; now left).
    destruct (index_some cs t Ht) as (c & -> & Ic). cbn [res_bind]. destruct (Hdist c x (Hc c Ic) Hx) as (e & -> & _). cbn [res_bind].
    destruct (flt e md); apply IH; auto; intros u Hu; apply Hl; now right.
  Qed.
  Definition ids_ok (k : nat) (g : list neighbours) : Prop := length g = k /\ forall nb t, In nb g -> In t (map fst (near nb)) -> (t < k)%nat.
  Lemma assign_point_total cs g i x : Forall ok cs -> ok x -> ids_ok (length cs) g -> (i < length cs)%nat ->
    exists j w, assign_point P cs g i x = Ok (j, w) /\ (j < length cs)%nat.
  Proof.
    intros Hc Hx [Hg1 Hg2] Hi. pose proof Hc as Hc'. rewrite Forall_forall in Hc. unfold assign_point. destruct (index_some cs i Hi) as (c & -> & Ic). cbn [res_bind].
    destruct (Hdist c x (Hc c Ic) Hx) as (e & -> & _). cbn [res_bind]. destruct (index_some g i ltac:(lia)) as (nb & -> & Ib). cbn [res_bind].
    destruct (fle e _); [eauto|].
    destruct (probe_total cs x (fmul (f64_of_N 2) e) (near nb) Hc' Hx (fun t => Hg2 nb t Ib) e i 0 Hi) as (j & w & -> & Hj). cbn [res_map fst snd]. eauto.
  Qed.
  Lemma ids_update k g i w : ids_ok k g -> ids_ok k (update_at i (fun nb => mkNb (src_id nb) (near nb) w) g).
  Proof.
    intros [H1 H2]. split; [now rewrite update_at_length|]. intros nb t Hn Ht. apply In_nth_error in Hn as (n & Hn). rewrite update_at_nth in Hn.
    destruct (_ =? _)%nat; [destruct (nth_error g n) as [nb0|] eqn:E; [|discriminate]; injection Hn as <-|]; apply nth_error_In in Hn || apply nth_error_In in E; eauto.
  Qed.
  Lemma assign_loop_total cs l : Forall ok cs -> (forall i x, In (i, x) l -> (i < length cs)%nat /\ ok x) ->
    forall g asg b, ids_ok (length cs) g -> length asg = length cs -> exists r, assign_loop P cs l g asg b = Ok r.
  Proof.
    intros Hc. induction l as [|[i x] l IH]; intros Hl g asg b Hg Ha; cbn [assign_loop]; [eauto|]. destruct (Hl i x (or_introl eq_refl)) as [Hi Hx].
    destruct (assign_point_total cs g i x Hc Hx Hg Hi) as (j & w & -> & Hj). cbn [res_bind fst snd]. destruct (index_some asg j ltac:(lia)) as (v & -> & _). cbn [res_bind].
    apply IH; [intros i' x' H; apply Hl; now right| |now rewrite update_at_length]. destruct w; [now apply ids_update|exact Hg].
  Qed.

  (** ** The states of a run *)
  Variable points : list T.
  Hypothesis Hpts : Forall ok points.
  Hypothesis Hmean : forall v rest, v <> [] -> Permutation (v ++ rest) points -> exists m, mean P v = Ok m /\ ok m.
  Hypothesis Hnone : mean P [] = Err.

  Lemma part_rest {A} (v : list A) ll : In v ll -> exists rest, Permutation (v ++ rest) (concat ll).
  Proof.
    induction ll as [|w ll IH]; intros H; [contradiction|]. cbn [concat]. destruct H as [->|H]; [now exists (concat ll)|].
    destruct (IH H) as (rest & E). exists (w ++ rest). rewrite <- E, !app_assoc. apply Permutation_app_tail, Permutation_app_comm.
  Qed.
  Lemma part_mean_total asg v : Permutation (concat asg) points -> In v asg -> v <> [] -> exists m, mean P v = Ok m /\ ok m.
  Proof. intros Hp Hv Hn. destruct (part_rest v asg Hv) as (rest & E). apply (Hmean v rest Hn). now rewrite E. Qed.
  Lemma clone_total asg v x : Permutation (concat asg) points -> In v asg -> In x v -> exists m, fake_clone P x = Ok m /\ ok m.
  Proof.
    intros Hp Hv Hx. apply in_split in Hx as (a & b & ->). destruct (part_rest _ _ Hv) as (rest & E).
    destruct (Hmean [x] ((a ++ b) ++ rest)) as (m & Hm & Ho); [discriminate| |].
    - rewrite <- Hp, <- E. cbn [app]. rewrite <- app_assoc. cbn [app]. rewrite <- app_assoc. apply Permutation_middle.
    - exists m. unfold fake_clone. now rewrite Hm.
  Qed.
  Lemma choose_total {A} (l : list A) i : l <> [] -> exists x, choose rng l i = Some (Ok (x, S i)) /\ In x l.
  Proof.
    intros H. unfold choose. destruct (nth_error _ _) as [x|] eqn:E; [exists x; split; [reflexivity|eapply nth_error_In, E]|].
    apply nth_error_None in E. destruct l as [|y l]; [contradiction|]. exfalso. pose proof (N.mod_lt (rng i) (N.of_nat (length (y :: l))) ltac:(cbn [length]; lia)). lia.
  Qed.
  Lemma pick_total (asg : list (list T)) : asg <> [] -> forall fuel i, pick_victim rng fuel asg i = None
    \/ exists v j, pick_victim rng fuel asg i = Some (Ok (v, j)) /\ In v asg /\ v <> [].
  Proof.
    intros Ha. induction fuel as [|fuel IH]; intros i; [now left|]. cbn [pick_victim]. unfold run_bind, run_unwrap.
    destruct (choose_total asg i Ha) as (v & -> & Iv). destruct (Nat.eqb_spec (length v) 0) as [E|E]; [apply IH|]. right. exists v, (S i). split; [reflexivity|]. split; [exact Iv|].
    intros ->. now apply E.
  Qed.
  Lemma centroids_total vfuel asg i : Permutation (concat asg) points ->
    update_centroids P rng vfuel asg i = None \/ exists cs j, update_centroids P rng vfuel asg i = Some (Ok (cs, j)) /\ Forall ok cs.
  Proof.
    intros Hp. unfold update_centroids. assert (H : forall v, In v asg -> forall i, new_centroid P rng vfuel asg v i = None
      \/ exists m j, new_centroid P rng vfuel asg v i = Some (Ok (m, j)) /\ ok m).
    { clear i. intros v Hv i. unfold new_centroid. destruct v as [|x v].
      - rewrite Hnone. unfold run_bind. destruct (pick_total asg ltac:(now intros ->) vfuel i) as [->|(w & j & -> & Hw & Hn)]; [now left|]. right.
        unfold run_unwrap. destruct (choose_total w j Hn) as (y & -> & Hy). destruct (clone_total asg w y Hp Hw Hy) as (m & E & Ho).
        unfold run_lift. rewrite E. cbn [res_map]. eauto.
      - destruct (part_mean_total asg (x :: v) Hp Hv) as (m & -> & Ho); [discriminate|]. right. exists m, i. auto. }
    revert i. generalize (new_centroid P rng vfuel asg) H. clear H Hp. intros f. induction asg as [|v asg IH]; intros H i; [right; exists [], i; auto|].
    cbn [run_mapM]. unfold run_bind. destruct (H v (or_introl eq_refl) i) as [->|(m & j & -> & Ho)]; [now left|].
    destruct (IH (fun w Hw => H w (or_intror Hw)) j) as [->|(cs & j' & -> & Hcs)]; [now left|]. right. exists (m :: cs), j'. split; [reflexivity|]. now constructor.
  Qed.

  Variable k : N.
  Record fit (c : clusters T) : Prop := { fit_shape : shape points k c; fit_graph : graph_settled P c; fit_cs : Forall ok (centroids c); fit_k : k <> 0%N }.
  Lemma fit_ids c : fit c -> ids_ok (length (centroids c)) (graph c).
  Proof.
    intros [[_ _ S2 S3] G _ _]. split; [lia|]. intros nb t Hn Ht. apply In_nth_error in Hn as (n & Hn). destruct (G n nb Hn) as (Gs & _).
    now apply (settled_usable P (centroids c) _ nb eq_refl) in Gs as (_ & _ & Gs & _); apply Gs.
  Qed.
  Lemma assign_total c : fit c -> exists c' b, assign_points P c = Ok (c', b).
  Proof.
    intros F. pose proof (fit_ids c F) as I. destruct F as [[S0 S1 S2 S3] _ C K]. unfold assign_points. destruct (Nat.eqb_spec (length (centroids c)) (length (assignment c))); [|lia].
    match goal with |- context [assign_loop P ?cs ?l ?g0 ?asg0 ?b0] => assert (A : exists r, assign_loop P cs l g0 asg0 b0 = Ok r); [apply (assign_loop_total cs l C)|destruct A as ([[g' asg'] b'] & ->)] end.
    - intros i x H. apply enumerated_in in H as (v & _ & Hv & Hx). rewrite Nat.sub_0_r in Hv. split; [assert (i < length (assignment c))%nat by (apply nth_error_Some; congruence); lia|].
      rewrite Forall_forall in Hpts. apply Hpts. eapply Permutation_in; [exact S0|]. apply in_concat. exists v. split; [eapply nth_error_In, Hv|exact Hx].
    - exact I.
    - apply repeat_length.
    - cbn [res_bind]. destruct (Nat.eqb_spec (length (assignment c)) 0); [lia|]. eauto.
  Qed.
  Lemma pass_total vfuel c i : fit c -> pass P sorted rng vfuel c i = None \/ exists c' b j, pass P sorted rng vfuel c i = Some (Ok ((c', b), j)) /\ fit c'.
  Proof.
    intros F. destruct (assign_total c F) as (c1 & b & E). destruct F as [Sh G C K].
    pose proof (assign_points_kept _ _ _ _ E) as (K1 & K2 & K3 & K4 & _). pose proof (assign_points_graph _ _ _ _ E) as GG. destruct Sh as [S0 S1 S2 S3].
    destruct (pass P sorted rng vfuel c i) as [r|] eqn:Ep; [right|now left]. assert (Ep0 := Ep).
    unfold pass, run_bind, run_lift in Ep. rewrite E in Ep. cbn [res_map fst snd] in Ep.
    destruct (centroids_total vfuel (assignment c1) i) as [Eu|(cs & j & Eu & Co)]; [now rewrite K1| |]; rewrite Eu in Ep; [discriminate|].
    assert (Lc : length cs = length (centroids c)) by (apply centroids_length in Eu; lia).
    destruct (neighbours_total cs (graph c1) j Co) as (g & Eg).
    { intros nb Hn. apply In_nth_error in Hn as (n & Hn). destruct (GG n nb Hn) as (nb0 & Hn0 & Hs & Hr). destruct (G n nb0 Hn0) as (Gs & Gi & _).
      apply (settled_usable P (centroids c) (length cs) nb0 (eq_sym Lc)) in Gs. assert (n < length (graph c))%nat by (apply nth_error_Some; congruence).
      split; [lia|]. unfold usable in *. now rewrite Hs, Hr. }
    rewrite Eg in Ep. injection Ep as <-. exists (mkCl cs (assignment c1) g), b, j. split; [reflexivity|]. constructor.
    - eapply pass_shape; [|exact Ep0]. now constructor.
    - apply (pass_settled P sorted rng Hsort points k vfuel c i _ b j); [now constructor|exact G|exact Ep0].
    - exact Co.
    - exact K.
  Qed.
  Lemma init_total i : (1 <= k <= N.of_nat (length points))%N -> exists c, init P sorted points k i = Some (Ok (c, i)) /\ fit c /\ Forall (fun v => v <> []) (assignment c).
  Proof.
    intros Hk. pose proof (init_assignment_spec points k) as H. cbv zeta in H. destruct ((k =? 0) || (N.of_nat (length points) <? k))%N eqn:Eb; [lia|].
    destruct H as (ch & rest & E & L1 & L2 & L3 & L4 & E2). set (asg := ch ++ [rest]) in *.
    assert (Ne : Forall (fun v => v <> []) asg).
    { apply Forall_app. split; [|constructor; [intros ->; cbn in *; lia|constructor]]. eapply Forall_impl; [|exact L2]. cbn. intros v Hv ->. cbn in *. lia. }
    assert (Hp : Permutation (concat asg) points).
    { unfold asg. rewrite concat_app. cbn [concat]. rewrite app_nil_r, <- E2, Permutation_app_comm. apply Permutation_app_head.
      rewrite <- (Permutation_rev ch). reflexivity. }
    assert (Hcs : exists cs, init_centroids P asg = Ok cs /\ Forall ok cs).
    { unfold init_centroids. destruct (res_mapM_total (fun v => res_bind (index v 0) (fake_clone P)) asg) as (cs & Ec).
      - intros v Hv. rewrite Forall_forall in Ne. specialize (Ne v Hv). destruct v as [|x v]; [contradiction|]. cbn.
        destruct (clone_total asg (x :: v) x Hp Hv (or_introl eq_refl)) as (m & Hm & _). eauto.
      - exists cs. split; [exact Ec|]. apply res_mapM_ok in Ec. eapply Forall2_out; [exact Ec|]. intros v m Hv Hm. cbn beta in Hm. apply res_bind_ok in Hm as (x & Hx & Hm).
        apply index_ok, nth_error_In in Hx. destruct (clone_total asg v x Hp Hv Hx) as (m' & E' & Ho). rewrite E' in Hm. injection Hm as <-; exact Ho. }
    destruct Hcs as (cs & Ec & Co). destruct (neighbours_total cs (map (fun n => nb_new n (length cs)) (seq 0 (length cs))) i Co) as (g & Eg).
    { intros nb Hn. apply in_map_iff in Hn as (n & <- & Hn). apply in_seq in Hn. split; [cbn; lia|apply usable_new; lia]. }
    assert (Ei : init P sorted points k i = Some (Ok (mkCl cs asg g, i))).
    { unfold init, run_bind, run_lift. rewrite E. cbn [res_map]. rewrite Ec. cbn [res_map]. unfold init_neighbours. now rewrite Eg. }
    exists (mkCl cs asg g). split; [exact Ei|]. split; [|exact Ne]. constructor.
    - eapply init_shape, Ei.
    - eapply init_settled; [exact Hsort|exact Ei].
    - exact Co.
    - lia.
  Qed.
  (** The counter overflows in a debug build after as many passes as an i32 can count. *)
  Definition overflows vfuel : Prop := build P = Debug /\ exists c, busy P sorted rng vfuel points k (2 ^ 31 - 1) c.
  Lemma passes_total fuel vfuel : forall z c i, reached P sorted rng vfuel points k c -> fit c ->
    (build P = Debug -> exists n, z = Z.of_N n /\ busy P sorted rng vfuel points k n c) -> passes P sorted rng fuel vfuel z c i = None
    \/ (exists c' j, passes P sorted rng fuel vfuel z c i = Some (Ok (c', j)) /\ reached P sorted rng vfuel points k c' /\ fit c')
    \/ (passes P sorted rng fuel vfuel z c i = Some Panic /\ overflows vfuel).
  Proof.
    induction fuel as [|fuel IH]; intros z c i R F Bz; [now left|]. cbn [passes]. unfold run_bind, run_lift. destruct (pass_total vfuel c i F) as [E|(c' & b & j & E & F')]; rewrite E; [now left|].
    pose proof (reached_pass _ _ _ _ _ _ _ _ _ _ _ R E) as R'. unfold count_pass. cbn [fst snd]. destruct (z =? 2 ^ 31 - 1)%Z eqn:Ez.
    - apply Z.eqb_eq in Ez. destruct (build P) eqn:EB; cbn [res_map].
      + right. right. split; [reflexivity|]. split; [exact EB|]. destruct (Bz eq_refl) as (n & -> & Hn). exists c. assert (En : n = (2 ^ 31 - 1)%N) by lia. rewrite <- En. exact Hn.
      + destruct b; [apply IH; auto; intros X; discriminate X|]. right. left. exists c', j. auto.
    - cbn [res_map]. destruct b; [|right; left; exists c', j; auto]. apply IH; [exact R'|exact F'|]. intros EB. destruct (Bz EB) as (n & -> & Hn).
      exists (1 + n)%N. split; [lia|]. eapply busy_pass; [exact Hn|exact E].
  Qed.
  (** A run waits, or succeeds, or stops at the final check or with too many passes. *)
  Lemma cluster_total fuel vfuel i : (1 <= k <= N.of_nat (length points))%N -> cluster P sorted rng fuel vfuel points k i = None
    \/ (exists c, reached P sorted rng vfuel points k c /\ ((exists j, cluster P sorted rng fuel vfuel points k i = Some (Ok (c, j)) /\ check_enough c k = Ok tt)
       \/ (cluster P sorted rng fuel vfuel points k i = Some Panic /\ check_enough c k = Panic)))
    \/ (cluster P sorted rng fuel vfuel points k i = Some Panic /\ overflows vfuel).
  Proof.
    intros Hk. destruct (init_total i Hk) as (c & E & F & _). unfold cluster, run_bind. rewrite E. pose proof (reached_init P sorted rng vfuel points k i c i E) as R.
    destruct (passes_total fuel vfuel 0%Z c i R F) as [->|[(c' & j & -> & R' & _)|(-> & V)]]; [intros _; exists 0%N; split; [reflexivity|eapply busy_init, E]|now left| |right; right; auto].
    right. left. exists c'. split; [exact R'|].
    unfold run_lift, check_enough, assert_. destruct (_ <=? _)%N; [left; exists j; auto|right; auto].
  Qed.
  (** A run whose first pass changes nothing ends there. *)
  Lemma first_pass_ends fuel vfuel i c c1 : (1 <= k <= N.of_nat (length points))%N -> (k <= 2 ^ 32)%N -> (1 <= fuel)%nat ->
    init P sorted points k i = Some (Ok (c, i)) -> assign_points P c = Ok (c1, false) ->
    exists c', cluster P sorted rng fuel vfuel points k i = Some (Ok (c', i)) /\ assignment c' = assignment c.
  Proof.
    intros Hk Hk2 Hf E Ea. destruct (init_total i Hk) as (c0 & E0 & F & Ne). assert (c0 = c) by congruence. subst c0. clear E0.
    pose proof (unchanged c c1 Ea) as Ua. destruct F as [[S0 S1 S2 S3] G C K].
    assert (Hm : exists cs, res_mapM (mean P) (assignment c) = Ok cs /\ Forall ok cs).
    { destruct (res_mapM_total (mean P) (assignment c)) as (cs & Ec).
      - intros v Hv. rewrite Forall_forall in Ne. destruct (part_mean_total (assignment c) v S0 Hv (Ne v Hv)) as (m & Hm & _). eauto.
      - exists cs. split; [exact Ec|]. apply res_mapM_ok in Ec. eapply Forall2_out; [exact Ec|]. intros v m Hv Hm. cbn beta in Hm. rewrite Forall_forall in Ne.
        destruct (part_mean_total (assignment c) v S0 Hv (Ne v Hv)) as (m' & E' & Ho). rewrite E' in Hm. injection Hm as <-; exact Ho. }
    destruct Hm as (cs & Ec & Co). assert (Lc : length cs = length (assignment c)) by (apply res_mapM_ok, Forall2_len in Ec; lia).
    pose proof (assign_points_graph _ _ _ _ Ea) as GG. pose proof (assign_points_kept _ _ _ _ Ea) as (K1 & K2 & K3 & _).
    destruct (neighbours_total cs (graph c1) i Co) as (g & Eg).
    { intros nb Hn. apply In_nth_error in Hn as (n & Hn). destruct (GG n nb Hn) as (nb0 & Hn0 & Hs & Hr). destruct (G n nb0 Hn0) as (Gs & Gi & _).
      apply (settled_usable P (centroids c) (length cs) nb0 ltac:(lia)) in Gs. assert (n < length (graph c))%nat by (apply nth_error_Some; congruence).
      split; [lia|]. unfold usable in *. now rewrite Hs, Hr. }
    assert (Eu : update_centroids P rng vfuel (assignment c1) i = Some (Ok (cs, i))).
    { unfold update_centroids. rewrite Ua. revert Ec. generalize (assignment c) at 1 3. clear. intros asg. revert cs. induction asg as [|v asg IH]; intros cs H; cbn [res_mapM run_mapM] in *; [injection H as <-; reflexivity|].
      apply res_bind_ok in H as (m & H1 & H). apply res_bind_ok in H as (l & H2 & H). injection H as <-.
      unfold run_bind. unfold new_centroid at 1. rewrite H1. cbn [run_ret]. now rewrite (IH l H2). }
    exists (mkCl cs (assignment c1) g). split; [|exact Ua]. destruct fuel as [|fuel]; [lia|].
    unfold cluster, run_bind. rewrite E. cbn [passes]. unfold run_bind, pass, run_bind, run_lift. rewrite Ea. cbn [res_map fst snd]. rewrite Eu, Eg. cbn [run_ret fst snd]. change (count_pass P 0) with (@Ok Z 1%Z). cbn [res_map]. cbn [run_ret fst snd].
    assert (Q : check_enough (mkCl cs (assignment c1) g) k = Ok tt); [|now rewrite Q].
    unfold check_enough, assert_. cbn [assignment]. rewrite Ua.
    assert (Fl : filter (fun v : list T => (0 <? length v)%nat) (assignment c) = assignment c).
    { clear -Ne. induction Ne as [|v l Hv Ne IH]; [reflexivity|]. cbn [filter]. destruct v as [|y v]; [contradiction|]. change (0 <? length (y :: v))%nat with true. now rewrite IH. }
    rewrite Fl, S1, (floor_099 k Hk2). assert (99 * k / 100 <= k)%N by (apply N.div_le_upper_bound; lia). destruct (_ <=? _)%N eqn:Z; [reflexivity|lia].
  Qed.
End Total.
