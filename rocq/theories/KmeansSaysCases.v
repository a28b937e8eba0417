(** * Runs with what they print (C88). *)
From Coq Require Import String.
From Verif Require Import Base Prs Float ClusterC Kmeans KmeansSpec KmeansProofs KmeansCases KmeansSays KmeansSaysSpec.
Close Scope string_scope.
Open Scope list_scope.

(** Four clusters of three; the second point of the first reads the whole list. *)
Definition pts12 : list color_count := map grey [100; 250; 106; 110; 111; 112; 150; 151; 152; 255; 254; 253]%N.
Definition reads_all {T} (P : point T) (c : clusters T) (i : nat) (x : T) (t : nat) : bool :=
  match nth_error (centroids c) i, nth_error (graph c) i with
  | Some ci, Some nb =>
      match dist P ci x with
      | Ok d => negb (certain nb d) && forallb (fun e : nat * f64 => negb (flt (fmul (f64_of_N 2) d) (snd e))) (near nb) && (length (near nb) =? t)%nat
      | _ => false
      end
  | _, _ => false
  end.
Lemma reads_all_treated {T} (P : point T) c i x t : reads_all P c i x t = true -> treated P (centroids c) (graph c) i x (Looked (N.of_nat t) false).
Proof.
  unfold reads_all. destruct (nth_error (centroids c) i) as [ci|] eqn:E1; [|discriminate]. destruct (nth_error (graph c) i) as [nb|] eqn:E2; [|discriminate].
  destruct (dist P ci x) as [d| |] eqn:E3; try discriminate. intros H. apply andb_prop in H as [H H3]. apply andb_prop in H as [H1 H2].
  exists ci, d, nb. split; [exact E1|]. split; [exact E3|]. split; [exact E2|]. split; [now destruct (certain nb d)|].
  exists (near nb), []. split; [now rewrite app_nil_r|]. split; [|split; [reflexivity|apply Nat.eqb_eq in H3; now rewrite H3]].
  apply Forall_forall. intros e He. rewrite forallb_forall in H2. specialize (H2 e He). now destruct (flt _ _).
Qed.
Definition shortened p : bool :=
  match init (cc_point p) insertion_sort pts12 4 0 with
  | Some (Ok (c, i)) =>
      match pass (cc_point p) insertion_sort no_rng 10 c i with
      | Some (Ok ((c', b), j)) =>
          reads_all (cc_point p) c 3 (grey 250) 3 && existsb (cc_eqb (grey 250)) (nth 3 (assignment c) []) && (length (near (nth 3 (graph c') (nb_new 0 0))) =? 2)%nat && b
      | _ => false
      end
  | _ => false
  end.
Lemma watermark_low p : exists c i c' j x v nb, reached (cc_point p) insertion_sort no_rng 10 pts12 4 c
  /\ pass (cc_point p) insertion_sort no_rng 10 c i = Some (Ok ((c', true), j))
  /\ nth_error (assignment c) 3 = Some v /\ In x v /\ treated (cc_point p) (centroids c) (graph c) 3 x (Looked 3 false)
  /\ nth_error (graph c') 3 = Some nb /\ length (near nb) = 2%nat.
Proof.
  assert (H : shortened p = true) by (destruct p; vm_compute; reflexivity). unfold shortened in H.
  destruct (init (cc_point p) insertion_sort pts12 4 0) as [[[c i]| |]|] eqn:E1; try discriminate H.
  destruct (pass (cc_point p) insertion_sort no_rng 10 c i) as [[[[c' b] j]| |]|] eqn:E2; try discriminate H.
  apply andb_prop in H as [H ->]. apply andb_prop in H as [H H3]. apply andb_prop in H as [H1 H2]. apply Nat.eqb_eq in H3.
  apply existsb_exists in H2 as (x & Hx & H2). apply cc_eqb_spec in H2. subst x.
  destruct (nth_error (assignment c) 3) as [v|] eqn:E3; [|apply nth_error_None in E3; rewrite nth_overflow in Hx by lia; destruct Hx].
  rewrite (nth_error_nth _ _ _ E3) in Hx. destruct (nth_error (graph c') 3) as [nb|] eqn:E4; [|apply nth_error_None in E4; rewrite nth_overflow in H3 by lia; discriminate H3].
  rewrite (nth_error_nth _ _ _ E4) in H3. exists c, i, c', j, (grey 250), v, nb. split; [eapply reached_init; exact E1|]. split; [exact E2|]. split; [exact E3|].
  split; [exact Hx|]. split; [exact (reads_all_treated _ _ _ _ _ H1)|]. split; [exact E4|exact H3].
Qed.

(** ** Only an empty cluster has no mean *)
Lemma fold_no_err {A B} (f : B -> A -> res B) l : (forall b a, f b a <> Err) -> forall b, fold_res f l b <> Err.
Proof. intros Hf. induction l as [|a l IH]; intros b; cbn [fold_res]; [discriminate|]. specialize (Hf b a). destruct (f b a); cbn [res_bind]; [apply IH|congruence|discriminate]. Qed.
Lemma bind_no_err {A B} (m : res A) (f : A -> res B) : m <> Err -> (forall a, f a <> Err) -> res_bind m f <> Err.
Proof. destruct m; cbn [res_bind]; intros; auto. discriminate. Qed.
Lemma uadd64_no_err p a b : uadd64 p a b <> Err.
Proof. unfold uadd64, ufit. destruct (_ <? _)%N; [discriminate|]. destruct p; discriminate. Qed.
Lemma no_mean p v v' : (mean (cc_point p) v = Err <-> v = []) /\ (mean (cp_point p) v' = Err <-> v' = []).
Proof.
  split; (split; [|intros ->; reflexivity]).
  - cbn [mean cc_point]. unfold cc_mean. destruct v as [|a [|b v]]; [reflexivity|discriminate|]. intros H. exfalso. revert H. apply bind_no_err.
    + apply fold_no_err. intros [[[sr sg] sb] w] y. unfold weighed_add. destruct (cc_color y) as [[r g] b']. repeat (apply bind_no_err; [apply uadd64_no_err|intros]). discriminate.
    + intros [s w]. destruct (w =? 0)%N; discriminate.
  - cbn [mean cp_point]. unfold cp_mean. destruct v' as [|a v']; [reflexivity|]. intros H. exfalso. revert H. apply bind_no_err.
    + apply fold_no_err. intros [[sx sy] [[sr sg] sb]] y. unfold vector_add. destruct (cp_color y) as [[r g] b']. repeat (apply bind_no_err; [apply uadd64_no_err|intros]). discriminate.
    + intros [[sx sy] s]. discriminate.
Qed.
