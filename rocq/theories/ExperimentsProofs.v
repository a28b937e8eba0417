(** * The experiment scripts: proofs. *)
From Coq Require Import String Permutation Sorted ZifyBool ZifyNat ZifyN.
From Verif Require Import Base Prs PrsTop SelectSpec Img CsvSpec Special SpecialProofs ProgramProofs DumperSpec CsvProofs Experiments.
Close Scope string_scope.
Open Scope list_scope.

(** ** Dictionaries *)
Definition occ {A} (eqb : A -> A -> bool) (k : A) (l : list A) : N := N.of_nat (length (filter (fun x => eqb x k) l)).
Section Tally.
  Context {A : Type} (eqb : A -> A -> bool) (eqb_eq : forall a b, eqb a b = true <-> a = b).
  Lemma bump_keys k d : map fst (bump eqb k d) = if existsb (fun k' => eqb k' k) (map fst d) then map fst d else map fst d ++ [k].
  Proof.
    induction d as [|[k' n] d IH]; [reflexivity|]. cbn. destruct (eqb k' k) eqn:E; [reflexivity|]. cbn. rewrite IH. cbn.
    destruct (existsb (fun k'0 => eqb k'0 k) (map fst d)); reflexivity.
  Qed.
  Lemma bump_nodup k d : NoDup (map fst d) -> NoDup (map fst (bump eqb k d)).
  Proof.
    intros H. rewrite bump_keys. destruct (existsb _ _) eqn:E; [exact H|]. apply Permutation_NoDup with (k :: map fst d); [apply Permutation_cons_append|].
    constructor; [|exact H]. intros Hin. rewrite <- Bool.not_true_iff_false in E. apply E. apply existsb_exists. exists k. split; [exact Hin|now apply eqb_eq].
  Qed.
  Lemma bump_in k d : NoDup (map fst d) -> forall x n, In (x, n) (bump eqb k d) <-> (x <> k /\ In (x, n) d) \/ (x = k /\ ((exists m, In (k, m) d /\ n = m + 1) \/ (~ In k (map fst d) /\ n = 1)))%N.
  Proof.
    induction d as [|[k' m] d IH]; intros ND x n.
    - cbn. split.
      + intros [E|[]]. injection E as <- <-. right. split; [reflexivity|]. right. split; [easy|reflexivity].
      + intros [[_ []]|[-> [(m & [] & _)|[_ ->]]]]. now left.
    - cbn in ND. inversion ND as [|? ? N1 N2]; subst. cbn. destruct (eqb k' k) eqn:E.
      + apply eqb_eq in E as ->. cbn. split.
        * intros [E|Hin].
          -- injection E as <- <-. right. split; [reflexivity|]. left. exists m. split; [now left|reflexivity].
          -- left. split; [|now right]. intros ->. apply N1. apply in_map_iff. now exists (k, n).
        * intros [[X [E|Hin]]|[-> [(m' & [E|Hin] & ->)|[X _]]]].
          -- injection E as <- _. contradiction.
          -- now right.
          -- injection E as <-. now left.
          -- exfalso. apply N1. apply in_map_iff. now exists (k, m').
          -- exfalso. apply X. now left.
      + assert (K : k' <> k) by (intros ->; rewrite (proj2 (eqb_eq k k) eq_refl) in E; discriminate). cbn. rewrite (IH N2). clear IH. split.
        * intros [H|[[X H]|[-> [(m' & H & ->)|[X ->]]]]].
          -- injection H as <- <-. left. split; [exact K|now left].
          -- left. split; [exact X|now right].
          -- right. split; [reflexivity|]. left. exists m'. split; [now right|reflexivity].
          -- right. split; [reflexivity|]. right. split; [|reflexivity]. intros [H|H]; contradiction.
        * intros [[X [H|H]]|[-> [(m' & [H|H] & ->)|[X ->]]]].
          -- now left.
          -- right. left. now split.
          -- injection H as H _. contradiction.
          -- right. right. split; [reflexivity|]. left. now exists m'.
          -- right. right. split; [reflexivity|]. right. split; [|reflexivity]. intros H. apply X. now right.
  Qed.
  Lemma tally_ok l : NoDup (map fst (tally eqb l)) /\ forall k n, In (k, n) (tally eqb l) <-> In k l /\ n = occ eqb k l.
  Proof.
    unfold tally. rewrite <- fold_left_rev_right.
    assert (R : forall k, occ eqb k (rev l) = occ eqb k l).
    { intros k. unfold occ. f_equal. clear. induction l as [|x l IH]; [reflexivity|]. cbn. rewrite filter_app, app_length, IH. cbn. destruct (eqb x k); cbn; lia. }
    assert (G : NoDup (map fst (fold_right (fun k d => bump eqb k d) [] (rev l))) /\ forall k n, In (k, n) (fold_right (fun k d => bump eqb k d) [] (rev l)) <-> In k (rev l) /\ n = occ eqb k (rev l)).
    { clear R. induction (rev l) as [|x r [IH1 IH2]]; [split; [constructor|split; [intros []|intros [[] _]]]|]. cbn [fold_right]. split; [now apply bump_nodup|].
      intros k n. rewrite (bump_in x _ IH1 k n). unfold occ. cbn [filter].
      assert (M : forall y, In y (map fst (fold_right (fun k d => bump eqb k d) [] r)) <-> In y r).
      { intros y. rewrite in_map_iff. split; [intros ([z m] & <- & H); now apply IH2 in H|]. intros H. exists (y, occ eqb y r). split; [reflexivity|]. now apply IH2. }
      split.
      - intros [[X H]|[-> [(m & H & ->)|[X ->]]]].
        + apply IH2 in H as [H ->]. split; [now right|]. destruct (eqb x k) eqn:E; [apply eqb_eq in E; congruence|reflexivity].
        + apply IH2 in H as [H ->]. split; [now left|]. rewrite (proj2 (eqb_eq x x) eq_refl). unfold occ. cbn. lia.
        + split; [now left|]. rewrite (proj2 (eqb_eq x x) eq_refl). rewrite M in X.
          enough (E : filter (fun y => eqb y x) r = []) by now rewrite E.
          destruct (filter (fun y => eqb y x) r) as [|y ys] eqn:E; [reflexivity|]. exfalso. apply X.
          assert (H : In y (filter (fun y => eqb y x) r)) by (rewrite E; now left). apply filter_In in H as [H Y]. apply eqb_eq in Y as ->. exact H.
      - intros [[->|H] ->].
        + right. split; [reflexivity|]. rewrite (proj2 (eqb_eq k k) eq_refl). rewrite M. 
          destruct (existsb (fun y => eqb y k) r) eqn:E.
          * left. exists (occ eqb k r). split; [|unfold occ; cbn; lia]. apply IH2. split; [|reflexivity]. apply existsb_exists in E as (y & Hy & Y). now apply eqb_eq in Y as ->.
          * right. assert (F : filter (fun y => eqb y k) r = []).
            { destruct (filter (fun y => eqb y k) r) as [|y ys] eqn:F; [reflexivity|]. assert (H : In y (filter (fun y => eqb y k) r)) by (rewrite F; now left).
              apply filter_In in H as [H Y]. exfalso. rewrite <- Bool.not_true_iff_false in E. apply E. apply existsb_exists. now exists y. }
            rewrite F. split; [|reflexivity]. intros H. enough (In k (filter (fun y => eqb y k) r)) by (rewrite F in *; contradiction). apply filter_In. split; [exact H|now apply eqb_eq].
        + destruct (eqb x k) eqn:E.
          * apply eqb_eq in E as ->. right. split; [reflexivity|]. left. exists (occ eqb k r). split; [now apply IH2|unfold occ; cbn; lia].
          * left. split; [intros ->; rewrite (proj2 (eqb_eq x x) eq_refl) in E; discriminate|]. now apply IH2. }
    destruct G as [G1 G2]. split; [exact G1|]. intros k n. rewrite (G2 k n), R, <- in_rev. reflexivity.
  Qed.
  Lemma tally_sum l : fold_right (fun e a => snd e + a)%N 0%N (tally eqb l) = N.of_nat (length l).
  Proof.
    unfold tally. rewrite <- fold_left_rev_right, <- (rev_length l). induction (rev l) as [|x r IH]; [reflexivity|]. cbn [fold_right length].
    assert (B : forall d, fold_right (fun e a => snd e + a)%N 0%N (bump eqb x d) = (1 + fold_right (fun (e : A * N) a => snd e + a)%N 0%N d)%N).
    { induction d as [|[k n] d IHd]; [reflexivity|]. cbn [bump]. destruct (eqb k x); cbn [fold_right snd]; [lia|]. rewrite IHd. lia. }
    rewrite B, IH. lia.
  Qed.
End Tally.

(** ** Sorting *)
Definition by_count {A} (a b : A * N) : Prop := (snd b <= snd a)%N.
Lemma insert_perm {A} (e : A * N) l : Permutation (insert_count e l) (e :: l).
Proof.
  induction l as [|e' l IH]; [reflexivity|]. cbn. destruct (snd e' <? snd e)%N; [reflexivity|]. rewrite IH. apply perm_swap.
Qed.
Lemma insert_sorted {A} (e : A * N) l : StronglySorted by_count l -> StronglySorted by_count (insert_count e l).
Proof.
  induction 1 as [|e' l S IH F]; [repeat constructor|]. cbn. destruct (snd e' <? snd e)%N eqn:E.
  - constructor; [now constructor|]. constructor; [unfold by_count; lia|]. eapply Forall_impl; [|exact F]. unfold by_count. cbn. intros. lia.
  - constructor; [exact IH|]. rewrite insert_perm. constructor; [unfold by_count; lia|exact F].
Qed.
Lemma sort_perm {A} (l : list (A * N)) : Permutation (sort_counts l) l.
Proof.
  unfold sort_counts. enough (G : forall acc, Permutation (fold_left (fun acc e => insert_count e acc) l acc) (acc ++ l)) by exact (G []).
  induction l as [|e l IH]; intros acc; [now rewrite app_nil_r|]. cbn. rewrite IH, insert_perm. now rewrite <- Permutation_middle.
Qed.
Lemma sort_sorted {A} (l : list (A * N)) : StronglySorted by_count (sort_counts l).
Proof.
  unfold sort_counts. enough (G : forall acc, StronglySorted by_count acc -> StronglySorted by_count (fold_left (fun acc e => insert_count e acc) l acc)) by (apply G; constructor).
  induction l as [|e l IH]; intros acc H; [exact H|]. cbn. apply IH. now apply insert_sorted.
Qed.
