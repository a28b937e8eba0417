(** * Lemmas about hash maps and frequency tables. *)
From Verif Require Import Base Utils HufSpec.
From Coq Require Import ZifyBool ZifyNat ZifyN.
Set Implicit Arguments.

Lemma NoDup_app_inv {A} (a b : list A) : NoDup (a ++ b) ->
  NoDup a /\ NoDup b /\ forall x, In x a -> In x b -> False.
Proof.
  induction a as [|x a IH]; cbn [app]; intros H.
  - split; [constructor|]. split; [exact H|]. intros x [].
  - inversion H as [|? ? Hx H']; subst. destruct (IH H') as [Ha [Hb D]]. split; [|split; [exact Hb|]].
    + constructor; [|exact Ha]. intros Hi. apply Hx, in_or_app. now left.
    + intros y [<-|Hy] Hy'; [|eauto]. apply Hx, in_or_app. now right.
Qed.
Lemma NoDup_app_intro {A} (a b : list A) : NoDup a -> NoDup b ->
  (forall x, In x a -> In x b -> False) -> NoDup (a ++ b).
Proof.
  induction a as [|x a IH]; cbn [app]; intros Ha Hb D; [exact Hb|].
  inversion Ha as [|? ? Hx Ha']; subst. constructor.
  - rewrite in_app_iff. intros [H|H]; [auto|]. apply (D x); [now left|exact H].
  - apply IH; auto. intros y Hy. apply D. now right.
Qed.
Lemma eqb_refl' {A} (eqb : A -> A -> bool) : eqb_ok eqb -> forall x, eqb x x = true.
Proof. intros H x. now apply H. Qed.
Lemma eqb_spec' {A} (eqb : A -> A -> bool) : eqb_ok eqb -> forall x y, reflect (x = y) (eqb x y).
Proof.
  intros H x y. destruct (eqb x y) eqn:E; constructor.
  - now apply H.
  - intros E2. apply H in E2. congruence.
Qed.

Section Map.
  Context {K V : Type} (eqb : K -> K -> bool) (Heqb : eqb_ok eqb).
  Implicit Types (m : list (K * V)) (k : K) (v : V).

  Lemma hm_get_in k v m : hm_get eqb k m = Some v -> In (k, v) m.
  Proof.
    induction m as [|[k' v'] m IH]; cbn [hm_get]; [discriminate|].
    destruct (eqb_spec' Heqb k k') as [->|E].
    - intros [= ->]. now left.
    - intros H. right. auto.
  Qed.
  Lemma hm_in_get k v m : NoDup (map fst m) -> In (k, v) m -> hm_get eqb k m = Some v.
  Proof.
    induction m as [|[k' v'] m IH]; cbn [hm_get map fst]; intros HN Hin; [contradiction|].
    inversion HN as [|? ? Hk HN']; subst. destruct Hin as [E|Hin].
    - injection E as -> ->. now rewrite (eqb_refl' Heqb).
    - destruct (eqb_spec' Heqb k k') as [->|E]; [|auto].
      exfalso. apply Hk. apply in_map_iff. exists (k', v). auto.
  Qed.
  Lemma hm_get_none k m : hm_get eqb k m = None <-> ~ In k (map fst m).
  Proof.
    induction m as [|[k' v'] m IH]; cbn [hm_get map fst In]; [tauto|].
    destruct (eqb_spec' Heqb k k') as [->|E].
    - split; [discriminate|tauto].
    - rewrite IH. split; [intros H [<-|H2]; tauto|tauto].
  Qed.
  Lemma hm_get_insert k v m k' :
    hm_get eqb k' (hm_insert eqb k v m) = if eqb k' k then Some v else hm_get eqb k' m.
  Proof.
    induction m as [|[k1 v1] m IH]; cbn [hm_insert hm_get].
    - destruct (eqb k' k); reflexivity.
    - destruct (eqb_spec' Heqb k k1) as [->|E]; cbn [hm_get].
      + destruct (eqb k' k1); reflexivity.
      + rewrite IH. destruct (eqb_spec' Heqb k' k1) as [->|E1]; [|reflexivity].
        destruct (eqb_spec' Heqb k1 k); [congruence|reflexivity].
  Qed.
  Lemma hm_get_upsert k f v m k' :
    hm_get eqb k' (hm_upsert eqb k f v m) =
    if eqb k' k then Some (match hm_get eqb k m with Some w => f w | None => v end) else hm_get eqb k' m.
  Proof.
    induction m as [|[k1 v1] m IH]; cbn [hm_upsert hm_get].
    - destruct (eqb k' k); reflexivity.
    - destruct (eqb_spec' Heqb k k1) as [->|E]; cbn [hm_get].
      + destruct (eqb k' k1); reflexivity.
      + rewrite IH. destruct (eqb_spec' Heqb k' k1) as [->|E1]; [|reflexivity].
        destruct (eqb_spec' Heqb k1 k); [congruence|reflexivity].
  Qed.
  Lemma hm_upsert_keys k f v m :
    map fst (hm_upsert eqb k f v m) = map fst m \/
    (map fst (hm_upsert eqb k f v m) = map fst m ++ [k] /\ ~ In k (map fst m)).
  Proof.
    induction m as [|[k1 v1] m IH]; cbn [hm_upsert map fst].
    - right. split; [reflexivity|intros []].
    - destruct (eqb_spec' Heqb k k1) as [->|E]; cbn [map fst]; [now left|].
      destruct IH as [->|[-> H]]; [now left|right]. split; [reflexivity|]. intros [E2|H2]; congruence.
  Qed.
  Lemma nodup_snoc {X} (l : list X) x : NoDup l -> ~ In x l -> NoDup (l ++ [x]).
  Proof.
    intros HN Hx. apply (Permutation_NoDup (Permutation_cons_append l x)). now constructor.
  Qed.
  Lemma hm_upsert_nodup k f v m : NoDup (map fst m) -> NoDup (map fst (hm_upsert eqb k f v m)).
  Proof.
    intros HN. destruct (hm_upsert_keys k f v m) as [->|[-> H]]; [exact HN|]. now apply nodup_snoc.
  Qed.
  Lemma hm_insert_upsert k v m : hm_insert eqb k v m = hm_upsert eqb k (fun _ => v) v m.
  Proof.
    induction m as [|[k1 v1] m IH]; cbn [hm_insert hm_upsert]; [reflexivity|].
    destruct (eqb k k1); congruence.
  Qed.
  Lemma hm_insert_nodup k v m : NoDup (map fst m) -> NoDup (map fst (hm_insert eqb k v m)).
  Proof. rewrite hm_insert_upsert. apply hm_upsert_nodup. Qed.
End Map.

Section Freqs.
  Context {A : Type} (eqb : A -> A -> bool) (Heqb : eqb_ok eqb).
  Implicit Types (x : A) (l : list A).

  Lemma occurs_pos x l : (0 < occurs eqb x l)%N <-> In x l.
  Proof.
    induction l as [|y l IH]; cbn [occurs In]; [lia|].
    destruct (eqb_spec' Heqb x y) as [->|E].
    - split; [auto|lia].
    - rewrite IH. split; [auto|intros [E2|H]; [congruence|exact H]].
  Qed.
  Lemma occurs_app x l1 l2 : occurs eqb x (l1 ++ l2) = (occurs eqb x l1 + occurs eqb x l2)%N.
  Proof. induction l1 as [|y l IH]; cbn [occurs app]; [lia|]. destruct (eqb x y); lia. Qed.

  Definition freq_inv (l : list A) (m : list (A * N)) : Prop :=
    NoDup (map fst m) /\
    forall x, hm_get eqb x m = if (occurs eqb x l =? 0)%N then None else Some (occurs eqb x l).

  Lemma count_freqs_inv l : freq_inv l (count_freqs eqb l).
  Proof.
    unfold count_freqs.
    assert (G : forall l done m, freq_inv done m ->
              freq_inv (done ++ l) (fold_left (fun freqs x => hm_upsert eqb x (fun n => n + 1)%N 1%N freqs) l m)).
    { clear l. induction l as [|y l IH]; intros done m Hm; cbn [fold_left].
      - now rewrite app_nil_r.
      - replace (done ++ y :: l) with ((done ++ [y]) ++ l) by now rewrite <- app_assoc.
        apply IH. destruct Hm as [HN Hg]. split; [now apply hm_upsert_nodup|].
        intros x. rewrite (hm_get_upsert Heqb), !Hg, occurs_app. cbn [occurs].
        destruct (eqb_spec' Heqb x y) as [->|E].
        + destruct (N.eqb_spec (occurs eqb y done) 0) as [E0|E0].
          * rewrite E0. reflexivity.
          * destruct (N.eqb_spec (occurs eqb y done + (1 + 0)) 0); [lia|reflexivity]. 
        + now rewrite N.add_0_r. }
    apply (G l [] []). split; [constructor|]. intros x. reflexivity.
  Qed.

  Lemma count_freqs_nodup l : NoDup (map fst (count_freqs eqb l)).
  Proof. apply count_freqs_inv. Qed.
  Lemma count_freqs_in l x n : In (x, n) (count_freqs eqb l) <-> In x l /\ n = occurs eqb x l.
  Proof.
    destruct (count_freqs_inv l) as [HN Hg]. rewrite <- occurs_pos. split.
    - intros H. apply (hm_in_get Heqb) in H; [|exact HN]. rewrite Hg in H.
      destruct (N.eqb_spec (occurs eqb x l) 0); [discriminate|]. injection H as <-. lia.
    - intros [H ->]. apply (hm_get_in Heqb). rewrite Hg.
      destruct (N.eqb_spec (occurs eqb x l) 0); [lia|reflexivity].
  Qed.
  Lemma count_freqs_keys l x : In x (map fst (count_freqs eqb l)) <-> In x l.
  Proof.
    rewrite in_map_iff. split.
    - intros [[y n] [<- H]]. now apply count_freqs_in in H.
    - intros H. exists (x, occurs eqb x l). split; [reflexivity|]. apply count_freqs_in. auto.
  Qed.

  Definition sumN (l : list N) : N := fold_right N.add 0%N l.
  Lemma sumN_app a b : sumN (a ++ b) = (sumN a + sumN b)%N.
  Proof. induction a as [|x a IH]; [reflexivity|]. cbn [app sumN fold_right] in *. unfold sumN in *. cbn [fold_right]. lia. Qed.
  Lemma sumN_perm a b : Permutation a b -> sumN a = sumN b.
  Proof. induction 1; unfold sumN in *; cbn [fold_right]; lia. Qed.

  Lemma upsert_sum k m : sumN (map snd (hm_upsert eqb k (fun n => n + 1)%N 1%N m)) = (sumN (map snd m) + 1)%N.
  Proof.
    induction m as [|[k1 v1] m IH]; cbn [hm_upsert map snd]; [reflexivity|].
    destruct (eqb k k1); cbn [map snd]; unfold sumN in *; cbn [fold_right]; lia.
  Qed.
  Lemma count_freqs_sum l : sumN (map snd (count_freqs eqb l)) = N.of_nat (length l).
  Proof.
    unfold count_freqs.
    assert (G : forall l m, sumN (map snd (fold_left (fun freqs x => hm_upsert eqb x (fun n => n + 1)%N 1%N freqs) l m))
              = (sumN (map snd m) + N.of_nat (length l))%N).
    { clear l. induction l as [|y l IH]; intros m; cbn [fold_left length]; [lia|]. rewrite IH, upsert_sum. lia. }
    rewrite G. cbn. lia.
  Qed.

  (** Summing over a sequence = summing over its frequency table. *)
  Lemma count_freqs_weighted (f : A -> N) l :
    sumN (map (fun p => snd p * f (fst p))%N (count_freqs eqb l)) = sumN (map f l).
  Proof.
    unfold count_freqs.
    assert (U : forall k m, sumN (map (fun p => snd p * f (fst p))%N (hm_upsert eqb k (fun n => n + 1)%N 1%N m))
              = (sumN (map (fun p => snd p * f (fst p))%N m) + f k)%N).
    { intros k. induction m as [|[k1 v1] m IH]; cbn [hm_upsert map fst snd].
      - unfold sumN. cbn [fold_right]. lia.
      - destruct (eqb_spec' Heqb k k1) as [->|E]; cbn [map fst snd]; unfold sumN in *; cbn [fold_right]; lia. }
    assert (G : forall l m, sumN (map (fun p => snd p * f (fst p))%N (fold_left (fun freqs x => hm_upsert eqb x (fun n => n + 1)%N 1%N freqs) l m))
              = (sumN (map (fun p => snd p * f (fst p))%N m) + sumN (map f l))%N).
    { clear l. induction l as [|y l IH]; intros m; cbn [fold_left map]; [unfold sumN; cbn [fold_right]; lia|].
      rewrite IH, U. unfold sumN. cbn [fold_right]. lia. }
    rewrite G. reflexivity.
  Qed.
End Freqs.
