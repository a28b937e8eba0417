(** * Specification vocabulary for clustering (C39-C42). *)
From Coq Require Import Sorted.
From Flocq Require Import BinarySingleNaN.
From Verif Require Import Base Ser Float HilbertC Kmeans CodecSpec.

(** What [sort_unstable_by] promises: for distances that are numbers, the same pairs
    in non-decreasing order. *)
Definition by_distance (a b : nat * f64) : Prop := fle (snd a) (snd b) = true.
Definition sort_ok (sorted : list (nat * f64) -> list (nat * f64)) : Prop :=
  forall l, Forall (fun e : nat * f64 => is_finite (snd e) = true) l -> Permutation (sorted l) l /\ StronglySorted by_distance (sorted l).

(** The states at the start of each pass. *)
Section Reached.
  Context {T : Type} (P : point T) (sorted : list (nat * f64) -> list (nat * f64)) (rng : nat -> N) (vfuel : nat) (points : list T) (nclusters : N).
  Inductive reached : clusters T -> Prop :=
  | reached_init i c j : init P sorted points nclusters i = Some (Ok (c, j)) -> reached c
  | reached_pass c i c' b j : reached c -> pass P sorted rng vfuel c i = Some (Ok ((c', b), j)) -> reached c'.
  (** ... and those after [n] passes, each of which moved a point *)
  Inductive busy : N -> clusters T -> Prop :=
  | busy_init i c j : init P sorted points nclusters i = Some (Ok (c, j)) -> busy 0 c
  | busy_pass n c i c' j : busy n c -> pass P sorted rng vfuel c i = Some (Ok ((c', true), j)) -> busy (1 + n) c'.
End Reached.

(** A proper neighbour list of centroid [i]: other centroids, each once, with their
    distance from [i], nearest first. *)
Record neighbours_of {T} (P : point T) (cs : list T) (i : nat) (nb : neighbours) : Prop := {
  no_src : src_id nb = i;
  no_nodup : NoDup (map fst (near nb));
  no_dist : forall t d, In (t, d) (near nb) -> t <> i /\ exists ci ct, nth_error cs i = Some ci /\ nth_error cs t = Some ct /\ dist P ci ct = Ok d /\ is_finite d = true;
  no_sorted : StronglySorted by_distance (near nb)
}.
(** No other centroid is missing. *)
Definition complete {T} (cs : list T) (i : nat) (nb : neighbours) : Prop :=
  forall t, (t < length cs)%nat -> t <> i -> In t (map fst (near nb)).

(** Points with a colour, at the distance of their colours. *)
Definition coloured {T} (col : T -> rgb N) (P : point T) : Prop :=
  forall a b, dist P a b = Ok (rgb_dist (col a) (col b)).
(** Centroid [j] is nearest to [x]: no other has a smaller exact distance. *)
Definition nearest {T} (col : T -> rgb N) (cs : list T) (x : T) (j : nat) : Prop :=
  exists cj, nth_error cs j = Some cj /\ forall c, In c cs -> (sq_dist (col cj) (col x) <= sq_dist (col c) (col x))%Z.
(** Every neighbour list has the greatest possible length. *)
Definition full {T} (c : clusters T) : Prop := Forall (fun nb => length (near nb) = (length (centroids c) - 1)%nat) (graph c).
(** Every point is in the cluster of a nearest centroid. *)
Definition all_nearest {T} (col : T -> rgb N) (cs : list T) (asg : list (list T)) : Prop :=
  forall j v x, nth_error asg j = Some v -> In x v -> nearest col cs x j.
