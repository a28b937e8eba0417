(** * Specification vocabulary for what clustering prints when it does not succeed (C88). *)
From Verif Require Import Base Float Kmeans KmeansSays KmeansSaysSpec.

(** How a computation can end without a result.  [Unfinished]: it is still running when
    the fuel of the model is used up. *)
Inductive ending := Aborted | Failed | Unfinished.
Definition ends {A} (r : option (res A)) (x : ending) : Prop :=
  match r, x with Some Panic, Aborted | Some Err, Failed | None, Unfinished => True | _, _ => False end.
(** [m] clusters without a mean *)
Definition warnings (m : N) : list line := concat (repeat [Hashes; Uncommon; Hashes] (N.to_nat m)).
Definition meanless {T} (P : point T) (v : list T) : bool := match mean P v with Err => true | _ => false end.
(** [r] is about the assignment that leads from [c] to [c1]. *)
Definition summed_up {T} (P : point T) (c c1 : clusters T) (r : report) : Prop :=
  exists to outs, reports (length (assignment c)) (places (assignment c)) to outs r
  /\ Forall2 (fun e o => treated P (centroids c) (graph c) (fst e) (snd e) o) (combine (places (assignment c)) (concat (assignment c))) outs
  /\ assignment c1 = map (sent_to to (concat (assignment c))) (seq 0 (length (assignment c))).

Section Cut.
  Context {T : Type} (P : point T) (sorted : list (nat * f64) -> list (nat * f64)) (rng : nat -> N) (vfuel : nat) (points : list T) (k : N).
  (** The pass that starts in [c] ends with [x] after printing. *)
  Inductive broken_off : clusters T -> ending -> list line -> Prop :=
  | off_points c x : ends (Some (assign_points P c)) x -> broken_off c x []
  | off_means c x c1 b r pre v post i cs j : assign_points P c = Ok (c1, b) -> summed_up P c c1 r -> coherent (N.of_nat (length points)) k r ->
      assignment c1 = pre ++ v :: post -> run_mapM (new_centroid P rng vfuel (assignment c1)) pre i = Some (Ok (cs, j)) ->
      ends (new_centroid P rng vfuel (assignment c1) v j) x ->
      broken_off c x (report_lines r ++ warnings (count (meanless P) (pre ++ [v])))
  | off_lists c x c1 b r i cs j : assign_points P c = Ok (c1, b) -> summed_up P c c1 r -> coherent (N.of_nat (length points)) k r ->
      update_centroids P rng vfuel (assignment c1) i = Some (Ok (cs, j)) -> ends (compute_neighbours P sorted cs (graph c1) j) x ->
      broken_off c x (report_lines r ++ warnings (count (meanless P) (assignment c1))).
  (** The passes from [c] on; [n] were made before. *)
  Inductive cut_short : N -> clusters T -> ending -> list line -> Prop :=
  | cut_here n c x o : broken_off c x o -> cut_short n c x o
  | cut_fuel n c : cut_short n c Unfinished []
  | cut_later n c x i c' j r e g o : pass P sorted rng vfuel c i = Some (Ok ((c', true), j)) -> about P c c' r e g ->
      coherent (N.of_nat (length points)) k r -> (0 < moved r)%N -> cut_short (n + 1) c' x o -> cut_short n c x (block r e g ++ o)
  (** A debug build gives up counting passes. *)
  | cut_count n c i c' b j r e g : n = (2 ^ 31 - 1)%N -> build P = Debug -> pass P sorted rng vfuel c i = Some (Ok ((c', b), j)) -> about P c c' r e g ->
      coherent (N.of_nat (length points)) k r -> cut_short n c Aborted (block r e g)
  (** Too few clusters have points. *)
  | cut_few n c i c' j r e g : pass P sorted rng vfuel c i = Some (Ok ((c', false), j)) -> about P c c' r e g ->
      coherent (N.of_nat (length points)) k r -> moved r = 0%N -> check_enough c' k = Panic ->
      cut_short n c Aborted (block r e g ++ [Iterations (as_i32 (Z.of_N (n + 1)))]).
End Cut.
