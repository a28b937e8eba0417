(** * Specification vocabulary for what clustering prints (C88). *)
From Flocq Require BinarySingleNaN.
From Verif Require Import Base Float Kmeans KmeansSays.

(** ** What happens to one point in a pass *)
(** [Kept]: it is so close to its centroid that no other can be closer.  [Looked t s]:
    [t] entries of its centroid's neighbour list are read, and reading stops early iff [s]. *)
Inductive outcome := Kept | Looked (t : N) (s : bool).
(** Reading up to and including the first entry beyond the cut-off, or to the end *)
Definition looks (cutoff : f64) (l : list (nat * f64)) (t : N) (s : bool) : Prop :=
  exists a b, l = a ++ b /\ Forall (fun e : nat * f64 => flt cutoff (snd e) = false) a
  /\ match b with
     | [] => s = false /\ t = N.of_nat (length a)
     | e :: _ => s = true /\ flt cutoff (snd e) = true /\ t = (N.of_nat (length a) + 1)%N
     end.
(** Half as far as the nearest other centroid, if there is one *)
Definition certain (nb : neighbours) (d : f64) : bool :=
  match near nb with [] => negb (BinarySingleNaN.is_nan d) | (_, e) :: _ => fle d (fdiv e (f64_of_N 2)) end.
(** Point [x] of cluster [i], with these centroids and neighbour lists *)
Definition treated {T} (P : point T) (cs : list T) (g : list neighbours) (i : nat) (x : T) (o : outcome) : Prop :=
  exists ci d nb, nth_error cs i = Some ci /\ dist P ci x = Ok d /\ nth_error g i = Some nb
  /\ match o with
     | Kept => certain nb d = true
     | Looked t s => certain nb d = false /\ looks (fmul (f64_of_N 2) d) (near nb) t s
     end.

(** ** Figures *)
(** The cluster of each point, in the order of [concat asg] *)
Definition places {T} (asg : list (list T)) : list nat := concat (map (fun i => repeat i (length (nth i asg []))) (seq 0 (length asg))).
Definition count {A} (f : A -> bool) (l : list A) : N := N.of_nat (length (filter f l)).
Definition is_kept (o : outcome) : bool := match o with Kept => true | _ => false end.
Definition is_stopped (o : outcome) : bool := match o with Looked _ s => s | _ => false end.
Definition reads (l : list outcome) : list N := concat (map (fun o => match o with Looked t _ => [t] | Kept => [] end) l).
Definition is_max (l : list N) (n : N) : Prop := Forall (fun t => (t <= n)%N) l /\ (n = 0%N \/ In n l).
Definition sum (l : list N) : N := fold_right N.add 0%N l.
(** The outcomes for the points of cluster [i] *)
Definition of_cluster (i : nat) (own : list nat) (outs : list outcome) : list outcome :=
  map snd (filter (fun e => (fst e =? i)%nat) (combine own outs)).

(** A report on one pass *)
Record report := mkReport { moved : N; stayed : N; radius : N; cutoff : N; highest : N; lowest : N; average : option N }.
Definition report_lines (r : report) : list line :=
  [Moved (moved r) (stayed r); Stopped (radius r + cutoff r); Because; Radius (radius r); Cutoff (cutoff r); Highest (highest r); Lowest (lowest r)]
  ++ match average r with Some a => [Average a] | None => [] end.
(** It is right if the points went from clusters [own] to clusters [to] with these outcomes. *)
Record reports (k : nat) (own to : list nat) (outs : list outcome) (r : report) : Prop := {
  rep_moved : moved r = count (fun e : nat * nat => negb (fst e =? snd e)%nat) (combine own to);
  rep_stayed : stayed r = count (fun e : nat * nat => (fst e =? snd e)%nat) (combine own to);
  rep_radius : radius r = count is_kept outs;
  rep_cutoff : cutoff r = count is_stopped outs;
  rep_highest : is_max (reads outs) (highest r);
  rep_lowest : (exists i, (i < k)%nat /\ is_max (reads (of_cluster i own outs)) (lowest r))
               /\ forall i n, (i < k)%nat -> is_max (reads (of_cluster i own outs)) n -> (lowest r <= n)%N;
  rep_average : average r = match reads outs with [] => None | l => Some (sum l / N.of_nat (length l))%N end }.
(** The points of the new cluster [j] *)
Definition sent_to {T} (to : list nat) (points : list T) (j : nat) : list T :=
  map snd (filter (fun e => (fst e =? j)%nat) (combine to points)).

(** i32 after [n] additions of one, if that does not abort *)
Definition as_i32 (n : Z) : Z := ((n + 2 ^ 31) mod 2 ^ 32 - 2 ^ 31)%Z.
(** A report without contradictions, on [n] points in [k] clusters *)
Definition coherent (n k : N) (r : report) : Prop :=
  (moved r + stayed r = n /\ moved r + radius r <= n /\ radius r + cutoff r <= n /\ lowest r <= highest r <= k - 1)%N
  /\ match average r with Some a => (radius r < n /\ a <= highest r)%N | None => (radius r = n /\ highest r = 0)%N end.
(** A list with less than three quarters of the wanted length, which is therefore built anew *)
Definition regrown (k : nat) (nb : neighbours) : bool :=
  let wanted := Nat.min (Nat.max (2 * watermark nb) (lower_bound k)) (k - 1) in (length (near nb) <? wanted * 3 / 4)%nat.

(** ** Runs *)
(** The report [r] is about the pass that starts in [c]; then [e] clusters have no mean, and [g] lists are built anew. *)
Record about {T} (P : point T) (c c' : clusters T) (r : report) (e g : N) : Prop := {
  about_points : exists to outs, reports (length (assignment c)) (places (assignment c)) to outs r
    /\ Forall2 (fun e o => treated P (centroids c) (graph c) (fst e) (snd e) o) (combine (places (assignment c)) (concat (assignment c))) outs
    /\ assignment c' = map (sent_to to (concat (assignment c))) (seq 0 (length (assignment c)));
  about_empty : e = count (fun v => match mean P v with Err => true | _ => false end) (assignment c');
  about_lists : exists c1 b, assign_points P c = Ok (c1, b) /\ g = count (regrown (length (centroids c'))) (graph c1) }.
Definition block (r : report) (e g : N) : list line :=
  report_lines r ++ concat (repeat [Hashes; Uncommon; Hashes] (N.to_nat e)) ++ [Grew (Z.of_N g)].
(** [n] passes from [c] to [d], the last of which moves nothing, with what is printed *)
Inductive told {T} (P : point T) sorted rng vfuel (points : list T) (k : N) : clusters T -> list line -> N -> clusters T -> Prop :=
| told_last c i c' j r e g : pass P sorted rng vfuel c i = Some (Ok ((c', false), j)) -> about P c c' r e g ->
    coherent (N.of_nat (length points)) k r -> moved r = 0%N -> told P sorted rng vfuel points k c (block r e g) 1 c'
| told_more c i c' j r e g o n d : pass P sorted rng vfuel c i = Some (Ok ((c', true), j)) -> about P c c' r e g ->
    coherent (N.of_nat (length points)) k r -> (0 < moved r)%N -> told P sorted rng vfuel points k c' o n d ->
    told P sorted rng vfuel points k c (block r e g ++ o) (n + 1) d.
