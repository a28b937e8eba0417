(** * Model of what clustering prints (src/kmeans.rs: all [println!]).

    The computation of Kmeans.v once more, with the counters that are only printed, and
    with the output in order.  That printing does not change the computation is a
    theorem (C88).  Not modelled: a standard output that cannot be written to. *)
From Coq Require Import String.
From Verif Require Import Base Prs Float Special Kmeans.
Close Scope string_scope.
Open Scope list_scope.

(** The lines, with the numbers in them *)
Inductive line :=
| Grew (n : Z)               (* src/kmeans.rs:317 *)
| Moved (moved stayed : N)   (* src/kmeans.rs:401 *)
| Stopped (n : N)            (* src/kmeans.rs:402 *)
| Because                    (* src/kmeans.rs:403 *)
| Radius (n : N)             (* src/kmeans.rs:404 *)
| Cutoff (n : N)             (* src/kmeans.rs:405 *)
| Highest (n : N)            (* src/kmeans.rs:406 *)
| Lowest (n : N)             (* src/kmeans.rs:407 *)
| Average (n : N)            (* src/kmeans.rs:412 *)
| Hashes                     (* src/kmeans.rs:118, 120 *)
| Uncommon                   (* src/kmeans.rs:119 *)
| Iterations (n : Z).        (* src/kmeans.rs:33 *)
(** [Display for i32] *)
Definition signed (n : Z) : text := if (n <? 0)%Z then txt "-" ++ decimal (Z.to_N (- n)) else decimal (Z.to_N n).
(** The texts, without the line feed *)
Definition line_text (l : line) : text :=
  match l with
  | Grew n => txt "Grew " ++ signed n ++ txt " neighbour lists"
  | Moved m s => txt "Moved: " ++ decimal m ++ txt ", Stayed: " ++ decimal s
  | Stopped n => txt "Stopped early: " ++ decimal n
  | Because => txt "Because of"
  | Radius n => txt "..certainty radius of its previous centroid: " ++ decimal n
  | Cutoff n => txt "..neighbour cutoff: " ++ decimal n
  | Highest n => txt "Global max tested neighbours: " ++ decimal n
  | Lowest n => txt "Min of max tested neighbours: " ++ decimal n
  | Average n => txt "Average tested neighbours: " ++ decimal n
  | Hashes => txt "########"
  | Uncommon => txt "Uncommon: empty cluster"
  | Iterations n => txt "#iterations: " ++ signed n
  end.
Definition transcript (l : list line) : text := concat (map (fun x => line_text x ++ [10%N]) l).

(** A computation as in Kmeans.v that prints *)
Definition said (A : Type) := nat -> list line * option (res (A * nat)).
Definition quiet {A} (m : run A) : said A := fun i => ([], m i).
Definition say (l : line) : said unit := fun i => ([l], Some (Ok (tt, i))).
Definition said_bind {A B} (m : said A) (f : A -> said B) : said B := fun i =>
  match m i with
  | (o, Some (Ok (a, j))) => let '(o', r) := f a j in (o ++ o', r)
  | (o, Some Err) => (o, Some Err)
  | (o, Some Panic) => (o, Some Panic)
  | (o, None) => (o, None)
  end.
Definition lift {A} (r : res A) : said A := quiet (run_lift r).

(** [u64] arithmetic: an overflow panics in a debug build, wraps in a release build *)
Definition u64_plus (p : profile) (a b : N) : res N :=
  if (a + b <? 2 ^ 64)%N then Ok (a + b)%N else match p with Debug => Panic | Release => Ok ((a + b) mod 2 ^ 64)%N end.
Definition u64_minus (p : profile) (a b : N) : res N :=
  if (b <=? a)%N then Ok (a - b)%N else match p with Debug => Panic | Release => Ok (2 ^ 64 + a - b)%N end.

(** The variables of src/kmeans.rs:337-342; all are u64 because of lines 385 and 412 *)
Record counts := mkCounts {
  n_obvious : N; n_cutoff : N; n_moved : N; n_stayed : N; n_max : list N; n_sum : N }.

Section Says.
  Context {T : Type} (P : point T).
  Variable sorted : list (nat * f64) -> list (nat * f64).
  Variable rng : nat -> N.
  Notation plus := (u64_plus (build P)).

  (** src/kmeans.rs:303-315 with [grow_count], an i32 like [i] *)
  Fixpoint settle_counting (fuel : nat) (cs : list T) (nb : neighbours) (grown : Z) : option (res (neighbours * Z)) :=
    match fuel with
    | O => None
    | S fuel =>
        match update_distances P cs nb with
        | Ok nb =>
            let '(shrunk, nb) := resize (length cs) (mkNb (src_id nb) (sorted (near nb)) (watermark nb)) in
            if shrunk then Some (Ok (nb, grown))
            else match count_pass P grown with
                 | Ok grown => settle_counting fuel cs nb grown
                 | Err => Some Err
                 | Panic => Some Panic
                 end
        | Err => Some Err
        | Panic => Some Panic
        end
    end.
  (** src/kmeans.rs:301-316 *)
  Fixpoint settle_all (cs : list T) (g : list neighbours) (grown : Z) : run (list neighbours * Z) :=
    match g with
    | [] => run_ret ([], grown)
    | nb :: g =>
        run_bind (fun i => match settle_counting 2 cs nb grown with Some r => run_lift r i | None => None end) (fun r =>
        run_bind (settle_all cs g (snd r)) (fun r' => run_ret (fst r :: fst r', snd r')))
    end.
  (** src/kmeans.rs:299-318 [compute_neighbours] *)
  Definition say_neighbours (cs : list T) (g : list neighbours) : said (list neighbours) :=
    said_bind (quiet (settle_all cs g 0)) (fun r => said_bind (say (Grew (snd r))) (fun _ => quiet (run_ret (fst r)))).
  (** src/kmeans.rs:80-90 [init], 288-295 [init_neighbours] *)
  Definition say_init (points : list T) (nclusters : N) : said (clusters T) :=
    said_bind (lift (init_assignment points nclusters)) (fun asg =>
    said_bind (lift (init_centroids P asg)) (fun cs =>
    said_bind (say_neighbours cs (map (fun i => nb_new i (length cs)) (seq 0 (length cs)))) (fun g =>
    quiet (run_ret (mkCl cs asg g))))).

  (** src/kmeans.rs:362-384: chosen cluster, new watermark, [tested_neighbours], and
      whether the loop was left by [break] *)
  Fixpoint probe_counting (cs : list T) (x : T) (cutoff : f64) (l : list (nat * f64)) (min_dist : f64) (closest pos : nat) (tested : N)
    : res (nat * nat * N * bool) :=
    match l with
    | [] => Ok (closest, pos, tested, false)
    | (ts, d) :: l =>
        res_bind (plus tested 1) (fun tested =>
        if flt cutoff d then Ok (closest, pos, tested, true)
        else res_bind (index cs ts) (fun c =>
             res_bind (dist P c x) (fun t =>
             if flt t min_dist then probe_counting cs x cutoff l t ts (S pos) tested
             else probe_counting cs x cutoff l min_dist closest (S pos) tested)))
    end.
  (** src/kmeans.rs:348-386: [None] for a point in the certainty radius *)
  Definition assign_counting (cs : list T) (g : list neighbours) (cci : nat) (x : T) : res (nat * option (nat * N * bool)) :=
    res_bind (index cs cci) (fun c =>
    res_bind (dist P c x) (fun min_dist =>
    res_bind (index g cci) (fun nb =>
    if fle min_dist (certainty_radius nb) then Ok (cci, None)
    else res_map (fun r : nat * nat * N * bool => let '(j, w, t, b) := r in (j, Some (w, t, b)))
           (probe_counting cs x (fmul (f64_of_N 2) min_dist) (near nb) min_dist cci 0 0)))).
  (** src/kmeans.rs:356, 368, 384-385 *)
  Definition note_test (cci : nat) (r : option (nat * N * bool)) (k : counts) : res counts :=
    match r with
    | None => res_map (fun n => mkCounts n (n_cutoff k) (n_moved k) (n_stayed k) (n_max k) (n_sum k)) (plus (n_obvious k) 1)
    | Some (_, t, cut) =>
        res_bind (if cut then plus (n_cutoff k) 1 else Ok (n_cutoff k)) (fun q =>
        res_map (fun s => mkCounts (n_obvious k) q (n_moved k) (n_stayed k) (update_at cci (fun m => N.max m t) (n_max k)) s) (plus (n_sum k) t))
    end.
  (** src/kmeans.rs:392-398 *)
  Definition note_move (cci j : nat) (k : counts) : res counts :=
    if (cci =? j)%nat
    then res_map (fun n => mkCounts (n_obvious k) (n_cutoff k) (n_moved k) n (n_max k) (n_sum k)) (plus (n_stayed k) 1)
    else res_map (fun n => mkCounts (n_obvious k) (n_cutoff k) n (n_stayed k) (n_max k) (n_sum k)) (plus (n_moved k) 1).
  (** src/kmeans.rs:343-399 *)
  Fixpoint loop_counting (cs : list T) (l : list (nat * T)) (g : list neighbours) (asg : list (list T)) (changed : bool) (k : counts)
    : res (list neighbours * list (list T) * bool * counts) :=
    match l with
    | [] => Ok (g, asg, changed, k)
    | (cci, x) :: l =>
        res_bind (assign_counting cs g cci x) (fun r =>
        res_bind (note_test cci (snd r) k) (fun k =>
        let j := fst r in
        let g := match snd r with
                 | Some (w, _, _) => update_at cci (fun nb => mkNb (src_id nb) (near nb) w) g
                 | None => g
                 end in
        res_bind (index asg j) (fun _ =>
        res_bind (note_move cci j k) (fun k =>
        loop_counting cs l g (update_at j (fun v => v ++ [x]) asg) (changed || negb (cci =? j)%nat) k))))
    end.
  (** src/kmeans.rs:401-413 *)
  Definition say_counts (k : counts) : said unit :=
    said_bind (say (Moved (n_moved k) (n_stayed k))) (fun _ =>
    said_bind (lift (plus (n_obvious k) (n_cutoff k))) (fun early =>
    said_bind (say (Stopped early)) (fun _ =>
    said_bind (say Because) (fun _ =>
    said_bind (say (Radius (n_obvious k))) (fun _ =>
    said_bind (say (Cutoff (n_cutoff k))) (fun _ =>
    match n_max k with
    | [] => lift Panic
    | m :: l =>
        said_bind (say (Highest (fold_left N.max l m))) (fun _ =>
        said_bind (say (Lowest (fold_left N.min l m))) (fun _ =>
        said_bind (lift (plus (n_moved k) (n_stayed k))) (fun all =>
        said_bind (lift (u64_minus (build P) all (n_obvious k))) (fun tot =>
        if (tot =? 0)%N then quiet (run_ret tt) else say (Average (n_sum k / tot))))))
    end)))))).
  (** src/kmeans.rs:330-416 [assign_points] *)
  Definition say_points (c : clusters T) : said (clusters T * bool) :=
    if (length (centroids c) =? length (assignment c))%nat
    then said_bind (lift (loop_counting (centroids c) (enumerated 0 (assignment c)) (graph c) (repeat [] (length (centroids c))) false
                           (mkCounts 0 0 0 0 (repeat 0%N (length (assignment c))) 0))) (fun r =>
         let '(g, asg, changed, k) := r in
         said_bind (say_counts k) (fun _ => quiet (run_ret (mkCl (centroids c) asg g, changed))))
    else lift Panic.

  (** src/kmeans.rs:113-135 *)
  Definition say_centroid (fuel : nat) (asg : list (list T)) (points : list T) : said T :=
    match mean P points with
    | Err => said_bind (say Hashes) (fun _ => said_bind (say Uncommon) (fun _ => said_bind (say Hashes) (fun _ => quiet (new_centroid P rng fuel asg points))))
    | _ => quiet (new_centroid P rng fuel asg points)
    end.
  (** src/kmeans.rs:110-143 [compute_centroids], [update_centroids]: the centroids of the clusters [l] of [asg] *)
  Fixpoint say_centroids (fuel : nat) (asg l : list (list T)) : said (list T) :=
    match l with
    | [] => quiet (run_ret [])
    | points :: l => said_bind (say_centroid fuel asg points) (fun c => said_bind (say_centroids fuel asg l) (fun cs => quiet (run_ret (c :: cs))))
    end.
  (** src/kmeans.rs:27-30 *)
  Definition say_pass (fuel : nat) (c : clusters T) : said (clusters T * bool) :=
    said_bind (say_points c) (fun r =>
    said_bind (say_centroids fuel (assignment (fst r)) (assignment (fst r))) (fun cs =>
    said_bind (say_neighbours cs (graph (fst r))) (fun g => quiet (run_ret (mkCl cs (assignment (fst r)) g, snd r))))).
  (** src/kmeans.rs:26-32; the number of passes is kept for line 33 *)
  Fixpoint say_passes (fuel vfuel : nat) (n : Z) (c : clusters T) : said (clusters T * Z) :=
    match fuel with
    | O => quiet (fun _ => None)
    | S fuel => said_bind (say_pass vfuel c) (fun r =>
                said_bind (lift (count_pass P n)) (fun n =>
                if snd r then say_passes fuel vfuel n (fst r) else quiet (run_ret (fst r, n))))
    end.
  (** src/kmeans.rs:21-39 [cluster] *)
  Definition say_cluster (fuel vfuel : nat) (points : list T) (nclusters : N) : said (clusters T) :=
    said_bind (say_init points nclusters) (fun c =>
    said_bind (say_passes fuel vfuel 0 c) (fun r =>
    said_bind (say (Iterations (snd r))) (fun _ =>
    said_bind (lift (check_enough (fst r) nclusters)) (fun _ => quiet (run_ret (fst r)))))).
End Says.
