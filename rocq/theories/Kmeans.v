(** * Model of src/kmeans.rs (and of the distance in src/geom.rs). *)
From Flocq Require Import Core BinarySingleNaN.
From Verif Require Import Base Ser Float HilbertC.

(** Loops that need not end run with fuel: [None] means that it ran out (never a
    normal result).  Random choices read the sequence [rng]; its position is the
    state.  So [run A] is a computation with a random tape. *)
Definition run (A : Type) := nat -> option (res (A * nat)).
(** [Ok(a)] *)
Definition run_ret {A} (a : A) : run A := fun i => Some (Ok (a, i)).
(** A computation without loops or random choices *)
Definition run_lift {A} (r : res A) : run A := fun i => Some (res_map (fun a => (a, i)) r).
(** [let x = m?; f x] *)
Definition run_bind {A B} (m : run A) (f : A -> run B) : run B := fun i =>
  match m i with
  | Some (Ok (a, i)) => f a i
  | Some Err => Some Err
  | Some Panic => Some Panic
  | None => None
  end.
Declare Scope run_scope.
Delimit Scope run_scope with run.
Notation "x <- m ;; f" := (run_bind m (fun x => f)) (at level 61, m at next level, right associativity) : run_scope.

(** [slice[i]]: an index out of bounds panics. *)
Definition index {A} (l : list A) (i : nat) : res A := match nth_error l i with Some x => Ok x | None => Panic end.
(** [slice[i] = f(slice[i])] *)
Fixpoint update_at {A} (i : nat) (f : A -> A) (l : list A) : list A :=
  match l, i with
  | [], _ => []
  | x :: l, O => f x :: l
  | x :: l, S i => x :: update_at i f l
  end.
(** [slice.choose(&mut thread_rng())] (rand): [None] ([Err]) on an empty slice *)
Definition choose {A} (rng : nat -> N) (l : list A) : run A := fun i =>
  match nth_error l (N.to_nat (rng i mod N.of_nat (length l))) with
  | Some x => Some (Ok (x, S i))
  | None => Some Err
  end.
(** [m.unwrap()] *)
Definition run_unwrap {A} (m : run A) : run A := fun i => match m i with Some Err => Some Panic | r => r end.

(** ** Numeric conversions *)
(** [f64] to [usize]: truncates and saturates *)
Definition f64_as_usize (a : f64) : N :=
  match a with
  | B754_nan => 0%N
  | B754_infinity s => if s then 0%N else u64_max
  | _ => Z.to_N (Z.max 0 (Z.min (Z.of_N u64_max) (Btrunc a)))
  end.
(** The literal [0.99] *)
Definition f64_0_99 : f64 := binary_normalize 53 1024 f64_prec f64_emax mode_NE 8917127262193582 (-53) false.
(** [f32]: IEEE 754 binary32 *)
Definition f32 := binary_float 24 128.
#[global] Instance f32_prec : Prec_gt_0 24 := eq_refl.
#[global] Instance f32_emax : Prec_lt_emax 24 128 := eq_refl.
(** [as f32] *)
Definition f32_of_N (n : N) : f32 := binary_normalize 24 128 f32_prec f32_emax mode_NE (Z.of_N n) 0 false.
(** [f32::sqrt] *)
Definition f32_sqrt (a : f32) : f32 := Bsqrt mode_NE a.
(** [f32] to [usize]: truncates and saturates *)
Definition f32_as_usize (a : f32) : N :=
  match a with
  | B754_nan => 0%N
  | B754_infinity s => if s then 0%N else u64_max
  | _ => Z.to_N (Z.max 0 (Z.min (Z.of_N u64_max) (Btrunc a)))
  end.

(** src/geom.rs:8-24 [Distance for Rgb<u8>]: the squares are computed in i32 *)
Definition rgb_dist (a b : rgb N) : f64 :=
  let '(r, g, u) := a in let '(r', g', u') := b in
  let f := fun x y : N => f64_of_Z ((Z.of_N x - Z.of_N y) * (Z.of_N x - Z.of_N y)) in
  fsqrt (fadd (fadd (f r r') (f g g')) (f u u')).

(** src/kmeans.rs:6-9 [Point]: a distance that may panic, and a mean that is [None]
    ([Err]) on no points and may panic.  [build] is the profile that the generic code is
    compiled in with this type. *)
Record point (T : Type) := mkPoint { dist : T -> T -> res f64; mean : list T -> res T; build : profile }.
Arguments dist {T} p. Arguments mean {T} p. Arguments build {T} p.

(** src/kmeans.rs:150-154 [NeighbouringCentroids] *)
Record neighbours := mkNb { src_id : nat; near : list (nat * f64); watermark : nat }.
(** src/kmeans.rs:11-15 [Clusters] *)
Record clusters (T : Type) := mkCl { centroids : list T; assignment : list (list T); graph : list neighbours }.
Arguments mkCl {T}. Arguments centroids {T}. Arguments assignment {T}. Arguments graph {T}.

(** src/kmeans.rs:157-170 [NeighbouringCentroids::new] *)
Definition nb_new (src k : nat) : neighbours :=
  let l := map (fun dst => (dst, f64_of_N 0)) (filter (fun dst => negb (dst =? src)%nat) (seq 0 k)) in
  mkNb src l (length l).
(** src/kmeans.rs:192: [(nclusters as f32).sqrt() as usize] *)
Definition lower_bound (k : nat) : nat := N.to_nat (f32_as_usize (f32_sqrt (f32_of_N (N.of_nat k)))).
(** src/kmeans.rs:195-199 *)
Definition new_num (k mark : nat) : nat := Nat.min (Nat.max (2 * mark) (lower_bound k)) (k - 1).
(** src/kmeans.rs:189-248 [resize]; true if the list is kept *)
Definition resize (k : nat) (nb : neighbours) : bool * neighbours :=
  let n := new_num k (watermark nb) in
  if (n * 3 / 4 <=? length (near nb))%nat
  then (true, mkNb (src_id nb) (firstn n (near nb)) 0)
  else (false, nb_new (src_id nb) k).
(** src/kmeans.rs:257-259 [certainty_radius] *)
Definition certainty_radius (nb : neighbours) : f64 :=
  match near nb with (_, d) :: _ => fdiv d (f64_of_N 2) | [] => B754_infinity false end.

Section Cluster.
  Context {T : Type} (P : point T).
  (** [sort_unstable_by] of [(id, distance)] pairs; see [sort_ok] for its contract.
      The comparator cannot fail: distances are finite (line 177). *)
  Variable sorted : list (nat * f64) -> list (nat * f64).
  Variable rng : nat -> N.

  (** src/kmeans.rs:70-75 *)
  Fixpoint split_loop (n ppc : nat) (points : list T) (acc : list (list T)) : res (list (list T)) :=
    match n with
    | O => Ok (acc ++ [points])
    | S n =>
        if (length points <? ppc)%nat then Panic
        else let at_ := (length points - ppc)%nat in
             split_loop n ppc (firstn at_ points) (acc ++ [skipn at_ points])
    end.
  (** src/kmeans.rs:61-78 [init_assignment]; dividing by zero panics *)
  Definition init_assignment (points : list T) (nclusters : N) : res (list (list T)) :=
    if (nclusters =? 0)%N then Panic
    else let ppc := (N.of_nat (length points) / nclusters)%N in
         if (0 <? ppc)%N then split_loop (N.to_nat (nclusters - 1)) (N.to_nat ppc) points [] else Panic.

  (** src/kmeans.rs:96-99 [fake_clone] *)
  Definition fake_clone (p : T) : res T := unwrap (mean P [p]).
  (** src/kmeans.rs:101-108 [init_centroids] *)
  Definition init_centroids (asg : list (list T)) : res (list T) :=
    res_mapM (fun points => res_bind (index points 0) fake_clone) asg.

  (** src/kmeans.rs:123-128: choose until the chosen cluster has points *)
  Fixpoint pick_victim (fuel : nat) (asg : list (list T)) : run (list T) :=
    match fuel with
    | O => fun _ => None
    | S fuel =>
        run_bind (run_unwrap (choose rng asg)) (fun v =>
        if (length v =? 0)%nat then pick_victim fuel asg else run_ret v)
    end.
  (** src/kmeans.rs:113-135 *)
  Definition new_centroid (fuel : nat) (asg : list (list T)) (points : list T) : run T :=
    match mean P points with
    | Ok c => run_ret c
    | Err => run_bind (pick_victim fuel asg) (fun v =>
             run_bind (run_unwrap (choose rng v)) (fun stolen => run_lift (fake_clone stolen)))
    | Panic => fun _ => Some Panic
    end.
  (** One computation after the other *)
  Fixpoint run_mapM {A B} (f : A -> run B) (l : list A) : run (list B) :=
    match l with
    | [] => run_ret []
    | x :: l => run_bind (f x) (fun y => run_bind (run_mapM f l) (fun ys => run_ret (y :: ys)))
    end.
  (** src/kmeans.rs:110-143 [compute_centroids], [update_centroids] *)
  Definition update_centroids (fuel : nat) (asg : list (list T)) : run (list T) := run_mapM (new_centroid fuel asg) asg.

  (** src/kmeans.rs:172-179 [update_distances] *)
  Definition update_distances (cs : list T) (nb : neighbours) : res neighbours :=
    res_bind (index cs (src_id nb)) (fun src =>
    res_bind (res_mapM (fun e : nat * f64 =>
      res_bind (index cs (fst e)) (fun dst =>
      res_bind (dist P src dst) (fun d =>
      if is_finite d then Ok (fst e, d) else Panic))) (near nb)) (fun l =>
    Ok (mkNb (src_id nb) l (watermark nb)))).
  (** src/kmeans.rs:303-315: the loop over one neighbour list *)
  Fixpoint settle (fuel : nat) (cs : list T) (nb : neighbours) : option (res neighbours) :=
    match fuel with
    | O => None
    | S fuel =>
        match update_distances cs nb with
        | Ok nb =>
            let '(shrunk, nb) := resize (length cs) (mkNb (src_id nb) (sorted (near nb)) (watermark nb)) in
            if shrunk then Some (Ok nb) else settle fuel cs nb
        | Err => Some Err
        | Panic => Some Panic
        end
    end.
  (** src/kmeans.rs:299-318 [compute_neighbours]; the loop above runs at most twice
      (theorem C41), so its fuel is 2. *)
  Definition compute_neighbours (cs : list T) (g : list neighbours) : run (list neighbours) :=
    run_mapM (fun nb i => match settle 2 cs nb with Some r => run_lift r i | None => None end) g.
  (** src/kmeans.rs:288-295 [init_neighbours] *)
  Definition init_neighbours (cs : list T) : run (list neighbours) :=
    compute_neighbours cs (map (fun i => nb_new i (length cs)) (seq 0 (length cs))).
  (** src/kmeans.rs:80-90 [init] *)
  Definition init (points : list T) (nclusters : N) : run (clusters T) :=
    run_bind (run_lift (init_assignment points nclusters)) (fun asg =>
    run_bind (run_lift (init_centroids asg)) (fun cs =>
    run_bind (init_neighbours cs) (fun g => run_ret (mkCl cs asg g)))).

  (** src/kmeans.rs:364-384: the loop over the neighbours.  Returns the chosen cluster
      and the new watermark ([next_pos - 1] at the drop, lines 270-281). *)
  Fixpoint probe (cs : list T) (x : T) (cutoff : f64) (l : list (nat * f64)) (min_dist : f64) (closest pos : nat) : res (nat * nat) :=
    match l with
    | [] => Ok (closest, pos)
    | (ts, d) :: l =>
        if flt cutoff d then Ok (closest, pos)
        else res_bind (index cs ts) (fun c =>
             res_bind (dist P c x) (fun t =>
             if flt t min_dist then probe cs x cutoff l t ts (S pos) else probe cs x cutoff l min_dist closest (S pos)))
    end.
  (** src/kmeans.rs:348-387: the cluster for one point, and the new watermark if set *)
  Definition assign_point (cs : list T) (g : list neighbours) (cci : nat) (x : T) : res (nat * option nat) :=
    res_bind (index cs cci) (fun c =>
    res_bind (dist P c x) (fun min_dist =>
    res_bind (index g cci) (fun nb =>
    if fle min_dist (certainty_radius nb) then Ok (cci, None)
    else res_map (fun r : nat * nat => (fst r, Some (snd r)))
           (probe cs x (fmul (f64_of_N 2) min_dist) (near nb) min_dist cci 0)))).
  (** src/kmeans.rs:343-399 *)
  Fixpoint assign_loop (cs : list T) (l : list (nat * T)) (g : list neighbours) (asg : list (list T)) (changed : bool)
    : res (list neighbours * list (list T) * bool) :=
    match l with
    | [] => Ok (g, asg, changed)
    | (cci, x) :: l =>
        res_bind (assign_point cs g cci x) (fun r =>
        let j := fst r in
        let g := match snd r with
                 | Some w => update_at cci (fun nb => mkNb (src_id nb) (near nb) w) g
                 | None => g
                 end in
        res_bind (index asg j) (fun _ =>
        assign_loop cs l g (update_at j (fun v => v ++ [x]) asg) (changed || negb (cci =? j)%nat)))
    end.
  (** [enumerate().flat_map(..)] of lines 343-346 *)
  Fixpoint enumerated (i : nat) (asg : list (list T)) : list (nat * T) :=
    match asg with
    | [] => []
    | v :: asg => map (fun x => (i, x)) v ++ enumerated (S i) asg
    end.
  (** src/kmeans.rs:330-416 [assign_points].  Printing is left to KmeansSays.v, except that
      [max().unwrap()] (line 406) panics without clusters. *)
  Definition assign_points (c : clusters T) : res (clusters T * bool) :=
    if (length (centroids c) =? length (assignment c))%nat
    then res_bind (assign_loop (centroids c) (enumerated 0 (assignment c)) (graph c) (repeat [] (length (centroids c))) false) (fun r =>
         let '(g, asg, changed) := r in
         if (length (assignment c) =? 0)%nat then Panic else Ok (mkCl (centroids c) asg g, changed))
    else Panic.

  (** src/kmeans.rs:27-31: one pass *)
  Definition pass (fuel : nat) (c : clusters T) : run (clusters T * bool) :=
    run_bind (run_lift (assign_points c)) (fun r =>
    run_bind (update_centroids fuel (assignment (fst r))) (fun cs =>
    run_bind (compute_neighbours cs (graph (fst r))) (fun g => run_ret (mkCl cs (assignment (fst r)) g, snd r)))).
  (** src/kmeans.rs:25,31: [i] is an i32, and adding to the largest one is an overflow *)
  Definition count_pass (n : Z) : res Z :=
    if (n =? 2 ^ 31 - 1)%Z then match build P with Debug => Panic | Release => Ok (- 2 ^ 31)%Z end else Ok (n + 1)%Z.
  (** src/kmeans.rs:26-32; at most [fuel] passes, [n] were made *)
  Fixpoint passes (fuel vfuel : nat) (n : Z) (c : clusters T) : run (clusters T) :=
    match fuel with
    | O => fun _ => None
    | S fuel => run_bind (pass vfuel c) (fun r =>
                run_bind (run_lift (count_pass n)) (fun n =>
                if snd r then passes fuel vfuel n (fst r) else run_ret (fst r)))
    end.
  (** src/kmeans.rs:41-57 [check_enough_active_clusters] *)
  Definition check_enough (c : clusters T) (nclusters : N) : res unit :=
    let points := N.of_nat (fold_right Nat.add 0%nat (map (@length T) (assignment c))) in
    let min_count := N.min points (f64_as_usize (fmul f64_0_99 (f64_of_N nclusters))) in
    assert_ (min_count <=? N.of_nat (length (filter (fun v : list T => (0 <? length v)%nat) (assignment c))))%N.
  (** src/kmeans.rs:21-39 [cluster].  [fuel] bounds the passes, [vfuel] the random
      choices made for one empty cluster. *)
  Definition cluster (fuel vfuel : nat) (points : list T) (nclusters : N) : run (clusters T) :=
    run_bind (init points nclusters) (fun c =>
    run_bind (passes fuel vfuel 0 c) (fun c =>
    run_bind (run_lift (check_enough c nclusters)) (fun _ => run_ret c))).
  (** src/kmeans.rs:425-430 [into_iter] *)
  Definition cluster_list (c : clusters T) : list (T * list T) := combine (centroids c) (assignment c).
End Cluster.
