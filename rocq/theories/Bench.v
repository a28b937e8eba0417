(** * Model of src/bench.rs and of the codec dispatch of src/codec.rs. *)
From Verif Require Import Base Ser Huf Img Float HilbertC Kmeans ClusterC Prs Regex Select.

(** ** The codecs (src/codec.rs:61-97, [impl Codec for AnyCodec]) *)

(** Everything the codecs leave to the environment, and the fuel of the model's loops. *)
Record env := mkEnv {
  e_profile : profile;
  e_scan : scanner;
  e_ord : list (rgb N * N) -> list (rgb N * N);                             (* HashMap order *)
  e_ord2 : list (rgb N * N) -> list (rgb N * N);                            (* a second HashMap *)
  e_ord_diff : list (signed_color * N) -> list (signed_color * N);
  e_heap : heap (suffix (rgb N));
  e_heap_diff : heap (suffix signed_color);
  e_caps : nat -> nat;
  e_kmeans : oracles;
  e_fuel : nat;
  e_stack : nat }.

(** src/codec.rs:64-70; [None]: out of fuel *)
Definition any_encode (E : env) (c : any_codec) (im : img) : option (res (list N)) :=
  match c with
  | ClusterColors n => option_map (fun o => run_vec o) (cluster_colors_encode (e_profile E) (e_kmeans E) (e_ord E) (e_ord2 E) (e_heap E) n im)
  | VoronoiCluster n => option_map (fun o => run_vec o) (voronoi_encode (e_profile E) (e_kmeans E) n im)
  | Delta => Some (run_vec (delta_encode (e_profile E) (e_scan E) (e_ord_diff E) (e_heap_diff E) im))
  | Hilbert m => Some (run_vec (hilbert_encode (e_scan E) (e_fuel E) m im))
  | Hufman => Some (run_vec (hufman_encode (e_ord E) (e_heap E) im))
  | Zip k => Some (run_vec (zip_encode (e_profile E) (e_caps E) (e_fuel E) k im))
  end.
(** src/codec.rs:72-78, on [data.into_iter()] *)
Definition any_decode (E : env) (c : any_codec) (data : list N) : option (res img) :=
  match c with
  | ClusterColors _ => cluster_colors_decode (e_fuel E) list_next data
  | VoronoiCluster _ => Some (voronoi_decode (e_profile E) list_next data)
  | Delta => delta_decode (e_profile E) (e_scan E) (e_fuel E) list_next data
  | Hilbert m => Some (hilbert_decode (e_scan E) (e_stack E) m list_next data)
  | Hufman => hufman_decode (e_fuel E) list_next data
  | Zip k => Some (zip_decode (e_profile E) (e_stack E) k list_next data)
  end.
(** src/codec.rs:88-94 with src/codec/clusterc.rs:63-65 and 195-197,
    src/codec/hilbertc.rs:89-94 and 437-439, src/codec/hufc.rs:46-48, src/codec/zipc.rs:57-59 *)
Definition any_is_lossless (c : any_codec) : bool :=
  match c with
  | ClusterColors _ => false
  | VoronoiCluster _ => false
  | Delta => true
  | Hilbert m => hilbert_is_lossless m
  | Hufman => true
  | Zip _ => true
  end.

(** A codec as the benchmark sees it *)
Record codec := mkCodec { enc : img -> option (res (list N)); dec : list N -> option (res img); lossless : bool }.
(** Encoding and decoding may meet different hash orders and thread-local state *)
Definition any (E E' : env) (c : any_codec) : codec := mkCodec (any_encode E c) (any_decode E' c) (any_is_lossless c).

(** ** One image *)

(** src/bench.rs:95-104.  The sum of [f64]s starts from a zero whose sign depends on
    the version of the standard library.  [w * h] is a u32 product. *)
Definition compute_error (p : profile) (zero : f64) (x y : img) : res f64 :=
  let tot := fold_left (fun a q => fadd a (fsqr (rgb_dist (to_rgb (fst q)) (to_rgb (snd q))))) (combine (im_px x) (im_px y)) zero in
  res_bind (ufit p (2 ^ 32) (im_w x * im_h x)) (fun n => Ok (fdiv tot (f64_of_N n))).
(** src/bench.rs:40-41: [dimensions] is (width, height), so [h] is the width *)
Definition raw_size (p : profile) (im : img) : res N :=
  res_bind (ufit p (2 ^ 32) (im_w im * im_h im)) (fun n => ufit p (2 ^ 32) (n * 24)).
(** A row of the table: src/bench.rs:68 (the header) and 74 (a record) *)
Definition record : Type := text * N * f64 * f64.
(** src/bench.rs:68 and 74 *)
Inductive row := Header | Row (r : record).

(** src/bench.rs:30-60 and 73-74: the work on one image, up to the record.
    [opened]: the outcome of [image::open]; [saves]: does saving the wrong image work. *)
Definition measure_one (p : profile) (zero : f64) (c : codec) (name : text) (opened : option img) (saves : bool) : option (res record) :=
  match opened with
  | None => Some Err
  | Some im =>
      match enc c im with
      | None => None
      | Some Err => Some Err
      | Some Panic => Some Panic
      | Some (Ok data) =>
          let compressed_size := N.of_nat (length data) in
          match raw_size p im with
          | Err => Some Err
          | Panic => Some Panic
          | Ok raw =>
              let ratio := fdiv (f64_of_N compressed_size) (f64_of_N raw) in
              match dec c data with
              | None => None
              | Some Err => Some Err
              | Some Panic => Some Panic
              | Some (Ok decoded) =>
                  match compute_error p zero im decoded with
                  | Err => Some Err
                  | Panic => Some Panic
                  | Ok error =>
                      let record := (name, compressed_size, fmul ratio (f64_of_N 100), error) in
                      if negb (feq error (f64_of_N 0))
                      then if negb saves then Some Err else if lossless c then Some Err else Some (Ok record)
                      else Some (Ok record)
                  end
              end
          end
      end
  end.

(** ** All images at once (src/bench.rs:20-82)

    Every image is a task; tasks run on any number of threads.  [jobs] are the outcomes
    of [measure_one].  A task that has a record takes the lock, reads the flag, writes
    the header and sets the flag if needed, writes its record and drops the lock.
    Writing to the csv file always works here. *)
Inductive tstate :=
| Waiting               (* not started *)
| Measured (r : record) (* wants the lock *)
| Locked (r : record)   (* src/bench.rs:62: holds the lock *)
| Headed (r : record)   (* line 68 done: the header was written, the flag is not yet set *)
| Ready (r : record)    (* after lines 67-71 *)
| Written               (* after line 74, still holds the lock *)
| Done                  (* returned Ok, the guard is dropped *)
| Failed                (* returned Err before taking the lock *)
| Crashed               (* panicked before taking the lock *)
| Skipped.              (* never started: rayon stops handing out work after a panic *)
Record bstate := mkB { b_tasks : list tstate; b_lock : option nat; b_flag : bool; b_out : list row }.

(** src/bench.rs:20-22 *)
Definition b_init (jobs : list (res record)) : bstate := mkB (map (fun _ => Waiting) jobs) None false [].
(** Replaces one element *)
Fixpoint upd {A} (i : nat) (x : A) (l : list A) : list A :=
  match l, i with
  | [], _ => []
  | _ :: l, O => x :: l
  | y :: l, S i => y :: upd i x l
  end.
(** Changes of one component of the state *)
Definition set_task (i : nat) (t : tstate) (s : bstate) : bstate := mkB (upd i t (b_tasks s)) (b_lock s) (b_flag s) (b_out s).
Definition set_lock (o : option nat) (s : bstate) : bstate := mkB (b_tasks s) o (b_flag s) (b_out s).
Definition set_flag (f : bool) (s : bstate) : bstate := mkB (b_tasks s) (b_lock s) f (b_out s).
Definition write_row (r : row) (s : bstate) : bstate := mkB (b_tasks s) (b_lock s) (b_flag s) (b_out s ++ [r]).

(** One step of some task [i]; any task may move at any time. *)
Inductive bstep (jobs : list (res record)) : bstate -> bstate -> Prop :=
| step_measure i r s : nth_error (b_tasks s) i = Some Waiting -> nth_error jobs i = Some (Ok r) ->
    bstep jobs s (set_task i (Measured r) s)
| step_fail i s : nth_error (b_tasks s) i = Some Waiting -> nth_error jobs i = Some Err ->
    bstep jobs s (set_task i Failed s)
| step_panic i s : nth_error (b_tasks s) i = Some Waiting -> nth_error jobs i = Some Panic ->
    bstep jobs s (set_task i Crashed s)
| step_skip i s : nth_error (b_tasks s) i = Some Waiting -> In Crashed (b_tasks s) ->
    bstep jobs s (set_task i Skipped s)
| step_lock i r s : nth_error (b_tasks s) i = Some (Measured r) -> b_lock s = None ->
    bstep jobs s (set_lock (Some i) (set_task i (Locked r) s))
| step_header i r s : nth_error (b_tasks s) i = Some (Locked r) -> b_flag s = false ->
    bstep jobs s (write_row Header (set_task i (Headed r) s))
| step_flag i r s : nth_error (b_tasks s) i = Some (Headed r) ->
    bstep jobs s (set_flag true (set_task i (Ready r) s))
| step_no_header i r s : nth_error (b_tasks s) i = Some (Locked r) -> b_flag s = true ->
    bstep jobs s (set_task i (Ready r) s)
| step_write i r s : nth_error (b_tasks s) i = Some (Ready r) ->
    bstep jobs s (write_row (Row r) (set_task i Written s))
| step_unlock i s : nth_error (b_tasks s) i = Some Written ->
    bstep jobs s (set_lock None (set_task i Done s)).
(** Any number of steps *)
Inductive bsteps (jobs : list (res record)) : bstate -> bstate -> Prop :=
| bsteps_nil s : bsteps jobs s s
| bsteps_cons s s' s'' : bstep jobs s s' -> bsteps jobs s' s'' -> bsteps jobs s s''.
(** The parallel iteration is over (line 78) *)
Definition ended (t : tstate) : Prop := match t with Done | Failed | Crashed | Skipped => True | _ => False end.
(** src/bench.rs:80-82: the table; a panic of some task is passed on, after which the
    writer is dropped, which flushes it too. *)
Definition finish (s : bstate) : res unit * list row :=
  (if existsb (fun t => match t with Crashed => true | _ => false end) (b_tasks s) then Panic else Ok tt, b_out s).
