(** * The benchmark's table when writes fail (src/bench.rs:15-83, src/main.rs:68).

    The steps of Bench.v, and two more for lines 68-69 and 74-76: [write_record] or [serialize] returns an
    error, the task returns it, and its guard is dropped without a panic, so that the lock is released and
    not poisoned.  Any write may fail at any time: the csv writer collects the text in a buffer and writes
    it out when the buffer is full, so that the row that gets the error need not be the one that is too
    much.  [b_out] has the rows that the writer accepted; what a failing disk makes of them is not modelled. *)
From Verif Require Import Base Bench.

(** The tasks, and the records that tasks failed to write, the latest first *)
Record dstate := mkD { d_bench : bstate; d_lost : list record }.
Definition d_init (jobs : list (res record)) : dstate := mkD (b_init jobs) [].

(** One step of some task *)
Inductive dstep (jobs : list (res record)) : dstate -> dstate -> Prop :=
| dstep_fine s s' l : bstep jobs s s' -> dstep jobs (mkD s l) (mkD s' l)
  (* src/bench.rs:68-69: [?] leaves the closure before line 70 *)
| dstep_header i r s l : nth_error (b_tasks s) i = Some (Locked r) -> b_flag s = false ->
    dstep jobs (mkD s l) (mkD (set_lock None (set_task i Failed s)) (r :: l))
  (* src/bench.rs:74-76 *)
| dstep_record i r s l : nth_error (b_tasks s) i = Some (Ready r) ->
    dstep jobs (mkD s l) (mkD (set_lock None (set_task i Failed s)) (r :: l)).
(** Any number of steps *)
Inductive dsteps (jobs : list (res record)) : dstate -> dstate -> Prop :=
| dsteps_nil s : dsteps jobs s s
| dsteps_cons s s' s'' : dstep jobs s s' -> dsteps jobs s' s'' -> dsteps jobs s s''.

(** src/bench.rs:80-83: a task's panic is passed on; else the final flush decides *)
Definition d_finish (flushes : bool) (s : dstate) : res unit :=
  if existsb (fun t => match t with Crashed => true | _ => false end) (b_tasks (d_bench s)) then Panic
  else if flushes then Ok tt else Err.
(** src/main.rs:68: [unwrap] *)
Definition unwrap (r : res unit) : res unit := match r with Ok _ => Ok tt | _ => Panic end.
(** src/bench.rs:21 and src/main.rs:68-69.  Without a file no task starts. *)
Inductive table_run (jobs : list (res record)) : bool -> bool -> res unit -> list row -> list record -> Prop :=
| run_no_file flushes : table_run jobs false flushes (unwrap Err) [] []
| run_file flushes s : dsteps jobs (d_init jobs) s -> Forall ended (b_tasks (d_bench s)) ->
    table_run jobs true flushes (unwrap (d_finish flushes s)) (b_out (d_bench s)) (d_lost s).
