(** * Model of everything that a run of the benchmark prints (src/bench.rs:26-80)

    [loud_run] of BenchSays.v once more, with the output of the codecs.  Tasks run at the same time, and
    only one [println!] or [print!] is printed as a whole. *)
From Verif Require Import Base Prs Img Float Select Bench Special BenchDisk BenchSays TrieStats DictSays CodecSays BenchTalk.

(** What is printed as a whole: a line or mark, or one of the eight lines of the statistics (src/zip/dict.rs:387-391, 393, 395, 398) *)
Inductive piece := Whole (l : any_line) | Statistic (k : nat) (st : stats).
Definition pieces (l : any_line) : list piece :=
  match l with
  | Codecs (FromDict (TrieStats st)) => map (fun k => Statistic k st) (seq 0 8)
  | _ => [Whole l]
  end.
(** As [task_lines] *)
Definition talk_lines (job : list any_line * res record) (t : tstate) : list any_line :=
  match t, snd job with
  | Skipped, _ => []
  | Failed, Ok _ => fst job ++ [Ours (Failure NoWrite)]
  | _, _ => fst job
  end.
(** As [all_lines] *)
Definition all_pieces (jobs : list (list any_line * res record)) (ts : list tstate) : list (list piece) :=
  map (fun e => flat_map pieces (talk_lines (fst e) (snd e))) (combine jobs ts).
(** As [loud_run] *)
Inductive talk_run (jobs : list (list any_line * res record)) : bool -> bool -> res unit -> list row -> list record -> list piece -> Prop :=
| talk_no_file flushes : talk_run jobs false flushes (unwrap Err) [] [] []
| talk_file flushes s log : dsteps (map snd jobs) (d_init (map snd jobs)) s -> Forall ended (b_tasks (d_bench s)) ->
    shuffle (all_pieces jobs (b_tasks (d_bench s))) log ->
    talk_run jobs true flushes (unwrap (d_finish flushes s)) (b_out (d_bench s)) (d_lost s) log.
