(** * Property C84: the benchmark's table when writes fail (src/bench.rs:20-22, 62-83; src/main.rs:68).

    [table_run jobs creates flushes r out lost]: the tasks measure [jobs] under some schedule in which
    any write to the table may be refused; the csv file could be created ([creates]), the final flush
    succeeds ([flushes]), the program ends with [r], the writer accepted the rows [out], and the records
    in [lost] were refused. *)
From Coq Require Import Permutation.
From Verif Require Import Base Bench BenchSpec BenchDisk BenchDiskProofs BenchDiskTop.

(** C84: at any time the accepted rows are one header followed by records of distinct
    images, or nothing; no record is both accepted and lost *)
Theorem C84_always : forall jobs s, dsteps jobs (d_init jobs) s -> exists l rest, Permutation (l ++ d_lost s ++ rest) (successes jobs)
  /\ ((b_out (d_bench s) = [] /\ l = []) \/ b_out (d_bench s) = Header :: map Row l).
Proof. exact d_always. Qed.
Print Assumptions C84_always.
(** The program ends well exactly if the file was created, the final flush succeeds, and no
    task panics, whatever was lost before; otherwise it panics.  Without a panic of a task
    every measured record was accepted or lost, once. *)
Theorem C84_run : forall jobs creates flushes r out lost, table_run jobs creates flushes r out lost ->
  (r = Ok tt <-> creates = true /\ flushes = true /\ ~ In Panic jobs) /\ r <> Err
  /\ (creates = false -> out = [] /\ lost = [])
  /\ (creates = true -> ~ In Panic jobs -> exists l, Permutation (l ++ lost) (successes jobs)
       /\ (out = Header :: map Row l \/ out = [] /\ l = [])).
Proof. exact d_final. Qed.
Print Assumptions C84_run.
(** When no write is refused the table is complete. *)
Theorem C84_no_failure : forall jobs flushes r out, table_run jobs true flushes r out [] -> ~ In Panic jobs ->
  exists l, Permutation l (successes jobs) /\ out = table l.
Proof. exact d_no_failure. Qed.
Print Assumptions C84_no_failure.
(** A refused write never blocks the other tasks: a step without a failure is possible
    until all tasks have ended, *)
Theorem C84_progress : forall jobs s, dsteps jobs (d_init jobs) s -> ~ Forall ended (b_tasks (d_bench s)) -> exists s', bstep jobs (d_bench s) s'.
Proof. exact d_progress. Qed.
Print Assumptions C84_progress.
(** and they end. *)
Theorem C84_terminates : forall jobs (f : nat -> dstate), ~ (forall n, dstep jobs (f n) (f (S n))).
Proof. exact d_no_infinite. Qed.
Print Assumptions C84_terminates.
(** Examples: of two records one is refused, the first with its header or the second;
    the other one is written.  The only record is refused after its header. *)
Example C84_cases : forall r1 r2 : record, table_run [Ok r1; Ok r2] true true (Ok tt) [Header; Row r2] [r1]
  /\ table_run [Ok r1; Ok r2] true true (Ok tt) [Header; Row r1] [r2] /\ table_run [Ok r1] true true (Ok tt) [Header] [r1].
Proof. exact (fun r1 r2 => conj (first_lost r1 r2) (conj (second_lost r1 r2) (header_only r1))). Qed.
(** So success does not mean that the table is complete. *)
Theorem C84_complete_refuted : exists jobs out lost r, table_run jobs true true (Ok tt) out lost /\ In (Ok r) jobs /\ ~ In (Row r) out.
Proof. exact silent_loss. Qed.
Print Assumptions C84_complete_refuted.
