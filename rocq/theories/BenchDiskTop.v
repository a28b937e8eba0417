(** * Runs of the benchmark on a failing disk. *)
From Coq Require Import Permutation.
From Verif Require Import Base Float Bench BenchSpec BenchPar BenchDisk BenchDiskProofs.

Ltac fine := eapply dsteps_cons; [eapply dstep_fine|].
(** The first record is lost, when its header or when its row is refused; the second one is written *)
Lemma first_lost r1 r2 : table_run [Ok r1; Ok r2] true true (Ok tt) [Header; Row r2] [r1].
Proof.
  enough (H : exists s, dsteps [Ok r1; Ok r2] (d_init [Ok r1; Ok r2]) s /\ s = mkD (mkB [Failed; Done] None true [Header; Row r2]) [r1]).
  { destruct H as (s & H & ->). exact (run_file _ true _ H ltac:(cbn; repeat constructor)). }
  eexists. split.
  - fine; [apply (step_measure _ 0 r1); reflexivity|]. fine; [apply (step_lock _ 0 r1); reflexivity|].
    eapply dsteps_cons; [apply (dstep_header _ 0 r1); reflexivity|].
    fine; [apply (step_measure _ 1 r2); reflexivity|]. fine; [apply (step_lock _ 1 r2); reflexivity|]. fine; [apply (step_header _ 1 r2); reflexivity|].
    fine; [apply (step_flag _ 1 r2); reflexivity|]. fine; [apply (step_write _ 1 r2); reflexivity|]. fine; [apply (step_unlock _ 1); reflexivity|].
    apply dsteps_nil.
  - reflexivity.
Qed.
Lemma second_lost r1 r2 : table_run [Ok r1; Ok r2] true true (Ok tt) [Header; Row r1] [r2].
Proof.
  enough (H : exists s, dsteps [Ok r1; Ok r2] (d_init [Ok r1; Ok r2]) s /\ s = mkD (mkB [Done; Failed] None true [Header; Row r1]) [r2]).
  { destruct H as (s & H & ->). exact (run_file _ true _ H ltac:(cbn; repeat constructor)). }
  eexists. split.
  - fine; [apply (step_measure _ 0 r1); reflexivity|]. fine; [apply (step_measure _ 1 r2); reflexivity|].
    fine; [apply (step_lock _ 0 r1); reflexivity|]. fine; [apply (step_header _ 0 r1); reflexivity|].
    fine; [apply (step_flag _ 0 r1); reflexivity|]. fine; [apply (step_write _ 0 r1); reflexivity|]. fine; [apply (step_unlock _ 0); reflexivity|].
    fine; [apply (step_lock _ 1 r2); reflexivity|]. fine; [apply (step_no_header _ 1 r2); reflexivity|].
    eapply dsteps_cons; [apply (dstep_record _ 1 r2); reflexivity|]. apply dsteps_nil.
  - reflexivity.
Qed.
Lemma header_only r : table_run [Ok r] true true (Ok tt) [Header] [r].
Proof.
  enough (H : exists s, dsteps [Ok r] (d_init [Ok r]) s /\ s = mkD (mkB [Failed] None true [Header]) [r]).
  { destruct H as (s & H & ->). exact (run_file _ true _ H ltac:(cbn; repeat constructor)). }
  eexists. split.
  - fine; [apply (step_measure _ 0 r); reflexivity|]. fine; [apply (step_lock _ 0 r); reflexivity|]. fine; [apply (step_header _ 0 r); reflexivity|].
    fine; [apply (step_flag _ 0 r); reflexivity|]. eapply dsteps_cons; [apply (dstep_record _ 0 r); reflexivity|]. apply dsteps_nil.
  - reflexivity.
Qed.

(** A successful run without a record of an image that was measured *)
Lemma silent_loss : exists jobs out lost r, table_run jobs true true (Ok tt) out lost /\ In (Ok r) jobs /\ ~ In (Row r) out.
Proof.
  pose (r := ([], 0%N, f64_of_N 0, f64_of_N 0) : record).
  exists [Ok r], [Header], [r], r. split; [apply header_only|]. split; [now left|]. intros [H|[]]. discriminate.
Qed.
