(** * A run for C94 *)
From Coq Require Import String.
From Flocq Require Import BinarySingleNaN.
From Verif Require Import Base Prs Huf Img Float HilbertC Kmeans ClusterC Select Bench BenchSpec CodecSpec CodecCases Special BenchDisk BenchDiskProofs BenchDiskTop BenchSays BenchSaysCases
  TrieStats DictSays CodecSays CodecSaysSpec BenchTalk BenchTalkRun BenchTalkSpec BenchTalkCases.
Close Scope string_scope.
Open Scope list_scope.

Lemma talk_first ls ls' r : forall log, shuffle [flat_map pieces ls; flat_map pieces ls'] log -> talk_run [(ls, Ok r); (ls', Err)] true true (Ok tt) [Header; Row r] [] log.
Proof.
  intros log Sh.
  enough (H : exists s, dsteps [Ok r; Err] (d_init [Ok r; Err]) s /\ s = mkD (mkB [Done; Failed] None true [Header; Row r]) []).
  { destruct H as (s & H & ->). exact (talk_file [(ls, Ok r); (ls', Err)] true _ _ H ltac:(cbn; repeat constructor) Sh). }
  eexists. split.
  - fine; [apply (step_fail _ 1); reflexivity|]. fine; [apply (step_measure _ 0 r); reflexivity|].
    fine; [apply (step_lock _ 0 r); reflexivity|]. fine; [apply (step_header _ 0 r); reflexivity|].
    fine; [apply (step_flag _ 0 r); reflexivity|]. fine; [apply (step_write _ 0 r); reflexivity|]. fine; [apply (step_unlock _ 0); reflexivity|]. apply dsteps_nil.
  - reflexivity.
Qed.
Definition figures : stats := mkStats 23 22 22 267 267.
Definition dict_lines : list any_line :=
  [Ours (Processing pa); Codecs (FromDict Converting); Codecs (FromDict (TrieStats figures)); Ours (CompressedSize 48); Ours (RawSize 96)].
Definition missing_lines : list any_line := [Ours (Processing pb); Ours (Failure (NoOpen gone))].
Lemma dict_talk : exists rc, measure_talk Release (B754_zero false) talkative talkative 60 (Zip ZDict) pa (inl pic) true = (dict_lines, Some (Ok rc)).
Proof.
  assert (H1 : fst (measure_talk Release (B754_zero false) talkative talkative 60 (Zip ZDict) pa (inl pic) true) = dict_lines) by (vm_compute; reflexivity).
  assert (H2 : match snd (measure_talk Release (B754_zero false) talkative talkative 60 (Zip ZDict) pa (inl pic) true) with Some (Ok _) => true | _ => false end = true) by (vm_compute; reflexivity).
  destruct (measure_talk Release (B754_zero false) talkative talkative 60 (Zip ZDict) pa (inl pic) true) as [ls [[rc| |]|]]; try discriminate H2. cbn [fst] in H1. subst ls. now exists rc.
Qed.
(** The message about the missing file among the statistics of the other task *)
Definition mixed : list piece :=
  map Whole [Ours (Processing pa); Ours (Processing pb); Codecs (FromDict Converting)] ++ map (fun k => Statistic k figures) (seq 0 3)
  ++ [Whole (Ours (Failure (NoOpen gone)))] ++ map (fun k => Statistic k figures) (seq 3 5) ++ map Whole [Ours (CompressedSize 48); Ours (RawSize 96)].
Lemma talk_run_case : exists jobs out,
  talking Release (B754_zero false) (fun _ => talkative) (fun _ => talkative) 60 (Zip ZDict) (only pa) (fun _ => true) [pa; pb] jobs
  /\ talk_run jobs true true (Ok tt) out [] mixed /\ map fst jobs = [dict_lines; missing_lines].
Proof.
  destruct dict_talk as [rc H]. exists [(dict_lines, Ok rc); (missing_lines, Err)], [Header; Row rc].
  split; [apply Forall2_cons; [exact H|apply Forall2_cons; [reflexivity|apply Forall2_nil]]|]. split; [|reflexivity].
  apply talk_first. cbn [dict_lines missing_lines flat_map pieces map seq app mixed].
  pull 0%nat. pull 1%nat. pull 0%nat. pull 0%nat. pull 0%nat. pull 0%nat. pull 1%nat. do 5 pull 0%nat. do 2 pull 0%nat. constructor. repeat constructor.
Qed.
