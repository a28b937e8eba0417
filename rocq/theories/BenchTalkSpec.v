(** * Specification vocabulary for everything that is printed for one image and in a run (C94). *)
From Verif Require Import Base Prs Img Float Select Bench BenchDisk BenchSays DictSays CodecSays BenchTalk BenchTalkRun.

(** The lines of the benchmark itself *)
Definition ours (l : list any_line) : list BenchSays.line := flat_map (fun x => match x with Ours l => [l] | Codecs _ => [] end) l.
Definition our_pieces (l : list piece) : list BenchSays.line := flat_map (fun x => match x with Whole (Ours l) => [l] | _ => [] end) l.
(** A task without the lines of its codec *)
Definition our_job (j : list any_line * res record) : list BenchSays.line * res record := (ours (fst j), snd j).
(** The tasks of a run as in [BenchSaysSpec.tasks] *)
Definition talking (p : profile) (zero : f64) (E E' : text -> env) (nodes : nat) (c : any_codec) (opens : text -> opened) (saves : text -> bool)
    (paths : list text) (jobs : list (list any_line * res record)) : Prop :=
  Forall2 (fun path j => measure_talk p zero (E path) (E' path) nodes c path (opens path) (saves path) = (fst j, Some (snd j))) paths jobs.
