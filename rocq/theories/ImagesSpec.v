(** * Specification vocabulary for the image files of the benchmark (C80). *)
From Coq Require Import String.
From Verif Require Import Base Prs Float Img Bench Special Images.
Close Scope string_scope.
Open Scope list_scope.

(** The file under output that belongs to a path *)
Definition belongs (node : text -> N) (path : text) (n : N) : Prop := exists f, under_output path (txt "png") = Ok f /\ n = node f.
(** No input is a file that the benchmark may write to *)
Definition apart (node : text -> N) (paths : list text) : Prop :=
  forall q q' n, In q paths -> In q' paths -> belongs node q' n -> n <> node q.
(** The image comes back as another image *)
Definition changed (p : profile) (zero : f64) (c : codec) (im y : img) : Prop :=
  exists data e, enc c im = Some (Ok data) /\ dec c data = Some (Ok y) /\ compute_error p zero im y = Ok e /\ feq e (f64_of_N 0) = false.
(** Both runs are complete, and nothing panicked *)
Definition complete (s : istate) : Prop := Forall (fun t => exists r, t = PEnded r /\ r <> Panic) (i_tasks s).
