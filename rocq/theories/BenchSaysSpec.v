(** * Specification vocabulary for the messages of the benchmark (C89). *)
From Coq Require Import String.
From Verif Require Import Base Prs Float Img Bench BenchSpec Special Images ImagesSpec BenchSays.
Close Scope string_scope.
Open Scope list_scope.

(** The sizes can be computed: a debug build aborts when the number of bits needs more than 32 bits *)
Definition sized (p : profile) (im : img) : Prop := (p = Debug -> 24 * pixels im < 2 ^ 32)%N.
(** The image is encoded *)
Definition encoded (c : codec) (o : opened) (im : img) (data : list N) : Prop := o = inl im /\ enc c im = Some (Ok data).
(** The image is encoded and comes back changed, and the path has a name to save it under *)
Definition spoiled (p : profile) (zero : f64) (c : codec) (path : text) (o : opened) (file : text) : Prop :=
  exists im y, o = inl im /\ sized p im /\ changed p zero c im y /\ under_output path (txt "png") = Ok file.
(** What an error message means *)
Definition reason (p : profile) (zero : f64) (c : codec) (path : text) (o : opened) (saves : bool) (f : failure) : Prop :=
  match f with
  | NoOpen e => o = inr e
  | NoEncode => exists im, o = inl im /\ enc c im = Some Err
  | NoDecode q => q = path /\ exists im data, encoded c o im data /\ sized p im /\ dec c data = Some Err
  | NoSave => (exists file, spoiled p zero c path o file) /\ saves = false
  | Mismatch => (exists file, spoiled p zero c path o file) /\ saves = true /\ lossless c = true
  | NoWrite => False
  end.
(** The order of the messages for one image *)
Definition rank (l : line) : nat :=
  match l with Processing _ => 0 | CompressedSize _ => 1 | RawSize _ => 2 | SavedTo _ => 3 | Failure _ => 4 end.
Definition earlier (a b : line) : Prop := (rank a < rank b)%nat.
(** [a] is [b] with some elements left out *)
Inductive subsequence {A} : list A -> list A -> Prop :=
| sub_nil : subsequence [] []
| sub_take x a b : subsequence a b -> subsequence (x :: a) (x :: b)
| sub_skip x a b : subsequence a b -> subsequence a (x :: b).
(** Parts of the output *)
Fixpoint processed (log : list line) : list text :=
  match log with [] => [] | Processing q :: log => q :: processed log | _ :: log => processed log end.
Fixpoint failures (log : list line) : list failure :=
  match log with [] => [] | Failure f :: log => f :: failures log | _ :: log => failures log end.
Fixpoint records (rows : list row) : list record :=
  match rows with [] => [] | Row r :: rows => r :: records rows | Header :: rows => records rows end.
(** The tasks of a run: what is printed for each path, and its outcome *)
Definition tasks (p : profile) (zero : f64) (c : text -> codec) (opens : text -> opened) (saves : text -> bool) (paths : list text)
    (jobs : list (list line * res record)) : Prop :=
  Forall2 (fun path j => measure_says p zero (c path) path (opens path) (saves path) = Some j) paths jobs.
(** What a lossless codec has printed for an image with a record *)
Definition three_lines (opens : text -> opened) (r : record) : list line :=
  let '(path, size, _, _) := r in
  [Processing path; CompressedSize size; RawSize (match opens path with inl im => 24 * pixels im | inr _ => 0 end)].
