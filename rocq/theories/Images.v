(** * Model of the image files that the benchmark reads and writes (src/bench.rs:28-60).

    [Bench.measure_one] takes what [image::open] returned as given.  Here the tasks share
    the files: a task reads its image when it starts, and may write to the folder output
    an image that another task reads. *)
From Coq Require Import String.
From Verif Require Import Base Prs Img Float Bench Special.
Close Scope string_scope.
Open Scope list_scope.

(** What [image::open] returns for the files: [None] if there is no file or no image in it.
    Files are numbers: different paths may lead to the same file. *)
Definition pictures := N -> option img.
(** A new or overwritten file *)
Definition put_picture (n : N) (o : option img) (fs : pictures) : pictures := fun m => if (m =? n)%N then o else fs m.

(** The progress of one image *)
Inductive progress :=
| PWaiting                                   (* not started *)
| POpened (o : option img)                   (* src/bench.rs:30 is done *)
| PSaving (n : N) (y : img) (r : res record) (* line 54: the file is created and being written *)
| PEnded (r : res record)                    (* the record, or the error or panic instead of it *)
| PSkipped.                                  (* never started, as some other task panicked *)
(** The tasks and the files *)
Record istate := mkI { i_tasks : list progress; i_files : pictures }.

Section Images.
  Variables (p : profile) (zero : f64).
  (** The codec, with what it meets while it works on the image at a path *)
  Variable c : text -> codec.
  (** The file that a path leads to, and whether saving the wrong image works (line 54) *)
  Variables (node : text -> N) (saves : text -> bool).
  Variable paths : list text.

  (** src/bench.rs:33-51: the decoded image, if it is going to be saved *)
  Definition wrong_image (c : codec) (im : img) : option img :=
    match enc c im, raw_size p im with
    | Some (Ok data), Ok _ =>
        match dec c data with
        | Some (Ok decoded) =>
            match compute_error p zero im decoded with
            | Ok error => if negb (feq error (f64_of_N 0)) then Some decoded else None
            | _ => None
            end
        | _ => None
        end
    | _, _ => None
    end.
  (** src/bench.rs:30-51 for an opened image; a file that cannot be opened ends the task *)
  Definition to_save (path : text) (o : option img) : option img :=
    match o with Some im => wrong_image (c path) im | None => None end.

  (** All tasks wait *)
  Definition i_init (fs : pictures) : istate := mkI (map (fun _ => PWaiting) paths) fs.
  (** One step of some task [i]; any task may move at any time.  While a file is written
      its contents can be anything; a file that is written completely holds the image
      (src/bench.rs:54), if no other task is writing to it. *)
  Inductive istep : istate -> istate -> Prop :=
  | istep_open i path ts fs : nth_error paths i = Some path -> nth_error ts i = Some PWaiting ->
      istep (mkI ts fs) (mkI (upd i (POpened (fs (node path))) ts) fs)
  | istep_skip i ts fs : nth_error ts i = Some PWaiting -> In (PEnded Panic) ts ->
      istep (mkI ts fs) (mkI (upd i PSkipped ts) fs)
  | istep_end i path o r ts fs : nth_error paths i = Some path -> nth_error ts i = Some (POpened o) ->
      to_save path o = None -> measure_one p zero (c path) path o (saves path) = Some r ->
      istep (mkI ts fs) (mkI (upd i (PEnded r) ts) fs)
  | istep_no_name i path o y ts fs : nth_error paths i = Some path -> nth_error ts i = Some (POpened o) ->
      to_save path o = Some y -> under_output path (txt "png") = Panic ->
      istep (mkI ts fs) (mkI (upd i (PEnded Panic) ts) fs)
  | istep_create i path o y f r v ts fs : nth_error paths i = Some path -> nth_error ts i = Some (POpened o) ->
      to_save path o = Some y -> under_output path (txt "png") = Ok f -> measure_one p zero (c path) path o (saves path) = Some r ->
      istep (mkI ts fs) (mkI (upd i (PSaving (node f) y r) ts) (put_picture (node f) v fs))
  | istep_write i n y r v ts fs : nth_error ts i = Some (PSaving n y r) ->
      istep (mkI ts fs) (mkI ts (put_picture n v fs))
  | istep_saved i path n y r v ts fs : nth_error paths i = Some path -> nth_error ts i = Some (PSaving n y r) ->
      (saves path = true -> (forall j y' r', j <> i -> nth_error ts j <> Some (PSaving n y' r')) -> v = Some y) ->
      istep (mkI ts fs) (mkI (upd i (PEnded r) ts) (put_picture n v fs)).
  (** Any number of steps *)
  Inductive isteps : istate -> istate -> Prop :=
  | isteps_nil s : isteps s s
  | isteps_cons s s' s'' : istep s s' -> isteps s' s'' -> isteps s s''.
  (** The parallel iteration is over *)
  Definition over (t : progress) : Prop := match t with PEnded _ | PSkipped => True | _ => False end.
End Images.
