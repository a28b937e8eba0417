(** * Model of what the benchmark prints (src/bench.rs:28-78 and 106-111).

    [Bench.measure_one] leaves the messages out.  The messages of the codecs are not modelled here (see
    BenchTalk.v), nor are those of the runtime when a task panics.  How [ByteSize] writes a number and
    the error messages of libraries are left open. *)
From Coq Require Import String.
From Verif Require Import Base Prs Img Float Bench Special BenchDisk.
Close Scope string_scope.
Open Scope list_scope.

(** The errors of one image *)
Inductive failure :=
| NoOpen (e : text)         (* src/bench.rs:30-31; [e]: the error of [image::open] *)
| NoEncode                  (* lines 34-35 *)
| NoDecode (path : text)    (* lines 45-46 *)
| NoSave                    (* lines 53-54 *)
| Mismatch                  (* line 58 *)
| NoWrite.                  (* lines 68-69 and 75-76 *)
(** The messages *)
Inductive line :=
| Processing (path : text)  (* src/bench.rs:29 *)
| CompressedSize (n : N)    (* line 38 *)
| RawSize (n : N)           (* line 42 *)
| SavedTo (file : text)     (* line 55 *)
| Failure (f : failure).    (* line 108 *)
(** [eprintln!] (lines 55 and 108), the others are [println!] *)
Definition to_stderr (l : line) : bool := match l with SavedTo _ | Failure _ => true | _ => false end.

(** What [image::open] returned *)
Definition opened := (img + text)%type.
Definition the_image (o : opened) : option img := match o with inl im => Some im | inr _ => None end.

(** src/bench.rs:28-60 and 106-111: the messages for one image up to its record, and its outcome; [None]: out of fuel *)
Definition measure_says (p : profile) (zero : f64) (c : codec) (path : text) (o : opened) (saves : bool) : option (list line * res record) :=
  match o with
  | inr e => Some ([Processing path; Failure (NoOpen e)], Err)
  | inl im =>
      match enc c im with
      | None => None
      | Some Err => Some ([Processing path; Failure NoEncode], Err)
      | Some Panic => Some ([Processing path], Panic)
      | Some (Ok data) =>
          let compressed_size := N.of_nat (length data) in
          let said := [Processing path; CompressedSize compressed_size] in
          match raw_size p im with
          | Ok raw =>
              let ratio := fdiv (f64_of_N compressed_size) (f64_of_N raw) in
              let said := said ++ [RawSize raw] in
              match dec c data with
              | None => None
              | Some Err => Some (said ++ [Failure (NoDecode path)], Err)
              | Some Panic => Some (said, Panic)
              | Some (Ok decoded) =>
                  match compute_error p zero im decoded with
                  | Ok error =>
                      let record := (path, compressed_size, fmul ratio (f64_of_N 100), error) in
                      if negb (feq error (f64_of_N 0))
                      then match under_output path (txt "png") with
                           | Ok file =>
                               if negb saves then Some (said ++ [Failure NoSave], Err)
                               else if lossless c then Some (said ++ [SavedTo file; Failure Mismatch], Err)
                               else Some (said ++ [SavedTo file], Ok record)
                           | _ => Some (said, Panic)
                           end
                      else Some (said, Ok record)
                  | _ => Some (said, Panic)
                  end
              end
          | _ => Some (said, Panic)
          end
      end
  end.

(** What a task has printed when it has ended: a task that has a record and failed could not write it *)
Definition task_lines (job : list line * res record) (t : tstate) : list line :=
  match t, snd job with
  | Skipped, _ => []
  | Failed, Ok _ => fst job ++ [Failure NoWrite]
  | _, _ => fst job
  end.
(** The lines of several tasks in the order in which they are printed: those of one task keep their order *)
Inductive shuffle {A} : list (list A) -> list A -> Prop :=
| shuffle_nil ls : Forall (fun l => l = []) ls -> shuffle ls []
| shuffle_cons i x l ls rest : nth_error ls i = Some (x :: l) -> shuffle (upd i l ls) rest -> shuffle ls (x :: rest).
(** The lines of each task *)
Definition all_lines (jobs : list (list line * res record)) (ts : list tstate) : list (list line) :=
  map (fun e => task_lines (fst e) (snd e)) (combine jobs ts).
(** A run of the benchmark as in [BenchDisk.table_run], with its messages *)
Inductive loud_run (jobs : list (list line * res record)) : bool -> bool -> res unit -> list row -> list record -> list line -> Prop :=
| loud_no_file flushes : loud_run jobs false flushes (unwrap Err) [] [] []
| loud_file flushes s log : dsteps (map snd jobs) (d_init (map snd jobs)) s -> Forall ended (b_tasks (d_bench s)) ->
    shuffle (all_lines jobs (b_tasks (d_bench s))) log ->
    loud_run jobs true flushes (unwrap (d_finish flushes s)) (b_out (d_bench s)) (d_lost s) log.
