(** * Model of everything that is printed for one image of the benchmark (src/bench.rs:28-60, 106-111)

    [measure_says] of BenchSays.v once more, with the lines of the codec (CodecSays.v) in their places. *)
From Coq Require Import String.
From Verif Require Import Base Prs Img Float Select Bench Special BenchDisk BenchSays CodecSays.
Close Scope string_scope.
Open Scope list_scope.

(** A line of the benchmark itself or of the codec *)
Inductive any_line := Ours (l : BenchSays.line) | Codecs (l : codec_line).
(** What is in the vector that was written to *)
Definition gathered (r : res unit * writer) : res (list N) :=
  match r with (Ok _, w) => Ok (written w) | (Err, _) => Err | (Panic, _) => Panic end.

(** src/bench.rs:28-60 and 106-111; [None]: out of fuel, after these lines *)
Definition measure_talk (p : profile) (zero : f64) (E E' : env) (nodes : nat) (c : any_codec) (path : text) (o : opened) (saves : bool)
    : list any_line * option (res record) :=
  match o with
  | inr e => ([Ours (Processing path); Ours (Failure (NoOpen e))], Some Err)
  | inl im =>
      let '(o1, r1) := encode_says E nodes c im vec_writer in
      let said := Ours (Processing path) :: map Codecs o1 in
      match option_map gathered r1 with
      | None => (said, None)
      | Some Err => (said ++ [Ours (Failure NoEncode)], Some Err)
      | Some Panic => (said, Some Panic)
      | Some (Ok data) =>
          let compressed_size := N.of_nat (length data) in
          let said := said ++ [Ours (CompressedSize compressed_size)] in
          match raw_size p im with
          | Ok raw =>
              let ratio := fdiv (f64_of_N compressed_size) (f64_of_N raw) in
              let '(o2, r2) := decode_says E' c data in
              let said := said ++ [Ours (RawSize raw)] ++ map Codecs o2 in
              match r2 with
              | None => (said, None)
              | Some Err => (said ++ [Ours (Failure (NoDecode path))], Some Err)
              | Some Panic => (said, Some Panic)
              | Some (Ok decoded) =>
                  match compute_error p zero im decoded with
                  | Ok error =>
                      let record := (path, compressed_size, fmul ratio (f64_of_N 100), error) in
                      if negb (feq error (f64_of_N 0))
                      then match under_output path (txt "png") with
                           | Ok file =>
                               if negb saves then (said ++ [Ours (Failure NoSave)], Some Err)
                               else if any_is_lossless c then (said ++ [Ours (SavedTo file); Ours (Failure Mismatch)], Some Err)
                               else (said ++ [Ours (SavedTo file)], Some (Ok record))
                           | _ => (said, Some Panic)
                           end
                      else (said, Some (Ok record))
                  | _ => (said, Some Panic)
                  end
              end
          | _ => (said, Some Panic)
          end
      end
  end.
