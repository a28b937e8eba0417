(** * Model of the command line of src/main.rs. *)
From Coq Require Import String.
From Verif Require Import Base Prs Regex Float Select.
Close Scope string_scope.
Open Scope list_scope.

(** What the program goes on to do *)
Inductive action :=
| Linearize (paths : list text)                      (* src/main.rs:32-48 *)
| Measure (c : any_codec) (paths : list text).       (* src/main.rs:68 *)
Section Main.
  Variables (p : profile) (is_digit : N -> bool) (parse_f64 : text -> option f64).
  (** src/main.rs:74-82; [args] are the arguments after the program name (all valid Unicode) *)
  Definition separate_args (args : list text) : res (text * list text) :=
    match args with [] => Err | command :: paths => Ok (command, paths) end.
  (** src/main.rs:23-55 *)
  Definition try_special (args : list text) : res action :=
    res_bind (separate_args args) (fun '(command, paths) =>
    match strip_prefix command (txt "--special=") with
    | None => Err
    | Some s => if text_eqb s (txt "hilbert") then Ok (Linearize paths) else Err
    end).
  (** src/main.rs:57-70 *)
  Definition try_bench (args : list text) : res action :=
    res_bind (separate_args args) (fun '(command, paths) =>
    match strip_prefix command (txt "--codec=") with
    | None => Err
    | Some s => match any_codec_from_str p is_digit parse_f64 s with
                | POk c => Ok (Measure c paths)
                | PErr _ => Err
                | PPanic => Panic
                end
    end).
  (** src/main.rs:17-21: [try_special().or_else(|_| try_bench()).unwrap()] *)
  Definition main (args : list text) : res action :=
    match try_special args with
    | Ok a => Ok a
    | Err => match try_bench args with Ok a => Ok a | Err => Panic | Panic => Panic end
    | Panic => Panic
    end.
End Main.
