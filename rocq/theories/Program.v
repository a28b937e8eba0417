(** * Model of a whole run of the program (src/main.rs, src/bench.rs), and of the rules
    of the Makefile that run it. *)
From Coq Require Import String.
From Verif Require Import Base Prs Regex Img Float HilbertC Select Main Bench Special.
Close Scope string_scope.
Open Scope list_scope.

(** ** The program *)
(** A file that was written: its name and its rows *)
Inductive file := Table (name : text) (rows : list row) | Dump (name : text) (rows : csv).
Section Program.
  Variables (p : profile) (is_digit : N -> bool) (parse_f64 : text -> option f64) (show : f64 -> text) (zero : f64).
  (** [image::open], and whether saving a wrong image works (src/bench.rs:54) *)
  Variables (opens : text -> option img) (saves : text -> bool).
  (** What the codecs meet while they encode and decode the image at a path *)
  Variables (E E' : text -> env) (scan : scanner).

  (** src/bench.rs:28-77 for one path *)
  Definition job (c : any_codec) (path : text) : option (res record) :=
    measure_one p zero (any (E path) (E' path) c) path (opens path) (saves path).
  (** src/main.rs:32-48 *)
  Fixpoint dump_all (paths : list text) : res (list file) :=
    match paths with
    | [] => Ok []
    | path :: paths =>
        res_bind (match opens path with Some im => Ok im | None => Panic end) (fun im =>
        res_bind (dump p scan path im) (fun files =>
        res_bind (dump_all paths) (fun rest => Ok (map (fun f => Dump (fst f) (snd f)) files ++ rest))))
    end.
  (** The runs that end: how, and with which files.  The file system accepts all of them
      (src/main.rs:37, src/bench.rs:90).  An abort of the dump leaves files that the
      model does not keep. *)
  Inductive program (args : list text) : res unit -> list file -> Prop :=
  | program_bench c paths jobs s : main p is_digit parse_f64 args = Ok (Measure c paths) ->
      Forall2 (fun path j => job c path = Some j) paths jobs ->
      bsteps jobs (b_init jobs) s -> Forall ended (b_tasks s) ->
      program args (fst (finish s)) [Table (table_file show c) (snd (finish s))]
  | program_dump paths files : main p is_digit parse_f64 args = Ok (Linearize paths) -> dump_all paths = Ok files -> program args (Ok tt) files
  | program_dump_abort paths : main p is_digit parse_f64 args = Ok (Linearize paths) -> dump_all paths = Panic -> program args Panic []
  | program_abort : main p is_digit parse_f64 args = Panic -> program args Panic [].
End Program.

(** ** The Makefile *)
(** A rule that runs the program: its target, the codec, and what [cp] copies where *)
Record rule := mkRule { r_target : text; r_codec : text; r_copy : option (text * text) }.
(** Makefile:73-75.  [n] is what [%] stands for. *)
Definition cluster_rule (n : text) : rule :=
  mkRule (txt "output/cluster-colors_" ++ n ++ txt ".csv.bak") (txt "cluster-colors(" ++ n ++ txt ")")
    (Some (txt "output/cluster-colors_" ++ n ++ txt ".csv", txt "output/cluster-colors_" ++ n ++ txt ".csv.bak")).
(** Makefile:77-79 *)
Definition voronoi_rule (n : text) : rule :=
  mkRule (txt "output/voronoi_" ++ n ++ txt ".csv.bak") (txt "voronoi(" ++ n ++ txt ")")
    (Some (txt "output/voronoi_" ++ n ++ txt ".csv", txt "output/cluster-colors_" ++ n ++ txt ".csv.bak")).
(** Makefile:91-92 *)
Definition approx_rule (x : text) : rule :=
  mkRule (txt "output/hilbert-rle-approx_" ++ x ++ txt ".csv") (txt "hilbert(rle(" ++ x ++ txt "))") None.
(** Makefile:63-64 and 81-98, with the variables of lines 31-37 *)
Definition fixed_rules : list rule :=
  [mkRule (txt "output/Hufman.csv") (txt "hufman") None;
   mkRule (txt "output/zip-dict.csv") (txt "zip(dict)") None;
   mkRule (txt "output/zip-back.csv.bak") (txt "zip(back)") (Some (txt "output/zip-back.csv", txt "output/zip-back.csv.bak"));
   mkRule (txt "output/hilbert-rle.csv") (txt "hilbert(rle)") None;
   mkRule (txt "output/hilbert-zip.csv") (txt "hilbert(zip)") None;
   mkRule (txt "output/delta.csv") (txt "delta") None].
(** The files with tables *)
Definition tables := text -> option (list row).
(** A new or overwritten file *)
Definition put_table (name : text) (rows : list row) (fs : tables) : tables := fun f => if text_eqb f name then Some rows else fs f.
(** A recipe, when the program writes [rows] to the file [name]: [cp] fails if there is
    nothing to copy *)
Definition recipe (r : rule) (name : text) (rows : list row) (fs : tables) : option tables :=
  let fs := put_table name rows fs in
  match r_copy r with
  | None => Some fs
  | Some (from, to) => match fs from with Some t => Some (put_table to t fs) | None => None end
  end.
