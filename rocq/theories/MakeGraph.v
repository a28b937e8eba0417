(** * Model of the Makefile as a whole: which targets GNU make can bring about.

    [Program.v] models the recipes that run the benchmark.  Here: the prerequisites, the
    other recipes, and the search for rules.  Only the existence of files is modelled. *)
From Coq Require Import String.
From Verif Require Import Base Prs Regex Float Select Special Program.
Close Scope string_scope.
Open Scope list_scope.

(** The commands of the recipes *)
Inductive action :=
| RunBench (codec : text)         (* $(CARGO_RUN) --codec=... $(DATASET) *)
| Cp (from to : text)
| Touch (name : text)
| Mkdir (name : text)
| Wget (name : text)
| Unzip (from to : text)
| Python (script drawing : text).
(** Which files and folders exist *)
Definition folder := text -> bool.
(** A new file *)
Definition create (name : text) (fs : folder) : folder := fun f => text_eqb f name || fs f.
(** The prerequisites and the recipe of a rule *)
Definition how : Type := list text * list action.

(** The recipe of a rule of [Program.v] *)
Definition bench_recipe (r : rule) : list action :=
  RunBench (r_codec r) :: match r_copy r with Some (from, to) => [Cp from to] | None => [] end.
(** The files that the variables of Makefile:29-44 stand for *)
Definition lossless_codecs : list text :=
  [txt "output/Hufman.csv"; txt "output/zip-dict.csv"; txt "output/zip-back.csv.cp"; txt "output/hilbert-rle.csv"; txt "output/hilbert-zip.csv"; txt "output/delta.csv"].
(** Makefile:39-40 *)
Definition cluster_colors_copies : list text :=
  [txt "output/cluster-colors_16.csv.cp"; txt "output/cluster-colors_32.csv.cp"; txt "output/cluster-colors_64.csv.cp"; txt "output/cluster-colors_128.csv.cp"; txt "output/cluster-colors_256.csv.cp"].
(** Makefile:41-42 *)
Definition voronoi_copies : list text :=
  [txt "output/voronoi_64.csv.cp"; txt "output/voronoi_128.csv.cp"; txt "output/voronoi_256.csv.cp"; txt "output/voronoi_512.csv.cp"; txt "output/voronoi_1024.csv.cp"; txt "output/voronoi_2048.csv.cp"].
(** Makefile:43-44 *)
Definition approx_tables : list text :=
  [txt "output/hilbert-rle-approx_1.csv"; txt "output/hilbert-rle-approx_2.csv"; txt "output/hilbert-rle-approx_4.csv"; txt "output/hilbert-rle-approx_8.csv"; txt "output/hilbert-rle-approx_16.csv"].
(** Makefile:2-18 and 46-61: the rules without a pattern that do not run the benchmark, except
    [clean] *)
Definition other_rules : list (text * how) :=
  [(txt "all", ([txt "data"; txt "output"; txt "data/DIV2K_valid_HR"], []));
   (txt "data", ([], [Mkdir (txt "data")]));
   (txt "output", ([], [Mkdir (txt "output")]));
   (txt "data/DIV2K_valid_HR.zip", ([], [Wget (txt "data/DIV2K_valid_HR.zip")]));
   (txt "data/DIV2K_valid_HR", ([], [Unzip (txt "data/DIV2K_valid_HR.zip") (txt "data/DIV2K_valid_HR")]));
   (txt "diagrams", ([txt "lossy_status.png"; txt "lossless_status.png"], []));
   (txt "lossless_status.png", ([txt "output/boxplot.png"], [Cp (txt "output/boxplot.png") (txt "lossless_status.png")]));
   (txt "lossy_status.png", ([txt "output/error_vs_compression.png"], [Cp (txt "output/error_vs_compression.png") (txt "lossy_status.png")]));
   (txt "output/boxplot.png", (lossless_codecs ++ [txt "scripts/diagrams/boxplot.py"], [Python (txt "scripts/diagrams/boxplot.py") (txt "output/boxplot.png")]));
   (txt "output/error_vs_compression.png",
     (lossless_codecs ++ cluster_colors_copies ++ voronoi_copies ++ approx_tables ++ [txt "scripts/diagrams/error_vs_compression_plot.py"],
      [Python (txt "scripts/diagrams/error_vs_compression_plot.py") (txt "output/error_vs_compression.png")]))].
(** All rules without a pattern: with Makefile:63-64, 81-89 and 94-98 *)
Definition explicit_rules : list (text * how) := other_rules ++ map (fun r => (r_target r, ([], bench_recipe r))) fixed_rules.
(** The rule for a target *)
Definition explicit_rule (t : text) : option how :=
  option_map snd (find (fun q => text_eqb (fst q) t) explicit_rules).

(** What [%] stands for when [pre%suf] is the target: it may not be empty. *)
Fixpoint cut_prefix (pre t : text) : option text :=
  match pre, t with
  | [], _ => Some t
  | c :: pre, d :: t => if (c =? d)%N then cut_prefix pre t else None
  | _, _ => None
  end.
(** See above *)
Definition stem (pre suf t : text) : option text :=
  match cut_prefix pre t with
  | None => None
  | Some t => match cut_prefix (rev suf) (rev t) with Some (c :: s) => Some (rev (c :: s)) | _ => None end
  end.
(** Makefile:69-71 *)
Definition copy_rule (s : text) : how :=
  ([txt "output/" ++ s ++ txt ".bak"; txt "output/" ++ s],
   [Cp (txt "output/" ++ s ++ txt ".bak") (txt "output/" ++ s); Touch (txt "output/" ++ s ++ txt ".cp")]).
(** Makefile:69-79 and 91-92: the pattern rules whose target matches *)
Definition pattern_rules (t : text) : list how :=
  (match stem (txt "output/") (txt ".cp") t with Some s => [copy_rule s] | None => [] end)
  ++ (match stem (txt "output/cluster-colors_") (txt ".csv.bak") t with Some s => [([], bench_recipe (cluster_rule s))] | None => [] end)
  ++ (match stem (txt "output/voronoi_") (txt ".csv.bak") t with Some s => [([], bench_recipe (voronoi_rule s))] | None => [] end)
  ++ (match stem (txt "output/hilbert-rle-approx_") (txt ".csv") t with Some s => [([], bench_recipe (approx_rule s))] | None => [] end).
(** The file is a target or a prerequisite of a rule without a pattern *)
Definition mentioned (t : text) : bool :=
  existsb (fun q => text_eqb (fst q) t || existsb (fun u => text_eqb u t) (fst (snd q))) explicit_rules.

Section Make.
  Variables (p : profile) (is_digit : N -> bool) (parse_f64 : text -> option f64) (show : f64 -> text).

  (** One command, if it can succeed.  The benchmark creates its table at once, which
      needs the folder (src/bench.rs:84-91). *)
  Definition act (a : action) (fs : folder) : option folder :=
    match a with
    | RunBench t =>
        match any_codec_from_str p is_digit parse_f64 t with
        | POk c => if fs (txt "output") then Some (create (table_file show c) fs) else None
        | _ => None
        end
    | Cp from to => if fs from then Some (create to fs) else None
    | Touch name => Some (create name fs)
    | Mkdir name => if fs name then None else Some (create name fs)
    | Wget name => Some (create name fs)
    | Unzip from to => if fs from then Some (create to fs) else None
    | Python script drawing => if fs script then Some (create drawing fs) else None
    end.
  (** A recipe: stops at the first failure *)
  Fixpoint acts (l : list action) (fs : folder) : option folder :=
    match l with
    | [] => Some fs
    | a :: l => match act a fs with Some fs => acts l fs | None => None end
    end.

  (** A prerequisite that lets a pattern rule apply: it exists, ought to exist, or can be
      made by another pattern rule (GNU make, "Implicit Rule Search Algorithm").  The
      rules built into make need files that are not there. *)
  Inductive possible (fs : folder) : text -> Prop :=
  | possible_file t : fs t = true -> possible fs t
  | possible_mentioned t : mentioned t = true -> possible fs t
  | possible_pattern t h : In h (pattern_rules t) -> Forall (possible fs) (fst h) -> possible fs t.

  (** The successful ways to bring a target up to date.  A recipe may be skipped if the
      target is there: that depends on the times of the files. *)
  Inductive builds : folder -> text -> folder -> Prop :=
  | builds_source fs t : explicit_rule t = None -> fs t = true -> builds fs t fs
  | builds_explicit fs t pre l fs1 fs2 : explicit_rule t = Some (pre, l) -> builds_all fs pre fs1 ->
      acts l fs1 = Some fs2 \/ (fs1 t = true /\ fs2 = fs1) -> builds fs t fs2
  | builds_pattern fs t pre l fs1 fs2 : explicit_rule t = None -> In (pre, l) (pattern_rules t) -> Forall (possible fs) pre -> builds_all fs pre fs1 ->
      acts l fs1 = Some fs2 \/ (fs1 t = true /\ fs2 = fs1) -> builds fs t fs2
  with builds_all : folder -> list text -> folder -> Prop :=
  | builds_none fs : builds_all fs [] fs
  | builds_more fs t ts fs1 fs2 : builds fs t fs1 -> builds_all fs1 ts fs2 -> builds_all fs (t :: ts) fs2.
End Make.
