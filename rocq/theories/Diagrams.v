(** * Model of the scripts that draw the diagrams (scripts/cniic.py, scripts/png.py,
    scripts/diagrams/boxplot.py, scripts/diagrams/error_vs_compression_plot.py).

    The layout of the drawings is not modelled: only which files are read, and which
    values are drawn under which name.  An exception is [Panic]. *)
From Coq Require Import String.
From Verif Require Import Base Prs Img Float HilbertC Select Bench Special.
Close Scope string_scope.
Open Scope list_scope.
Notation length := List.length.

(** ** Which files *)
(** [str.endswith] *)
Definition ends_with (suf t : text) : bool := (length suf <=? length t)%nat && text_eqb (skipn (length t - length suf) t) suf.
(** scripts/cniic.py:10-12 on the names in the folder [output]; [*] does not match names
    that start with a dot. *)
Definition is_diagram_csv (name : text) : bool :=
  match name with
  | [] => false
  | c :: _ => negb (c =? DOT)%N && ends_with (txt ".csv") name && negb (ends_with (txt ".hilbert.csv") name)
  end.
(** scripts/cniic.py:10-12 *)
Definition diagram_csvs (folder : list text) : list text := filter is_diagram_csv folder.
(** [os.path.splitext(name)[0]] of a name that does not start with a dot: up to the last dot *)
Definition splitext (name : text) : text :=
  match rev (split_on DOT name) with
  | _ :: before :: l => concat (map (fun p => p ++ [DOT]) (rev l)) ++ before
  | _ => name
  end.
(** scripts/diagrams/error_vs_compression_plot.py:14-16 *)
Definition UNDERSCORE : N := 95.
Definition series_name (name : text) : text := hd [] (split_on UNDERSCORE (splitext name)).

(** ** Their contents *)
(** A file of src/bench.rs, or of scripts/png.py:9-11 and 21: name, size, ratio *)
Inductive csv_file := BenchTable (rows : list row) | PngTable (rows : list (text * N * f64)).
(** The columns [compression_ratio] and, if there is one, [error] *)
Record frame := mkFrame { f_ratios : list f64; f_errors : option (list f64) }.
(** The records below the header *)
Fixpoint records (rows : list row) : list record :=
  match rows with [] => [] | Header :: rows => records rows | Row r :: rows => r :: records rows end.
Section Scripts.
  (** The number that pandas reads where [x] was written; [Series.mean] *)
  Variables (reread : f64 -> f64) (mean : list f64 -> f64).
  (** [pd.read_csv]; a file without any line is an exception *)
  Definition read_csv (f : csv_file) : res frame :=
    match f with
    | BenchTable [] => Panic
    | BenchTable rows => Ok (mkFrame (map (fun r : record => let '(_, _, ratio, _) := r in reread ratio) (records rows))
                                     (Some (map (fun r : record => let '(_, _, _, e) := r in reread e) (records rows))))
    | PngTable l => Ok (mkFrame (map (fun r : text * N * f64 => reread (snd r)) l) None)
    end.

  (** scripts/diagrams/boxplot.py:25: is the table one of a lossless codec *)
  Definition boxed (f : frame) : bool := match f_errors f with None => true | Some es => feq (mean es) (f64_of_N 0) end.
  (** scripts/diagrams/boxplot.py:22-31 *)
  Fixpoint gather (files : list (text * csv_file)) : res (list (list f64 * text)) :=
    match files with
    | [] => Ok []
    | (name, f) :: files =>
        res_bind (read_csv f) (fun fr =>
        res_bind (gather files) (fun rest => Ok (if boxed fr then (f_ratios fr, splitext name) :: rest else rest)))
    end.
  (** scripts/diagrams/boxplot.py:10-13: a stable sort *)
  Fixpoint insert_box (b : list f64 * text) (l : list (list f64 * text)) : list (list f64 * text) :=
    match l with
    | [] => [b]
    | b' :: l => if flt (mean (fst b')) (mean (fst b)) then b' :: insert_box b l else b :: b' :: l
    end.
  (** scripts/diagrams/boxplot.py:12 *)
  Definition sort_boxes (l : list (list f64 * text)) : list (list f64 * text) := fold_right insert_box [] l.
  (** scripts/diagrams/boxplot.py:15-33 and 45; [unzip] of nothing cannot be unpacked. *)
  Definition boxplot (files : list (text * csv_file)) : res (list (list f64 * text)) :=
    res_bind (gather files) (fun l => match l with [] => Panic | _ => Ok (sort_boxes l) end).

  (** scripts/diagrams/error_vs_compression_plot.py:18-21: the dictionary, in insertion order *)
  Fixpoint add_file (name : text) (file : text * csv_file) (series : list (text * list (text * csv_file))) : list (text * list (text * csv_file)) :=
    match series with
    | [] => [(name, [file])]
    | (n, fs) :: series => if text_eqb n name then (n, fs ++ [file]) :: series else (n, fs) :: add_file name file series
    end.
  (** scripts/diagrams/error_vs_compression_plot.py:10-21 *)
  Definition data_series (files : list (text * csv_file)) : list (text * list (text * csv_file)) :=
    fold_left (fun s file => add_file (series_name (fst file)) file s) files [].
  (** scripts/diagrams/error_vs_compression_plot.py:29-38 *)
  Definition point (f : csv_file) : res (f64 * f64) :=
    res_bind (read_csv f) (fun fr =>
    Ok (fdiv (mean (f_ratios fr)) (f64_of_N 100), match f_errors fr with Some es => mean es | None => f64_of_N 0 end)).
  (** scripts/diagrams/error_vs_compression_plot.py:25-40 *)
  Definition scatter (files : list (text * csv_file)) : res (list (text * list (f64 * f64))) :=
    res_mapM (fun s : text * list (text * csv_file) => res_bind (res_mapM (fun file => point (snd file)) (snd s)) (fun ps => Ok (fst s, ps))) (data_series files).
End Scripts.

(** ** scripts/png.py *)
(** scripts/png.py:15-21: the ratio; [div]: Python's [/] on integers, [None] for a
    division by zero *)
Definition png_ratio (div : N -> N -> option f64) (size w h : N) : option f64 := option_map (fun r => fmul r (f64_of_N 100)) (div size (w * h * 24)%N).
