(** * Model of the output files: src/main.rs:23-55 and 91-96, [Codec::name]. *)
From Coq Require Import String Decimal DecimalString.
From Verif Require Import Base Ser Prs Regex Img Float HilbertC Select.
Close Scope string_scope.
Open Scope list_scope.

(** ** Paths (the standard library's [Path] on Unix) *)
Definition SLASH : N := 47.
(** The character before an extension *)
Definition DOT : N := 46.
(** The parts between separators *)
Fixpoint split_on (c : N) (s : text) : list text :=
  match s with
  | [] => [[]]
  | x :: s => let l := split_on c s in
              if (x =? c)%N then [] :: l
              else match l with p :: l => (x :: p) :: l | [] => [[x]] end
  end.
(** [Path::file_name]: the last component, if it is a plain name.  Empty components and
    [.] do not count. *)
Definition file_name (path : text) : option text :=
  match rev (filter (fun c => negb (text_eqb c []) && negb (text_eqb c [DOT])) (split_on SLASH path)) with
  | [] => None
  | name :: _ => if text_eqb name [DOT; DOT] then None else Some name
  end.
(** [Path::file_stem] of a plain name: up to the last dot, unless only the first
    character is a dot *)
Definition file_stem (name : text) : text :=
  match rev (split_on DOT name) with
  | _ :: before :: l =>
      let stem := concat (map (fun p => p ++ [DOT]) (rev l)) ++ before in
      if text_eqb stem [] then name else stem
  | _ => name
  end.
(** src/main.rs:91-96: [PathBuf::from("output")], [push], [set_extension] (with a
    non-empty extension); [unwrap] panics without a file name *)
Definition under_output (path ext : text) : res text :=
  match file_name path with
  | None => Panic
  | Some name => Ok (txt "output/" ++ file_stem name ++ [DOT] ++ ext)
  end.

(** ** [--special=hilbert] *)
(** The csv files: rows of texts or numbers *)
Inductive cell := Word (t : text) | Num (n : N).
(** Rows of cells *)
Definition csv := list (list cell).
(** src/main.rs:34-41: the header, then one row of three numbers per pixel
    ([px.to_rgb().0] is the array of red, green and blue) *)
Definition dump_table (l : list rgba) : csv :=
  [Word (txt "red"); Word (txt "blue"); Word (txt "green")]
  :: map (fun px : rgba => let '(r, g, b) := to_rgb px in [Num r; Num g; Num b]) l.
(** src/main.rs:35-36 *)
Definition dump_file (path meth : text) : res text := under_output path (meth ++ txt ".hilbert.csv").
(** src/main.rs:43-47: the files written for one image, in order.  A panic leaves the
    files before it, which the model does not keep. *)
Definition dump (p : profile) (scan : scanner) (path : text) (im : img) : res (list (text * csv)) :=
  res_bind (linearize_rect scan im) (fun rect =>
  res_bind (dump_file path (txt "rect")) (fun f1 =>
  res_bind (linearize_small p scan im) (fun small =>
  res_bind (dump_file path (txt "small")) (fun f2 =>
  res_bind (linearize_large p scan im) (fun large =>
  res_bind (dump_file path (txt "large")) (fun f3 =>
  Ok [(f1, dump_table rect); (f2, dump_table small); (f3, dump_table large)])))))).

(** ** The names of the codecs *)
(** [{}] of a usize *)
Definition decimal (n : N) : text := txt (NilEmpty.string_of_uint (N.to_uint n)).
(** [Codec::name]: src/codec/clusterc.rs:59-61 and 191-193, src/codec/hilbertc.rs:81-87
    and 433-435, src/codec/hufc.rs:42-44, src/codec/zipc.rs:50-55.  [show]: [{}] of an f64 *)
Definition codec_name (show : f64 -> text) (c : any_codec) : text :=
  match c with
  | ClusterColors n => txt "cluster-colors_" ++ decimal n
  | VoronoiCluster n => txt "voronoi_" ++ decimal n
  | Delta => txt "delta"
  | Hilbert (RLE d) => if feq d (f64_of_N 0) then txt "hilbert-rle" else txt "hilbert-rle-approx_" ++ show d
  | Hilbert MZip => txt "hilbert-zip"
  | Hufman => txt "Hufman"
  | Zip ZDict => txt "zip-dict"
  | Zip ZBack => txt "zip-back"
  end.
(** src/bench.rs:85-91 *)
Definition table_file (show : f64 -> text) (c : any_codec) : text := txt "output/" ++ codec_name show c ++ txt ".csv".
