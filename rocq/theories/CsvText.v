(** * Model of the texts of the csv files (crate [csv] 1.3 with its default settings).

    A file is a list of characters; the four special ones are ASCII, so UTF-8 does not
    matter here.  [csv::Writer] writes a field as it is, or in quotation marks with the
    marks inside doubled, fields are separated by commas, and records end with a line
    feed. *)
From Coq Require Import String.
From Verif Require Import Base Prs Float Bench Special.
Close Scope string_scope.
Open Scope list_scope.

(** The special characters *)
Definition COMMA : N := 44.
Definition MARK : N := 34.
Definition LF : N := 10.
Definition CR : N := 13.
(** csv-core, [Writer::needs_quotes] *)
Definition special_char (c : N) : bool := (c =? COMMA)%N || (c =? MARK)%N || (c =? LF)%N || (c =? CR)%N.
(** csv-core, [quote] with [double_quote] *)
Definition double_marks (t : text) : text := concat (map (fun c => if (c =? MARK)%N then [MARK; MARK] else [c]) t).
(** csv-core, [Writer::field] with [QuoteStyle::Necessary] *)
Definition csv_field (t : text) : text := if existsb special_char t then [MARK] ++ double_marks t ++ [MARK] else t.
(** csv-core, [Writer::delimiter] *)
Fixpoint csv_fields (r : list text) : text :=
  match r with
  | [] => []
  | [t] => csv_field t
  | t :: r => csv_field t ++ [COMMA] ++ csv_fields r
  end.
(** csv-core, [Writer::terminator]: a record without any byte becomes a quoted empty
    field *)
Definition csv_line (r : list text) : text :=
  (match csv_fields r with [] => [MARK; MARK] | l => l end) ++ [LF].
(** All records, in order *)
Definition csv_text (rows : list (list text)) : text := concat (map csv_line rows).

(** The fields of the dumps: [csv.write_record] and [csv.serialize], src/main.rs:38-40 *)
Definition cell_text (c : cell) : text := match c with Word t => t | Num n => decimal n end.
(** The text of a dump *)
Definition dump_text (t : csv) : text := csv_text (map (map cell_text) t).
(** src/bench.rs:68 and 74.  [show64]: how [csv.serialize] writes an f64 (crate ryu) *)
Definition row_fields (show64 : f64 -> text) (r : row) : list text :=
  match r with
  | Header => [txt "name"; txt "compressed_size"; txt "compression_ratio"; txt "error"]
  | Row (name, size, ratio, error) => [name; decimal size; show64 ratio; show64 error]
  end.
(** The text of a benchmark table *)
Definition table_text (show64 : f64 -> text) (rows : list row) : text := csv_text (map (row_fields show64) rows).
