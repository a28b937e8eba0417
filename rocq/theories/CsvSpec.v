(** * Specification vocabulary for the texts of csv files (C83).

    A reader of csv texts, after RFC 4180: it knows nothing of how they were written. *)
From Verif Require Import Base Prs.

(** Where the reader is: at the start of a field, inside a plain field, inside quotation
    marks, or after a mark that ends the quotation or is the first of two *)
Inductive place := Fresh | Plain | Quoted | Closing.
(** [field], [row]: the characters of this field and the fields of this record so far *)
Fixpoint read_rows (at_ : place) (field : text) (row : list text) (s : text) : option (list (list text)) :=
  match s with
  | [] => match at_, row with Fresh, [] => Some [] | _, _ => None end   (* an unfinished record *)
  | c :: s =>
      let next_field := read_rows Fresh [] (row ++ [field]) s in
      let next_row := match read_rows Fresh [] [] s with Some rows => Some ((row ++ [field]) :: rows) | None => None end in
      match at_ with
      | Fresh => if (c =? 34)%N then read_rows Quoted [] row s
                 else if (c =? 44)%N then next_field
                 else if (c =? 10)%N then match row with [] => read_rows Fresh [] [] s (* an empty line *) | _ => next_row end
                 else if (c =? 13)%N then None
                 else read_rows Plain [c] row s
      | Plain => if (c =? 44)%N then next_field else if (c =? 10)%N then next_row
                 else if (c =? 13)%N || (c =? 34)%N then None   (* must be quoted *)
                 else read_rows Plain (field ++ [c]) row s
      | Quoted => if (c =? 34)%N then read_rows Closing field row s else read_rows Quoted (field ++ [c]) row s
      | Closing => if (c =? 34)%N then read_rows Quoted (field ++ [34%N]) row s
                   else if (c =? 44)%N then next_field else if (c =? 10)%N then next_row
                   else None
      end
  end.
(** The records of a csv text; none if it is not one *)
Definition read_csv_text (s : text) : option (list (list text)) := read_rows Fresh [] [] s.
