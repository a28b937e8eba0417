(** * Specification vocabulary for what zip-back prints (C90). *)
From Coq Require Import Sorted.
From Verif Require Import Base Ser SerSpec Back BackSpec Says BackSays.

(** At how many places of the window the next six bytes of the input occur. *)
Definition places (R : N) (h rest : list N) : N := N.of_nat (length (occurrences R h (firstn 6 rest))).

(** What a search that finds a repetition of [len] of the [n] remaining bytes prints: it
    looks once, and once more after each time all [a] bytes at hand were part of the
    repetition and more could be had; if the repetition reaches the end of the input it
    asks for more in vain. *)
Definition found_marks (k : N) (n len : N) (o : list mark) : Prop :=
  exists (again : list (N * N)) (last : list mark),
    o = Searched k :: concat (map (fun ac => [Extra (fst ac) (snd ac); Searched k]) again) ++ last
    /\ StronglySorted N.lt (map fst again)
    /\ Forall (fun ac => 6 <= fst ac <= len /\ fst ac < n)%N again
    /\ (if (len =? n)%N then exists c, last = [Extra n c] else last = []).
(** One that finds nothing: it looks once, if there are six bytes to look for. *)
Definition missed_marks (rest : list N) : list mark := if (6 <=? length rest)%nat then [Searched 0] else [].
Definition literal_marks (lits : list N) : list mark :=
  match lits with [] => [] | _ => [Lit (N.of_nat (length lits))] end.

(** [told R h lits rest o]: after the history [h], with [lits] pending, everything that is
    printed while the input [rest] is compressed, if nothing stops it (as [parses]). *)
Inductive told (R : N) : list N -> list N -> list N -> list mark -> Prop :=
| told_repeat h lits rest len back o more :
    best_match R h rest len back -> found_marks (places R h rest) (N.of_nat (length rest)) len o ->
    told R (h ++ firstn (N.to_nat len) rest) [] (skipn (N.to_nat len) rest) more ->
    told R h lits rest (o ++ literal_marks lits ++ Rep len :: more)
| told_more h lits rest more :
    no_match R h rest -> (grow_by lits <= length rest)%nat ->
    told R (h ++ firstn (grow_by lits) rest) (lits ++ firstn (grow_by lits) rest) (skipn (grow_by lits) rest) more ->
    told R h lits rest (missed_marks rest ++ more)
| told_last h lits rest :
    no_match R h rest -> (length rest < grow_by lits)%nat ->
    told R h lits rest (missed_marks rest ++ literal_marks (lits ++ rest)).

(** Where it stops: the number of bytes of a symbol that has been announced does not fit
    fifteen bits, or the symbol does not fit the writer.  [room]: see Base.v. *)
Fixpoint heard (room : option nat) (o : list mark) : list mark :=
  match o with
  | [] => []
  | Lit n :: o => Lit n :: if (32767 <? n)%N then [] else
      match room with
      | None => heard None o
      | Some k => if (2 + n <=? N.of_nat k)%N then heard (Some (k - 2 - N.to_nat n)%nat) o else []
      end
  | Rep n :: o => Rep n :: if (32767 <? n)%N then [] else
      match room with
      | None => heard None o
      | Some k => if (4 <=? k)%nat then heard (Some (k - 4)%nat) o else []
      end
  | m :: o => m :: heard room o
  end.

(** The numbers announced for symbols *)
Definition announced (m : mark) : list N := match m with Lit n => [n] | Rep n => [n] | _ => [] end.
(** The announcement of a symbol *)
Definition announcement (s : symbol) : mark :=
  match s with Explicit data => Lit (N.of_nat (length data)) | LookBack len _ => Rep len end.
Definition is_announcement (m : mark) : bool := match m with Lit _ | Rep _ => true | _ => false end.
