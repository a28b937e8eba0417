(** * Specification vocabulary for zip-dict (C17-C21). *)
From Verif Require Import Base Ser SerSpec Bit HufSpec Dict.

(** The iterator delivers [l], then reports its end, and keeps doing so. *)
Definition ended {S A} (next : nextf S A) (s : S) : Prop :=
  exists I : S -> Prop, I s /\ forall s, I s -> exists s', next s = (Err, s') /\ I s'.
Definition delivers {S A} (next : nextf S A) (s : S) (l : list A) : Prop :=
  exists s', yields next s l s' /\ ended next s'.

(** ** The trie as a finite map *)
(** Doing a list of insertions, collecting what each returned. *)
Fixpoint insert_all {T} (n : node T) (hist : list (list N * T)) : res (list (option T) * node T) :=
  match hist with
  | [] => Ok ([], n)
  | (k, v) :: hist => res_bind (trie_insert n k v) (fun '(prev, n) =>
                      res_bind (insert_all n hist) (fun '(prevs, n) => Ok (prev :: prevs, n)))
  end.
(** The value most recently inserted for a key. *)
Fixpoint latest {T} (hist : list (list N * T)) (k : list N) : option T :=
  match hist with
  | [] => None
  | (k', v) :: hist => match latest hist k with
                       | Some v => Some v
                       | None => if list_eq_dec N.eq_dec k k' then Some v else None
                       end
  end.
(** Following a path by [down]; [None] when the descent ended before. *)
Fixpoint follow {T} (n : node T) (path : list N) : option (node T) :=
  match path with
  | [] => Some n
  | b :: path => match snd (down n b) with Some n => follow n path | None => None end
  end.
Definition byte_key (k : list N) : Prop := k <> [] /\ Forall u8_ok k.

(** ** The compressed form *)
(** A dictionary: the string at index [c] is what code [c] stands for. *)
Definition dictionary := list (list N).
(** initially every single byte, under its own value *)
Definition initial_dict : dictionary := map (fun b => [N.of_nat b]) (seq 0 256).
(** Code [c] is the longest dictionary string that starts the input. *)
Definition longest (d : dictionary) (rest : list N) (c : N) (s : list N) : Prop :=
  nth_error d (N.to_nat c) = Some s /\ prefix s rest /\
  forall s', In s' d -> prefix s' rest -> (length s' <= length s)%nat.
(** Codes are 16 bits and 0xffff is reserved. *)
Definition grow (d : dictionary) (s : list N) : dictionary :=
  if (N.of_nat (length d) <? 65535)%N then d ++ [s] else d.

(** Greedy pairwise parsing of the input. *)
Inductive greedy : dictionary -> list N -> list N -> Prop :=
| greedy_end d : greedy d [] []
| greedy_last d rest c : longest d rest c rest -> rest <> [] -> greedy d rest [c; 65535%N]
| greedy_pair d c1 s1 c2 s2 rest syms :
    longest d (s1 ++ s2 ++ rest) c1 s1 -> s1 <> [] ->
    longest d (s2 ++ rest) c2 s2 -> s2 <> [] ->
    ~ In (s1 ++ s2) d ->
    greedy (grow d (s1 ++ s2)) rest syms ->
    greedy d (s1 ++ s2 ++ rest) (c1 :: c2 :: syms).

(** The codes as little-endian 16-bit words. *)
Definition words (syms : list N) : list N := flat_map le16 syms.

(** ** Decoding *)
Definition code_string (d : dictionary) (c : N) : option (list N) :=
  if (c =? 65535)%N then Some [] else nth_error d (N.to_nat c).
(** How a decoder ends: end of data, or abort. *)
Inductive ending := Finished | Aborted.
Inductive expands : dictionary -> list N -> list N -> ending -> Prop :=
| expands_end d : expands d [] [] Finished
| expands_odd d c : expands d [c] [] Aborted
| expands_bad d c1 c2 syms : code_string d c1 = None \/ code_string d c2 = None ->
    expands d (c1 :: c2 :: syms) [] Aborted
| expands_pair d c1 s1 c2 s2 syms out e :
    code_string d c1 = Some s1 -> code_string d c2 = Some s2 ->
    expands (grow d (s1 ++ s2)) syms out e ->
    expands d (c1 :: c2 :: syms) (s1 ++ s2 ++ out) e.
(** 16-bit words of a byte stream; an odd last byte is dropped. *)
Fixpoint words_of (bs : list N) : list N :=
  match bs with
  | lo :: hi :: bs => (lo + 256 * hi)%N :: words_of bs
  | _ => []
  end.
