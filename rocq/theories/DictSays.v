(** * Model of what zip-dict prints (src/zip/dict.rs:16, 325-399, 537).

    The functions of Dict.v once more, with their output in order.  Of [print_stats] only
    the figures are modelled (as in TrieStats.v), not the text around them. *)
From Coq Require Import String.
From Verif Require Import Base Ser Utils Dict TrieStats Prs Says.
Close Scope string_scope.
Open Scope list_scope.

Inductive dict_line :=
| Converting               (* src/zip/dict.rs:537 *)
| TrieStats (s : stats).   (* src/zip/dict.rs:387-398 *)
(** The text of the first, without the line feed *)
Definition converting_text : text := txt "Converting Content::Partial into Content::Full!".

(** A computation without state that prints *)
Definition tells (M A : Type) : Type := list M * res A.
Definition quietly {M A} (r : res A) : tells M A := ([], r).
Definition tell_bind {M A B} (m : tells M A) (f : A -> tells M B) : tells M B :=
  match m with
  | (o, Ok a) => let '(o', r) := f a in (o ++ o', r)
  | (o, Err) => (o, Err)
  | (o, Panic) => (o, Panic)
  end.

(** src/zip/dict.rs:502-534 and the line of [to_full] (536-553) *)
Definition upsert_says {V} (c : content V) (byte : N) (v : V) : list dict_line * (res (option V) * content V) :=
  match c with
  | Partial keys values =>
      match content_find keys byte with
      | Some idx => ([], match nth_error values idx with
                         | Some prev => (Ok (Some prev), Partial keys (set_nth values idx v))
                         | None => (Panic, c)
                         end)
      | None => if (length keys <? THRESHOLD)%nat
                then ([], (Ok None, Partial (keys ++ [byte]) (values ++ [v])))
                else let '(prev, c') := full_upsert (to_full keys values) byte v in ([Converting], (Ok prev, c'))
      end
  | Full data => let '(prev, c') := full_upsert data byte v in ([], (Ok prev, c'))
  end.
(** src/zip/dict.rs:307-322 *)
Fixpoint insert_says {T} (n : node T) (seq : list N) (v : T) : tells dict_line (option T * node T) :=
  match seq with
  | [] => quietly Panic
  | [last_byte] =>
      match upsert_says (values n) last_byte v with
      | (o, (Ok prev, vals)) => (o, Ok (prev, Node (children n) vals))
      | (o, _) => (o, Panic)
      end
  | byte :: seq =>
      tell_bind (match child n byte with
                 | Some _ => quietly (Ok n)
                 | None => match upsert_says (children n) byte node_new with
                           | (o, (Ok None, ch)) => (o, Ok (Node ch (values n)))
                           | (o, _) => (o, Panic)
                           end
                 end) (fun n =>
      match child n byte with
      | None => quietly Panic
      | Some c => tell_bind (insert_says c seq v) (fun '(prev, c) =>
                  quietly (Ok (prev, Node (content_set (children n) byte c) (values n))))
      end)
  end.
(** src/zip/dict.rs:52-64 *)
Definition create_says {S} (z : dict_enc S) (seq : list N) : tells dict_line (dict_enc S) :=
  match abbrev_next (de_abbrev z) with
  | (Some new_code, counter) =>
      tell_bind (insert_says (de_trie z) seq new_code) (fun '(_, trie) => quietly (Ok (mkDE (de_input z) trie counter)))
  | (None, counter) => quietly (Ok (mkDE (de_input z) (de_trie z) counter))
  end.
(** src/zip/dict.rs:44-46 *)
Fixpoint create_all_says {S} (z : dict_enc S) (l : list N) : tells dict_line (dict_enc S) :=
  match l with
  | [] => quietly (Ok z)
  | b :: l => tell_bind (create_says z [b]) (fun z => create_all_says z l)
  end.
(** src/zip/dict.rs:36-50 *)
Definition new_says {S} (s : S) : tells dict_line (dict_enc S) :=
  tell_bind (create_all_says (mkDE (mkInput s []) node_new 0) all_bytes) (fun z =>
  tell_bind (quietly (assert_ (de_abbrev z =? 256)%N)) (fun _ => quietly (Ok z))).

Section Encoder.
  Context {S : Type} (next : nextf S N).
  (** src/zip/dict.rs:66-94 *)
  Definition next_pair_says (fuel : nat) (z : dict_enc S) : tells dict_line (option (N * N) * dict_enc S) :=
    tell_bind (quietly (find_symbol next fuel z)) (fun '(symbol1, seq1, z) =>
    match symbol1 with
    | None =>
        tell_bind (quietly (assert_ (is_nil seq1))) (fun _ =>
        tell_bind (quietly (input_over next (de_input z))) (fun '(over, i) =>
        tell_bind (quietly (assert_ over)) (fun _ => quietly (Ok (None, mkDE i (de_trie z) (de_abbrev z))))))
    | Some symbol1 =>
        tell_bind (quietly (assert_ (0 <? length seq1)%nat)) (fun _ =>
        tell_bind (quietly (find_symbol next fuel z)) (fun '(symbol2, seq2, z) =>
        match symbol2 with
        | None =>
            tell_bind (quietly (assert_ (is_nil seq2))) (fun _ =>
            tell_bind (quietly (input_over next (de_input z))) (fun '(over, i) =>
            tell_bind (quietly (assert_ over)) (fun _ =>
            quietly (Ok (Some (symbol1, ZIP_SPECIAL_EOF), mkDE i (de_trie z) (de_abbrev z))))))
        | Some symbol2 =>
            tell_bind (quietly (assert_ (0 <? length seq2)%nat)) (fun _ =>
            tell_bind (create_says z (seq1 ++ seq2)) (fun z =>
            quietly (Ok (Some (symbol1, symbol2), z))))
        end))
    end).
  (** src/zip/dict.rs:11-18; [nodes] bounds the number of nodes that [print_stats] visits *)
  Fixpoint encode_loop_says (nodes fuel pairs : nat) (z : dict_enc S) : says dict_line writer unit :=
    match pairs with
    | O => hush io_panic
    | Datatypes.S pairs =>
        match next_pair_says fuel z with
        | (o, Ok (Some (symbol1, symbol2), z)) =>
            after o (says_bind (hush (ser_u16 symbol1)) (fun _ => says_bind (hush (ser_u16 symbol2)) (fun _ =>
            encode_loop_says nodes fuel pairs z)))
        | (o, Ok (None, z)) =>
            after o (match trie_stats nodes (de_trie z) with
                     | Some s => utter (TrieStats s)
                     | None => hush io_panic
                     end)
        | (o, _) => after o (hush io_panic)
        end
    end.
  (** src/zip/dict.rs:8-19 *)
  Definition zip_dict_says (nodes fuel : nat) (s : S) : says dict_line writer unit :=
    match new_says s with
    | (o, Ok z) => after o (encode_loop_says nodes fuel fuel z)
    | (o, _) => after o (hush io_panic)
    end.
End Encoder.
