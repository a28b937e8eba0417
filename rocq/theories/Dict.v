(** * Model of src/zip/dict.rs: the dictionary compressor.

    [print_stats] and [Drop for TrieMap] are in TrieStats.v.  Not modelled:
    the message printed by [to_full]. *)
From Verif Require Import Base Ser Utils.

(** src/zip/dict.rs:6 *)
Definition ZIP_SPECIAL_EOF : N := 65535.

(** ** Content (src/zip/dict.rs:452-553) *)
Inductive content (V : Type) :=
| Partial (keys : list N) (values : list V)
| Full (data : list (option V)).
Arguments Partial {V}. Arguments Full {V}.

(** src/zip/dict.rs:463-468 *)
Definition content_new {V} : content V := Partial [] [].
(** src/zip/dict.rs:470-475 *)
Fixpoint content_find (keys : list N) (byte : N) : option nat :=
  match keys with
  | [] => None
  | x :: keys => if (x =? byte)%N then Some O else option_map S (content_find keys byte)
  end.
(** src/zip/dict.rs:477-487; indexing [data] out of bounds would panic, here it
    reads as [None]: a byte is always below 256. *)
Definition content_get {V} (c : content V) (byte : N) : option V :=
  match c with
  | Partial keys values => match content_find keys byte with
                           | Some idx => nth_error values idx
                           | None => None
                           end
  | Full data => match nth_error data (N.to_nat byte) with Some o => o | None => None end
  end.
(** [slice[i] = x] *)
Fixpoint set_nth {X} (l : list X) (i : nat) (x : X) : list X :=
  match l, i with
  | [], _ => []
  | _ :: l, O => x :: l
  | y :: l, S i => y :: set_nth l i x
  end.
(** src/zip/dict.rs:489-499 [get_mut], followed by an assignment through it *)
Definition content_set {V} (c : content V) (byte : N) (v : V) : content V :=
  match c with
  | Partial keys values => match content_find keys byte with
                           | Some idx => Partial keys (set_nth values idx v)
                           | None => c
                           end
  | Full data => Full (set_nth data (N.to_nat byte) (Some v))
  end.
(** src/zip/dict.rs:502 *)
Definition THRESHOLD : nat := 64.
(** src/zip/dict.rs:536-552 *)
Definition to_full {V} (keys : list N) (values : list V) : list (option V) :=
  fold_left (fun data kv => set_nth data (N.to_nat (fst kv)) (Some (snd kv)))
            (combine keys values) (repeat None 256).
(** src/zip/dict.rs:530-532 *)
Definition full_upsert {V} (data : list (option V)) (byte : N) (v : V) : option V * content V :=
  (match nth_error data (N.to_nat byte) with Some o => o | None => None end,
   Full (set_nth data (N.to_nat byte) (Some v))).
(** src/zip/dict.rs:504-534: the previous value and the new content; the recursive
    call after [to_full] always meets a [Full]. *)
Definition content_upsert {V} (c : content V) (byte : N) (v : V) : res (option V) * content V :=
  match c with
  | Partial keys values =>
      match content_find keys byte with
      | Some idx => match nth_error values idx with
                    | Some prev => (Ok (Some prev), Partial keys (set_nth values idx v))
                    | None => (Panic, c)                              (* unwrap, line 510 *)
                    end
      | None => if (length keys <? THRESHOLD)%nat
                then (Ok None, Partial (keys ++ [byte]) (values ++ [v]))
                else let '(prev, c') := full_upsert (to_full keys values) byte v in (Ok prev, c')
      end
  | Full data => let '(prev, c') := full_upsert data byte v in (Ok prev, c')
  end.

(** ** Node and TrieMap (src/zip/dict.rs:296-323, 442-445, 555-590) *)
Inductive node (T : Type) := Node (children : content (node T)) (values : content T).
Arguments Node {T}.
(** src/zip/dict.rs:443 *)
Definition children {T} (n : node T) := let 'Node c _ := n in c.
(** src/zip/dict.rs:444 *)
Definition values {T} (n : node T) := let 'Node _ v := n in v.
(** src/zip/dict.rs:574-579, 299-301 *)
Definition node_new {T} : node T := Node content_new content_new.
(** src/zip/dict.rs:556-564 *)
Definition child {T} (n : node T) (byte : N) : option (node T) := content_get (children n) byte.
(** src/zip/dict.rs:587-589 *)
Definition value_of {T} (n : node T) (byte : N) : option T := content_get (values n) byte.

(** src/zip/dict.rs:308-323 [insert]: the previous value and the new trie.  The
    loop over [seq[0..len-1]] is the recursion; writing through the [&mut] is
    [content_set] on the way back. *)
Fixpoint trie_insert {T} (n : node T) (seq : list N) (v : T) : res (option T * node T) :=
  match seq with
  | [] => Panic                                                       (* assert, line 310 *)
  | [last_byte] =>
      match content_upsert (values n) last_byte v with
      | (Ok prev, vals) => Ok (prev, Node (children n) vals)
      | (_, _) => Panic
      end
  | byte :: seq =>
      (* lines 313-316 *)
      res_bind (match child n byte with
                | Some _ => Ok n
                | None => match content_upsert (children n) byte node_new with
                          | (Ok None, ch) => Ok (Node ch (values n))
                          | (_, _) => Panic
                          end
                end) (fun n =>
      (* line 317 *)
      match child n byte with
      | None => Panic
      | Some c => res_bind (trie_insert c seq v) (fun '(prev, c) =>
                  Ok (prev, Node (content_set (children n) byte c) (values n)))
      end)
  end.

(** src/zip/dict.rs:593-609 [Descent]: the current node; [down] *)
Definition down {T} (n : node T) (byte : N) : option T * option (node T) :=
  (value_of n byte, child n byte).

(** ** Abbrev (src/zip/dict.rs:263-291) *)
Definition abbrev_next (counter : N) : option N * N :=
  if (counter =? ZIP_SPECIAL_EOF)%N then (None, counter) else (Some counter, counter + 1)%N.

(** ** Input (src/zip/dict.rs:139-170) *)
Record input (S : Type) := mkInput { in_src : S; in_left : list N }.
Arguments mkInput {S}. Arguments in_src {S}. Arguments in_left {S}.
(** [Vec::pop]: the last element *)
Definition vec_pop {A} (l : list A) : option (A * list A) :=
  match rev l with [] => None | x :: r => Some (x, rev r) end.
(** src/zip/dict.rs:148-152 *)
Definition input_next {S} (next : nextf S N) : nextf (input S) N :=
  fun i => match vec_pop (in_left i) with
           | Some (b, l) => (Ok b, mkInput (in_src i) l)
           | None => let '(r, s) := next (in_src i) in (r, mkInput s (in_left i))
           end.
(** src/zip/dict.rs:166-169 *)
Definition save_unused {S} (i : input S) (unused : list N) : input S :=
  mkInput (in_src i) (in_left i ++ rev unused).

(** ** DictEncoder (src/zip/dict.rs:27-137) *)
Record dict_enc (S : Type) := mkDE { de_input : input S; de_trie : node N; de_abbrev : N }.
Arguments mkDE {S}. Arguments de_input {S}. Arguments de_trie {S}. Arguments de_abbrev {S}.

(** src/zip/dict.rs:52-62 *)
Definition create_symbol {S} (z : dict_enc S) (seq : list N) : res (dict_enc S) :=
  match abbrev_next (de_abbrev z) with
  | (Some new_code, counter) =>
      res_bind (trie_insert (de_trie z) seq new_code) (fun '(_, trie) => Ok (mkDE (de_input z) trie counter))
  | (None, counter) => Ok (mkDE (de_input z) (de_trie z) counter)
  end.
(** the bytes 0x00..=0xff *)
Definition all_bytes : list N := map N.of_nat (seq 0 256).
(** src/zip/dict.rs:44-46: the loop over the single bytes *)
Fixpoint create_all {S} (z : dict_enc S) (l : list N) : res (dict_enc S) :=
  match l with
  | [] => Ok z
  | b :: l => res_bind (create_symbol z [b]) (fun z => create_all z l)
  end.
(** src/zip/dict.rs:36-50 *)
Definition dict_enc_new {S} (s : S) : res (dict_enc S) :=
  res_bind (create_all (mkDE (mkInput s []) node_new 0) all_bytes) (fun z =>
  res_bind (assert_ (de_abbrev z =? 256)%N) (fun _ => Ok z)).

Section Encoder.
  Context {S : Type} (next : nextf S N).

  (** src/zip/dict.rs:103-130: the loop of [find_symbol].  [fuel] bounds the number
      of bytes pulled; running out of it is reported as [Panic], which the theorems
      exclude. *)
  Fixpoint find_loop (fuel : nat) (descent : node N) (i : input S)
      (longest_symbol : option N) (longest_seq extra_bytes : list N)
    : res (option N * list N * input S) :=
    match fuel with
    | O => Panic
    | Datatypes.S fuel =>
        match input_next next i with
        | (Panic, _) => Panic
        | (Err, i) => Ok (longest_symbol, longest_seq, save_unused i extra_bytes)
        | (Ok byte, i) =>
            let '(trie_entry, new_descent) := down descent byte in
            let '(longest_symbol, longest_seq, extra_bytes) :=
              match trie_entry with
              | Some symbol => (Some symbol, longest_seq ++ extra_bytes ++ [byte], [])
              | None => (longest_symbol, longest_seq, extra_bytes ++ [byte])
              end in
            match new_descent with
            | Some d => find_loop fuel d i longest_symbol longest_seq extra_bytes
            | None => Ok (longest_symbol, longest_seq, save_unused i extra_bytes)
            end
        end
    end.
  (** src/zip/dict.rs:96-136 *)
  Definition find_symbol (fuel : nat) (z : dict_enc S) : res (option N * list N * dict_enc S) :=
    res_bind (find_loop fuel (de_trie z) (de_input z) None [] []) (fun '(sym, seq, i) =>
    Ok (sym, seq, mkDE i (de_trie z) (de_abbrev z))).

  (** [Vec::is_empty] *)
  Definition is_nil {A} (l : list A) : bool := match l with [] => true | _ => false end.
  (** src/zip/dict.rs:73, 84: [left_over.is_empty() && input.next().is_none()] *)
  Definition input_over (i : input S) : res (bool * input S) :=
    if is_nil (in_left i)
    then match next (in_src i) with
         | (Ok _, s) => Ok (false, mkInput s (in_left i))
         | (Err, s) => Ok (true, mkInput s (in_left i))
         | (Panic, _) => Panic
         end
    else Ok (false, i).

  (** src/zip/dict.rs:66-94 *)
  Definition next_pair (fuel : nat) (z : dict_enc S) : res (option (N * N) * dict_enc S) :=
    res_bind (find_symbol fuel z) (fun '(symbol1, seq1, z) =>
    match symbol1 with
    | None =>
        res_bind (assert_ (is_nil seq1)) (fun _ =>
        res_bind (input_over (de_input z)) (fun '(over, i) =>
        res_bind (assert_ over) (fun _ => Ok (None, mkDE i (de_trie z) (de_abbrev z)))))
    | Some symbol1 =>
        res_bind (assert_ (0 <? length seq1)%nat) (fun _ =>
        res_bind (find_symbol fuel z) (fun '(symbol2, seq2, z) =>
        match symbol2 with
        | None =>
            res_bind (assert_ (is_nil seq2)) (fun _ =>
            res_bind (input_over (de_input z)) (fun '(over, i) =>
            res_bind (assert_ over) (fun _ =>
            Ok (Some (symbol1, ZIP_SPECIAL_EOF), mkDE i (de_trie z) (de_abbrev z)))))
        | Some symbol2 =>
            res_bind (assert_ (0 <? length seq2)%nat) (fun _ =>
            res_bind (create_symbol z (seq1 ++ seq2)) (fun z =>
            Ok (Some (symbol1, symbol2), z)))
        end))
    end).

  (** src/zip/dict.rs:11-14: the loop of [zip_dict_encode] *)
  Fixpoint dict_encode_loop (fuel : nat) (pairs : nat) (z : dict_enc S) : io unit :=
    match pairs with
    | O => io_panic
    | Datatypes.S pairs =>
        match next_pair fuel z with
        | Ok (Some (symbol1, symbol2), z) =>
            io_bind (ser_u16 symbol1) (fun _ => io_bind (ser_u16 symbol2) (fun _ =>
            dict_encode_loop fuel pairs z))
        | Ok (None, _) => io_ret tt
        | Err | Panic => io_panic
        end
    end.
  (** src/zip/dict.rs:8-19.  [fuel] bounds both loops. *)
  Definition zip_dict_encode (fuel : nat) (s : S) : io unit :=
    match dict_enc_new s with
    | Ok z => dict_encode_loop fuel fuel z
    | Err | Panic => io_panic
    end.
End Encoder.

(** ** DictDecoder (src/zip/dict.rs:174-260) *)
Record dict_dec (S : Type) := mkDD {
  dd_stream : S; dd_prev : list N; dd_mapping : list (N * list N); dd_abbrev : N }.
Arguments mkDD {S}. Arguments dd_stream {S}. Arguments dd_prev {S}. Arguments dd_mapping {S}. Arguments dd_abbrev {S}.

(** src/zip/dict.rs:219-236, 21-23 *)
Definition zip_dict_decode {S} (s : S) : dict_dec S :=
  let m := fold_left (fun m b => hm_insert N.eqb b [b] m) all_bytes [] in
  mkDD s [] (hm_insert N.eqb ZIP_SPECIAL_EOF [] m) 256.

(** src/zip/dict.rs:184-214 [next].  The tail call [self.next()] is a real call in
    Rust: [stack] is the number of nested calls available; going deeper is an abort
    ([Panic], stack overflow). *)
Fixpoint dd_next {S} (next : nextf S N) (stack : nat) (d : dict_dec S) : res N * dict_dec S :=
  match stack with
  | O => (Panic, d)
  | Datatypes.S stack =>
      match dd_prev d with
      | b :: prev => (Ok b, mkDD (dd_stream d) prev (dd_mapping d) (dd_abbrev d))
      | [] =>
          match deser_u16 S next (dd_stream d) with
          | (Err, s) => (Err, mkDD s [] (dd_mapping d) (dd_abbrev d))
          | (Panic, s) => (Panic, mkDD s [] (dd_mapping d) (dd_abbrev d))
          | (Ok symbol1, s) =>
              match deser_u16 S next s with
              | (Err, s) | (Panic, s) => (Panic, mkDD s [] (dd_mapping d) (dd_abbrev d))
              | (Ok symbol2, s) =>
                  match hm_get N.eqb symbol1 (dd_mapping d), hm_get N.eqb symbol2 (dd_mapping d) with
                  | Some seq1, Some seq2 =>
                      let total_seq := seq1 ++ seq2 in
                      let '(mapping, counter) :=
                        match abbrev_next (dd_abbrev d) with
                        | (Some new_code, counter) => (hm_insert N.eqb new_code total_seq (dd_mapping d), counter)
                        | (None, counter) => (dd_mapping d, counter)
                        end in
                      dd_next next stack (mkDD s total_seq mapping counter)
                  | _, _ => (Panic, mkDD s [] (dd_mapping d) (dd_abbrev d))
                  end
              end
          end
      end
  end.
