(** * Model of the rest of src/zip/dict.rs: [print_stats] and [Drop for TrieMap].

    Counters are unbounded here ([node_count] is an i32: more than 2^31 nodes need more
    than 200 GB).  Only the figures are modelled, not the text around them. *)
From Verif Require Import Base Utils Dict Float.

(** The entries of a [Content] in the order of iteration: src/zip/dict.rs:331-345 and
    409-423 *)
Definition content_items {V} (c : content V) : list V :=
  match c with
  | Partial _ values => values
  | Full data => flat_map (fun o => match o with Some v => [v] | None => [] end) data
  end.
(** src/zip/dict.rs:362-367, 374-379 *)
Definition used_entries {V} (c : content V) : nat :=
  match c with
  | Partial _ values => length values
  | Full data => length (filter (fun s => match s with Some _ => true | None => false end) data)
  end.
(** src/zip/dict.rs:363, 369, 376, 382 *)
Definition tot_entries {V} (c : content V) : nat :=
  match c with Partial _ values => length values | Full _ => 256 end.

(** src/zip/dict.rs:352-357 *)
Record stats := mkStats { st_nodes : nat; st_used_child : nat; st_tot_child : nat; st_used_value : nat; st_tot_value : nat }.
(** src/zip/dict.rs:327-348 and 358-385: [DFS(vec)] and the loop over it; [fuel] bounds
    the number of nodes ([None] when it runs out) *)
Fixpoint stats_loop {T} (fuel : nat) (stack : list (node T)) (a : stats) : option stats :=
  match fuel with
  | O => None
  | S fuel =>
      match vec_pop stack with
      | None => Some a
      | Some (n, stack) =>
          stats_loop fuel (stack ++ content_items (children n))
            (mkStats (st_nodes a + 1)
               (st_used_child a + used_entries (children n)) (st_tot_child a + tot_entries (children n))
               (st_used_value a + used_entries (values n)) (st_tot_value a + tot_entries (values n)))
      end
  end.
(** src/zip/dict.rs:325-385 *)
Definition trie_stats {T} (fuel : nat) (root : node T) : option stats := stats_loop fuel [root] (mkStats 0 0 0 0 0).
(** src/zip/dict.rs:391-394 *)
Definition density (used tot : nat) : f64 := fdiv (f64_of_N (N.of_nat used)) (f64_of_N (N.of_nat tot)).

(** src/zip/dict.rs:408-424 [handle_children]: the node without its children, and the
    grown stack *)
Definition handle_children {T} (n : node T) (stack : list (node T)) : node T * list (node T) :=
  (Node (match children n with
         | Partial keys _ => Partial keys []
         | Full data => Full (map (fun _ => None) data)
         end) (values n),
   stack ++ content_items (children n)).
(** src/zip/dict.rs:427-433: the nodes in the order in which they are freed, each as it
    is when it is freed; [fuel] bounds their number *)
Fixpoint drop_loop {T} (fuel : nat) (stack : list (node T)) : option (list (node T)) :=
  match fuel with
  | O => None
  | S fuel =>
      match vec_pop stack with
      | None => Some []
      | Some (n, stack) =>
          let '(n, stack) := handle_children n stack in
          option_map (cons n) (drop_loop fuel stack)
      end
  end.
(** src/zip/dict.rs:400-435; the root itself is freed after [drop] has returned *)
Definition trie_drop {T} (fuel : nat) (root : node T) : option (list (node T)) :=
  let '(root, stack) := handle_children root [] in
  option_map (fun l => l ++ [root]) (drop_loop fuel stack).

(** The trie that [zip_dict_encode] has at line 16, when every write succeeds: the loop of
    lines 11-14 without the output.  Running out of [fuel] or [pairs] is [Panic]. *)
Fixpoint dict_trie_loop {S} (next : nextf S N) (fuel pairs : nat) (z : dict_enc S) : res (node N) :=
  match pairs with
  | O => Panic
  | Datatypes.S pairs =>
      res_bind (next_pair next fuel z) (fun '(o, z) =>
      match o with Some _ => dict_trie_loop next fuel pairs z | None => Ok (de_trie z) end)
  end.
(** src/zip/dict.rs:9-16 *)
Definition dict_trie {S} (next : nextf S N) (fuel : nat) (s : S) : res (node N) :=
  res_bind (dict_enc_new s) (fun z => dict_trie_loop next fuel fuel z).
