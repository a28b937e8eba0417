(** * Specification vocabulary for Huffman coding (C10-C16). *)
From Verif Require Import Base Ser SerSpec Utils Bit BitSpec Huf.

(** Contract of a hash map iteration order: some permutation of the content. *)
Definition ord_ok {E} (ord : list E -> list E) : Prop := forall l, Permutation (ord l) l.

(** Contract of [BinaryHeap]: a multiset whose [pop] removes *a* greatest element. *)
Record heap_ok {E} (cmp : E -> E -> comparison) (H : heap E) : Prop := {
  ho_of : forall l, Permutation (hp_elems H (hp_of H l)) l;
  ho_push : forall e h, Permutation (hp_elems H (hp_push H e h)) (e :: hp_elems H h);
  ho_none : forall h, hp_pop H h = None -> hp_elems H h = [];
  ho_some : forall h e h', hp_pop H h = Some (e, h') ->
      Permutation (hp_elems H h) (e :: hp_elems H h') /\
      forall x, In x (hp_elems H h') -> cmp e x <> Lt;
}.

(** [eqb] is the [Eq] instance *)
Definition eqb_ok {A} (eqb : A -> A -> bool) : Prop := forall x y, eqb x y = true <-> x = y.

(** Number of occurrences *)
Fixpoint occurs {A} (eqb : A -> A -> bool) (x : A) (l : list A) : N :=
  match l with
  | [] => 0
  | y :: l => if eqb x y then 1 + occurs eqb x l else occurs eqb x l
  end.

(** The symbol at the end of a path through the tree: 0 is left, 1 is right. *)
Inductive path {A} : bintrie A -> list bool -> A -> Prop :=
| path_leaf v : path (Leaf v) [] v
| path_left l r bits v : path l bits v -> path (Branch l r) (false :: bits) v
| path_right l r bits v : path r bits v -> path (Branch l r) (true :: bits) v.

(** Symbols of a tree, left to right. *)
Fixpoint leaves {A} (t : bintrie A) : list A :=
  match t with Leaf v => [v] | Branch l r => leaves l ++ leaves r end.

(** Byte format of a serialized tree: 0 and the symbol, or 1 and both subtrees. *)
Fixpoint trie_format {A} (fmt : A -> option (list N)) (t : bintrie A) : option (list N) :=
  match t with
  | Leaf v => app_opt (Some [0%N]) (fmt v)
  | Branch l r => concat_opt [Some [1%N]; trie_format fmt l; trie_format fmt r]
  end.

Definition prefix {A} (p l : list A) : Prop := exists r, l = p ++ r.

(** A prefix-free code for a set of symbols. *)
Definition prefix_free {A} (syms : list A) (code : A -> list bool) : Prop :=
  forall x y, In x syms -> In y syms -> prefix (code x) (code y) -> x = y.

(** Kraft sum scaled by [2 ^ L] *)
Definition kraft {A} (L : nat) (syms : list A) (code : A -> list bool) : N :=
  fold_right N.add 0%N (map (fun x => 2 ^ N.of_nat (L - length (code x)))%N syms).

(** Total number of bits used for a sequence *)
Definition total_bits {A} (items : list A) (code : A -> list bool) : N :=
  fold_right N.add 0%N (map (fun x => N.of_nat (length (code x))) items).

(** The number of bits a frequency table costs with a given code. *)
Definition table_bits {A} (freqs : list (A * N)) (code : A -> list bool) : N :=
  fold_right N.add 0%N (map (fun p => snd p * N.of_nat (length (code (fst p))))%N freqs).

(** [x] is a value of type [t] all of whose characters have a byte form. *)
Definition encodable (t : ty) (x : val t) : Prop := wf t x /\ exists bs, format t x = Some bs.

(** Length of the serialized form *)
Definition ser_len (t : ty) (x : val t) : nat :=
  match format t x with Some bs => length bs | None => 0 end.
