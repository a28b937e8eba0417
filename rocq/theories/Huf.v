(** * Model of src/huf.rs: Huffman coding. *)
From Verif Require Import Base Ser Bit Utils.

(** src/huf.rs:168-171 [BinTrie] *)
Inductive bintrie (A : Type) :=
| Leaf (v : A)
| Branch (l r : bintrie A).
Arguments Leaf {A}. Arguments Branch {A}.

(** src/huf.rs:63-66 [Suffix]: frequency and tree *)
Definition suffix (A : Type) : Type := N * bintrie A.
(** src/huf.rs:80-85 [Ord for Suffix]: reversed comparison of the frequencies *)
Definition suffix_cmp {A} (a b : suffix A) : comparison := CompOpp (fst a ?= fst b)%N.
(** src/huf.rs:87-94 [From<(T, N)>] *)
Definition suffix_from {A} (p : A * N) : suffix A := (snd p, Leaf (fst p)).

(** [std::collections::BinaryHeap]: any implementation of a max-heap, including
    its tie-breaking. [hp_elems] is the ghost content. *)
Record heap (E : Type) := mkHeap {
  hp : Type;
  hp_of : list E -> hp;                  (* from_iter *)
  hp_push : E -> hp -> hp;
  hp_pop : hp -> option (E * hp);
  hp_elems : hp -> list E;
}.
Arguments hp {E}. Arguments hp_of {E}. Arguments hp_push {E}. Arguments hp_pop {E}. Arguments hp_elems {E}.

(** src/huf.rs:100-110: the merging loop.  [fuel] bounds the number of
    iterations (the heap shrinks by one each time); running out of it is reported
    as [Panic], which the theorems exclude. *)
Fixpoint huf_loop {A} (H : heap (suffix A)) (fuel : nat) (h : hp H) : res (hp H) :=
  if (1 <? length (hp_elems H h))%nat then
    match fuel with
    | O => Panic
    | S fuel =>
        match hp_pop H h with
        | None => Panic
        | Some (lft, h) =>
            match hp_pop H h with
            | None => Panic
            | Some (rgt, h) =>
                let new_tree := Branch (snd lft) (snd rgt) in
                let new_freq := (fst lft + fst rgt)%N in
                huf_loop H fuel (hp_push H (new_freq, new_tree) h)
            end
        end
    end
  else Ok h.

(** src/huf.rs:96-111: the part of [build] that produces the tree *)
Definition build_tree {A} (H : heap (suffix A)) (freq_items : list (A * N)) : res (bintrie A) :=
  let min_heap := hp_of H (map suffix_from freq_items) in
  res_bind (assert_ (0 <? length (hp_elems H min_heap))%nat) (fun _ =>
  res_bind (huf_loop H (length freq_items) min_heap) (fun h =>
  match hp_pop H h with
  | None => Panic
  | Some (s, _) => Ok (snd s)
  end)).

(** ** BinTrieIter (src/huf.rs:209-292)

    [stack] and [rep] are kept with their last element first. *)
Record bt_iter (A : Type) := mkBTI { bti_stack : list (bintrie A); bti_rep : list bool }.
Arguments mkBTI {A}. Arguments bti_stack {A}. Arguments bti_rep {A}.

(** src/huf.rs:259-266; [t] is the last element of the stack *)
Fixpoint all_left {A} (t : bintrie A) (stack : list (bintrie A)) (rep : list bool) : bt_iter A :=
  match t with
  | Leaf _ => mkBTI stack rep
  | Branch l _ => all_left l (l :: stack) (false :: rep)
  end.
(** src/huf.rs:259-266 on the whole iterator *)
Definition all_the_way_left {A} (it : bt_iter A) : res (bt_iter A) :=
  match bti_stack it with
  | [] => Panic                                                   (* unwrap, line 260 *)
  | t :: _ => Ok (all_left t (bti_stack it) (bti_rep it))
  end.
(** src/huf.rs:268-279 *)
Definition right_once {A} (it : bt_iter A) : res (bt_iter A) :=
  match bti_stack it with
  | Branch _ r :: _ => Ok (mkBTI (r :: bti_stack it) (true :: bti_rep it))
  | Leaf _ :: _ => Panic
  | [] => Panic
  end.
(** src/huf.rs:286-290: the [while] loop; [rep] still contains the direction
    under test at its head *)
Fixpoint pop_while {A} (stack : list (bintrie A)) (rep : list bool) : bt_iter A :=
  match rep with
  | true :: rep => pop_while (tl stack) rep
  | _ :: rep => mkBTI stack rep
  | [] => mkBTI stack []
  end.
(** src/huf.rs:281-291 *)
Definition pop_parents {A} (it : bt_iter A) : bt_iter A :=
  pop_while (tl (bti_stack it)) (bti_rep it).
(** src/huf.rs:245-253 *)
Definition bti_new {A} (t : bintrie A) : res (bt_iter A) := all_the_way_left (mkBTI [t] []).
(** src/huf.rs:217-241; [Err] is [None] *)
Definition bti_next {A} (it : bt_iter A) : res ((list bool * A) * bt_iter A) :=
  match bti_stack it with
  | [] => Err
  | Leaf sym :: _ =>
      let rep := rev (bti_rep it) in
      let it := pop_parents it in
      match bti_stack it with
      | [] => Ok ((rep, sym), it)
      | _ => res_bind (right_once it) (fun it =>
             res_bind (all_the_way_left it) (fun it => Ok ((rep, sym), it)))
      end
  | Branch _ _ :: _ => Panic
  end.

(** src/huf.rs:125-135 [Enc::from]: collect the codes into a map.  [fuel] bounds
    the number of leaves; exhaustion is reported as [Panic]. *)
Fixpoint enc_loop {A} (eqb : A -> A -> bool) (fuel : nat) (it : bt_iter A) (codes : list (A * bit_arr))
  : res (list (A * bit_arr)) :=
  match fuel with
  | O => Panic
  | S fuel =>
      match bti_next it with
      | Err => Ok codes
      | Panic => Panic
      | Ok ((bits, symbol), it) =>
          res_bind (ba_from_slice bits MsbFirst) (fun a =>
          enc_loop eqb fuel it (hm_insert eqb symbol a codes))
      end
  end.
(** Number of codes (enough fuel for the loop above) *)
Fixpoint leaf_count {A} (t : bintrie A) : nat :=
  match t with Leaf _ => 1 | Branch l r => leaf_count l + leaf_count r end.
(** src/huf.rs:125-135 *)
Definition enc_from {A} (eqb : A -> A -> bool) (t : bintrie A) : res (list (A * bit_arr)) :=
  res_bind (bti_new t) (fun it => enc_loop eqb (S (leaf_count t)) it []).

(** src/huf.rs:138-147 [Enc::encode]; [Err] is [None] *)
Definition enc_encode {A} (eqb : A -> A -> bool) (codes : list (A * bit_arr)) (symbol : A) (st : bw) : io bw :=
  match hm_get eqb symbol codes with
  | None => io_fail
  | Some code => if (ba_len code =? 0)%N then io_ret st else bw_write_arr code st
  end.

(** src/huf.rs:296-321 *)
Fixpoint ser_trie {A} (sa : A -> io unit) (t : bintrie A) : io unit :=
  match t with
  | Leaf v => io_bind (ser_u8 0) (fun _ => sa v)
  | Branch l r => io_bind (ser_u8 1) (fun _ => io_bind (ser_trie sa l) (fun _ => ser_trie sa r))
  end.
(** src/huf.rs:330-348.  [fuel] bounds the recursion depth; [None] means it ran out
    (the real code recurses as deep as the input says). *)
Fixpoint deser_trie {A} (da : deserializer A) (fuel : nat) {S} (next : nextf S N) (s : S)
  : option (res (bintrie A) * S) :=
  match fuel with
  | O => None
  | Datatypes.S fuel =>
      match deser_u8 S next s with
      | (Ok 0%N, s) => match da S next s with
                       | (Ok v, s) => Some (Ok (Leaf v), s)
                       | (Err, s) => Some (Err, s)
                       | (Panic, s) => Some (Panic, s)
                       end
      | (Ok 1%N, s) =>
          match deser_trie da fuel next s with
          | Some (Ok l, s) => match deser_trie da fuel next s with
                              | Some (Ok r, s) => Some (Ok (Branch l r), s)
                              | x => x
                              end
          | x => x
          end
      | (Ok _, s) => Some (Err, s)
      | (Err, s) => Some (Err, s)
      | (Panic, s) => Some (Panic, s)
      end
  end.

(** src/huf.rs:187-206 [lookup] = 158-162 [Dec::decode] *)
Fixpoint trie_lookup {A} (t : bintrie A) {S} (next : nextf S bool) (s : S) : res A * S :=
  match t with
  | Leaf v => (Ok v, s)
  | Branch l r => match next s with
                  | (Ok false, s) => trie_lookup l next s
                  | (Ok true, s) => trie_lookup r next s
                  | (Err, s) => (Err, s)
                  | (Panic, s) => (Panic, s)
                  end
  end.

(** src/huf.rs:22-43 [encode_all].  [ord] is the iteration order of the HashMap of
    frequencies, [H] the binary heap. *)
Definition huf_encode_all {A} (eqb : A -> A -> bool) (sa : A -> io unit)
    (ord : list (A * N) -> list (A * N)) (H : heap (suffix A)) (items : list A) : io unit :=
  io_bind (io_lift (build_tree H (ord (count_freqs eqb items)))) (fun dec =>
  io_bind (io_lift (enc_from eqb dec)) (fun enc =>
  io_bind (ser_trie sa dec) (fun _ =>
  io_bind (bw_iter (fun symbol st => io_unwrap (enc_encode eqb enc symbol st)) items (bw_new MsbFirst)) (fun st =>
  io_bind (bw_pad_and_flush st) (fun _ => io_ret tt))))).

(** src/huf.rs:46-53 [decode_all]: the decoder tree and the bit stream that the
    [DecStream] is made of *)
Definition huf_decode_all {A} (da : deserializer A) (fuel : nat) {S} (next : nextf S N) (s : S)
  : option (res (bintrie A * breader S) * S) :=
  match deser_trie da fuel next s with
  | None => None
  | Some (Ok t, s) => Some (Ok (t, bit_reader s), s)
  | Some (Err, s) => Some (Err, s)
  | Some (Panic, s) => Some (Panic, s)
  end.
(** src/huf.rs:366-374 [DecStream::next] *)
Definition dec_next {A} (t : bintrie A) {S} (next : nextf S N) : nextf (breader S) A :=
  trie_lookup t (br_next next MsbFirst).
