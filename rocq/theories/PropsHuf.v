(** * Properties C10-C16: Huffman coding (src/utils.rs, src/huf.rs), and C01-C03 for trees. *)
From Verif Require Import Base Ser SerSpec Bit BitSpec Utils Huf HufSpec HufTop WriteMore.

(** C01-C03 for the decoder tree. *)
Theorem C01_tree_roundtrip : forall t tree bs, Forall (wf t) (leaves tree) ->
  run_vec (ser_trie (ser t) tree) = Ok bs ->
  forall S (next : nextf S N) s s', yields next s bs s' ->
  exists f0, forall fuel, (f0 <= fuel)%nat -> deser_trie (deser t) fuel next s = Some (Ok tree, s').
Proof. exact tree_roundtrip. Qed.
Print Assumptions C01_tree_roundtrip.
Theorem C02_tree_canonical : forall t S (next : nextf S N) s tree s' fuel, byte_source next s ->
  deser_trie (deser t) fuel next s = Some (Ok tree, s') ->
  Forall (wf t) (leaves tree) /\ exists bs, run_vec (ser_trie (ser t) tree) = Ok bs /\ yields next s bs s'.
Proof. exact tree_read. Qed.
Print Assumptions C02_tree_canonical.
Theorem C03_tree_truncated : forall t tree bs p, Forall (wf t) (leaves tree) ->
  run_vec (ser_trie (ser t) tree) = Ok bs -> strict_prefix p bs ->
  exists f0, forall fuel, (f0 <= fuel)%nat -> deser_trie (deser t) fuel list_next p = Some (Err, []).
Proof. exact tree_truncated. Qed.
Print Assumptions C03_tree_truncated.
Theorem C03_tree_no_panic : forall t S (next : nextf S N) s s' fuel, byte_source next s ->
  deser_trie (deser t) fuel next s <> Some (Panic, s').
Proof. exact tree_no_panic. Qed.
Print Assumptions C03_tree_no_panic.
Theorem C05_tree_short_write : forall t tree bs k, Forall (wf t) (leaves tree) -> trie_format (format t) tree = Some bs ->
  run_vec (ser_trie (ser t) tree) = Ok bs
  /\ fst (ser_trie (ser t) tree (short_writer k)) = (if (length bs <=? k)%nat then Ok tt else Err)
  /\ written (snd (ser_trie (ser t) tree (short_writer k))) = firstn k bs.
Proof. exact tree_short. Qed.
Print Assumptions C05_tree_short_write.
Theorem C05_tree_bad_char : forall t tree k, Forall (wf t) (leaves tree) -> trie_format (format t) tree = None ->
  fst (ser_trie (ser t) tree (short_writer k)) = Err.
Proof. exact tree_bad. Qed.
Print Assumptions C05_tree_bad_char.
Example C05_tree_case : let tree := Branch (Leaf 7%N) (Leaf 955%N) in
  Forall (wf TU16) (leaves tree) /\ trie_format (format TU16) tree = Some [1; 0; 7; 0; 0; 187; 3]%N
  /\ ser_trie (ser TU16) tree (short_writer 6) = (Err, mkW [1; 0; 7; 0; 0; 187]%N (Some O) false)
  /\ Forall (wf TChar) (leaves tree) /\ trie_format (format TChar) tree = None.
Proof.
  cbn zeta. split; [repeat constructor; cbn; unfold u16_ok; lia|]. split; [reflexivity|]. split; [vm_compute; reflexivity|].
  split; [|reflexivity]. repeat constructor; cbn; unfold char_ok; lia.
Qed.
Example C01_tree_case :
  run_vec (ser_trie (ser TU8) (Branch (Leaf 7%N) (Branch (Leaf 9%N) (Leaf 200%N)))) = Ok [1; 0; 7; 1; 0; 9; 0; 200]%N
  /\ deser_trie (deser TU8) 3 list_next [1; 0; 7; 1; 0; 9; 0; 200; 42]%N
     = Some (Ok (Branch (Leaf 7%N) (Branch (Leaf 9%N) (Leaf 200%N))), [42%N]).
Proof. split; vm_compute; reflexivity. Qed.

(** C10 *)
Theorem C10_frequencies : forall A (eqb : A -> A -> bool) items, eqb_ok eqb ->
  NoDup (map fst (count_freqs eqb items))
  /\ (forall x n, In (x, n) (count_freqs eqb items) <-> In x items /\ n = occurs eqb x items)
  /\ fold_right N.add 0%N (map snd (count_freqs eqb items)) = N.of_nat (length items).
Proof. exact freqs_spec. Qed.
Print Assumptions C10_frequencies.
Example C10_case : eqb_ok N.eqb /\ count_freqs N.eqb [5; 3; 5; 5; 8; 3]%N = [(5, 3); (3, 2); (8, 1)]%N.
Proof. split; [exact N.eqb_eq|reflexivity]. Qed.

(** C11: for every hash order [ord] and every priority queue [H]. *)
Theorem C11_roundtrip : forall t (eqb : val t -> val t -> bool), eqb_ok eqb ->
  forall ord, ord_ok ord -> forall H : heap (suffix (val t)), heap_ok suffix_cmp H ->
  forall items, items <> [] -> Forall (encodable t) items ->
  exists out, run_vec (huf_encode_all eqb (ser t) ord H items) = Ok out /\
  forall S (next : nextf S N) s s', yields next s out s' ->
  exists f0, forall fuel, (f0 <= fuel)%nat ->
  exists tree bits s1 bits', huf_decode_all (deser t) fuel next s = Some (Ok (tree, bits), s1)
    /\ yields (dec_next tree next) bits items bits'.
Proof. exact huf_roundtrip. Qed.
Print Assumptions C11_roundtrip.
(** "abracadabra" with a sorted-list heap and the map order reversed *)
Example C11_case : ord_ok (@rev (N * N)) /\ heap_ok suffix_cmp (@list_heap N)
  /\ Forall (encodable TU8) [97; 98; 114; 97; 99; 97; 100; 97; 98; 114; 97]%N
  /\ run_vec (huf_encode_all N.eqb (ser TU8) (@rev (N * N)) list_heap [97; 98; 114; 97; 99; 97; 100; 97; 98; 114; 97]%N)
     = Ok [1; 0; 97; 1; 0; 98; 1; 1; 0; 100; 0; 99; 0; 114; 93; 172; 92]%N.
Proof.
  split; [intros l; apply Permutation_sym, Permutation_rev|]. split; [apply list_heap_ok|].
  split; [|vm_compute; reflexivity].
  repeat constructor; try (exists [97%N]; reflexivity); try (unfold wf, u8_ok; lia); try (eexists; reflexivity).
Qed.

(** C12: every table, whatever the tie-breaking: codes exist exactly for the
    symbols of the table, are prefix-free, fill the code space (Kraft's equality),
    and each code leads the decoder to its symbol and not one bit further. *)
Theorem C12_complete_prefix_code : forall A (eqb : A -> A -> bool) (H : heap (suffix A)) freqs,
  eqb_ok eqb -> heap_ok suffix_cmp H -> freqs <> [] -> NoDup (map fst freqs) ->
  exists tree enc code,
    build_tree H freqs = Ok tree /\ enc_from eqb tree = Ok enc
    /\ (forall x, In x (map fst freqs) ->
          exists a, hm_get eqb x enc = Some a /\ ba_from_slice (code x) MsbFirst = Ok a)
    /\ (forall x, ~ In x (map fst freqs) -> hm_get eqb x enc = None)
    /\ (forall x S (next : nextf S bool) s s', In x (map fst freqs) ->
          yields next s (code x) s' -> trie_lookup tree next s = (Ok x, s'))
    /\ prefix_free (map fst freqs) code
    /\ (forall L, (forall x, In x (map fst freqs) -> (length (code x) <= L)%nat) ->
          kraft L (map fst freqs) code = (2 ^ N.of_nat L)%N)
    /\ (forall c, prefix_free (map fst freqs) c -> (table_bits freqs code <= table_bits freqs c)%N).
Proof. exact build_code. Qed.
Print Assumptions C12_complete_prefix_code.
Example C12_case : [(97, 2); (98, 1); (99, 1)]%N <> [] /\ NoDup (map fst [(97, 2); (98, 1); (99, 1)]%N)
  /\ build_tree list_heap [(97, 2); (98, 1); (99, 1)]%N = Ok (Branch (Branch (Leaf 98) (Leaf 99)) (Leaf 97))%N.
Proof.
  split; [discriminate|]. split; [|reflexivity]. repeat constructor; cbn; intuition discriminate.
Qed.

(** C13: for the input sequence: no prefix-free code of its symbols does better. *)
Theorem C13_optimal : forall t (eqb : val t -> val t -> bool), eqb_ok eqb ->
  forall ord, ord_ok ord -> forall H : heap (suffix (val t)), heap_ok suffix_cmp H ->
  forall items, items <> [] ->
  exists tree code, build_tree H (ord (count_freqs eqb items)) = Ok tree
    /\ (forall x, In x items -> path tree (code x) x)
    /\ forall c, prefix_free items c -> (total_bits items code <= total_bits items c)%N.
Proof. exact huf_optimal. Qed.
Print Assumptions C13_optimal.
Example C13_case : prefix_free [5; 5; 6; 7]%N (fun x => if (x =? 5)%N then [false] else if (x =? 6)%N then [true; false] else [true; true])
  /\ total_bits [5; 5; 6; 7]%N (fun x => if (x =? 5)%N then [false] else if (x =? 6)%N then [true; false] else [true; true]) = 6%N.
Proof.
  split; [|reflexivity]. intros x y Hx Hy [r E]. cbn in Hx, Hy.
  repeat destruct Hx as [<-|Hx]; repeat destruct Hy as [<-|Hy]; try contradiction; try reflexivity; cbn in E; discriminate.
Qed.

(** C14 *)
Theorem C14_empty_aborts : forall t (eqb : val t -> val t -> bool) ord, ord_ok ord ->
  forall H : heap (suffix (val t)), heap_ok suffix_cmp H ->
  forall w, huf_encode_all eqb (ser t) ord H [] w = (Panic, w).
Proof. exact huf_empty. Qed.
Print Assumptions C14_empty_aborts.

Theorem C14_never_aborts : forall t (eqb : val t -> val t -> bool), eqb_ok eqb ->
  forall ord, ord_ok ord -> forall H : heap (suffix (val t)), heap_ok suffix_cmp H ->
  forall items, items <> [] -> Forall (encodable t) items ->
  exists out, run_vec (huf_encode_all eqb (ser t) ord H items) = Ok out.
Proof. exact huf_never_aborts. Qed.
Print Assumptions C14_never_aborts.
Example C14_case : Forall (encodable (TPair TU8 TChar)) [(1, 65); (2, 255); (1, 65)]%N.
Proof. repeat constructor; try (eexists; reflexivity); cbn; unfold u8_ok; lia. Qed.

(** C15: an output that accepts exactly [k] bytes, and one that accepts all but
    fails to flush.  [hdr] is the tree, [pay] the full payload bytes, [lastb] the
    padded last byte if any. *)
Theorem C15_crash_points : forall t (eqb : val t -> val t -> bool), eqb_ok eqb ->
  forall ord, ord_ok ord -> forall H : heap (suffix (val t)), heap_ok suffix_cmp H ->
  forall items, items <> [] -> Forall (encodable t) items ->
  exists tree code hdr pay lastb,
    build_tree H (ord (count_freqs eqb items)) = Ok tree
    /\ (forall x, In x items -> path tree (code x) x)
    /\ trie_format (format t) tree = Some hdr
    /\ N.of_nat (length pay) = (total_bits items code / 8)%N
    /\ run_vec (huf_encode_all eqb (ser t) ord H items) = Ok (hdr ++ pay ++ lastb)
    /\ (forall k, let r := huf_encode_all eqb (ser t) ord H items (short_writer k) in
          written (snd r) = firstn k (hdr ++ pay ++ lastb) /\
          fst r = (if (k <? length hdr)%nat then Err
                   else if (k <? length hdr + length pay)%nat then Panic
                   else if (k <? length hdr + length pay + length lastb)%nat then Err else Ok tt))
    /\ huf_encode_all eqb (ser t) ord H items (mkW [] None true) = (Err, mkW (hdr ++ pay ++ lastb) None true).
Proof. exact huf_crash. Qed.
Print Assumptions C15_crash_points.
(** 17 bytes: 14 of tree, 2 full payload bytes, 1 padded byte *)
Example C15_case : let enc := huf_encode_all N.eqb (ser TU8) (@rev (N * N)) list_heap [97; 98; 114; 97; 99; 97; 100; 97; 98; 114; 97]%N in
  fst (enc (short_writer 13)) = Err /\ fst (enc (short_writer 15)) = Panic
  /\ fst (enc (short_writer 16)) = Err /\ fst (enc (short_writer 17)) = Ok tt.
Proof. vm_compute. auto. Qed.

(** C16: [2n-1] tag bytes and the symbols for the tree, then [ceil(B/8)] bytes. *)
Theorem C16_output_size : forall t (eqb : val t -> val t -> bool), eqb_ok eqb ->
  forall ord, ord_ok ord -> forall H : heap (suffix (val t)), heap_ok suffix_cmp H ->
  forall items, items <> [] -> Forall (encodable t) items ->
  exists tree code out,
    build_tree H (ord (count_freqs eqb items)) = Ok tree
    /\ (forall x, In x items <-> In x (leaves tree)) /\ NoDup (leaves tree)
    /\ (forall x, In x items -> path tree (code x) x)
    /\ run_vec (huf_encode_all eqb (ser t) ord H items) = Ok out
    /\ N.of_nat (length out) = (N.of_nat (2 * length (leaves tree) - 1 + list_sum (map (ser_len t) (leaves tree)))
                              + (total_bits items code + 7) / 8)%N.
Proof. exact huf_size. Qed.
Print Assumptions C16_output_size.
(** C16, one distinct symbol: only the one-leaf tree is written, and the decoded
    stream repeats the symbol for ever without consuming anything. *)
Theorem C16_single_symbol : forall t (eqb : val t -> val t -> bool), eqb_ok eqb ->
  forall ord, ord_ok ord -> forall H : heap (suffix (val t)), heap_ok suffix_cmp H ->
  forall x items, items <> [] -> (forall y, In y items -> y = x) -> encodable t x ->
  exists out, run_vec (huf_encode_all eqb (ser t) ord H items) = Ok out /\ length out = (1 + ser_len t x)%nat /\
  forall S (next : nextf S N) s s', yields next s out s' ->
  forall fuel, (1 <= fuel)%nat ->
  exists tree, huf_decode_all (deser t) fuel next s = Some (Ok (tree, bit_reader s'), s')
    /\ forall b, dec_next tree next b = (Ok x, b).
Proof. exact huf_single. Qed.
Print Assumptions C16_single_symbol.
Example C16_case : run_vec (huf_encode_all N.eqb (ser TU8) (fun l => l) list_heap [7; 7; 7; 7]%N) = Ok [0; 7]%N.
Proof. reflexivity. Qed.
