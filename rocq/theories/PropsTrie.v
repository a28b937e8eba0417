(** * Property C67: the statistics and the destruction of the trie (src/zip/dict.rs). *)
From Verif Require Import Base Ser SerSpec HufSpec Bit Dict DictSpec DictProofs Float TrieStats TrieSpec TrieTop.
From Flocq Require Import BinarySingleNaN.

(** C67: [fuel] bounds the number of nodes. *)
Theorem C67_statistics : forall T (hist : list (list N * T)) prevs n, Forall (fun kv => byte_key (fst kv)) hist ->
  insert_all node_new hist = Ok (prevs, n) ->
  (exists fuel, trie_stats fuel n <> None) /\
  forall fuel st, trie_stats fuel n = Some st -> figures (map fst hist) st.
Proof. exact trie_counts. Qed.
Print Assumptions C67_statistics.
Theorem C67_density : forall T (hist : list (list N * T)) prevs n fuel st,
  Forall (fun kv => byte_key (fst kv)) hist ->
  insert_all node_new hist = Ok (prevs, n) -> trie_stats fuel n = Some st ->
  (st_used_child st <= st_tot_child st /\ 65 * st_tot_child st <= 256 * st_used_child st)%nat
  /\ (st_used_value st <= st_tot_value st /\ 65 * st_tot_value st <= 256 * st_used_value st)%nat
  /\ ((N.of_nat (st_tot_child st) < 2 ^ 53)%N ->
      is_nan (density (st_used_child st) (st_tot_child st)) = true <-> Forall (fun kv => length (fst kv) = 1%nat) hist).
Proof. exact trie_density. Qed.
Print Assumptions C67_density.
(** 100 two-byte keys with different first bytes, one of them twice, and a longer one *)
Example C67_case : let hist := map (fun b => ([b; 7%N], b)) (firstn 100 all_bytes) ++ [([5; 7], 0); ([5; 7; 7], 1)]%N in
  Forall (fun kv => byte_key (fst kv)) hist
  /\ exists prevs n, insert_all node_new hist = Ok (prevs, n)
     /\ trie_stats 200 n = Some (mkStats 102 101 257 101 101) /\ trie_stats 102 n = None
     /\ option_map (length (A:=node N)) (trie_drop 102 n) = Some 102%nat.
Proof.
  split.
  - apply Forall_app. split.
    + apply Forall_map, Forall_forall. intros b H. split; [discriminate|]. constructor; [|repeat constructor; unfold u8_ok; lia].
      cbn in H. unfold u8_ok. repeat (destruct H as [<-|H]; [lia|]). contradiction.
    + repeat constructor; unfold u8_ok; try lia; discriminate.
  - do 2 eexists. split; [vm_compute; reflexivity|]. repeat split; vm_compute; reflexivity.
Qed.

(** C67, the trie that is left when [l] has been compressed *)
Theorem C67_encoder : forall T (next : nextf T N) s l fuel,
  delivers next s l -> Forall u8_ok l -> (length l < fuel)%nat ->
  exists n syms d pairs, dict_trie next fuel s = Ok n /\ run_vec (zip_dict_encode next fuel s) = Ok (words syms)
  /\ learnt initial_dict syms d /\ NoDup d
  /\ N.of_nat (length d) = N.min 65535 (256 + N.of_nat pairs)
  /\ ((length syms = 2 * pairs)%nat \/ (length syms = 2 * pairs + 2)%nat /\ last syms 0%N = 65535%N)
  /\ (exists need, trie_stats need n <> None)
  /\ forall f st, trie_stats f n = Some st ->
     figures d st /\ st_used_value st = length d
     /\ ((N.of_nat (st_tot_child st) < 2 ^ 53)%N ->
         is_nan (density (st_used_child st) (st_tot_child st)) = true <-> (length l <= 1)%nat).
Proof. exact encoder_counts. Qed.
Print Assumptions C67_encoder.
(** "ababab": the pair "ab" is learnt, then "abab" *)
Example C67_encoder_case : let l := [97; 98; 97; 98; 97; 98]%N in
  delivers list_next l l /\ Forall u8_ok l /\
  exists n, dict_trie list_next 10 l = Ok n /\ trie_stats 10 n = Some (mkStats 4 3 3 258 258).
Proof.
  split; [apply list_delivers|]. split; [repeat constructor; unfold u8_ok; lia|].
  eexists. split; vm_compute; reflexivity.
Qed.

(** C67, [Drop]: every node is freed once, the root last, and none has children then. *)
Theorem C67_drop : forall T (hist : list (list N * T)) prevs n, Forall (fun kv => byte_key (fst kv)) hist ->
  insert_all node_new hist = Ok (prevs, n) ->
  exists ps freed, places (map fst hist) ps
  /\ Forall2 (fun p m => content_items (children m) = []
       /\ exists m0, follow n p = Some m0 /\ values m = values m0) ps freed
  /\ last ps [0%N] = []
  /\ forall fuel, (length ps <= fuel)%nat -> trie_drop fuel n = Some freed.
Proof. exact trie_drops. Qed.
Print Assumptions C67_drop.
