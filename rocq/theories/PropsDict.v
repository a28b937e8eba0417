(** * Properties C17-C21: the dictionary compressor (src/zip/dict.rs). *)
From Verif Require Import Base Ser SerSpec Bit HufSpec Dict DictSpec DictProofs DictEnc.

(** C17: [fuel] only bounds the model's loops: every value above the input length
    gives the same outcome.  [stack]: the decoder's nested calls. *)
Theorem C17_encodes : forall T (next : nextf T N) s l fuel,
  delivers next s l -> Forall u8_ok l -> (length l < fuel)%nat ->
  exists out, run_vec (zip_dict_encode next fuel s) = Ok out
  /\ forall k, let r := zip_dict_encode next fuel s (short_writer k) in
       fst r = (if (length out <=? k)%nat then Ok tt else Err) /\ written (snd r) = firstn k out.
Proof. exact dict_encodes. Qed.
Print Assumptions C17_encodes.
Theorem C17_roundtrip : forall T (next : nextf T N) s l fuel out,
  delivers next s l -> Forall u8_ok l -> (length l < fuel)%nat ->
  run_vec (zip_dict_encode next fuel s) = Ok out ->
  forall S (next2 : nextf S N) s2 stack, (2 <= stack)%nat ->
  (forall s2', yields next2 s2 out s2' ->
     exists st, yields (dd_next next2 stack) (zip_dict_decode s2) l st /\ dd_stream st = s2')
  /\ (yields_all next2 s2 out -> yields_all (dd_next next2 stack) (zip_dict_decode s2) l).
Proof. exact dict_roundtrip. Qed.
Print Assumptions C17_roundtrip.
(** "abababab" + "a" *)
Example C17_case : let l := [97; 98; 97; 98; 97; 98; 97; 98; 97]%N in
  delivers list_next l l /\ Forall u8_ok l
  /\ run_vec (zip_dict_encode list_next 10 l) = Ok [97; 0; 98; 0; 0; 1; 0; 1; 0; 1; 97; 0]%N
  /\ collect (dd_next list_next 2) 20 (zip_dict_decode [97; 0; 98; 0; 0; 1; 0; 1; 0; 1; 97; 0]%N) = Some (Ok l).
Proof.
  split; [apply list_delivers|]. split; [repeat constructor; unfold u8_ok; lia|]. split; vm_compute; reflexivity.
Qed.

(** C18 *)
Theorem C18_trie_is_map : forall T (hist : list (list N * T)), Forall (fun kv => byte_key (fst kv)) hist ->
  exists prevs n, insert_all node_new hist = Ok (prevs, n)
  /\ (forall i k v, nth_error hist i = Some (k, v) -> nth_error prevs i = Some (latest (firstn i hist) k))
  /\ (forall p m b, follow n p = Some m -> fst (down m b) = latest hist (p ++ [b]))
  /\ (forall p, follow n p <> None <-> p = [] \/ exists k v, In (k, v) hist /\ strict_prefix p k).
Proof. exact @trie_map. Qed.
Print Assumptions C18_trie_is_map.
(** 100 one-byte keys (past the switch to a full node), then an overwrite and a longer key *)
Example C18_case : let hist := map (fun b => ([b], b)) (firstn 100 all_bytes) ++ [([7; 7], 1); ([7], 2)]%N in
  Forall (fun kv => byte_key (fst kv)) hist
  /\ exists prevs n, insert_all node_new hist = Ok (prevs, n) /\ last prevs None = Some 7%N
     /\ fst (down n 7%N) = Some 2%N /\ fst (down n 99%N) = Some 99%N /\ fst (down n 100%N) = None
     /\ option_map (fun m => fst (down m 7%N)) (follow n [7%N]) = Some (Some 1%N)
     /\ follow n [8%N] = None.
Proof.
  split.
  - apply Forall_app. split.
    + apply Forall_map, Forall_forall. intros b H. split; [discriminate|]. constructor; [|constructor].
      cbn in H. unfold u8_ok. repeat (destruct H as [<-|H]; [lia|]). contradiction.
    + repeat constructor; unfold u8_ok; try lia; discriminate.
  - do 2 eexists. split; [vm_compute; reflexivity|]. repeat split; reflexivity.
Qed.

(** C19 *)
Theorem C19_greedy : forall T (next : nextf T N) s l fuel out,
  delivers next s l -> Forall u8_ok l -> (length l < fuel)%nat ->
  run_vec (zip_dict_encode next fuel s) = Ok out ->
  exists syms, greedy initial_dict l syms /\ out = words syms.
Proof. exact dict_encode_out. Qed.
Print Assumptions C19_greedy.
Example C19_case : let l := [1; 2; 1; 2; 1]%N in delivers list_next l l
  /\ run_vec (zip_dict_encode list_next 6 l) = Ok (words [1; 2; 256; 1]%N)
  /\ greedy initial_dict l [1; 2; 256; 1]%N.
Proof.
  cbn zeta. split; [apply list_delivers|]. split; [vm_compute; reflexivity|].
  destruct (dict_encode_out (list N) list_next [1; 2; 1; 2; 1]%N [1; 2; 1; 2; 1]%N 6 (words [1; 2; 256; 1]%N))
    as [syms [Hg E]].
  - apply list_delivers.
  - repeat constructor; unfold u8_ok; lia.
  - cbn; lia.
  - vm_compute; reflexivity.
  - assert (syms = [1; 2; 256; 1]%N) as <-; [|exact Hg]. now apply words_inj_example.
Qed.

(** C20 *)
Theorem C20_size : forall T (next : nextf T N) s l fuel out,
  delivers next s l -> Forall u8_ok l -> (length l < fuel)%nat ->
  run_vec (zip_dict_encode next fuel s) = Ok out ->
  exists p, length out = (4 * p)%nat /\ (out = [] <-> l = []) /\ (2 * p <= length l + 1)%nat.
Proof. exact dict_size. Qed.
Print Assumptions C20_size.
(** the bound is reached *)
Example C20_case : let l := [1; 2; 3]%N in delivers list_next l l
  /\ option_map (fun out => length out) (match run_vec (zip_dict_encode list_next 4 l) with Ok o => Some o | _ => None end) = Some 8%nat.
Proof. split; [apply list_delivers|vm_compute; reflexivity]. Qed.

(** C21: malformed data is never reported ([Err] only ever means "finished"). *)
Theorem C21_foreign_data : forall T (next : nextf T N) s bs, yields_all next s bs ->
  exists out e, expands initial_dict (words_of bs) out e
  /\ (forall out' e', expands initial_dict (words_of bs) out' e' -> out' = out /\ e' = e)
  /\ forall stack, (length bs < 4 * stack)%nat ->
  exists st, yields (dd_next next (S stack)) (zip_dict_decode s) out st /\
  fst (dd_next next (S stack) st) = match e with Finished => Err | Aborted => Panic end.
Proof. exact dict_foreign. Qed.
Print Assumptions C21_foreign_data.
(** ... and no fixed stack depth is enough: pairs of end-of-data symbols, which
    decode to nothing, overflow it. *)
Theorem C21_stack_overflow : forall stack,
  fst (dd_next list_next stack (zip_dict_decode (repeat 255%N (4 * stack)))) = Panic
  /\ expands initial_dict (words_of (repeat 255%N (4 * stack))) [] Finished.
Proof. exact dict_deep. Qed.
Print Assumptions C21_stack_overflow.
Example C21_cases : forall out e,
  (expands initial_dict (words_of [97; 0; 98; 0; 9]%N) out e -> out = [97; 98]%N /\ e = Finished)
  /\ (expands initial_dict (words_of [97; 0; 98; 0; 1; 1; 0; 0]%N) out e -> out = [97; 98]%N /\ e = Aborted)
  /\ (expands initial_dict (words_of [97; 0; 98; 0; 97; 0]%N) out e -> out = [97; 98]%N /\ e = Aborted).
Proof. exact expands_examples. Qed.
