(** * Properties C06-C09: bits (src/bit.rs). *)
From Verif Require Import Base SerSpec Bit BitSpec BitProofs BitLsb BitLsbSpec BitLsbOps.

(** C06: bytes and bits. *)
Theorem C06_pack_of_bits : forall bo n, u8_ok n -> byte_from_slice (bit_array n bo) bo = Ok n.
Proof. exact pack_unpack. Qed.
Print Assumptions C06_pack_of_bits.
Theorem C06_bits_of_pack : forall bo bits n,
  byte_from_slice bits bo = Ok n -> u8_ok n /\ bit_array n bo = bits.
Proof. exact unpack_pack. Qed.
Print Assumptions C06_bits_of_pack.
Theorem C06_pack_only_eight : forall bits bo,
  (exists n, byte_from_slice bits bo = Ok n) <-> length bits = 8%nat.
Proof. exact pack_length. Qed.
Print Assumptions C06_pack_only_eight.
Theorem C06_pack_refuses : forall bits bo, length bits <> 8%nat -> byte_from_slice bits bo = Err.
Proof. exact pack_refuses. Qed.
Print Assumptions C06_pack_refuses.
Theorem C06_layout : forall n i bo,
  (i < 8)%nat -> nth_error (byte_bits bo n) i = Some (nth_bit n (N.of_nat i) bo).
Proof. exact nth_doc. Qed.
Print Assumptions C06_layout.
Theorem C06_mask : forall n k, (k <= 8)%N -> N.land n (bit_mask k) = (n mod 2 ^ k)%N.
Proof. exact mask_land. Qed.
Print Assumptions C06_mask.
Example C06_case : bit_array 178 MsbFirst = [true; false; true; true; false; false; true; false]
  /\ byte_from_slice [true; false; true; true; false; false; true; false] LsbFirst = Ok 77%N.
Proof. split; vm_compute; reflexivity. Qed.

(** C07: a whole session of an MSB-first writer: the output read back through
    [bit_reader] is everything that was written, then fewer than 8 zero bits. *)
Theorem C07_session : forall ops, Forall op_ok ops ->
  exists out k, run_vec (session MsbFirst ops) = Ok out /\ (k < 8)%nat /\
    yields_all (br_next list_next MsbFirst) (bit_reader out)
               (flat_map (op_bits MsbFirst) ops ++ repeat false k).
Proof. exact session_msb_read. Qed.
Print Assumptions C07_session.
(** The same output through an output that fails after [n] bytes: an exact
    prefix, an error exactly if the output does not fit, and no abort. *)
Theorem C07_session_crash : forall ops n, Forall op_ok ops ->
  exists out, run_vec (session MsbFirst ops) = Ok out /\
    written (snd (session MsbFirst ops (short_writer n))) = firstn n out /\
    ((exists st, fst (session MsbFirst ops (short_writer n)) = Ok st) <-> (length out <= n)%nat) /\
    fst (session MsbFirst ops (short_writer n)) <> Panic.
Proof. exact session_msb_short. Qed.
Print Assumptions C07_session_crash.
Example C07_case :
  let ops := [OpBit false; OpBit true; OpArr [true; true; false; true; true; true; true; true; false; true];
              OpByte 240; OpBit true] in
  Forall op_ok ops /\ run_vec (session MsbFirst ops) = Ok [119; 223; 8]%N.
Proof. split; [repeat constructor; unfold u8_ok; lia|vm_compute; reflexivity]. Qed.

(** C08: bit arrays keep their length, and are appended exactly at any alignment. *)
Theorem C08_bit_array : forall pre bits, Forall op_ok pre ->
  exists a, ba_from_slice bits MsbFirst = Ok a /\ ba_len a = N.of_nat (length bits) /\
  exists out k, run_vec (io_bind (do_ops pre (bw_new MsbFirst))
                          (fun st => io_bind (bw_write_arr a st) bw_pad_and_flush)) = Ok out
    /\ (k < 8)%nat
    /\ bytes_bits MsbFirst out = flat_map (op_bits MsbFirst) pre ++ bits ++ repeat false k.
Proof. exact arr_at_any_alignment. Qed.
Print Assumptions C08_bit_array.
Theorem C08_len : forall bits bo,
  exists a, ba_from_slice bits bo = Ok a /\ ba_len a = N.of_nat (length bits).
Proof. exact from_slice_len. Qed.
Print Assumptions C08_len.
Example C08_case : Forall op_ok [OpBit true; OpBit false; OpByte 7]
  /\ ba_from_slice [true; true; true; true; false; false; false; false; true] MsbFirst
     = Ok (mkBA [240%N] 1 1 MsbFirst).
Proof. split; [repeat constructor; unfold u8_ok; lia|vm_compute; reflexivity]. Qed.

(** C09: LSB-first order. *)
Theorem C09_lsb_aligned : forall bits, (length bits mod 8 = 0)%nat ->
  exists out, run_vec (session LsbFirst (map OpBit bits)) = Ok out /\ bytes_bits LsbFirst out = bits.
Proof. exact lsb_aligned. Qed.
Print Assumptions C09_lsb_aligned.
Theorem C09_lsb_unaligned_byte_aborts : forall bits n, (length bits mod 8 <> 0)%nat ->
  run_vec (do_ops (map OpBit bits ++ [OpByte n]) (bw_new LsbFirst)) = Panic.
Proof. exact lsb_unaligned_byte. Qed.
Print Assumptions C09_lsb_unaligned_byte_aborts.
(** Up to four pending bits are all lost by the flush, whatever they were. *)
Theorem C09_lsb_flush_loses_bits : forall bits, (1 <= length bits <= 4)%nat ->
  run_vec (session LsbFirst (map OpBit bits)) = Ok [0%N].
Proof. exact lsb_short_flush_zero. Qed.
Print Assumptions C09_lsb_flush_loses_bits.
(** In general the byte written by the flush holds zeros and then the oldest of
    the last eight bits, as many as were pending: the shift goes the wrong way,
    so bits already written come out again and the newest ones are lost. *)
Theorem C09_lsb_flush : forall bits, let r := (length bits mod 8)%nat in r <> 0%nat ->
  exists out, run_vec (session LsbFirst (map OpBit bits)) = Ok out
  /\ bytes_bits LsbFirst out
     = firstn (length bits - r) bits
       ++ repeat false (8 - r) ++ firstn r (skipn (length bits) (repeat false 8 ++ bits)).
Proof. exact lsb_flush. Qed.
Print Assumptions C09_lsb_flush.
Example C09_flush_case : exists bits, (length bits mod 8 = 2)%nat
  /\ run_vec (session LsbFirst (map OpBit bits)) = Ok [255; 192]%N
  /\ bits = repeat true 8 ++ [false; true].
Proof. eexists. split; [|split; [|reflexivity]]; vm_compute; reflexivity. Qed.
(** so the claim of C07 is false of the LSB order *)
Theorem C09_lsb_session_refuted : exists ops, Forall op_ok ops /\
  ~ exists out k, run_vec (session LsbFirst ops) = Ok out /\ (k < 8)%nat /\
      bytes_bits LsbFirst out = flat_map (op_bits LsbFirst) ops ++ repeat false k.
Proof. exact lsb_session_refuted. Qed.
Print Assumptions C09_lsb_session_refuted.
Example C09_case : run_vec (session LsbFirst (map OpBit [true; true; false; true; false; false; false; true])) = Ok [139%N].
Proof. vm_compute. reflexivity. Qed.
(** Any mixture of the three operations: exact if every whole byte starts on a byte
    boundary and the total is a number of bytes; an abort if one does not. *)
Theorem C09_lsb_sessions : forall ops, Forall op_ok ops -> let bits := flat_map (op_bits LsbFirst) ops in
  (fits 0 ops -> (length bits mod 8 = 0)%nat ->
     exists out, run_vec (session LsbFirst ops) = Ok out /\ bytes_bits LsbFirst out = bits)
  /\ (~ fits 0 ops -> run_vec (session LsbFirst ops) = Panic).
Proof. exact lsb_sessions. Qed.
Print Assumptions C09_lsb_sessions.
Example C09_sessions_case :
  let ops := [OpByte 5; OpArr [true; true; false; true; true; true; true; true; false; true]; OpBit true; OpArr [false; false; true; true; true]] in
  Forall op_ok ops /\ fits 0 ops /\ run_vec (session LsbFirst ops) = Ok [5; 251; 230]%N
  /\ ~ fits 0 [OpBit true; OpArr (repeat true 8)] /\ run_vec (session LsbFirst [OpBit true; OpArr (repeat true 8)]) = Panic.
Proof.
  cbn zeta. split; [repeat constructor; cbn; unfold u8_ok; lia|]. split; [cbn; repeat split; intros; try reflexivity; try contradiction; lia|].
  split; [vm_compute; reflexivity|]. split; [|vm_compute; reflexivity]. cbn. intros [_ [H _]]. specialize (H ltac:(lia)). discriminate H.
Qed.
