(** * Properties C01-C05: serialization (src/ser.rs).

    [format] is the byte format, [wf] the value range of each Rust type
    (SerSpec.v); [t : ty] ranges over every type with both traits. *)
From Verif Require Import Base Ser SerSpec SerProofs.

(** C01: serializing gives the documented bytes, and deserializing them from any
    iterator that delivers them returns the value and leaves the iterator right
    behind them. *)
Theorem C01_roundtrip : forall (t : ty) (v : val t) bs,
  wf t v -> format t v = Some bs ->
  run_vec (ser t v) = Ok bs /\
  forall S (next : nextf S N) s s', yields next s bs s' -> deser t S next s = (Ok v, s').
Proof. exact roundtrip. Qed.
Print Assumptions C01_roundtrip.

Theorem C01_roundtrip_list : forall (t : ty) (v : val t) bs rest,
  wf t v -> run_vec (ser t v) = Ok bs -> deser t _ list_next (bs ++ rest) = (Ok v, rest).
Proof. exact roundtrip_list. Qed.
Print Assumptions C01_roundtrip_list.

Example C01_case :
  let t := TPair (TVec (TRgb TU8)) (TArr 2 TI16) in
  let v : val t := ([(1, 2, 255)%N; (0, 7, 9)%N], [-1; 300]%Z) in
  wf t v /\ exists bs, format t v = Some bs /\ length bs = 34%nat
  /\ deser t _ list_next (bs ++ [42]%N) = (Ok v, [42]%N).
Proof.
  cbv zeta. split; [cbn; unfold u64_ok, u8_ok, i16_ok; repeat (constructor || lia)|].
  eexists. split; [vm_compute; reflexivity|]. split; vm_compute; reflexivity.
Qed.

(** C02: only the serialization of a value is accepted for it. *)
Theorem C02_canonical : forall (t : ty) S (next : nextf S N) s v s',
  byte_source next s -> deser t S next s = (Ok v, s') ->
  wf t v /\ exists bs, run_vec (ser t v) = Ok bs /\ yields next s bs s'.
Proof. exact canonical. Qed.
Print Assumptions C02_canonical.

Example C02_case :
  byte_source list_next [3; 0; 1; 2; 0; 0; 0; 0; 0]%N
  /\ deser (TPair TU16 TU32) _ list_next [3; 0; 1; 2; 0; 0; 9]%N = (Ok (3, 513)%N, [9%N]).
Proof. split; [apply list_byte_source; repeat constructor; unfold u8_ok; lia|vm_compute; reflexivity]. Qed.

(** C03: truncated input gives [None], and no input panics. *)
Theorem C03_truncation : forall (t : ty) (v : val t) bs p,
  wf t v -> run_vec (ser t v) = Ok bs -> strict_prefix p bs ->
  forall S (next : nextf S N) s, yields_all next s p -> fst (deser t S next s) = Err.
Proof. exact truncation. Qed.
Print Assumptions C03_truncation.

Theorem C03_never_panics : forall (t : ty) S (next : nextf S N) s,
  byte_source next s -> fst (deser t S next s) <> Panic.
Proof. exact never_panics. Qed.
Print Assumptions C03_never_panics.

Example C03_case : strict_prefix [3; 0; 0; 0; 0; 0; 0; 0; 1]%N [3; 0; 0; 0; 0; 0; 0; 0; 1; 2; 3]%N
  /\ run_vec (ser (TVec TU8) [1; 2; 3]%N) = Ok [3; 0; 0; 0; 0; 0; 0; 0; 1; 2; 3]%N.
Proof. split; [exists 2%N, [3%N]; reflexivity|vm_compute; reflexivity]. Qed.

(** C04: a [SerStream] delivers the concatenated serializations and ends;
    [deser_stream] over any byte iterator delivering them yields the values and
    ends (for types whose values take at least one byte). *)
Theorem C04_values_to_bytes : forall (t : ty) (l : list (val t)) bs,
  Forall (wf t) l -> concat_opt (map (format t) l) = Some bs ->
  yields_all (ss_next (ser t)) (ss_from_iter l) bs.
Proof. exact stream_of_values. Qed.
Print Assumptions C04_values_to_bytes.

Theorem C04_bytes_to_values : forall (t : ty) (l : list (val t)) bs,
  (forall v, wf t v -> format t v <> Some []) ->
  Forall (wf t) l -> concat_opt (map (format t) l) = Some bs ->
  forall S (next : nextf S N) s, yields_all next s bs ->
  yields_all (deser_stream (deser t) next) s l.
Proof. exact values_of_stream. Qed.
Print Assumptions C04_bytes_to_values.

(** A value that cannot be serialized aborts the byte iterator, after the bytes
    of the values before it. *)
Theorem C04_bad_value_aborts : forall (t : ty) (l1 : list (val t)) x l2 bs,
  Forall (wf t) l1 -> concat_opt (map (format t) l1) = Some bs -> wf t x -> format t x = None ->
  exists s' s'', yields (ss_next (ser t)) (ss_from_iter (l1 ++ x :: l2)) bs s'
                 /\ ss_next (ser t) s' = (Panic, s'').
Proof. exact stream_panics. Qed.
Print Assumptions C04_bad_value_aborts.

Example C04_case :
  let t := TArr 2 TU16 in
  (forall v, wf t v -> format t v <> Some []) /\ Forall (wf t) [[1; 513]; [7; 8]]%N
  /\ concat_opt (map (format t) [[1; 513]; [7; 8]]%N) = Some [1; 0; 1; 2; 7; 0; 8; 0]%N.
Proof.
  cbv zeta. split; [|split; [repeat constructor; cbn; unfold u16_ok; lia|reflexivity]].
  intros v [Hl Hv] H. destruct v as [|a [|b [|]]]; try discriminate Hl. discriminate H.
Qed.
Example C04_case_bad : wf TChar 955%N /\ format TChar 955%N = None.
Proof. split; [cbn; lia|reflexivity]. Qed.

(** C05: an output that accepts only [k] bytes. *)
Theorem C05_short_write : forall (t : ty) (v : val t) bs k,
  wf t v -> format t v = Some bs ->
  fst (ser t v (short_writer k)) = (if (length bs <=? k)%nat then Ok tt else Err)
  /\ written (snd (ser t v (short_writer k))) = firstn k bs.
Proof. exact short_write. Qed.
Print Assumptions C05_short_write.

Theorem C05_bad_char : forall (t : ty) (v : val t) k,
  wf t v -> format t v = None -> fst (ser t v (short_writer k)) = Err.
Proof. exact bad_char_write. Qed.
Print Assumptions C05_bad_char.

Theorem C05_bad_char_writes_nothing : forall c w, (255 < c)%N -> ser TChar c w = (Err, w).
Proof. exact bad_char_alone. Qed.
Print Assumptions C05_bad_char_writes_nothing.

Example C05_case : ser (TPair TU16 TU16) (1, 2)%N (short_writer 3)
  = (Err, mkW [1; 0; 2]%N (Some O) false).
Proof. vm_compute. reflexivity. Qed.
Example C05_case_char : ser (TPair TU16 TChar) (1, 8364)%N vec_writer
  = (Err, mkW [1; 0]%N None false).
Proof. vm_compute. reflexivity. Qed.
