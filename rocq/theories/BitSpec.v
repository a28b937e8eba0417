(** * Specification vocabulary for bits (C06-C09). *)
From Verif Require Import Base Bit.

(** The bits of a byte in the documented order (src/bit.rs:26-37): bit index 0 is
    the most significant bit, respectively the least significant one. *)
Definition byte_bits (bo : bit_order) (n : N) : list bool :=
  match bo with
  | MsbFirst => map (N.testbit n) [7; 6; 5; 4; 3; 2; 1; 0]%N
  | LsbFirst => map (N.testbit n) [0; 1; 2; 3; 4; 5; 6; 7]%N
  end.
Definition bytes_bits (bo : bit_order) (bs : list N) : list bool := flat_map (byte_bits bo) bs.

(** What a client can do with a bit writer before the final flush. *)
Inductive bit_op :=
| OpBit (b : bool)              (* write *)
| OpByte (n : N)                (* write_byte *)
| OpArr (bits : list bool).     (* BitArray::from_slice, then write_arr *)

(** The bits such an operation means to append. *)
Definition op_bits (bo : bit_order) (op : bit_op) : list bool :=
  match op with
  | OpBit b => [b]
  | OpByte n => byte_bits bo n
  | OpArr bits => bits
  end.
Definition op_ok (op : bit_op) : Prop :=
  match op with OpByte n => u8_ok n | _ => True end.

(** Performing it. *)
Definition do_op (op : bit_op) (st : bw) : io bw :=
  match op with
  | OpBit b => bw_write b st
  | OpByte n => bw_write_byte n st
  | OpArr bits => match ba_from_slice bits (bw_order st) with
                  | Ok a => bw_write_arr a st
                  | Err => io_fail
                  | Panic => io_panic
                  end
  end.
Definition do_ops (ops : list bit_op) (st : bw) : io bw := bw_iter do_op ops st.

(** A whole session: new writer, the operations, the final flush. *)
Definition session (bo : bit_order) (ops : list bit_op) : io bw :=
  io_bind (do_ops ops (bw_new bo)) bw_pad_and_flush.
