(** * Model of src/bit.rs: bits, bit arrays, the bit writer and the bit reader. *)
From Verif Require Import Base.

(** src/bit.rs:3-7 [Bit]: [Zero] is [false], [One] is [true].
    src/bit.rs:9-22 [byte] *)
Definition bit_byte (b : bool) : N := if b then 1 else 0.

(** src/bit.rs:26-37 *)
Inductive bit_order := MsbFirst | LsbFirst.
(** src/bit.rs:25: the derived [==] *)
Definition bo_eqb (a b : bit_order) : bool :=
  match a, b with MsbFirst, MsbFirst | LsbFirst, LsbFirst => true | _, _ => false end.

(** [a << k] on u8, for [k < 8]: the bits above bit 7 are lost. *)
Definition shl8 (a k : N) : N := (N.shiftl a k) mod 256.
(** [a >> k] on u8 *)
Definition shr8 (a k : N) : N := N.shiftr a k.

(** src/bit.rs:39-54 *)
Definition push_bit (n : N) (b : bool) (bo : bit_order) : N :=
  match bo with
  | MsbFirst => N.lor (shl8 n 1) (bit_byte b)
  | LsbFirst => N.lor (shr8 n 1) (shl8 (bit_byte b) 7)
  end.

(** src/bit.rs:56-67 *)
Definition byte_from_slice (bits : list bool) (bo : bit_order) : res N :=
  if negb (length bits =? 8)%nat then Err
  else Ok (fold_left (fun n b => push_bit n b bo) bits 0%N).

(** src/bit.rs:69-86.  Called with [idx < 8] only (a larger shift would be an
    overflow). *)
Definition nth_bit (byte idx : N) (bo : bit_order) : bool :=
  let mask := match bo with
              | LsbFirst => shl8 1 idx
              | MsbFirst => shr8 128 idx
              end in
  negb (N.land byte mask =? 0)%N.

(** src/bit.rs:88-100 *)
Definition bit_array (byte : N) (bo : bit_order) : list bool :=
  [nth_bit byte 0 bo; nth_bit byte 1 bo; nth_bit byte 2 bo; nth_bit byte 3 bo;
   nth_bit byte 4 bo; nth_bit byte 5 bo; nth_bit byte 6 bo; nth_bit byte 7 bo].

(** src/bit.rs:102-105; the shift is done on u16, then truncated. *)
Definition bit_mask (nbits : N) : N := (N.shiftl 1 nbits - 1) mod 256.

(** ** BitArray (src/bit.rs:114-154) *)
Record bit_arr := mkBA { full_bytes : list N; partial_count : N; partial_byte : N; ba_order : bit_order }.

(** src/bit.rs:128-134: pack 8 by 8 while possible.  [fuel] is the number of
    loop iterations, [length bits / 8]. *)
Fixpoint pack_full (fuel : nat) (bits : list bool) (bo : bit_order) (packed : list N)
  : res (list N * list bool) :=
  match fuel with
  | O => Ok (packed, bits)
  | S fuel => match byte_from_slice (firstn 8 bits) bo with
              | Ok b => pack_full fuel (skipn 8 bits) bo (packed ++ [b])
              | Err | Panic => Panic                                   (* unwrap, line 130 *)
              end
  end.
(** src/bit.rs:123-149 *)
Definition ba_from_slice (bits : list bool) (bo : bit_order) : res bit_arr :=
  match pack_full (length bits / 8) bits bo [] with
  | Ok (packed, rest) =>
      Ok (mkBA packed (N.of_nat (length rest))
               (fold_left (fun n b => push_bit n b bo) rest 0%N) bo)
  | Err => Err
  | Panic => Panic
  end.
(** src/bit.rs:151-153 *)
Definition ba_len (a : bit_arr) : N := N.of_nat (length (full_bytes a)) * 8 + partial_count a.

(** ** IoBitWriter (src/bit.rs:186-254)

    The underlying writer is threaded by [io]; each operation returns the new
    state of the bit writer.  After an [Err] the state is dropped: every caller
    stops using the writer then (huf.rs:36-41). *)
Record bw := mkBW { curr_bits : N; bit_count : N; bw_order : bit_order }.

(** src/bit.rs:194-201 *)
Definition bw_new (bo : bit_order) : bw := mkBW 0 0 bo.

(** src/bit.rs:210-220 *)
Definition bw_write (b : bool) (st : bw) : io bw :=
  let curr := push_bit (curr_bits st) b (bw_order st) in
  let count := (bit_count st + 1)%N in
  if (count =? 8)%N
  then io_bind (write_all [curr]) (fun _ => io_ret (mkBW curr 0 (bw_order st)))
  else io_ret (mkBW curr count (bw_order st)).

(** src/bit.rs:222-240 *)
Definition bw_write_byte (n : N) (st : bw) : io bw :=
  if (bit_count st =? 0)%N
  then io_bind (write_all [n]) (fun _ => io_ret st)
  else if negb (bo_eqb (bw_order st) MsbFirst) then io_panic
  else
    let msb := shl8 (curr_bits st) (8 - bit_count st) in
    let lsb := shr8 n (bit_count st) in
    io_bind (write_all [N.lor msb lsb])
            (fun _ => io_ret (mkBW (N.land n (bit_mask (bit_count st))) (bit_count st) (bw_order st))).

(** [for x in xs { st.op(x)?; }] with the writer state threaded *)
Fixpoint bw_iter {A} (op : A -> bw -> io bw) (xs : list A) (st : bw) : io bw :=
  match xs with
  | [] => io_ret st
  | x :: xs => io_bind (op x st) (fun st => bw_iter op xs st)
  end.

(** src/bit.rs:164-178: full bytes first, then the bits [8-count .. 8) of the
    partial byte. *)
Definition bw_write_arr (a : bit_arr) (st : bw) : io bw :=
  io_bind (bw_iter bw_write_byte (full_bytes a) st)
          (fun st =>
             let starting_bit := (8 - partial_count a)%N in
             bw_iter (fun j => bw_write (nth_bit (partial_byte a) (starting_bit + N.of_nat j) (ba_order a)))
                     (seq 0 (N.to_nat (8 - starting_bit))) st).

(** src/bit.rs:243-253 *)
Definition bw_pad_and_flush (st : bw) : io bw :=
  io_bind (if (bit_count st =? 0)%N then io_ret st
           else io_bind (write_all [shl8 (curr_bits st) (8 - bit_count st)])
                        (fun _ => io_ret (mkBW 0 0 (bw_order st))))
          (fun st => io_bind flush (fun _ => io_ret st)).

(** ** bit_reader (src/bit.rs:256-259)

    [bytes.flat_map(...)]: [br_buf] is the front inner iterator, [br_done] the
    [Fuse] that std's [FlatMap] puts around the source. *)
Record breader (S : Type) := mkBR { br_buf : list bool; br_src : S; br_done : bool }.
Arguments mkBR {S}. Arguments br_buf {S}. Arguments br_src {S}. Arguments br_done {S}.

(** src/bit.rs:256-259: before the first byte *)
Definition bit_reader {S} (s : S) : breader S := mkBR [] s false.
(** src/bit.rs:256-259: [next] of the flattened iterator *)
Definition br_next {S} (next : nextf S N) (bo : bit_order) : nextf (breader S) bool :=
  fun st =>
    match br_buf st with
    | b :: buf => (Ok b, mkBR buf (br_src st) (br_done st))
    | [] =>
        if br_done st then (Err, st)
        else match next (br_src st) with
             | (Ok n, s) => match bit_array n bo with
                            | b :: buf => (Ok b, mkBR buf s false)
                            | [] => (Err, mkBR [] s false)        (* bit_array has 8 bits *)
                            end
             | (Err, s) => (Err, mkBR [] s true)
             | (Panic, s) => (Panic, mkBR [] s true)
             end
    end.
