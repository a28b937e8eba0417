(** * Model of src/ser.rs: the serialization traits and their implementations.

    [ser_*] models [Serialize::serialize], [deser_*] models
    [Deserialize::deserialize] over an arbitrary byte iterator. *)
From Verif Require Import Base.

(** A deserializer for [A]: works on any iterator over bytes (src/ser.rs:7-11). *)
Definition deserializer (A : Type) := forall S : Type, nextf S N -> rd S A.

(** src/ser.rs:17-21 [impl Serialize for u8] *)
Definition ser_u8 (n : N) : io unit := write_all [n].
(** src/ser.rs:23-27 [impl Deserialize for u8] *)
Definition deser_u8 : deserializer N := fun S next => next.

(** [u16::from_le_bytes([stream.next()?, ...])] and its u32/u64 siblings: pull
    [k] bytes in order, stopping at the first [None]. *)
Fixpoint deser_le (k : nat) {S} (next : nextf S N) (acc : list N) : rd S N :=
  match k with
  | O => rd_ret (of_le_bytes acc)
  | Datatypes.S k => rd_bind next (fun b => deser_le k next (acc ++ [b]))
  end.

(** src/ser.rs:31-35, 37-45 *)
Definition ser_u16 (n : N) : io unit := write_all (le_bytes 2 n).
(** src/ser.rs:37-45 *)
Definition deser_u16 : deserializer N := fun S next => deser_le 2 next [].

(** src/ser.rs:49-53, 55-63: two's complement *)
Definition ser_i16 (z : Z) : io unit := write_all (le_bytes 2 (Z.to_N (z mod 65536)%Z)).
(** src/ser.rs:57-61: [i16::from_le_bytes] *)
Definition i16_of_u16 (n : N) : Z :=
  if (n <? 32768)%N then Z.of_N n else (Z.of_N n - 65536)%Z.
(** src/ser.rs:55-63 *)
Definition deser_i16 : deserializer Z :=
  fun S next => rd_bind (deser_le 2 next []) (fun n => rd_ret (i16_of_u16 n)).

(** src/ser.rs:67-71, 73-83 *)
Definition ser_u32 (n : N) : io unit := write_all (le_bytes 4 n).
(** src/ser.rs:73-83 *)
Definition deser_u32 : deserializer N := fun S next => deser_le 4 next [].

(** src/ser.rs:87-91, 93-108 *)
Definition ser_u64 (n : N) : io unit := write_all (le_bytes 8 n).
(** src/ser.rs:93-108 *)
Definition deser_u64 : deserializer N := fun S next => deser_le 8 next [].

(** src/ser.rs:113-124: [usize] goes through [u64]; 64-bit targets, so the
    [as] casts are the identity. *)
Definition ser_usize (n : N) : io unit := ser_u64 n.
(** src/ser.rs:119-124 *)
Definition deser_usize : deserializer N := deser_u64.

(** src/ser.rs:129-135: a [char] is its code point; [u8::try_from(char)] fails
    above U+00FF. *)
Definition ser_char (c : N) : io unit :=
  if (c <=? 255)%N then ser_u8 c else io_fail.
(** src/ser.rs:137-142 *)
Definition deser_char : deserializer N := deser_u8.

(** src/ser.rs:146-151 *)
Definition ser_pair {A B} (sa : A -> io unit) (sb : B -> io unit) (p : A * B) : io unit :=
  io_bind (sa (fst p)) (fun _ => sb (snd p)).
(** src/ser.rs:153-159 *)
Definition deser_pair {A B} (da : deserializer A) (db : deserializer B) : deserializer (A * B) :=
  fun S next => rd_bind (da S next) (fun a => rd_bind (db S next) (fun b => rd_ret (a, b))).

(** src/ser.rs:164-172 *)
Definition ser_slice {A} (sa : A -> io unit) (l : list A) : io unit :=
  io_bind (ser_usize (N.of_nat (length l))) (fun _ => io_iter sa l).
(** src/ser.rs:174-184 *)
Definition deser_vec {A} (da : deserializer A) : deserializer (list A) :=
  fun S next => rd_bind (deser_usize S next) (fun len => rd_repeat (da S next) len).

(** src/ser.rs:188-195: the array length is part of the type, nothing is
    written for it. *)
Definition ser_array {A} (sa : A -> io unit) (l : list A) : io unit := io_iter sa l.
(** src/ser.rs:197-205: [collect::<Option<Vec<T>>>] stops at the first [None];
    the conversion to [[T; N]] then always has [N] elements. *)
Definition deser_array {A} (n : nat) (da : deserializer A) : deserializer (list A) :=
  fun S next => rd_bind (rd_repeat (da S next) (N.of_nat n))
                        (fun l => if (length l =? n)%nat then rd_ret l else rd_fail).

(** [image::Rgb<T>([T; 3])] *)
Definition rgb (A : Type) : Type := A * A * A.
(** The array inside an [Rgb] *)
Definition rgb_list {A} (c : rgb A) : list A := let '(r, g, b) := c in [r; g; b].

(** src/ser.rs:210-214: serialized as a slice, i.e. with a length prefix *)
Definition ser_rgb {A} (sa : A -> io unit) (c : rgb A) : io unit := ser_slice sa (rgb_list c).
(** src/ser.rs:216-222 *)
Definition deser_rgb {A} (da : deserializer A) : deserializer (rgb A) :=
  fun S next => rd_bind (deser_vec da S next)
                        (fun l => match l with
                                  | [r; g; b] => rd_ret (r, g, b)
                                  | _ => rd_fail
                                  end).

(** ** The types closed under these implementations *)
Inductive ty :=
| TU8 | TU16 | TI16 | TU32 | TU64 | TUsize | TChar
| TPair (a b : ty)
| TVec (a : ty)
| TArr (n : nat) (a : ty)
| TRgb (a : ty).

(** The values of a type *)
Fixpoint val (t : ty) : Type :=
  match t with
  | TU8 | TU16 | TU32 | TU64 | TUsize | TChar => N
  | TI16 => Z
  | TPair a b => (val a * val b)%type
  | TVec a => list (val a)
  | TArr _ a => list (val a)
  | TRgb a => rgb (val a)
  end.

(** Trait resolution for [Serialize] (src/ser.rs:13-222). *)
Fixpoint ser (t : ty) : val t -> io unit :=
  match t with
  | TU8 => ser_u8
  | TU16 => ser_u16
  | TI16 => ser_i16
  | TU32 => ser_u32
  | TU64 => ser_u64
  | TUsize => ser_usize
  | TChar => ser_char
  | TPair a b => ser_pair (ser a) (ser b)
  | TVec a => ser_slice (ser a)
  | TArr _ a => ser_array (ser a)
  | TRgb a => ser_rgb (ser a)
  end.

(** Trait resolution for [Deserialize] (src/ser.rs:13-222). *)
Fixpoint deser (t : ty) : deserializer (val t) :=
  match t with
  | TU8 => deser_u8
  | TU16 => deser_u16
  | TI16 => deser_i16
  | TU32 => deser_u32
  | TU64 => deser_u64
  | TUsize => deser_usize
  | TChar => deser_char
  | TPair a b => deser_pair (deser a) (deser b)
  | TVec a => deser_vec (deser a)
  | TArr n a => deser_array n (deser a)
  | TRgb a => deser_rgb (deser a)
  end.

(** ** SerStream (src/ser.rs:227-265) *)

(** src/ser.rs:227-230: remaining values (a finite iterator) and the [extra]
    queue of bytes not yet handed out. *)
Record ser_stream (A : Type) := mkSS { ss_iter : list A; ss_extra : list N }.
Arguments mkSS {A}.
Arguments ss_iter {A}.
Arguments ss_extra {A}.

(** src/ser.rs:238-245 [from_iter] and 232-236 [from_value] *)
Definition ss_from_iter {A} (l : list A) : ser_stream A := mkSS l [].
(** src/ser.rs:232-236 *)
Definition ss_from_value {A} (v : A) : ser_stream A := ss_from_iter [v].

(** src/ser.rs:250-264 [next]: refill [extra] from the next values while it is
    empty, then pop its front.  A serialization error is an [unwrap] panic. *)
Fixpoint ss_fill {A} (sa : A -> io unit) (iter : list A) : res (list N) * ser_stream A :=
  match iter with
  | [] => (Err, mkSS [] [])
  | x :: iter =>
      match run_vec (sa x) with
      | Ok [] => ss_fill sa iter
      | Ok extra => (Ok extra, mkSS iter extra)
      | Err | Panic => (Panic, mkSS iter [])
      end
  end.
(** src/ser.rs:250-264 *)
Definition ss_next {A} (sa : A -> io unit) : nextf (ser_stream A) N :=
  fun s =>
    match ss_extra s with
    | b :: extra => (Ok b, mkSS (ss_iter s) extra)
    | [] => match ss_fill sa (ss_iter s) with
            | (Ok (b :: extra), s') => (Ok b, mkSS (ss_iter s') extra)
            | (Ok [], s') => (Err, s')        (* not reachable: pop_front of an empty queue *)
            | (Err, s') => (Err, s')
            | (Panic, s') => (Panic, s')
            end
    end.

(** ** deser_stream (src/ser.rs:269-271): an iterator whose [next] is one
    deserialization from the underlying stream. *)
Definition deser_stream {A} (da : deserializer A) {S} (next : nextf S N) : nextf S A :=
  da S next.
