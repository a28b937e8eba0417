(** * Base: outcomes, writers, iterators and machine arithmetic.

    This file models the parts of Rust (not of cniic) that every module of
    cniic relies on: [Result]/[Option]/panic, [io::Write], [Iterator] and
    fixed-width integers. *)
From Coq Require Export List NArith ZArith Arith Lia Bool Permutation.
Export ListNotations.
Set Implicit Arguments.

(** Outcome of a Rust computation.
    [Ok a]  : normal return of [a] ([Some a] / [Ok(a)] / [a]).
    [Err]   : the failure value ([None] / [Err(_)]); error payloads are dropped.
    [Panic] : an [assert!]/[unwrap]/[expect]/index/overflow panic. *)
Inductive res (A : Type) : Type :=
| Ok (a : A)
| Err
| Panic.
Arguments Ok {A} a.
Arguments Err {A}.
Arguments Panic {A}.

(** [Option::map] *)
Definition res_map {A B} (f : A -> B) (r : res A) : res B :=
  match r with Ok a => Ok (f a) | Err => Err | Panic => Panic end.

(** [?] and [and_then] *)
Definition res_bind {A B} (r : res A) (f : A -> res B) : res B :=
  match r with Ok a => f a | Err => Err | Panic => Panic end.

(** [Option::unwrap]/[Result::unwrap]: the failure value becomes a panic. *)
Definition unwrap {A} (r : res A) : res A :=
  match r with Err => Panic | r => r end.

(** [assert!(b)] *)
Definition assert_ (b : bool) : res unit := if b then Ok tt else Panic.

(** ** Writers ([io::Write])

    A writer is the list of bytes accepted so far plus how many more it will
    accept ([None]: never fails, like [Vec<u8>]); [flush_fails] makes [flush]
    return an error.  [write_all] on a writer with too little room accepts what
    fits and then fails, which is how every crash point of the output is
    represented. *)
Record writer := mkW { written : list N; room : option nat; flush_fails : bool }.

(** [Vec::new()], a writer that never fails *)
Definition vec_writer : writer := mkW [] None false.
(** A writer that accepts [k] bytes *)
Definition short_writer (k : nat) : writer := mkW [] (Some k) false.

(** A computation that writes. *)
Definition io (A : Type) := writer -> res A * writer.

(** [Ok(a)] *)
Definition io_ret {A} (a : A) : io A := fun w => (Ok a, w).
(** [Err(_)] *)
Definition io_fail {A} : io A := fun w => (Err, w).
(** A panic while writing *)
Definition io_panic {A} : io A := fun w => (Panic, w).
(** [let x = m?; f x] : an error or panic in [m] ends the computation. *)
Definition io_bind {A B} (m : io A) (f : A -> io B) : io B :=
  fun w => match m w with
           | (Ok a, w') => f a w'
           | (Err, w') => (Err, w')
           | (Panic, w') => (Panic, w')
           end.
(** [m.unwrap()] on an [io::Result]. *)
Definition io_unwrap {A} (m : io A) : io A :=
  fun w => match m w with (r, w') => (unwrap r, w') end.
(** A computation that does not write *)
Definition io_lift {A} (r : res A) : io A := fun w => (r, w).

Declare Scope io_scope.
Delimit Scope io_scope with io.
Notation "x <- m ;; f" := (io_bind m (fun x => f))
  (at level 61, m at next level, right associativity) : io_scope.
Notation "m ;;; f" := (io_bind m (fun _ => f))
  (at level 61, right associativity) : io_scope.

(** [io::Write::write_all] *)
Definition write_all (bs : list N) : io unit :=
  fun w => match room w with
           | None => (Ok tt, mkW (written w ++ bs) None (flush_fails w))
           | Some k =>
               if (length bs <=? k)%nat
               then (Ok tt, mkW (written w ++ bs) (Some (k - length bs)%nat) (flush_fails w))
               else (Err, mkW (written w ++ firstn k bs) (Some O) (flush_fails w))
           end.

(** [io::Write::flush] *)
Definition flush : io unit :=
  fun w => if flush_fails w then (Err, w) else (Ok tt, w).

(** [for x in xs { f(x)?; }] *)
Fixpoint io_iter {A} (f : A -> io unit) (xs : list A) : io unit :=
  match xs with
  | [] => io_ret tt
  | x :: xs => io_bind (f x) (fun _ => io_iter f xs)
  end.

(** Running a writing computation into a fresh [Vec<u8>] (src/bench.rs:33-34). *)
Definition run_vec {A} (m : io A) : res (list N) :=
  match m vec_writer with
  | (Ok _, w) => Ok (written w)
  | (Err, _) => Err
  | (Panic, _) => Panic
  end.

(** ** Iterators

    An iterator is a state type with a [next] function; [Ok x] is [Some(x)],
    [Err] is [None]. *)
Definition nextf (S A : Type) := S -> res A * S.

(** Readers: computations over an iterator state. *)
Definition rd (S A : Type) := S -> res A * S.

(** [Some(a)] *)
Definition rd_ret {S A} (a : A) : rd S A := fun s => (Ok a, s).
(** [None] *)
Definition rd_fail {S A} : rd S A := fun s => (Err, s).
(** A panic while reading *)
Definition rd_panic {S A} : rd S A := fun s => (Panic, s).
(** [let x = m?; f x] *)
Definition rd_bind {S A B} (m : rd S A) (f : A -> rd S B) : rd S B :=
  fun s => match m s with
           | (Ok a, s') => f a s'
           | (Err, s') => (Err, s')
           | (Panic, s') => (Panic, s')
           end.
(** [m.unwrap()] *)
Definition rd_unwrap {S A} (m : rd S A) : rd S A :=
  fun s => match m s with (r, s') => (unwrap r, s') end.
(** A computation that does not read *)
Definition rd_lift {S A} (r : res A) : rd S A := fun s => (r, s).

Declare Scope rd_scope.
Delimit Scope rd_scope with rd.
Notation "x <- m ;; f" := (rd_bind m (fun x => f))
  (at level 61, m at next level, right associativity) : rd_scope.

(** The iterator of a [Vec]/slice: [vec.into_iter()]. *)
Definition list_next {A} : nextf (list A) A :=
  fun l => match l with [] => (Err, []) | x :: l => (Ok x, l) end.

(** [for _ in 0..n { acc.push(m?) }] with the loop counter in binary, so that
    a huge [n] read from untrusted input costs only as many steps as succeed. *)
Fixpoint rd_repeat_pos {S A} (m : rd S A) (p : positive) (acc : list A) : rd S (list A) :=
  match p with
  | xH => rd_bind m (fun x => rd_ret (acc ++ [x]))
  | xO p => rd_bind (rd_repeat_pos m p acc) (fun acc => rd_repeat_pos m p acc)
  | xI p => rd_bind (rd_bind m (fun x => rd_ret (acc ++ [x])))
                    (fun acc => rd_bind (rd_repeat_pos m p acc) (fun acc => rd_repeat_pos m p acc))
  end.
(** The same loop, for any count *)
Definition rd_repeat {S A} (m : rd S A) (n : N) : rd S (list A) :=
  match n with N0 => rd_ret [] | Npos p => rd_repeat_pos m p [] end.

(** [iter.take(n).collect()] : stops at [n] items or at the first [None]. *)
Fixpoint take_next {S A} (next : nextf S A) (n : nat) : rd S (list A) :=
  match n with
  | O => rd_ret []
  | S n => fun s => match next s with
                    | (Ok x, s') => rd_bind (take_next next n) (fun l => rd_ret (x :: l)) s'
                    | (Err, s') => (Ok [], s')
                    | (Panic, s') => (Panic, s')
                    end
  end.

(** [iter.collect::<Vec<_>>()], with fuel: [None] means the fuel ran out before
    the iterator ended (never a normal result). *)
Fixpoint collect {S A} (next : nextf S A) (fuel : nat) (s : S) : option (res (list A)) :=
  match fuel with
  | O => None
  | S fuel =>
      match next s with
      | (Ok x, s') => match collect next fuel s' with
                      | Some r => Some (res_map (cons x) r)
                      | None => None
                      end
      | (Err, _) => Some (Ok [])
      | (Panic, _) => Some Panic
      end
  end.

(** ** Fixed-width integers *)

(** Is the build compiled with overflow checks (debug profile) or not
    (release profile, where arithmetic wraps)? *)
Inductive profile := Debug | Release.

(** The [MAX] constants *)
Definition u8_max : N := 255.
Definition u16_max : N := 65535.
Definition u32_max : N := 4294967295.
Definition u64_max : N := 18446744073709551615.

(** The ranges of the types *)
Definition u8_ok (n : N) : Prop := (n < 256)%N.
Definition u16_ok (n : N) : Prop := (n < 65536)%N.
Definition u32_ok (n : N) : Prop := (n < 4294967296)%N.
Definition u64_ok (n : N) : Prop := (n < 18446744073709551616)%N.
Definition i16_ok (z : Z) : Prop := (-32768 <= z < 32768)%Z.

(** [a - b] on an unsigned type with modulus [m]. *)
Definition usub (p : profile) (m a b : N) : res N :=
  if (b <=? a)%N then Ok (a - b)%N
  else match p with Debug => Panic | Release => Ok ((a + m - b) mod m)%N end.
(** A result [r] that has to fit modulus [m] ([+], [*], [pow]). *)
Definition ufit (p : profile) (m r : N) : res N :=
  if (r <? m)%N then Ok r
  else match p with Debug => Panic | Release => Ok (r mod m)%N end.

(** [to_le_bytes] for a [k]-byte unsigned integer. *)
Fixpoint le_bytes (k : nat) (n : N) : list N :=
  match k with
  | O => []
  | S k => (n mod 256)%N :: le_bytes k (n / 256)%N
  end.
(** [from_le_bytes] *)
Fixpoint of_le_bytes (bs : list N) : N :=
  match bs with
  | [] => 0%N
  | b :: bs => (b + 256 * of_le_bytes bs)%N
  end.
