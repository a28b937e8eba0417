(** * f64: IEEE 754 binary64, from Flocq (all NaNs are one). *)
From Coq Require Import ZArith NArith.
From Flocq Require Import Core BinarySingleNaN.
From Verif Require Import Base.

(** IEEE 754 binary64; one NaN *)
Definition f64 := binary_float 53 1024.
#[global] Instance f64_prec : Prec_gt_0 53 := eq_refl.
#[global] Instance f64_emax : Prec_lt_emax 53 1024 := eq_refl.

(** [z as f64] (round to nearest, ties to even) *)
Definition f64_of_Z (z : Z) : f64 := binary_normalize 53 1024 f64_prec f64_emax mode_NE z 0 false.
(** [as f64] of an unsigned integer *)
Definition f64_of_N (n : N) : f64 := f64_of_Z (Z.of_N n).
(** The operators round to nearest, ties to even. *)
Definition fadd (a b : f64) : f64 := Bplus mode_NE a b.
Definition fsub (a b : f64) : f64 := Bminus mode_NE a b.
Definition fmul (a b : f64) : f64 := Bmult mode_NE a b.
Definition fdiv (a b : f64) : f64 := Bdiv mode_NE a b.
Definition fsqrt (a : f64) : f64 := Bsqrt mode_NE a.
(** [a <= b], [a == b], [a < b]: false when an operand is NaN *)
Definition fle (a b : f64) : bool := Bleb a b.
Definition feq (a b : f64) : bool := Beqb a b.
Definition flt (a b : f64) : bool := Bltb a b.
(** [x.powi(2)] is [x * x] *)
Definition fsqr (a : f64) : f64 := fmul a a.
(** [x.round()]: half away from zero *)
Definition fround (a : f64) : f64 := Bnearbyint mode_NA a.
(** [x as u8]: truncates, saturates, NaN is 0 *)
Definition f64_as_u8 (a : f64) : N :=
  match a with
  | B754_nan => 0%N
  | B754_infinity s => if s then 0%N else 255%N
  | _ => Z.to_N (Z.max 0 (Z.min 255 (Btrunc a)))
  end.
