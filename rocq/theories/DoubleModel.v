(** libff/common/double.{hpp,cpp}: [Double], complex numbers in binary64.

    A binary64 number is a [spec_float] of Coq's standard library, which defines
    the IEEE 754 operations with rounding to nearest even as functions on
    integers.  [operator*] of std::complex<double> is the textbook formula in
    binary64, without contraction to fused operations; what the C library does
    when both parts come out as NaN (C99 Annex G) is not modelled.  Division
    ([inverse]) and [pow] are library functions and are not modelled, nor are
    the operation counters. *)
From Coq Require Import ZArith Bool Floats.SpecFloat.
From Verif Require Import Result.
Open Scope Z_scope.
Open Scope result_scope.

Notation prec := 53.
Notation emax := 1024.
Notation double := spec_float.
Definition fadd : double -> double -> double := SFadd prec emax.
Definition fsub : double -> double -> double := SFsub prec emax.
Definition fmul : double -> double -> double := SFmul prec emax.
(** Conversion from an integer type. *)
Definition of_int (z : Z) : double := binary_normalize prec emax z 0 false.
(** The value truncated towards zero; [None] for NaN and infinities. *)
Definition truncate (x : double) : option Z :=
  match x with
  | S754_zero _ => Some 0
  | S754_finite s m e =>
      let v := if 0 <=? e then Z.pos m * 2 ^ e else Z.pos m / 2 ^ (- e) in Some (if s then - v else v)
  | _ => None
  end.
(** round() of the C library: to the nearest integer, ties away from zero. *)
Definition round_away (x : double) : option Z :=
  match x with
  | S754_zero _ => Some 0
  | S754_finite s m e =>
      let v := if 0 <=? e then Z.pos m * 2 ^ e else (Z.pos m + 2 ^ (- e - 1)) / 2 ^ (- e) in Some (if s then - v else v)
  | _ => None
  end.
(** Conversion of a truncated value to a 64-bit unsigned type: undefined if the
    value does not fit. *)
Definition to_u64 (v : option Z) : result Z :=
  match v with
  | Some z => if (0 <=? z) && (z <? 2 ^ 64) then Ok z else UB
  | None => UB
  end.

(** double.hpp:24: the member [val]. *)
Record Double := mkDouble { re : double; im : double }.
(** double.cpp:21-24 *)
Definition D_default : Double := {| re := of_int 0; im := of_int 0 |}.
(** 26-29 *)
Definition D_real (x : double) : Double := {| re := x; im := of_int 0 |}.
(** 46-53, 82-90 ([+=]) *)
Definition D_add (x y : Double) : Double := {| re := fadd (re x) (re y); im := fadd (im x) (im y) |}.
(** 55-62, 92-100 ([-=]) *)
Definition D_sub (x y : Double) : Double := {| re := fsub (re x) (re y); im := fsub (im x) (im y) |}.
(** 64-71, 102-110 ([*=]) *)
Definition D_mul (x y : Double) : Double :=
  {| re := fsub (fmul (re x) (re y)) (fmul (im x) (im y));
     im := fadd (fmul (re x) (im y)) (fmul (im x) (re y)) |}.
(** 73-80 *)
Definition D_opp (x : Double) : Double :=
  if SFeqb (im x) (of_int 0) then D_real (SFopp (re x)) else {| re := SFopp (re x); im := SFopp (im x) |}.
(** 0.000001 as a binary64 literal: 4722366482869645 * 2^-72. *)
Definition precision : double := S754_finite false 4722366482869645 (-72).
(** 112-116 *)
Definition D_eqb (x y : Double) : bool :=
  SFltb (SFabs (fsub (re x) (re y))) precision && SFltb (SFabs (fsub (im x) (im y))) precision.
(** 118-121 *)
Definition D_neqb (x y : Double) : bool := negb (D_eqb x y).
(** 123-131 *)
Definition D_ltb (x y : Double) : bool := SFltb (re x) (re y).
Definition D_gtb (x y : Double) : bool := SFltb (re y) (re x).
(** 152-155: bigint<1> of the truncated real part. *)
Definition D_as_bigint (x : Double) : result (list Z) := v <- to_u64 (truncate (re x)) ;; Ok (cons v nil).
(** 157-160: [round] of an integer converted back to double. *)
Definition D_as_ulong (x : Double) : result Z :=
  v <- to_u64 (truncate (re x)) ;; to_u64 (round_away (of_int v)).
(** 162-165 *)
Definition D_squared (x : Double) : Double := D_mul x x.
(** 167-175 *)
Definition D_one : Double := D_real (of_int 1).
Definition D_zero : Double := D_real (of_int 0).
(** 177-180; [r] is the value of std::rand(). *)
Definition D_random_element (r : Z) : Double := D_real (of_int (Z.rem r 1001)).
(** 182-192 *)
Definition D_geometric_generator : Double := D_real (of_int 2).
Definition D_arithmetic_generator : Double := D_real (of_int 1).
Definition D_multiplicative_generator : Double := D_real (of_int 2).
