(** Models of the curve group types in libff/algebra/curves.

    A point object is its triple of coordinates (X, Y, Z).  The functions are
    generic over the coordinate field, which is the field type of the curve
    (Fq for G1; Fq2 or Fq3 for G2):
    - [jac_*]: Jacobian coordinates, alt_bn128 and bls12_381, G1 and G2.  The
      four sources differ only in the field and the coefficient b
      ([alt_bn128_coeff_b], [alt_bn128_twist_coeff_b], ...); line numbers are
      those of alt_bn128/alt_bn128_g1.cpp.
    - [prj_*]: homogeneous projective coordinates, mnt4 and mnt6, G1 and G2.
      [mul_a] is multiplication by coeff_a (G1: [coeff_a * .];
      G2: [mul_by_a]); line numbers are those of mnt/mnt4/mnt4_g1.cpp.
    - [edw_*]: inverted (twisted) Edwards coordinates, edwards G1 and G2, with
      [mul_a] and [mul_d] (G1: identity, [edwards_coeff_d * .]; G2: [mul_by_a],
      [mul_by_d]); line numbers are those of edwards/edwards_g2.cpp.

    Printing and the DEBUG-only [assert(other.is_special())] are not
    modelled; the operation counters are in OpcountModel.v. *)
From Coq Require Import ZArith List Bool.
From Verif Require Import Result Limbs StreamModel SerializationModel FieldOps AlgorithmsModel GroupOps.
Import ListNotations.
Open Scope result_scope.

Notation pt K := (K * K * K)%type (only parsing).

(** [batch_to_special_all_non_zeros], first half: invert all Z. *)
Definition batch_inv_Z {K} (F : Fops K) (vec : list (pt K)) : result (list K) :=
  batch_invert (o0 F) (o1 F) (omul F) (oeqb F) (oinv F) (map snd vec).

Section Jacobian.
Context {K : Type} (F : Fops K).
Local Notation "0" := (o0 F).
Local Notation "1" := (o1 F).
Local Notation "x + y" := (oadd F x y).
Local Notation "x - y" := (osub F x y).
Local Notation "x * y" := (omul F x y).
Local Notation "- x" := (oopp F x).
Local Notation sqr := (osqr F).
Local Notation "x == y" := (oeqb F x y) (at level 70).

(** alt_bn128_init.cpp:44-46 [G1_zero]. *)
Definition jac_zero : pt K := (0, 1, 0).
(** 96-99 *)
Definition jac_is_zero (p : pt K) : bool := let '(_, _, Z) := p in Z == 0.
(** 91-94 *)
Definition jac_is_special (p : pt K) : bool := let '(_, _, Z) := p in jac_is_zero p || (Z == 1).
(** 67-84 *)
Definition jac_to_affine (p : pt K) : result (pt K) :=
  let '(X, Y, Z) := p in
  if jac_is_zero p then Ok (0, 1, 0)
  else
    Z_inv <- oinv F Z ;;
    let Z2_inv := sqr Z_inv in
    let Z3_inv := Z2_inv * Z_inv in
    Ok (X * Z2_inv, Y * Z3_inv, 1).
(** 86-89 *)
Definition jac_to_special (p : pt K) : result (pt K) := jac_to_affine p.
(** 101-134 *)
Definition jac_eqb (p q : pt K) : bool :=
  let '(X1, Y1, Z1) := p in let '(X2, Y2, Z2) := q in
  if jac_is_zero p then jac_is_zero q
  else if jac_is_zero q then false
  else
    let Z1_squared := sqr Z1 in
    let Z2_squared := sqr Z2 in
    if negb (X1 * Z2_squared == X2 * Z1_squared) then false
    else
      let Z1_cubed := Z1 * Z1_squared in
      let Z2_cubed := Z2 * Z2_squared in
      negb (negb (Y1 * Z2_cubed == Y2 * Z1_cubed)).
(** 285-318 *)
Definition jac_dbl (p : pt K) : pt K :=
  let '(X, Y, Z) := p in
  if jac_is_zero p then p
  else
    let A := sqr X in
    let B := sqr Y in
    let C := sqr B in
    let D := sqr (X + B) - A - C in
    let D := D + D in
    let E := A + A + A in
    let FF := sqr E in
    let X3 := FF - (D + D) in
    let eightC := C + C in
    let eightC := eightC + eightC in
    let eightC := eightC + eightC in
    let Y3 := E * (D - X3) - eightC in
    let Y1Z1 := Y * Z in
    let Z3 := Y1Z1 + Y1Z1 in
    (X3, Y3, Z3).
(** 141-201 *)
Definition jac_add (p q : pt K) : pt K :=
  let '(X1, Y1, Z1) := p in let '(X2, Y2, Z2) := q in
  if jac_is_zero p then q
  else if jac_is_zero q then p
  else
    let Z1Z1 := sqr Z1 in
    let Z2Z2 := sqr Z2 in
    let U1 := X1 * Z2Z2 in
    let U2 := X2 * Z1Z1 in
    let Z1_cubed := Z1 * Z1Z1 in
    let Z2_cubed := Z2 * Z2Z2 in
    let S1 := Y1 * Z2_cubed in
    let S2 := Y2 * Z1_cubed in
    if (U1 == U2) && (S1 == S2) then jac_dbl p
    else
      let H := U2 - U1 in
      let S2_minus_S1 := S2 - S1 in
      let I := sqr (H + H) in
      let J := H * I in
      let r := S2_minus_S1 + S2_minus_S1 in
      let V := U1 * I in
      let X3 := sqr r - J - (V + V) in
      let S1_J := S1 * J in
      let Y3 := r * (V - X3) - (S1_J + S1_J) in
      let Z3 := (sqr (Z1 + Z2) - Z1Z1 - Z2Z2) * H in
      (X3, Y3, Z3).
(** 203-206 *)
Definition jac_opp (p : pt K) : pt K := let '(X, Y, Z) := p in (X, - Y, Z).
(** 209-212 *)
Definition jac_sub (p q : pt K) : pt K := jac_add p (jac_opp q).
(** 219-283 *)
Definition jac_mixed_add (p q : pt K) : pt K :=
  let '(X1, Y1, Z1) := p in let '(X2, Y2, Z2) := q in
  if jac_is_zero p then q
  else if jac_is_zero q then p
  else
    let Z1Z1 := sqr Z1 in
    let U1 := X1 in
    let U2 := X2 * Z1Z1 in
    let Z1_cubed := Z1 * Z1Z1 in
    let S1 := Y1 in
    let S2 := Y2 * Z1_cubed in
    if (U1 == U2) && (S1 == S2) then jac_dbl p
    else
      let H := U2 - X1 in
      let HH := sqr H in
      let I := HH + HH in
      let I := I + I in
      let J := H * I in
      let r := S2 - Y1 in
      let r := r + r in
      let V := X1 * I in
      let X3 := sqr r - J - V - V in
      let Y3 := Y1 * J in
      let Y3 := r * (V - X3) - Y3 - Y3 in
      let Z3 := sqr (Z1 + H) - Z1Z1 - HH in
      (X3, Y3, Z3).
(** 326-350 *)
Definition jac_is_well_formed (b : K) (p : pt K) : bool :=
  let '(X, Y, Z) := p in
  if jac_is_zero p then true
  else
    let X2 := sqr X in
    let Y2 := sqr Y in
    let Z2 := sqr Z in
    let X3 := X * X2 in
    let Z3 := Z * Z2 in
    let Z6 := sqr Z3 in
    Y2 == X3 + b * Z6.
(** 462-484 *)
Definition jac_batch_step (pz : pt K * K) : pt K :=
  let '((X, Y, _), Zi) := pz in
  let Z2 := sqr Zi in
  let Z3 := Zi * Z2 in
  (X * Z2, Y * Z3, 1).
Definition jac_batch_to_special (vec : list (pt K)) : result (list (pt K)) :=
  Z_vec <- batch_inv_Z F vec ;; Ok (map jac_batch_step (combine vec Z_vec)).

Definition jac_gops : gops (pt K) :=
  mkGops _ jac_zero jac_zero jac_add jac_sub jac_mixed_add jac_dbl jac_is_zero jac_is_special
    jac_to_special jac_batch_to_special.
End Jacobian.

Section Projective.
Context {K : Type} (F : Fops K) (mul_a : K -> K).
Local Notation "0" := (o0 F).
Local Notation "1" := (o1 F).
Local Notation "x + y" := (oadd F x y).
Local Notation "x - y" := (osub F x y).
Local Notation "x * y" := (omul F x y).
Local Notation "- x" := (oopp F x).
Local Notation sqr := (osqr F).
Local Notation "x == y" := (oeqb F x y) (at level 70).

(** mnt4_init.cpp:58-60 [G1_zero]. *)
Definition prj_zero : pt K := (0, 1, 0).
(** 102-105 *)
Definition prj_is_zero (p : pt K) : bool := let '(X, _, Z) := p in (X == 0) && (Z == 0).
(** 97-100 *)
Definition prj_is_special (p : pt K) : bool := let '(_, _, Z) := p in prj_is_zero p || (Z == 1).
(** 75-90 *)
Definition prj_to_affine (p : pt K) : result (pt K) :=
  let '(X, Y, Z) := p in
  if prj_is_zero p then Ok (0, 1, 0)
  else Z_inv <- oinv F Z ;; Ok (X * Z_inv, Y * Z_inv, 1).
(** 92-95 *)
Definition prj_to_special (p : pt K) : result (pt K) := prj_to_affine p.
(** 107-134 *)
Definition prj_eqb (p q : pt K) : bool :=
  let '(X1, Y1, Z1) := p in let '(X2, Y2, Z2) := q in
  if prj_is_zero p then prj_is_zero q
  else if prj_is_zero q then false
  else if negb (X1 * Z2 == X2 * Z1) then false
  else if negb (Y1 * Z2 == Y2 * Z1) then false
  else true.
(** 333-349; the same statements are inlined in operator+ at 178-192. *)
Definition prj_dbl_core (p : pt K) : pt K :=
  let '(X, Y, Z) := p in
  let XX := sqr X in
  let ZZ := sqr Z in
  let w := mul_a ZZ + (XX + XX + XX) in
  let Y1Z1 := Y * Z in
  let s := Y1Z1 + Y1Z1 in
  let ss := sqr s in
  let sss := s * ss in
  let R := Y * s in
  let RR := sqr R in
  let B := sqr (X + R) - XX - RR in
  let h := sqr w - (B + B) in
  let X3 := h * s in
  let Y3 := w * (B - h) - (RR + RR) in
  let Z3 := sss in
  (X3, Y3, Z3).
(** 322-350 *)
Definition prj_dbl (p : pt K) : pt K := if prj_is_zero p then p else prj_dbl_core p.
(** 141-214 *)
Definition prj_add (p q : pt K) : pt K :=
  let '(X1, Y1, Z1) := p in let '(X2, Y2, Z2) := q in
  if prj_is_zero p then q
  else if prj_is_zero q then p
  else
    let X1Z2 := X1 * Z2 in
    let X2Z1 := Z1 * X2 in
    let Y1Z2 := Y1 * Z2 in
    let Y2Z1 := Z1 * Y2 in
    if (X1Z2 == X2Z1) && (Y1Z2 == Y2Z1) then prj_dbl_core p
    else
      let Z1Z2 := Z1 * Z2 in
      let u := Y2Z1 - Y1Z2 in
      let uu := sqr u in
      let v := X2Z1 - X1Z2 in
      let vv := sqr v in
      let vvv := v * vv in
      let R := vv * X1Z2 in
      let A := uu * Z1Z2 - (vvv + R + R) in
      let X3 := v * A in
      let Y3 := u * (R - A) - vvv * Y1Z2 in
      let Z3 := vvv * Z1Z2 in
      (X3, Y3, Z3).
(** 216-219 *)
Definition prj_opp (p : pt K) : pt K := let '(X, Y, Z) := p in (X, - Y, Z).
(** 222-225 *)
Definition prj_sub (p q : pt K) : pt K := prj_add p (prj_opp q).
(** 227-270: the member function [add]. *)
Definition prj_add_member (p q : pt K) : pt K :=
  let '(X1, Y1, Z1) := p in let '(X2, Y2, Z2) := q in
  if prj_is_zero p then q
  else if prj_is_zero q then p
  else if prj_eqb p q then prj_dbl p
  else
    let Y1Z2 := Y1 * Z2 in
    let X1Z2 := X1 * Z2 in
    let Z1Z2 := Z1 * Z2 in
    let u := Y2 * Z1 - Y1Z2 in
    let uu := sqr u in
    let v := X2 * Z1 - X1Z2 in
    let vv := sqr v in
    let vvv := v * vv in
    let R := vv * X1Z2 in
    let A := uu * Z1Z2 - (vvv + R + R) in
    let X3 := v * A in
    let Y3 := u * (R - A) - vvv * Y1Z2 in
    let Z3 := vvv * Z1Z2 in
    (X3, Y3, Z3).
(** 272-320 *)
Definition prj_mixed_add (p q : pt K) : pt K :=
  let '(X1, Y1, Z1) := p in let '(X2, Y2, Z2) := q in
  if prj_is_zero p then q
  else if prj_is_zero q then p
  else
    let X1Z2 := X1 in
    let X2Z1 := Z1 * X2 in
    let Y1Z2 := Y1 in
    let Y2Z1 := Z1 * Y2 in
    if (X1Z2 == X2Z1) && (Y1Z2 == Y2Z1) then prj_dbl p
    else
      let u := Y2Z1 - Y1 in
      let uu := sqr u in
      let v := X2Z1 - X1 in
      let vv := sqr v in
      let vvv := v * vv in
      let R := vv * X1 in
      let A := uu * Z1 - vvv - R - R in
      let X3 := v * A in
      let Y3 := u * (R - A) - vvv * Y1 in
      let Z3 := vvv * Z1 in
      (X3, Y3, Z3).
(** 358-379 *)
Definition prj_is_well_formed (a b : K) (p : pt K) : bool :=
  let '(X, Y, Z) := p in
  if prj_is_zero p then true
  else
    let X2 := sqr X in
    let Y2 := sqr Y in
    let Z2 := sqr Z in
    Z * (Y2 - b * Z2) == X * (X2 + a * Z2).
(** 492-512 *)
Definition prj_batch_step (pz : pt K * K) : pt K :=
  let '((X, Y, _), Zi) := pz in (X * Zi, Y * Zi, 1).
Definition prj_batch_to_special (vec : list (pt K)) : result (list (pt K)) :=
  Z_vec <- batch_inv_Z F vec ;; Ok (map prj_batch_step (combine vec Z_vec)).

Definition prj_gops : gops (pt K) :=
  mkGops _ prj_zero prj_zero prj_add prj_sub prj_mixed_add prj_dbl prj_is_zero prj_is_special
    prj_to_special prj_batch_to_special.
End Projective.

Section EdwardsInv.
Context {K : Type} (F : Fops K) (mul_a mul_d : K -> K).
Local Notation "0" := (o0 F).
Local Notation "1" := (o1 F).
Local Notation "x + y" := (oadd F x y).
Local Notation "x - y" := (osub F x y).
Local Notation "x * y" := (omul F x y).
Local Notation "- x" := (oopp F x).
Local Notation sqr := (osqr F).
Local Notation "x == y" := (oeqb F x y) (at level 70).

(** edwards_g2.hpp:47 the two-argument constructor. *)
Definition edw_of_affine (x y : K) : pt K := (y, x, x * y).
(** edwards_init.cpp:114-115 [G2_zero]. *)
Definition edw_zero : pt K := edw_of_affine 0 1.
(** 136-139 *)
Definition edw_is_zero (p : pt K) : bool := let '(_, Y, Z) := p in (Y == 0) && (Z == 0).
(** 131-134 *)
Definition edw_is_special (p : pt K) : bool := let '(_, _, Z) := p in edw_is_zero p || (Z == 1).
(** 88-108.  Note that the result is in affine, not inverted, coordinates. *)
Definition edw_to_affine (p : pt K) : result (pt K) :=
  let '(X, Y, Z) := p in
  if edw_is_zero p then Ok (0, 1, 1)
  else
    let tX := Y * Z in
    let tY := X * Z in
    let tZ := X * Y in
    tZ_inv <- oinv F tZ ;;
    Ok (tX * tZ_inv, tY * tZ_inv, 1).
(** 110-129 *)
Definition edw_to_special (p : pt K) : result (pt K) :=
  let '(X, Y, Z) := p in
  if Z == 0 then Ok p
  else Z_inv <- oinv F Z ;; Ok (X * Z_inv, Y * Z_inv, 1).
(** 141-168 *)
Definition edw_eqb (p q : pt K) : bool :=
  let '(X1, Y1, Z1) := p in let '(X2, Y2, Z2) := q in
  if edw_is_zero p then edw_is_zero q
  else if edw_is_zero q then false
  else if negb (X1 * Z2 == X2 * Z1) then false
  else if negb (Y1 * Z2 == Y2 * Z1) then false
  else true.
(** 202-222 *)
Definition edw_add_member (p q : pt K) : pt K :=
  let '(X1, Y1, Z1) := p in let '(X2, Y2, Z2) := q in
  let A := Z1 * Z2 in
  let B := mul_d (sqr A) in
  let C := X1 * X2 in
  let D := Y1 * Y2 in
  let E := C * D in
  let H := C - mul_a D in
  let I := (X1 + Y1) * (X2 + Y2) - C - D in
  let X3 := (E + B) * H in
  let Y3 := (E - B) * I in
  let Z3 := A * H * I in
  (X3, Y3, Z3).
(** 175-189 *)
Definition edw_add (p q : pt K) : pt K :=
  if edw_is_zero p then q
  else if edw_is_zero q then p
  else edw_add_member p q.
(** 191-194 *)
Definition edw_opp (p : pt K) : pt K := let '(X, Y, Z) := p in (- X, Y, Z).
(** 197-200 *)
Definition edw_sub (p q : pt K) : pt K := edw_add p (edw_opp q).
(** 224-259 *)
Definition edw_mixed_add (p q : pt K) : pt K :=
  let '(X1, Y1, Z1) := p in let '(X2, Y2, Z2) := q in
  if edw_is_zero p then q
  else if edw_is_zero q then p
  else
    let A := Z1 in
    let B := mul_d (sqr A) in
    let C := X1 * X2 in
    let D := Y1 * Y2 in
    let E := C * D in
    let H := C - mul_a D in
    let I := (X1 + Y1) * (X2 + Y2) - C - D in
    let X3 := (E + B) * H in
    let Y3 := (E - B) * I in
    let Z3 := A * H * I in
    (X3, Y3, Z3).
(** 261-285 *)
Definition edw_dbl (p : pt K) : pt K :=
  let '(X, Y, Z) := p in
  if edw_is_zero p then p
  else
    let A := sqr X in
    let B := sqr Y in
    let U := mul_a B in
    let C := A + U in
    let D := A - U in
    let E := sqr (X + Y) - A - B in
    let X3 := C * D in
    let dZZ := mul_d (sqr Z) in
    let Y3 := E * (C - dZZ - dZZ) in
    let Z3 := D * E in
    (X3, Y3, Z3).
(** edwards_g1.cpp:239-262: the G1 version (a = 1) subtracts C instead of A and
    B.  All other members of edwards_g1.cpp are those of edwards_g2.cpp with
    the identity for [mul_a]. *)
Definition edw_g1_dbl (p : pt K) : pt K :=
  let '(X, Y, Z) := p in
  if edw_is_zero p then p
  else
    let A := sqr X in
    let B := sqr Y in
    let C := A + B in
    let D := A - B in
    let E := sqr (X + Y) - C in
    let X3 := C * D in
    let dZZ := mul_d (sqr Z) in
    let Y3 := E * (C - dZZ - dZZ) in
    let Z3 := D * E in
    (X3, Y3, Z3).
(** 294-316 *)
Definition edw_is_well_formed (p : pt K) : bool :=
  let '(X, Y, Z) := p in
  if edw_is_zero p then true
  else
    let X2 := sqr X in
    let Y2 := sqr Y in
    let Z2 := sqr Z in
    let aY2 := mul_a Y2 in
    let dZ2 := mul_d Z2 in
    Z2 * (aY2 + X2 - dZ2) == X2 * Y2.
(** 390-410 *)
Definition edw_batch_to_special (vec : list (pt K)) : result (list (pt K)) :=
  Z_vec <- batch_inv_Z F vec ;; Ok (map (prj_batch_step F) (combine vec Z_vec)).

Definition edw_gops : gops (pt K) :=
  mkGops _ edw_zero edw_zero edw_add edw_sub edw_mixed_add edw_dbl edw_is_zero edw_is_special
    edw_to_special edw_batch_to_special.
Definition edw_g1_gops : gops (pt K) :=
  mkGops _ edw_zero edw_zero edw_add edw_sub edw_mixed_add edw_g1_dbl edw_is_zero edw_is_special
    edw_to_special edw_batch_to_special.
End EdwardsInv.

(** G2::mul_by_a / mul_by_b / mul_by_d of the twists, with the constants set
    by the init functions. *)
Section TwistMul.
Context {K : Type} (F : Fops K).
Local Notation "x * y" := (omul F x y).
(** mnt4_g2.cpp:35-38, 40-43; mnt4_init.cpp:45-53. *)
Definition mnt4_twist_a (a nr : K) : K * K := (a * nr, o0 F).
Definition mnt4_twist_b (b nr : K) : K * K := (o0 F, b * nr).
Definition mnt4_mul_by_a (a nr : K) (e : K * K) : K * K :=
  let '(c0, c1) := e in ((a * nr) * c0, (a * nr) * c1).
Definition mnt4_mul_by_b (b nr : K) (e : K * K) : K * K :=
  let '(c0, c1) := e in ((b * osqr F nr) * c1, (b * nr) * c0).
(** mnt6_g2.cpp:45-53; mnt6_init.cpp:47-59. *)
Definition mnt6_twist_a (a : K) : K * K * K := (o0 F, o0 F, a).
Definition mnt6_twist_b (b nr : K) : K * K * K := (b * nr, o0 F, o0 F).
Definition mnt6_mul_by_a (a nr : K) (e : K * K * K) : K * K * K :=
  let '(c0, c1, c2) := e in ((a * nr) * c1, (a * nr) * c2, a * c0).
Definition mnt6_mul_by_b (b nr : K) (e : K * K * K) : K * K * K :=
  let '(c0, c1, c2) := e in ((b * nr) * c0, (b * nr) * c1, (b * nr) * c2).
(** edwards_g2.cpp:34-45; edwards_init.cpp:41-49, with edwards_coeff_a = 1 and
    edwards_twist = (0, 1, 0). *)
Definition edwards_twist_a (a : K) : K * K * K := (a * o0 F, a * o1 F, a * o0 F).
Definition edwards_twist_d (d : K) : K * K * K := (d * o0 F, d * o1 F, d * o0 F).
Definition edwards_mul_by_a (a nr : K) (e : K * K * K) : K * K * K :=
  let '(c0, c1, c2) := e in ((a * nr) * c2, c0, c1).
Definition edwards_mul_by_d (d nr : K) (e : K * K * K) : K * K * K :=
  let '(c0, c1, c2) := e in ((d * nr) * c2, d * c0, d * c1).
(** alt_bn128_g2.cpp:36-39, alt_bn128_init.cpp:36-37; bls12_381_g2.cpp:25-28,
    bls12_381_init.cpp:30-31. *)
Definition bn_mul_by_b (b nr : K) (e : K * K) : K * K :=
  let '(c0, c1) := e in ((b * nr) * c0, (b * nr) * c1).
End TwistMul.
