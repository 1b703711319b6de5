(** Model of the Miller loops:
    libff/algebra/curves/{alt_bn128/alt_bn128,bls12_381/bls12_381,mnt/mnt4/mnt4,
    mnt/mnt6/mnt6,edwards/edwards}_pairing.cpp.

    [enter_block]/[leave_block] (profiling), DEBUG-only test_invariant and
    printing are left out.  [assert] is active.  The static members used
    (non-residues, twist constants, loop count and its sign) are parameters.
    [Fq("2")] and [Fq("8")] are sums of ones.  std::vector is a list: push_back
    appends, [v[i]] past the end is UB.  bn128 calls the external ate-pairing
    library and is not modelled. *)
From Coq Require Import ZArith List Bool.
From Verif Require Import Result Limbs BigintModel FieldOps ExtModel WnafModel FinalExpModel CurveModel.
Import ListNotations.
Open Scope result_scope.

(** The loop of every precompute and Miller function: bits n-1 .. 0 of the loop
    count, [body] skipped up to and including the first one. *)
Fixpoint bit_loop {S} (loop_count : bigint) (body : bool -> S -> result S) (n : nat) (found_one : bool) (s : S)
  : result S :=
  match n with
  | O => Ok s
  | Datatypes.S i =>
      let bit := bigint_test_bit loop_count (Z.of_nat i) in
      if negb found_one then bit_loop loop_count body i (found_one || bit) s
      else s' <- body bit s ;; bit_loop loop_count body i found_one s'
  end.
Definition max_bits (b : bigint) : nat := (64 * length b)%nat.

Definition at_idx {A} (l : list A) (i : nat) : result A :=
  match nth_error l i with Some x => Ok x | None => UB end.

(** ** alt_bn128 and bls12_381 *)
Section Twelve.
Context {K : Type} (F : Fops K) (nr2 : K) (nr6 nr12 : K * K).
Notation F2 := (fp2_ops F nr2).
Notation F12 := (fp12_ops F nr2 nr6 nr12).
Notation E := (K * K)%type.
Notation T := ((E * E * E) * (E * E * E))%type.
(** twist, twist_coeff_b, ate_loop_count, ate_is_loop_count_neg *)
Variables (twist twist_b : E) (loop_count : bigint) (loop_neg : bool).
Local Notation "x + y" := (oadd F2 x y).
Local Notation "x - y" := (osub F2 x y).
Local Notation "x * y" := (omul F2 x y).
Local Notation "- x" := (oopp F2 x).
Local Notation sqr := (osqr F2).
Local Notation scale := (quad_scale (omul F)).

(** ell_0, ell_VW, ell_VV *)
Notation ell := (E * E * E)%type (only parsing).
(** prec_P.PX, prec_P.PY *)
Notation g1_precomp := (K * K)%type (only parsing).

(** alt_bn128_pairing.cpp:289-302, bls12_381_pairing.cpp:252-265. *)
Definition bn_precompute_G1 (P : K * K * K) : result g1_precomp :=
  Pcopy <- jac_to_affine F P ;;
  let '(X, Y, _) := Pcopy in Ok (X, Y).

(** alt_bn128_pairing.cpp:240-259, bls12_381_pairing.cpp:203-222, up to the
    line: the new point, then E, B, H, I and J. *)
Definition bn_doubling_step (two_inv : K) (current : E * E * E) : E * E * E * (E * E * E) :=
  let '(X, Y, Z) := current in
  let A := scale two_inv (X * Y) in
  let B := sqr Y in
  let C := sqr Z in
  let D := C + C + C in
  let E := twist_b * D in
  let FF := E + E + E in
  let G := scale two_inv (B + FF) in
  let H := sqr (Y + Z) - (B + C) in
  let I := E - B in
  let J := sqr X in
  let E_squared := sqr E in
  ((A * (B - FF), sqr G - (E_squared + E_squared + E_squared), B * H), (I, H, J)).
(** alt_bn128_pairing.cpp:260-262: ell_0, ell_VW, ell_VV. *)
Definition alt_dbl_line (l : E * E * E) : ell :=
  let '(II, H, J) := l in (twist * II, - H, J + J + J).
(** bls12_381_pairing.cpp:223-225. *)
Definition bls_dbl_line (l : E * E * E) : ell :=
  let '(II, H, J) := l in (II, (- twist) * H, J + J + J).

(** alt_bn128_pairing.cpp:266-283, bls12_381_pairing.cpp:229-246: the new point,
    then D, E and E * x2 - D * y2. *)
Definition bn_mixed_addition_step (base current : E * E * E) : E * E * E * (E * E * E) :=
  let '(X1, Y1, Z1) := current in
  let '(x2, y2, _) := base in
  let D := X1 - x2 * Z1 in
  let E := Y1 - y2 * Z1 in
  let FF := sqr D in
  let G := sqr E in
  let H := D * FF in
  let I := X1 * FF in
  let J := H + Z1 * G - (I + I) in
  ((D * J, E * (I - J) - H * Y1, Z1 * H), (E * x2 - D * y2, D, E)).
(** alt_bn128_pairing.cpp:284-286. *)
Definition alt_add_line (l : E * E * E) : ell :=
  let '(L0, D, E) := l in (twist * L0, D, - E).
(** bls12_381_pairing.cpp:247-249. *)
Definition bls_add_line (l : E * E * E) : ell :=
  let '(L0, D, E) := l in (L0, twist * D, - E).

(** Loop body of precompute_G2: state R and coeffs.
    alt_bn128_pairing.cpp:327-346, bls12_381_pairing.cpp:290-309. *)
Definition bn_precompute_body (dbl_line add_line : E * E * E -> ell) (two_inv : K) (Q : E * E * E)
  (bit : bool) (s : E * E * E * list ell) : result (E * E * E * list ell) :=
  let '(R, coeffs) := s in
  let '(R, l) := bn_doubling_step two_inv R in
  let coeffs := coeffs ++ [dbl_line l] in
  if bit then
    let '(R, l) := bn_mixed_addition_step Q R in
    Ok (R, coeffs ++ [add_line l])
  else Ok (R, coeffs).

Definition Fq_two : K := oadd F (o1 F) (o1 F).

(** bls12_381_pairing.cpp:267-311. *)
Definition bls_precompute_G2 (Q : E * E * E) : result (list ell) :=
  Qcopy <- jac_to_affine F2 Q ;;
  two_inv <- oinv F Fq_two ;;
  let '(QX, QY, _) := Qcopy in
  ' (_, coeffs) <- bit_loop loop_count (bn_precompute_body bls_dbl_line bls_add_line two_inv Qcopy)
    (S (max_bits loop_count)) false ((QX, QY, o1 F2), []) ;;
  Ok coeffs.

(** alt_bn128_g2.cpp:330-335, bls12_381_g2.cpp:316-321 [mul_by_q];
    [qX], [qY] are twist_mul_by_q_X and _Y. *)
Definition bn_mul_by_q (t2 : list K) (qX qY : E) (Q : E * E * E) : E * E * E :=
  let '(X, Y, Z) := Q in
  (qX * fp2_frobenius F t2 1 X, qY * fp2_frobenius F t2 1 Y, fp2_frobenius F t2 1 Z).

(** alt_bn128_pairing.cpp:304-365. *)
Definition alt_precompute_G2 (t2 : list K) (qX qY : E) (Q : E * E * E) : result (list ell) :=
  Qcopy <- jac_to_affine F2 Q ;;
  two_inv <- oinv F Fq_two ;;
  let '(QX, QY, _) := Qcopy in
  ' (R, coeffs) <- bit_loop loop_count (bn_precompute_body alt_dbl_line alt_add_line two_inv Qcopy)
    (S (max_bits loop_count)) false ((QX, QY, o1 F2), []) ;;
  let Q1 := bn_mul_by_q t2 qX qY Qcopy in
  assert_then (oeqb F2 (snd Q1) (o1 F2)) (
  let Q2 := bn_mul_by_q t2 qX qY Q1 in
  assert_then (oeqb F2 (snd Q2) (o1 F2)) (
  let '(RX, RY, RZ) := R in
  let R := if loop_neg then (RX, - RY, RZ) else R in
  let '(Q2X, Q2Y, Q2Z) := Q2 in
  let Q2 := (Q2X, - Q2Y, Q2Z) in
  let '(R, l1) := bn_mixed_addition_step Q1 R in
  let '(R, l2) := bn_mixed_addition_step Q2 R in
  Ok (coeffs ++ [alt_add_line l1] ++ [alt_add_line l2]))).

(** Miller loops.  [mul_by] is mul_by_024 or mul_by_045. *)
Variable mul_by : T -> E -> E -> E -> T.
(** f.mul_by_0xx(c.ell_0, prec_P.PY * c.ell_VW, prec_P.PX * c.ell_VV) *)
Definition mul_line (f : T) (c : ell) (P : g1_precomp) : T :=
  let '(ell_0, ell_VW, ell_VV) := c in
  mul_by f ell_0 (scale (snd P) ell_VW) (scale (fst P) ell_VV).

(** alt_bn128_pairing.cpp:380-405, bls12_381_pairing.cpp:326-351: state f and idx. *)
Definition bn_miller_body (P : g1_precomp) (coeffs : list ell) (bit : bool) (s : T * nat) : result (T * nat) :=
  let '(f, idx) := s in
  c <- at_idx coeffs idx ;;
  let f := osqr F12 f in
  let f := mul_line f c P in
  if bit then
    c <- at_idx coeffs (S idx) ;;
    Ok (mul_line f c P, S (S idx))
  else Ok (f, S idx).
(** alt_bn128_pairing.cpp:434-466, bls12_381_pairing.cpp:374-406. *)
Definition bn_double_miller_body (P1 P2 : g1_precomp) (coeffs1 coeffs2 : list ell) (bit : bool) (s : T * nat)
  : result (T * nat) :=
  let '(f, idx) := s in
  c1 <- at_idx coeffs1 idx ;;
  c2 <- at_idx coeffs2 idx ;;
  let f := osqr F12 f in
  let f := mul_line f c1 P1 in
  let f := mul_line f c2 P2 in
  if bit then
    c1 <- at_idx coeffs1 (S idx) ;;
    c2 <- at_idx coeffs2 (S idx) ;;
    let f := mul_line f c1 P1 in
    let f := mul_line f c2 P2 in
    Ok (f, S (S idx))
  else Ok (f, S idx).

(** bls12_381_pairing.cpp:313-359, 361-416: value and final idx. *)
Definition bls_miller_loop_idx (P : g1_precomp) (coeffs : list ell) : result (T * nat) :=
  ' (f, idx) <- bit_loop loop_count (bn_miller_body P coeffs) (S (max_bits loop_count)) false (o1 F12, O) ;;
  f <- (if loop_neg then oinv F12 f else Ok f) ;;
  Ok (f, idx).
Definition bls_double_miller_loop_idx (P1 : g1_precomp) (coeffs1 : list ell) (P2 : g1_precomp) (coeffs2 : list ell)
  : result (T * nat) :=
  ' (f, idx) <- bit_loop loop_count (bn_double_miller_body P1 P2 coeffs1 coeffs2)
    (S (max_bits loop_count)) false (o1 F12, O) ;;
  f <- (if loop_neg then oinv F12 f else Ok f) ;;
  Ok (f, idx).

(** alt_bn128_pairing.cpp:367-419. *)
Definition alt_miller_loop_idx (P : g1_precomp) (coeffs : list ell) : result (T * nat) :=
  ' (f, idx) <- bit_loop loop_count (bn_miller_body P coeffs) (S (max_bits loop_count)) false (o1 F12, O) ;;
  f <- (if loop_neg then oinv F12 f else Ok f) ;;
  c <- at_idx coeffs idx ;;
  let f := mul_line f c P in
  c <- at_idx coeffs (S idx) ;;
  let f := mul_line f c P in
  Ok (f, S (S idx)).
(** alt_bn128_pairing.cpp:421-488. *)
Definition alt_double_miller_loop_idx (P1 : g1_precomp) (coeffs1 : list ell) (P2 : g1_precomp) (coeffs2 : list ell)
  : result (T * nat) :=
  ' (f, idx) <- bit_loop loop_count (bn_double_miller_body P1 P2 coeffs1 coeffs2)
    (S (max_bits loop_count)) false (o1 F12, O) ;;
  f <- (if loop_neg then oinv F12 f else Ok f) ;;
  c1 <- at_idx coeffs1 idx ;;
  c2 <- at_idx coeffs2 idx ;;
  let f := mul_line f c1 P1 in
  let f := mul_line f c2 P2 in
  c1 <- at_idx coeffs1 (S idx) ;;
  c2 <- at_idx coeffs2 (S idx) ;;
  let f := mul_line f c1 P1 in
  let f := mul_line f c2 P2 in
  Ok (f, S (S idx)).
End Twelve.

(** Values without the index. *)
Definition miller_value {A} (r : result (A * nat)) : result A := ' (f, _) <- r ;; Ok f.

Definition alt_miller_loop {K} (F : Fops K) nr2 nr6 nr12 loop_count loop_neg P coeffs :=
  miller_value (alt_miller_loop_idx F nr2 nr6 nr12 loop_count loop_neg (fp12_mul_by_024 (fp2_ops F nr2) nr6) P coeffs).
Definition alt_double_miller_loop {K} (F : Fops K) nr2 nr6 nr12 loop_count loop_neg P1 coeffs1 P2 coeffs2 :=
  miller_value (alt_double_miller_loop_idx F nr2 nr6 nr12 loop_count loop_neg (fp12_mul_by_024 (fp2_ops F nr2) nr6)
    P1 coeffs1 P2 coeffs2).
Definition bls_miller_loop {K} (F : Fops K) nr2 nr6 nr12 loop_count loop_neg P coeffs :=
  miller_value (bls_miller_loop_idx F nr2 nr6 nr12 loop_count loop_neg (fp12_mul_by_045 (fp2_ops F nr2) nr6) P coeffs).
Definition bls_double_miller_loop {K} (F : Fops K) nr2 nr6 nr12 loop_count loop_neg P1 coeffs1 P2 coeffs2 :=
  miller_value (bls_double_miller_loop_idx F nr2 nr6 nr12 loop_count loop_neg (fp12_mul_by_045 (fp2_ops F nr2) nr6)
    P1 coeffs1 P2 coeffs2).

(** mnt4_g2.cpp:368-373, mnt6_g2.cpp:374-379 [mul_by_q]; [frob] is Frobenius_map(1)
    of Fq2 or Fq3, [scale] the product with Fq; [qX], [qY] are twist_mul_by_q_X and _Y. *)
Definition mnt_mul_by_q {K L} (scale : K -> L -> L) (frob : L -> L) (qX qY : K) (Q : L * L * L) : L * L * L :=
  let '(X, Y, Z) := Q in (scale qX (frob X), scale qY (frob Y), frob Z).
(** edwards_g2.cpp:287-292 [mul_by_q]; [qY], [qZ] are twist_mul_by_q_Y and _Z. *)
Definition edwards_mul_by_q {K L} (scale : K -> L -> L) (frob : L -> L) (qY qZ : K) (Q : L * L * L) : L * L * L :=
  let '(X, Y, Z) := Q in (frob X, scale qY (frob Y), scale qZ (frob Z)).

(** ** mnt4 and mnt6.  [F] is Fq; [FE] is Fq2 (mnt4) or Fq3 (mnt6), with [scale]
    the product Fq * Fqe and [emb] the embedding of Fq; [FK] is Fq4 or Fq6. *)
Section Mnt.
Context {K L : Type} (F : Fops K) (FE : Fops L) (scale : K -> L -> L) (emb : K -> L) (FK : Fops (L * L)).
(** twist, twist_coeff_a, ate_loop_count, ate_is_loop_count_neg *)
Variables (twist twist_a : L) (loop_count : bigint) (loop_neg : bool).
Local Notation "x + y" := (oadd FE x y).
Local Notation "x - y" := (osub FE x y).
Local Notation "x * y" := (omul FE x y).
Local Notation "- x" := (oopp FE x).
Local Notation sqr := (osqr FE).

(** mnt4_pairing.hpp: ate_G1_precomp, ate_dbl_coeffs, ate_add_coeffs, ate_G2_precomp. *)
Record mnt_G1_precomp := { PX : K; PY : K; PX_twist : L; PY_twist : L }.
Record mnt_dbl_coeffs := { c_H : L; c_4C : L; c_J : L; c_L : L }.
Record mnt_add_coeffs := { c_L1 : L; c_RZ : L }.
Record mnt_G2_precomp := { QX : L; QY : L; QY2 : L; QX_over_twist : L; QY_over_twist : L;
  dbl_coeffs : list mnt_dbl_coeffs; add_coeffs : list mnt_add_coeffs }.

Definition Fq_eight : K :=
  let two := oadd F (o1 F) (o1 F) in let four := oadd F two two in oadd F four four.

(** mnt4_pairing.cpp:412-438. *)
Definition mnt_doubling_step (current : L * L * L * L) : L * L * L * L * mnt_dbl_coeffs :=
  let '(X, Y, Z, T) := current in
  let A := sqr T in
  let B := sqr X in
  let C := sqr Y in
  let D := sqr C in
  let E := sqr (X + C) - B - D in
  let FF := (B + B + B) + twist_a * A in
  let G := sqr FF in
  let X3 := - (E + E + E + E) + G in
  let Y3 := scale (oopp F Fq_eight) D + FF * (E + E - X3) in
  let Z3 := sqr (Y + Z) - C - sqr Z in
  let T3 := sqr Z3 in
  ((X3, Y3, Z3, T3),
   {| c_H := sqr (Z3 + T) - T3 - A; c_4C := C + C + C + C; c_J := sqr (FF + T) - G - A;
      c_L := sqr (FF + X) - G - B |}).

(** mnt4_pairing.cpp:440-466. *)
Definition mnt_mixed_addition_step (x2 y2 y2_squared : L) (current : L * L * L * L)
  : L * L * L * L * mnt_add_coeffs :=
  let '(X1, Y1, Z1, T1) := current in
  let B := x2 * T1 in
  let D := (sqr (y2 + Z1) - y2_squared - T1) * T1 in
  let H := B - X1 in
  let I := sqr H in
  let E := I + I + I + I in
  let J := H * E in
  let V := X1 * E in
  let L1 := D - (Y1 + Y1) in
  let X3 := sqr L1 - J - (V + V) in
  let Y3 := L1 * (V - X3) - (Y1 + Y1) * J in
  let Z3 := sqr (Z1 + H) - T1 - I in
  let T3 := sqr Z3 in
  ((X3, Y3, Z3, T3), {| c_L1 := L1; c_RZ := Z3 |}).

(** mnt4_pairing.cpp:468-483. *)
Definition mnt_precompute_G1 (P : K * K * K) : result mnt_G1_precomp :=
  Pcopy <- prj_to_affine F P ;;
  let '(X, Y, _) := Pcopy in
  Ok {| PX := X; PY := Y; PX_twist := scale X twist; PY_twist := scale Y twist |}.

(** mnt4_pairing.cpp:508-527: state R, dbl_coeffs and add_coeffs. *)
Definition mnt_precompute_body (qX qY qY2 : L) (bit : bool)
  (s : L * L * L * L * list mnt_dbl_coeffs * list mnt_add_coeffs) :=
  let '(R, dcs, acs) := s in
  let '(R, dc) := mnt_doubling_step R in
  let dcs := dcs ++ [dc] in
  if bit then
    let '(R, ac) := mnt_mixed_addition_step qX qY qY2 R in
    Ok (R, dcs, acs ++ [ac])
  else Ok (R, dcs, acs).

(** mnt4_pairing.cpp:485-544. *)
Definition mnt_precompute_G2 (Q : L * L * L) : result mnt_G2_precomp :=
  Qcopy <- prj_to_affine FE Q ;;
  let '(X, Y, _) := Qcopy in
  twist_inv <- oinv FE twist ;;
  let qY2 := sqr Y in
  ' (R, dcs, acs) <- bit_loop loop_count (mnt_precompute_body X Y qY2) (max_bits loop_count) false
    (((X, Y, o1 FE, o1 FE), []), []) ;;
  acs <- (if loop_neg then
    let '(RX, RY, RZ, _) := R in
    RZ_inv <- oinv FE RZ ;;
    let RZ2_inv := sqr RZ_inv in
    let RZ3_inv := RZ2_inv * RZ_inv in
    let minus_R_affine_X := RX * RZ2_inv in
    let minus_R_affine_Y := (- RY) * RZ3_inv in
    let minus_R_affine_Y2 := sqr minus_R_affine_Y in
    let '(_, ac) := mnt_mixed_addition_step minus_R_affine_X minus_R_affine_Y minus_R_affine_Y2 R in
    Ok (acs ++ [ac])
  else Ok acs) ;;
  Ok {| QX := X; QY := Y; QY2 := qY2; QX_over_twist := X * twist_inv; QY_over_twist := Y * twist_inv;
        dbl_coeffs := dcs; add_coeffs := acs |}.

(** The two kinds of line, mnt4_pairing.cpp:576-577 and 583-584. *)
Definition mnt_g_RR (P : mnt_G1_precomp) (dc : mnt_dbl_coeffs) : L * L :=
  (- (c_4C dc) - c_J dc * PX_twist P + c_L dc, c_H dc * PY_twist P).
Definition mnt_g_RQ (P : mnt_G1_precomp) (Q : mnt_G2_precomp) (ac : mnt_add_coeffs) : L * L :=
  let L1_coeff := emb (PX P) - QX_over_twist Q in
  (c_RZ ac * PY_twist P, - (QY_over_twist Q * c_RZ ac + L1_coeff * c_L1 ac)).

(** mnt4_pairing.cpp:560-587: state f, dbl_idx and add_idx. *)
Definition mnt_miller_body (P : mnt_G1_precomp) (Q : mnt_G2_precomp) (bit : bool) (s : L * L * nat * nat)
  : result (L * L * nat * nat) :=
  let '(f, dbl_idx, add_idx) := s in
  dc <- at_idx (dbl_coeffs Q) dbl_idx ;;
  let f := omul FK (osqr FK f) (mnt_g_RR P dc) in
  if bit then
    ac <- at_idx (add_coeffs Q) add_idx ;;
    Ok (omul FK f (mnt_g_RQ P Q ac), S dbl_idx, S add_idx)
  else Ok (f, S dbl_idx, add_idx).
(** mnt4_pairing.cpp:546-600. *)
Definition mnt_miller_loop_idx (P : mnt_G1_precomp) (Q : mnt_G2_precomp) : result (L * L * nat * nat) :=
  ' (f, dbl_idx, add_idx) <- bit_loop loop_count (mnt_miller_body P Q) (max_bits loop_count) false (o1 FK, O, O) ;;
  if loop_neg then
    ac <- at_idx (add_coeffs Q) add_idx ;;
    f <- oinv FK (omul FK f (mnt_g_RQ P Q ac)) ;;
    Ok (f, dbl_idx, S add_idx)
  else Ok (f, dbl_idx, add_idx).
(** mnt4_pairing.cpp:617-658 *)
Definition mnt_double_miller_body (P1 : mnt_G1_precomp) (Q1 : mnt_G2_precomp) (P2 : mnt_G1_precomp) (Q2 : mnt_G2_precomp)
  (bit : bool) (s : L * L * nat * nat) : result (L * L * nat * nat) :=
  let '(f, dbl_idx, add_idx) := s in
  dc1 <- at_idx (dbl_coeffs Q1) dbl_idx ;;
  dc2 <- at_idx (dbl_coeffs Q2) dbl_idx ;;
  let f := omul FK (omul FK (osqr FK f) (mnt_g_RR P1 dc1)) (mnt_g_RR P2 dc2) in
  if bit then
    ac1 <- at_idx (add_coeffs Q1) add_idx ;;
    ac2 <- at_idx (add_coeffs Q2) add_idx ;;
    Ok (omul FK (omul FK f (mnt_g_RQ P1 Q1 ac1)) (mnt_g_RQ P2 Q2 ac2), S dbl_idx, S add_idx)
  else Ok (f, S dbl_idx, add_idx).
(** mnt4_pairing.cpp:602-676. *)
Definition mnt_double_miller_loop_idx (P1 : mnt_G1_precomp) (Q1 : mnt_G2_precomp) (P2 : mnt_G1_precomp) (Q2 : mnt_G2_precomp)
  : result (L * L * nat * nat) :=
  ' (f, dbl_idx, add_idx) <- bit_loop loop_count (mnt_double_miller_body P1 Q1 P2 Q2) (max_bits loop_count) false
    (o1 FK, O, O) ;;
  if loop_neg then
    ac1 <- at_idx (add_coeffs Q1) add_idx ;;
    ac2 <- at_idx (add_coeffs Q2) add_idx ;;
    f <- oinv FK (omul FK (omul FK f (mnt_g_RQ P1 Q1 ac1)) (mnt_g_RQ P2 Q2 ac2)) ;;
    Ok (f, dbl_idx, S add_idx)
  else Ok (f, dbl_idx, add_idx).

Definition mnt_miller_loop P Q : result (L * L) := ' (f, _, _) <- mnt_miller_loop_idx P Q ;; Ok f.
Definition mnt_double_miller_loop P1 Q1 P2 Q2 : result (L * L) :=
  ' (f, _, _) <- mnt_double_miller_loop_idx P1 Q1 P2 Q2 ;; Ok f.

(** *** Affine ate pairing.  [mul_by] is mul_by_023 (mnt4) or mul_by_2345 (mnt6). *)
Variable mul_by : L * L -> L * L -> result (L * L).
Record affine_coeffs := { old_RX : L; old_RY : L; gamma : L; gamma_twist : L; gamma_X : L }.

(** The loop over the digits of the NAF, most significant first. *)
Fixpoint naf_loop {S} (body : Z -> S -> result S) (ds : list Z) (found_nonzero : bool) (s : S) : result S :=
  match ds with
  | [] => Ok s
  | d :: ds' =>
      if negb found_nonzero then naf_loop body ds' (found_nonzero || negb (d =? 0)%Z) s
      else s' <- body d s ;; naf_loop body ds' found_nonzero s'
  end.

(** mnt4_pairing.cpp:229-243: PX, PY, PY_twist_squared. *)
Definition affine_precompute_G1 (P : K * K * K) : result (K * K * L) :=
  Pcopy <- prj_to_affine F P ;;
  let '(X, Y, _) := Pcopy in Ok (X, Y, scale Y (sqr twist)).

(** mnt4_pairing.cpp:262-303: state RX, RY and coeffs. *)
Definition affine_precompute_body (qX qY : L) (d : Z) (s : L * L * list affine_coeffs)
  : result (L * L * list affine_coeffs) :=
  let '(RX, RY, coeffs) := s in
  let old_RX_2 := sqr RX in
  i <- oinv FE (RY + RY) ;;
  let g := (old_RX_2 + old_RX_2 + old_RX_2 + twist_a) * i in
  let c := {| old_RX := RX; old_RY := RY; gamma := g; gamma_twist := g * twist; gamma_X := g * RX |} in
  let coeffs := coeffs ++ [c] in
  let RX' := sqr g - (RX + RX) in
  let RY' := g * (RX - RX') - RY in
  if negb (d =? 0)%Z then
    i <- oinv FE (RX' - qX) ;;
    let g := if (0 <? d)%Z then (RY' - qY) * i else (RY' + qY) * i in
    let c := {| old_RX := RX'; old_RY := RY'; gamma := g; gamma_twist := g * twist; gamma_X := g * qX |} in
    let RX'' := sqr g - (RX' + qX) in
    let RY'' := g * (RX' - RX'') - RY' in
    Ok (RX'', RY'', coeffs ++ [c])
  else Ok (RX', RY', coeffs).
(** mnt4_pairing.cpp:245-323: QX, QY and coeffs.  The negative loop count is
    commented out in the source. *)
Definition affine_precompute_G2 (Q : L * L * L) : result (L * L * list affine_coeffs) :=
  Qcopy <- prj_to_affine FE Q ;;
  let '(X, Y, _) := Qcopy in
  naf <- find_wnaf 1 loop_count ;;
  ' (_, _, coeffs) <- naf_loop (affine_precompute_body X Y) (rev naf) false (X, Y, []) ;;
  Ok (X, Y, coeffs).
(** mnt4_pairing.cpp:337-371 *)
Definition affine_miller_body (P : K * K * L) (Q : L * L * list affine_coeffs) (d : Z) (s : L * L * nat)
  : result (L * L * nat) :=
  let '(f, idx) := s in
  let '(px, _, pyt2) := P in
  let '(_, qY, coeffs) := Q in
  c <- at_idx coeffs idx ;;
  let g_RR := (pyt2, scale (oopp F px) (gamma_twist c) + gamma_X c - old_RY c) in
  f <- mul_by (osqr FK f) g_RR ;;
  if negb (d =? 0)%Z then
    c <- at_idx coeffs (S idx) ;;
    let g_RQ := (pyt2, if (0 <? d)%Z then scale (oopp F px) (gamma_twist c) + gamma_X c - qY
                       else scale (oopp F px) (gamma_twist c) + gamma_X c + qY) in
    f <- mul_by f g_RQ ;;
    Ok (f, S (S idx))
  else Ok (f, S idx).
(** mnt4_pairing.cpp:325-386. *)
Definition affine_miller_loop_idx (P : K * K * L) (Q : L * L * list affine_coeffs) : result (L * L * nat) :=
  naf <- find_wnaf 1 loop_count ;;
  naf_loop (affine_miller_body P Q) (rev naf) false (o1 FK, O).
End Mnt.
Arguments PX {K L}. Arguments PY {K L}. Arguments PX_twist {K L}. Arguments PY_twist {K L}.
Arguments c_H {L}. Arguments c_4C {L}. Arguments c_J {L}. Arguments c_L {L}. Arguments c_L1 {L}. Arguments c_RZ {L}.
Arguments QX {L}. Arguments QY {L}. Arguments QY2 {L}. Arguments QX_over_twist {L}. Arguments QY_over_twist {L}.
Arguments dbl_coeffs {L}. Arguments add_coeffs {L}.

(** ** edwards *)
Section Edwards.
Context {K L : Type} (F : Fops K) (FE : Fops L) (scale : K -> L -> L) (FK : Fops (L * L)).
(** edwards_G2::mul_by_a; loop count *)
Variables (mul_a : L -> L) (loop_count : bigint).

(** c_ZZ, c_XY, c_XZ *)
Notation conic L := (L * L * L)%type (only parsing).

(** The steps are the same over Fq (lines 255-286 and 318-346, with the identity
    for [ma]) and over Fq3 (473-508 and 543-573). *)
Section Steps.
Context {M : Type} (G : Fops M) (ma : M -> M).
Local Notation "x + y" := (oadd G x y).
Local Notation "x - y" := (osub G x y).
Local Notation "x * y" := (omul G x y).
Local Notation sqr := (osqr G).
Definition edw_doubling_step (current : M * M * M * M) : M * M * M * M * conic M :=
  let '(X, Y, Z, T) := current in
  let A := sqr X in
  let B := sqr Y in
  let C := sqr Z in
  let D := sqr (X + Y) in
  let E := sqr (Y + Z) in
  let FF := D - (A + B) in
  let GG := E - (B + C) in
  let H := ma A in
  let I := H + B in
  let J := C - I in
  let KK := J + C in
  let c_ZZ := Y * (T - X) in
  let c_ZZ := c_ZZ + c_ZZ in
  let c_XY := C - ma A - B in
  let c_XY := c_XY + c_XY + GG in
  let c_XZ := ma (X * T) - B in
  let c_XZ := c_XZ + c_XZ in
  ((FF * KK, I * (B - H), I * KK, FF * (B - H)), (c_ZZ, c_XY, c_XZ)).
(** Line 276: the version over Fq has [c_XY = J+J+G]. *)
Definition edw_fq_doubling_step (current : M * M * M * M) : M * M * M * M * conic M :=
  let '(X, Y, Z, T) := current in
  let A := sqr X in
  let B := sqr Y in
  let C := sqr Z in
  let D := sqr (X + Y) in
  let E := sqr (Y + Z) in
  let FF := D - (A + B) in
  let GG := E - (B + C) in
  let H := A in
  let I := H + B in
  let J := C - I in
  let KK := J + C in
  let c_ZZ := Y * (T - X) in
  let c_ZZ := c_ZZ + c_ZZ in
  let c_XY := J + J + GG in
  let c_XZ := X * T - B in
  let c_XZ := c_XZ + c_XZ in
  ((FF * KK, I * (B - H), I * KK, FF * (B - H)), (c_ZZ, c_XY, c_XZ)).
Definition edw_mixed_addition_step (base current : M * M * M * M) : M * M * M * M * conic M :=
  let '(X1, Y1, Z1, T1) := current in
  let '(X2, Y2, _, T2) := base in
  let A := X1 * X2 in
  let B := Y1 * Y2 in
  let C := Z1 * T2 in
  let E := T1 + C in
  let FF := (X1 - Y1) * (X2 + Y2) + B - A in
  let GG := B + ma A in
  let H := T1 - C in
  let I := T1 * T2 in
  let c_ZZ := ma ((T1 - X1) * (T2 + X2) - I + A) in
  let c_XY := X1 - X2 * Z1 + FF in
  let c_XZ := (Y1 - T1) * (Y2 + T2) - B + I - H in
  ((E * FF, GG * H, FF * GG, E * H), (c_ZZ, c_XY, c_XZ)).
Definition edw_precompute_body (dbl : M * M * M * M -> M * M * M * M * conic M) (Q : M * M * M * M) (bit : bool)
  (s : M * M * M * M * list (conic M)) : result (M * M * M * M * list (conic M)) :=
  let '(R, coeffs) := s in
  let '(R, c) := dbl R in
  let coeffs := coeffs ++ [c] in
  if bit then
    let '(R, c) := edw_mixed_addition_step Q R in
    Ok (R, coeffs ++ [c])
  else Ok (R, coeffs).
End Steps.

(** edwards_pairing.cpp:575-586: P_XY, P_XZ, P_ZZplusYZ. *)
Definition edw_precompute_G1 (P : K * K * K) : result (K * K * K) :=
  Pcopy <- edw_to_affine F P ;;
  let '(X, Y, _) := Pcopy in Ok (omul F X Y, X, oadd F (o1 F) Y).
(** edwards_pairing.cpp:588-628. *)
Definition edw_precompute_G2 (Q : L * L * L) : result (list (conic L)) :=
  Qcopy <- edw_to_affine FE Q ;;
  let '(X, Y, Z) := Qcopy in
  let Q_ext := (X, Y, Z, omul FE X Y) in
  ' (_, coeffs) <- bit_loop loop_count (edw_precompute_body FE mul_a (edw_doubling_step FE mul_a) Q_ext)
    (max_bits loop_count) false (Q_ext, []) ;;
  Ok coeffs.
(** edwards_pairing.cpp:653-654 and 658-660. *)
Definition edw_g_RR (P : K * K * K) (cc : conic L) : L * L :=
  let '(P_XY, P_XZ, P_ZZplusYZ) := P in let '(c_ZZ, c_XY, c_XZ) := cc in
  (oadd FE (scale P_XY c_XY) (scale P_XZ c_XZ), scale P_ZZplusYZ c_ZZ).
Definition edw_g_RQ (P : K * K * K) (cc : conic L) : L * L :=
  let '(P_XY, P_XZ, P_ZZplusYZ) := P in let '(c_ZZ, c_XY, c_XZ) := cc in
  (scale P_ZZplusYZ c_ZZ, oadd FE (scale P_XY c_XY) (scale P_XZ c_XZ)).
(** edwards_pairing.cpp:640-665, shared with the Tate loop (401-426). *)
Definition edw_miller_body {A} (g_RR g_RQ : A -> L * L) (prec : list A) (bit : bool) (s : L * L * nat)
  : result (L * L * nat) :=
  let '(f, idx) := s in
  cc <- at_idx prec idx ;;
  let f := omul FK (osqr FK f) (g_RR cc) in
  if bit then
    cc <- at_idx prec (S idx) ;;
    Ok (omul FK f (g_RQ cc), S (S idx))
  else Ok (f, S idx).
(** edwards_pairing.cpp:630-669. *)
Definition edw_miller_loop_idx (P : K * K * K) (prec_Q : list (conic L)) : result (L * L * nat) :=
  bit_loop loop_count (edw_miller_body (edw_g_RR P) (edw_g_RQ P) prec_Q) (max_bits loop_count) false (o1 FK, O).
(** edwards_pairing.cpp:671-722. *)
Definition edw_double_miller_body (P1 P2 : K * K * K) (prec_Q1 prec_Q2 : list (conic L)) (bit : bool)
  (s : L * L * nat) : result (L * L * nat) :=
  let '(f, idx) := s in
  cc1 <- at_idx prec_Q1 idx ;;
  cc2 <- at_idx prec_Q2 idx ;;
  let f := omul FK (omul FK (osqr FK f) (edw_g_RR P1 cc1)) (edw_g_RR P2 cc2) in
  if bit then
    cc1 <- at_idx prec_Q1 (S idx) ;;
    cc2 <- at_idx prec_Q2 (S idx) ;;
    Ok (omul FK (omul FK f (edw_g_RQ P1 cc1)) (edw_g_RQ P2 cc2), S (S idx))
  else Ok (f, S idx).
Definition edw_double_miller_loop_idx (P1 : K * K * K) (prec_Q1 : list (conic L)) (P2 : K * K * K) (prec_Q2 : list (conic L))
  : result (L * L * nat) :=
  bit_loop loop_count (edw_double_miller_body P1 P2 prec_Q1 prec_Q2) (max_bits loop_count) false (o1 FK, O).
Definition edw_miller_loop P prec_Q := miller_value (edw_miller_loop_idx P prec_Q).
Definition edw_double_miller_loop P1 prec_Q1 P2 prec_Q2 := miller_value (edw_double_miller_loop_idx P1 prec_Q1 P2 prec_Q2).

(** *** Tate pairing; [r] is edwards_modulus_r, [mnr] is Fq6::mul_by_non_residue,
    [emb c] is Fq3(c, 0, 0). *)
Variables (r : bigint) (mnr : L -> L) (emb : K -> L).
(** edwards_pairing.cpp:348-391: the loop starts at max_bits(). *)
Definition tate_precompute_G1 (P : K * K * K) : result (list (conic K)) :=
  Pcopy <- edw_to_affine F P ;;
  let '(X, Y, Z) := Pcopy in
  let P_ext := (X, Y, Z, omul F X Y) in
  ' (_, coeffs) <- bit_loop r (edw_precompute_body F (fun x => x) (edw_fq_doubling_step F) P_ext)
    (S (max_bits r)) false (P_ext, []) ;;
  Ok coeffs.
(** edwards_pairing.cpp:221-231: y0, eta. *)
Definition tate_precompute_G2 (Q : L * L * L) : result (L * L) :=
  Qcopy <- edw_to_affine FE Q ;;
  let '(X, Y, Z) := Qcopy in
  Z_inv <- oinv FE Z ;;
  i <- oinv FE (mnr X) ;;
  Ok (omul FE Y Z_inv, omul FE (oadd FE Z Y) i).
(** edwards_pairing.cpp:415-416, 422-423. *)
Definition tate_g (Q : L * L) (cc : conic K) : L * L :=
  let '(y0, eta) := Q in let '(c_ZZ, c_XY, c_XZ) := cc in
  (oadd FE (emb c_XZ) (scale c_XY y0), scale c_ZZ eta).
(** edwards_pairing.cpp:393-431: this loop starts at max_bits()-1. *)
Definition tate_miller_loop_idx (prec_P : list (conic K)) (Q : L * L) : result (L * L * nat) :=
  bit_loop r (edw_miller_body (tate_g Q) (tate_g Q) prec_P) (max_bits r) false (o1 FK, O).
End Edwards.

(** ** Pairings: precomputations, Miller loop and final exponentiation *)
Section Reduced.
Context {K : Type} (F : Fops K).

(** alt_bn128_pairing.cpp:490-507 *)
Definition alt_pairing nr2 nr6 nr12 t2 twist twist_b qX qY loop_count loop_neg (P : K * K * K)
  (Q : (K * K) * (K * K) * (K * K)) :=
  prec_P <- bn_precompute_G1 F P ;;
  prec_Q <- alt_precompute_G2 F nr2 twist twist_b loop_count loop_neg t2 qX qY Q ;;
  alt_miller_loop F nr2 nr6 nr12 loop_count loop_neg prec_P prec_Q.
Definition alt_reduced_pairing nr2 nr6 nr12 t2 t61 t62 t12 twist twist_b qX qY loop_count loop_neg z z_neg P Q :=
  f <- alt_pairing nr2 nr6 nr12 t2 twist twist_b qX qY loop_count loop_neg P Q ;;
  bn_final_exponentiation F nr2 nr6 nr12 t2 t61 t62 t12 z z_neg f.

(** bls12_381_pairing.cpp:418-435 *)
Definition bls_pairing nr2 nr6 nr12 twist twist_b loop_count loop_neg (P : K * K * K)
  (Q : (K * K) * (K * K) * (K * K)) :=
  prec_P <- bn_precompute_G1 F P ;;
  prec_Q <- bls_precompute_G2 F nr2 twist twist_b loop_count Q ;;
  bls_miller_loop F nr2 nr6 nr12 loop_count loop_neg prec_P prec_Q.
Definition bls_reduced_pairing nr2 nr6 nr12 t2 t61 t62 t12 twist twist_b loop_count loop_neg z z_neg P Q :=
  f <- bls_pairing nr2 nr6 nr12 twist twist_b loop_count loop_neg P Q ;;
  bls_final_exponentiation F nr2 nr6 nr12 t2 t61 t62 t12 z z_neg f.

(** mnt4_pairing.cpp:678-695; twist is (0, 1) (mnt4_init.cpp) and Fq2(PX, 0) the embedding. *)
Definition mnt4_pairing nr2 nr4 twist_a loop_count loop_neg (P : K * K * K) (Q : (K * K) * (K * K) * (K * K)) :=
  let F2 := fp2_ops F nr2 in let scale := quad_scale (omul F) in let twist := (o0 F, o1 F) in
  prec_P <- mnt_precompute_G1 F scale twist P ;;
  prec_Q <- mnt_precompute_G2 F F2 scale twist twist_a loop_count loop_neg Q ;;
  mnt_miller_loop F2 (fun c => (c, o0 F)) (fp4_ops F nr2 nr4) loop_count loop_neg prec_P prec_Q.
Definition mnt4_reduced_pairing nr2 nr4 t2 t4 twist_a loop_count loop_neg w1 w0 w0_neg P Q :=
  f <- mnt4_pairing nr2 nr4 twist_a loop_count loop_neg P Q ;;
  mnt4_final_exponentiation F nr2 nr4 t2 t4 w1 w0 w0_neg f.

(** mnt6_pairing.cpp:690-707; twist is (0, 1, 0). *)
Definition mnt6_pairing nr3 nr6 twist_a loop_count loop_neg (P : K * K * K)
  (Q : (K * K * K) * (K * K * K) * (K * K * K)) :=
  let F3 := fp3_ops F nr3 in let scale := cubic_scale (omul F) in let twist := (o0 F, o1 F, o0 F) in
  prec_P <- mnt_precompute_G1 F scale twist P ;;
  prec_Q <- mnt_precompute_G2 F F3 scale twist twist_a loop_count loop_neg Q ;;
  mnt_miller_loop F3 (fun c => (c, o0 F, o0 F)) (fp6_2over3_ops F nr3 nr6) loop_count loop_neg prec_P prec_Q.
Definition mnt6_reduced_pairing nr2 nr3 nr6 t31 t32 t6 twist_a loop_count loop_neg w1 w0 w0_neg P Q :=
  f <- mnt6_pairing nr3 nr6 twist_a loop_count loop_neg P Q ;;
  six_final_exponentiation F nr2 nr3 nr6 t31 t32 t6 w1 w0 w0_neg f.

(** mnt4_pairing.cpp:733-741 and mnt6_pairing.cpp:745-753. *)
Definition mnt4_affine_reduced_pairing nr2 nr4 t2 t4 twist_a loop_count w1 w0 w0_neg P Q :=
  let F2 := fp2_ops F nr2 in let scale := quad_scale (omul F) in let twist := (o0 F, o1 F) in
  prec_P <- affine_precompute_G1 F F2 scale twist P ;;
  prec_Q <- affine_precompute_G2 F2 twist twist_a loop_count Q ;;
  f <- miller_value (affine_miller_loop_idx F F2 scale (fp4_ops F nr2 nr4) loop_count (fp4_mul_by_023 F nr2 nr4) prec_P prec_Q) ;;
  mnt4_final_exponentiation F nr2 nr4 t2 t4 w1 w0 w0_neg f.
Definition mnt6_affine_reduced_pairing nr2 nr3 nr6 t31 t32 t6 twist_a loop_count w1 w0 w0_neg P Q :=
  let F3 := fp3_ops F nr3 in let scale := cubic_scale (omul F) in let twist := (o0 F, o1 F, o0 F) in
  prec_P <- affine_precompute_G1 F F3 scale twist P ;;
  prec_Q <- affine_precompute_G2 F3 twist twist_a loop_count Q ;;
  f <- miller_value (affine_miller_loop_idx F F3 scale (fp6_2over3_ops F nr3 nr6) loop_count (fp6_mul_by_2345 F nr3 nr6) prec_P prec_Q) ;;
  six_final_exponentiation F nr2 nr3 nr6 t31 t32 t6 w1 w0 w0_neg f.

(** edwards_pairing.cpp:724-741; [mul_a] is edwards_G2::mul_by_a. *)
Definition edwards_pairing nr3 nr6 mul_a loop_count (P : K * K * K) (Q : (K * K * K) * (K * K * K) * (K * K * K)) :=
  let F3 := fp3_ops F nr3 in let scale := cubic_scale (omul F) in
  prec_P <- edw_precompute_G1 F P ;;
  prec_Q <- edw_precompute_G2 F3 mul_a loop_count Q ;;
  edw_miller_loop F3 scale (fp6_2over3_ops F nr3 nr6) loop_count prec_P prec_Q.
Definition edwards_reduced_pairing nr2 nr3 nr6 t31 t32 t6 mul_a loop_count w1 w0 w0_neg P Q :=
  f <- edwards_pairing nr3 nr6 mul_a loop_count P Q ;;
  six_final_exponentiation F nr2 nr3 nr6 t31 t32 t6 w1 w0 w0_neg f.

(** edwards_pairing.cpp:433-450; Fq6::mul_by_non_residue is rot_mnr. *)
Definition edwards_tate_pairing nr3 nr6 r (P : K * K * K) (Q : (K * K * K) * (K * K * K) * (K * K * K)) :=
  let F3 := fp3_ops F nr3 in let scale := cubic_scale (omul F) in
  prec_P <- tate_precompute_G1 F r P ;;
  prec_Q <- tate_precompute_G2 F3 (rot_mnr F nr6) Q ;;
  miller_value (tate_miller_loop_idx F3 scale (fp6_2over3_ops F nr3 nr6) r (fun c => (c, o0 F, o0 F)) prec_P prec_Q).
Definition edwards_tate_reduced_pairing nr2 nr3 nr6 t31 t32 t6 r w1 w0 w0_neg P Q :=
  f <- edwards_tate_pairing nr3 nr6 r P Q ;;
  six_final_exponentiation F nr2 nr3 nr6 t31 t32 t6 w1 w0 w0_neg f.
End Reduced.
