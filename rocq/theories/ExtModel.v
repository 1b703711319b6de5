(** Model of the extension fields in
    libff/algebra/fields/prime_extension/{fp2,fp3,fp4,fp6_2over3,fp6_3over2,fp12_2over3over2}.tcc.

    Every class is a pair or a triple over a smaller field, so the code of the
    six classes is two copies of the same formulas: [quad] (Fp2, Fp4,
    Fp6_2over3, Fp12) and [cubic] (Fp3, Fp6_3over2), over a base type with
    operations [F] and the class's own mul_by_non_residue [mnr].  In Fp2 and
    Fp3 the code writes [non_residue * x] for [mnr x].  The static members
    (non_residue, Frobenius_coeffs) are parameters.  Operation counters
    (PROFILE_OP_COUNTS) are in OpcountModel.v. *)
From Coq Require Import ZArith List Bool.
From Verif Require Import Result Limbs BigintModel FieldOps AlgorithmsModel WnafModel.
Import ListNotations.
Open Scope Z_scope.
Open Scope result_scope.

Section Quad.
Context {K : Type} (F : Fops K) (mnr : K -> K).
Local Infix "+" := (oadd F).
Local Infix "-" := (osub F).
Local Infix "*" := (omul F).
Local Notation "- x" := (oopp F x).

(** zero(), one(): fp2.tcc:18-30, fp4.tcc:28-40, fp6_2over3.tcc:23-35, fp12_2over3over2.tcc:23-33. *)
Definition quad_zero : K * K := (o0 F, o0 F).
Definition quad_one : K * K := (o1 F, o0 F).
(** ==: fp2.tcc:46-50, fp4.tcc:58-62, fp6_2over3.tcc:53-57, fp12 51-55. *)
Definition quad_eqb (x y : K * K) : bool :=
  let '(a, b) := x in let '(a', b') := y in oeqb F a a' && oeqb F b b'.
(** +, -, unary -: fp2.tcc:58-76,106-111; fp4.tcc:70-88,147-152; fp6_2over3.tcc:65-84,133-138; fp12 64-81,130-135. *)
Definition quad_add (x y : K * K) : K * K := let '(a, b) := x in let '(a', b') := y in (a + a', b + b').
Definition quad_sub (x y : K * K) : K * K := let '(a, b) := x in let '(a', b') := y in (a - a', b - b').
Definition quad_opp (x : K * K) : K * K := let '(a, b) := x in (- a, - b).
(** * (Karatsuba): fp2.tcc:89-104, fp4.tcc:110-126, fp6_2over3.tcc:95-111, fp12 113-128. *)
Definition quad_mul (x y : K * K) : K * K :=
  let '(a, b) := x in let '(A, B) := y in
  let aA := a * A in
  let bB := b * B in
  (aA + mnr bB, (a + b) * (A + B) - aA - bB).
(** squared_karatsuba: fp2.tcc:176-189, fp12 206-220. *)
Definition quad_sqr_karatsuba (x : K * K) : K * K :=
  let '(a, b) := x in
  let asq := osqr F a in
  let bsq := osqr F b in
  (asq + mnr bsq, osqr F (a + b) - asq - bsq).
(** squared / squared_complex: fp2.tcc:164-203, fp4.tcc:210-223, fp6_2over3.tcc:196-208, fp12 193-235. *)
Definition quad_sqr_complex (x : K * K) : K * K :=
  let '(a, b) := x in
  let ab := a * b in
  ((a + b) * (a + mnr b) - ab - mnr ab, ab + ab).
(** inverse: fp2.tcc:205-222, fp4.tcc:232-245, fp6_2over3.tcc:217-232, fp12 237-254. *)
Definition quad_inv (x : K * K) : result (K * K) :=
  let '(a, b) := x in
  let t0 := osqr F a in
  let t1 := osqr F b in
  let t2 := t0 - mnr t1 in
  t3 <- oinv F t2 ;;
  Ok (a * t3, - (b * t3)).
(** unitary_inverse: fp4.tcc:261-266, fp6_2over3.tcc:248-253, fp12 270-275. *)
Definition quad_unitary_inverse (x : K * K) : K * K := let '(a, b) := x in (a, - b).
(** scalar * element, the scalar acting on the base by [scale]: fp2.tcc:78-87,
    fp4.tcc:90-108, fp6_2over3.tcc:86-93, fp12 83-111. *)
Definition quad_scale {S : Type} (scale : S -> K -> K) (s : S) (x : K * K) : K * K :=
  let '(a, b) := x in (scale s a, scale s b).

Definition quad_ops : Fops (K * K) :=
  mkFops quad_zero quad_one quad_add quad_sub quad_mul quad_opp quad_sqr_complex quad_inv quad_eqb.
End Quad.

Section Cubic.
Context {K : Type} (F : Fops K) (mnr : K -> K).
Local Infix "+" := (oadd F).
Local Infix "-" := (osub F).
Local Infix "*" := (omul F).
Local Notation "- x" := (oopp F x).

(** zero(), one(), ==: fp3.tcc:18-56, fp6_3over2.tcc:24-61. *)
Definition cubic_zero : K * K * K := (o0 F, o0 F, o0 F).
Definition cubic_one : K * K * K := (o1 F, o0 F, o0 F).
Definition cubic_eqb (x y : K * K * K) : bool :=
  let '(a, b, c) := x in let '(a', b', c') := y in oeqb F a a' && oeqb F b b' && oeqb F c c'.
(** +, -, unary -: fp3.tcc:58-80,112-118; fp6_3over2.tcc:64-84,128-134. *)
Definition cubic_add (x y : K * K * K) : K * K * K :=
  let '(a, b, c) := x in let '(a', b', c') := y in (a + a', b + b', c + c').
Definition cubic_sub (x y : K * K * K) : K * K * K :=
  let '(a, b, c) := x in let '(a', b', c') := y in (a - a', b - b', c - c').
Definition cubic_opp (x : K * K * K) : K * K * K := let '(a, b, c) := x in (- a, - b, - c).
(** *: fp3.tcc:93-110, fp6_3over2.tcc:109-126. *)
Definition cubic_mul (x y : K * K * K) : K * K * K :=
  let '(a, b, c) := x in let '(A, B, C) := y in
  let aA := a * A in
  let bB := b * B in
  let cC := c * C in
  (aA + mnr ((b + c) * (B + C) - bB - cC),
   (a + b) * (A + B) - aA - bB + mnr cC,
   (a + c) * (A + C) - aA + bB - cC).
(** squared (CH-SQR2): fp3.tcc:169-189, fp6_3over2.tcc:185-205. *)
Definition cubic_sqr (x : K * K * K) : K * K * K :=
  let '(a, b, c) := x in
  let s0 := osqr F a in
  let ab := a * b in
  let s1 := ab + ab in
  let s2 := osqr F (a - b + c) in
  let bc := b * c in
  let s3 := bc + bc in
  let s4 := osqr F c in
  (s0 + mnr s3, s1 + mnr s4, s1 + s2 + s3 - s0 - s4).
(** inverse: fp3.tcc:198-219, fp6_3over2.tcc:214-234. *)
Definition cubic_inv (x : K * K * K) : result (K * K * K) :=
  let '(a, b, c) := x in
  let t0 := osqr F a in
  let t1 := osqr F b in
  let t2 := osqr F c in
  let t3 := a * b in
  let t4 := a * c in
  let t5 := b * c in
  let c0 := t0 - mnr t5 in
  let c1 := mnr t2 - t3 in
  let c2 := t1 - t4 in
  t6 <- oinv F (a * c0 + mnr (c * c1 + b * c2)) ;;
  Ok (t6 * c0, t6 * c1, t6 * c2).
(** scalar * element: fp3.tcc:82-91, fp6_3over2.tcc:86-107. *)
Definition cubic_scale {S : Type} (scale : S -> K -> K) (s : S) (x : K * K * K) : K * K * K :=
  let '(a, b, c) := x in (scale s a, scale s b, scale s c).

Definition cubic_ops : Fops (K * K * K) :=
  mkFops cubic_zero cubic_one cubic_add cubic_sub cubic_mul cubic_opp cubic_sqr cubic_inv cubic_eqb.
End Cubic.

(** ** The six classes.  [nr2], [nr3], ... are the classes' own [non_residue]. *)

Definition fp2_ops {K} (F : Fops K) (nr2 : K) : Fops (K * K) := quad_ops F (omul F nr2).
Definition fp3_ops {K} (F : Fops K) (nr3 : K) : Fops (K * K * K) := cubic_ops F (omul F nr3).

(** fp4.tcc:22-26 [mul_by_non_residue]. *)
Definition fp4_mnr {K} (F : Fops K) (nr4 : K) (x : K * K) : K * K :=
  let '(a, b) := x in (omul F nr4 b, a).
Definition fp4_ops {K} (F : Fops K) (nr2 nr4 : K) : Fops (K * K * (K * K)) :=
  quad_ops (fp2_ops F nr2) (fp4_mnr F nr4).

(** fp6_2over3.tcc:17-21, fp12_2over3over2.tcc:17-21 [mul_by_non_residue]: the
    coefficients are rotated. *)
Definition rot_mnr {K} (F : Fops K) (nr : K) (x : K * K * K) : K * K * K :=
  let '(a, b, c) := x in (omul F nr c, a, b).
Definition fp6_2over3_ops {K} (F : Fops K) (nr3 nr6 : K) : Fops (K * K * K * (K * K * K)) :=
  quad_ops (fp3_ops F nr3) (rot_mnr F nr6).

(** fp6_3over2.tcc:18-22 [mul_by_non_residue]: multiplication in Fp2. *)
Definition fp6_3over2_ops {K} (F : Fops K) (nr2 : K) (nr6 : K * K) : Fops ((K * K) * (K * K) * (K * K)) :=
  fp3_ops (fp2_ops F nr2) nr6.
Definition fp12_ops {K} (F : Fops K) (nr2 : K) (nr6 nr12 : K * K) :
  Fops (((K * K) * (K * K) * (K * K)) * ((K * K) * (K * K) * (K * K))) :=
  quad_ops (fp6_3over2_ops F nr2 nr6) (rot_mnr (fp2_ops F nr2) nr12).

(** ** Sparse multiplications *)
Section Sparse.
Context {K : Type} (F : Fops K).

(** fp4.tcc:128-145 [mul_by_023]. *)
Definition fp4_mul_by_023 (nr2 nr4 : K) (x y : K * K * (K * K)) : result (K * K * (K * K)) :=
  let F2 := fp2_ops F nr2 in
  let '(a, b) := x in let '(A, B) := y in
  assert_then (oeqb F (snd A) (o0 F)) (
  let aA := (omul F (fst a) (fst A), omul F (snd a) (fst A)) in
  let bB := omul F2 b B in
  Ok (oadd F2 aA (fp4_mnr F nr4 bB),
      osub F2 (osub F2 (omul F2 (oadd F2 a b) (oadd F2 A B)) aA) bB)).

(** fp6_2over3.tcc:113-131 [mul_by_2345]. *)
Definition fp6_mul_by_2345 (nr3 nr6 : K) (x y : K * K * K * (K * K * K)) : result (K * K * K * (K * K * K)) :=
  let F3 := fp3_ops F nr3 in
  let '(a, b) := x in let '(A, B) := y in
  let '(a0, a1, a2) := a in let '(A0, A1, A2) := A in
  assert_then (oeqb F A0 (o0 F)) (
  assert_then (oeqb F A1 (o0 F)) (
  let aA := (omul F (omul F a1 A2) nr6, omul F (omul F a2 A2) nr6, omul F a0 A2) in
  let bB := omul F3 b B in
  Ok (oadd F3 aA (rot_mnr F nr6 bB),
      osub F3 (osub F3 (omul F3 (oadd F3 a b) (oadd F3 A B)) aA) bB))).
End Sparse.

(** The Fp12 code below only uses operations of Fp2 and [my_Fp6::non_residue];
    [F] is Fp2. *)
Section Fp12.
Context {K : Type} (F : Fops K) (nr6 : K).
Local Infix "+" := (oadd F).
Local Infix "-" := (osub F).
Local Infix "*" := (omul F).
Notation T := (K * K * K * (K * K * K))%type.

(** fp12_2over3over2.tcc:344-382 [mul_by_045]. *)
Definition fp12_mul_by_045 (x : T) (ell_0 ell_VW ell_VV : K) : T :=
  let '((z0, z1, z2), (z3, z4, z5)) := x in
  let x0 := ell_VW in
  let x4 := ell_0 in
  let x5 := ell_VV in
  let tmp1 := nr6 * x4 in
  let tmp2 := nr6 * x5 in
  let t0 := x0 * z0 + tmp1 * z4 + tmp2 * z3 in
  let t1 := x0 * z1 + tmp1 * z5 + tmp2 * z4 in
  let t2 := x0 * z2 + x4 * z3 + tmp2 * z5 in
  let t3 := x0 * z3 + tmp1 * z2 + tmp2 * z1 in
  let t4 := x0 * z4 + x4 * z0 + tmp2 * z2 in
  let t5 := x0 * z5 + x4 * z1 + x5 * z0 in
  ((t0, t1, t2), (t3, t4, t5)).

(** fp12_2over3over2.tcc:384-465 [mul_by_024]; assignments to z0..z5 rebind. *)
Definition fp12_mul_by_024 (x : T) (ell_0 ell_VW ell_VV : K) : T :=
  let '((z0, z1, z2), (z3, z4, z5)) := x in
  let x0 := ell_0 in
  let x2 := ell_VV in
  let x4 := ell_VW in
  let D0 := z0 * x0 in
  let D2 := z2 * x2 in
  let D4 := z4 * x4 in
  let t2 := z0 + z4 in
  let t1 := z0 + z2 in
  let s0 := z1 + z3 + z5 in
  (* z0 *)
  let S1 := z1 * x2 in
  let T3 := S1 + D4 in
  let T4 := nr6 * T3 + D0 in
  let z0 := T4 in
  (* z1 *)
  let T3 := z5 * x4 in
  let S1 := S1 + T3 in
  let T3 := T3 + D2 in
  let T4 := nr6 * T3 in
  let T3 := z1 * x0 in
  let S1 := S1 + T3 in
  let T4 := T4 + T3 in
  let z1 := T4 in
  (* z2 *)
  let t0 := x0 + x2 in
  let T3 := t1 * t0 - D0 - D2 in
  let T4 := z3 * x4 in
  let S1 := S1 + T4 in
  let T3 := T3 + T4 in
  (* z3 *)
  let t0 := z2 + z4 in
  let z2 := T3 in
  let t1 := x2 + x4 in
  let T3 := t0 * t1 - D2 - D4 in
  let T4 := nr6 * T3 in
  let T3 := z3 * x0 in
  let S1 := S1 + T3 in
  let T4 := T4 + T3 in
  let z3 := T4 in
  (* z4 *)
  let T3 := z5 * x2 in
  let S1 := S1 + T3 in
  let T4 := nr6 * T3 in
  let t0 := x0 + x4 in
  let T3 := t2 * t0 - D0 - D4 in
  let T4 := T4 + T3 in
  let z4 := T4 in
  (* z5 *)
  let t0 := x0 + x2 + x4 in
  let T3 := s0 * t0 - S1 in
  let z5 := T3 in
  ((z0, z1, z2), (z3, z4, z5)).

(** fp12_2over3over2.tcc:277-342 [cyclotomic_squared]. *)
Definition fp12_cyclotomic_squared (x : T) : T :=
  let '((z0, z4, z3), (z2, z1, z5)) := x in
  let tmp := z0 * z1 in
  let t0 := (z0 + z1) * (z0 + nr6 * z1) - tmp - nr6 * tmp in
  let t1 := tmp + tmp in
  let tmp := z2 * z3 in
  let t2 := (z2 + z3) * (z2 + nr6 * z3) - tmp - nr6 * tmp in
  let t3 := tmp + tmp in
  let tmp := z4 * z5 in
  let t4 := (z4 + z5) * (z4 + nr6 * z5) - tmp - nr6 * tmp in
  let t5 := tmp + tmp in
  let z0 := t0 - z0 in
  let z0 := z0 + z0 in
  let z0 := z0 + t0 in
  let z1 := t1 + z1 in
  let z1 := z1 + z1 in
  let z1 := z1 + t1 in
  let tmp := nr6 * t5 in
  let z2 := tmp + z2 in
  let z2 := z2 + z2 in
  let z2 := z2 + tmp in
  let z3 := t4 - z3 in
  let z3 := z3 + z3 in
  let z3 := z3 + t4 in
  let z4 := t2 - z4 in
  let z4 := z4 + z4 in
  let z4 := z4 + t2 in
  let z5 := t3 + z5 in
  let z5 := z5 + z5 in
  let z5 := z5 + t3 in
  ((z0, z4, z3), (z2, z1, z5)).
End Fp12.

(** fp4.tcc:268-280 [cyclotomic_squared]. *)
Definition fp4_cyclotomic_squared {K} (F : Fops K) (nr2 nr4 : K) (x : K * K * (K * K)) : K * K * (K * K) :=
  let F2 := fp2_ops F nr2 in
  let '(c0, c1) := x in
  let A := osqr F2 c1 in
  let B := oadd F2 c1 c0 in
  let C := osub F2 (osqr F2 B) A in
  let D := fp4_mnr F nr4 A in
  let E := osub F2 C D in
  let G := oadd F2 (oadd F2 D D) (o1 F2) in
  let H := osub F2 E (o1 F2) in
  (G, H).

(** fp6_2over3.tcc:255-307 [cyclotomic_squared]: [nr2] and [nr3] are the
    non-residues of my_Fp2 and my_Fp3. *)
Definition fp6_cyclotomic_squared {K} (F : Fops K) (nr2 nr3 : K) (x : K * K * K * (K * K * K))
  : K * K * K * (K * K * K) :=
  let F2 := fp2_ops F nr2 in
  let '((c00, c01, c02), (c10, c11, c12)) := x in
  let a := (c00, c11) in
  let b := (c10, c02) in
  let c := (c01, c12) in
  let asq := osqr F2 a in
  let bsq := osqr F2 b in
  let csq := osqr F2 c in
  let A_a := osub F (fst asq) (fst a) in
  let A_a := oadd F (oadd F A_a A_a) (fst asq) in
  let A_b := oadd F (snd asq) (snd a) in
  let A_b := oadd F (oadd F A_b A_b) (snd asq) in
  let B_tmp := omul F nr3 (snd csq) in
  let B_a := oadd F B_tmp (fst b) in
  let B_a := oadd F (oadd F B_a B_a) B_tmp in
  let B_b := osub F (fst csq) (snd b) in
  let B_b := oadd F (oadd F B_b B_b) (fst csq) in
  let C_a := osub F (fst bsq) (fst c) in
  let C_a := oadd F (oadd F C_a C_a) (fst bsq) in
  let C_b := oadd F (snd bsq) (snd c) in
  let C_b := oadd F (oadd F C_b C_b) (snd bsq) in
  ((A_a, C_a, B_b), (B_a, A_b, C_b)).

(** ** cyclotomic_exp *)
Section CycExp.
Context {T : Type} (one : T) (mul : T -> T -> T) (csqr : T -> T) (uinv : T -> T).

(** fp4.tcc:291-312, fp6_2over3.tcc:318-339: digits most significant first. *)
Fixpoint cyc_naf_loop (ds : list Z) (x xinv : T) (found_nonzero : bool) (res : T) : T :=
  match ds with
  | [] => res
  | d :: ds' =>
      let r := if found_nonzero then csqr res else res in
      if d =? 0 then cyc_naf_loop ds' x xinv found_nonzero r
      else if 0 <? d then cyc_naf_loop ds' x xinv true (mul r x)
      else cyc_naf_loop ds' x xinv true (mul r xinv)
  end.
(** fp4.tcc:282-315, fp6_2over3.tcc:309-342. *)
Definition cyclotomic_exp_naf (x : T) (e : list Z) : result T :=
  naf <- find_wnaf 1 e ;;
  Ok (cyc_naf_loop (rev naf) x (uinv x) false one).

(** fp12_2over3over2.tcc:467-493: limb m-1 first, bit 63 first. *)
Definition cyclotomic_exp_bits (x : T) (e : list Z) : T := power_vector one mul csqr x (rev e).
End CycExp.

Definition fp4_cyclotomic_exp {K} (F : Fops K) (nr2 nr4 : K) :=
  cyclotomic_exp_naf (o1 (fp4_ops F nr2 nr4)) (omul (fp4_ops F nr2 nr4))
    (fp4_cyclotomic_squared F nr2 nr4) (quad_unitary_inverse (fp2_ops F nr2)).
Definition fp6_cyclotomic_exp {K} (F : Fops K) (nr2 nr3 nr6 : K) :=
  cyclotomic_exp_naf (o1 (fp6_2over3_ops F nr3 nr6)) (omul (fp6_2over3_ops F nr3 nr6))
    (fp6_cyclotomic_squared F nr2 nr3) (quad_unitary_inverse (fp3_ops F nr3)).
Definition fp12_cyclotomic_exp {K} (F : Fops K) (nr2 : K) (nr6 nr12 : K * K) :=
  cyclotomic_exp_bits (o1 (fp12_ops F nr2 nr6 nr12)) (omul (fp12_ops F nr2 nr6 nr12))
    (fp12_cyclotomic_squared (fp2_ops F nr2) nr6).

(** ** Frobenius_map(power); the tables are the static Frobenius_coeffs. *)
Section Frobenius.
Context {K : Type} (F : Fops K).
Definition coeff {A} (d : A) (tbl : list A) (power m : Z) : A := nth (Z.to_nat (power mod m)) tbl d.

(** fp2.tcc:231-236. *)
Definition fp2_frobenius (t1 : list K) (k : Z) (x : K * K) : K * K :=
  let '(a, b) := x in (a, omul F (coeff (o0 F) t1 k 2) b).
(** fp3.tcc:228-234. *)
Definition fp3_frobenius (t1 t2 : list K) (k : Z) (x : K * K * K) : K * K * K :=
  let '(a, b, c) := x in (a, omul F (coeff (o0 F) t1 k 3) b, omul F (coeff (o0 F) t2 k 3) c).
(** fp4.tcc:254-259: the coefficient is in Fp. *)
Definition fp4_frobenius (t2 t4 : list K) (k : Z) (x : K * K * (K * K)) : K * K * (K * K) :=
  let '(a, b) := x in
  (fp2_frobenius t2 k a, quad_scale (omul F) (coeff (o0 F) t4 k 4) (fp2_frobenius t2 k b)).
(** fp6_2over3.tcc:241-246: the coefficient is in Fp. *)
Definition fp6_2over3_frobenius (t31 t32 t6 : list K) (k : Z) (x : K * K * K * (K * K * K)) :
  K * K * K * (K * K * K) :=
  let '(a, b) := x in
  (fp3_frobenius t31 t32 k a, cubic_scale (omul F) (coeff (o0 F) t6 k 6) (fp3_frobenius t31 t32 k b)).
(** fp6_3over2.tcc:243-249: coefficients in Fp2. *)
Definition fp6_3over2_frobenius (nr2 : K) (t2 : list K) (t61 t62 : list (K * K)) (k : Z)
  (x : (K * K) * (K * K) * (K * K)) : (K * K) * (K * K) * (K * K) :=
  let F2 := fp2_ops F nr2 in
  let '(a, b, c) := x in
  (fp2_frobenius t2 k a,
   omul F2 (coeff (o0 F2) t61 k 6) (fp2_frobenius t2 k b),
   omul F2 (coeff (o0 F2) t62 k 6) (fp2_frobenius t2 k c)).
(** fp12_2over3over2.tcc:263-268: the coefficient is in Fp2. *)
Definition fp12_frobenius (nr2 : K) (t2 : list K) (t61 t62 t12 : list (K * K)) (k : Z)
  (x : ((K * K) * (K * K) * (K * K)) * ((K * K) * (K * K) * (K * K))) :
  ((K * K) * (K * K) * (K * K)) * ((K * K) * (K * K) * (K * K)) :=
  let F2 := fp2_ops F nr2 in
  let '(a, b) := x in
  (fp6_3over2_frobenius nr2 t2 t61 t62 k a,
   cubic_scale (omul F2) (coeff (o0 F2) t12 k 12) (fp6_3over2_frobenius nr2 t2 t61 t62 k b)).
End Frobenius.
