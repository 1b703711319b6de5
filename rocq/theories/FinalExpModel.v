(** Model of the final exponentiations:
    libff/algebra/curves/{alt_bn128/alt_bn128,bls12_381/bls12_381,mnt/mnt4/mnt4,
    mnt/mnt6/mnt6,edwards/edwards}_pairing.cpp.
    enter_block/leave_block (profiling) are left out.  The static members used
    (non-residues, Frobenius tables, exponents, signs) are parameters.
    bn128 calls the external ate-pairing library and is not modelled. *)
From Coq Require Import ZArith List Bool.
From Verif Require Import Result Limbs BigintModel FieldOps AlgorithmsModel WnafModel ExtModel.
Import ListNotations.
Open Scope Z_scope.
Open Scope result_scope.

Section Twelve.
Context {K : Type} (F : Fops K) (nr2 : K) (nr6 nr12 : K * K).
(** Frobenius_coeffs_c1 of Fq2, _c1 and _c2 of Fq6, _c1 of Fq12 *)
Variables (t2 : list K) (t61 t62 t12 : list (K * K)).
(** final_exponent_z, final_exponent_is_z_neg *)
Variables (z : list Z) (z_neg : bool).
Notation F12 := (fp12_ops F nr2 nr6 nr12).
Notation T := (((K * K) * (K * K) * (K * K)) * ((K * K) * (K * K) * (K * K)))%type.
Local Infix "*" := (omul F12).
Let csqr : T -> T := fp12_cyclotomic_squared (fp2_ops F nr2) nr6.
Let uinv : T -> T := quad_unitary_inverse (fp6_3over2_ops F nr2 nr6).
Let frob (k : Z) (x : T) : T := fp12_frobenius F nr2 t2 t61 t62 t12 k x.
Let cexp (x : T) (e : list Z) : T := fp12_cyclotomic_exp F nr2 nr6 nr12 x e.

(** alt_bn128_pairing.cpp:112-137, bls12_381_pairing.cpp:113-138. *)
Definition twelve_first_chunk (elt : T) : result T :=
  let A := quad_unitary_inverse (fp6_3over2_ops F nr2 nr6) elt in
  B <- oinv F12 elt ;;
  let C := A * B in
  let D := frob 2 C in
  Ok (D * C).

(** alt_bn128_pairing.cpp:139-152. *)
Definition bn_exp_by_neg_z (elt : T) : T :=
  let result := cexp elt z in
  if negb z_neg then uinv result else result.

(** alt_bn128_pairing.cpp:154-226. *)
Definition bn_last_chunk (elt : T) : T :=
  let A := bn_exp_by_neg_z elt in
  let B := csqr A in
  let C := csqr B in
  let D := C * B in
  let E := bn_exp_by_neg_z D in
  let F := csqr E in
  let G := bn_exp_by_neg_z F in
  let H := uinv D in
  let I := uinv G in
  let J := I * E in
  let K := J * H in
  let L := K * B in
  let M := K * E in
  let N := M * elt in
  let O := frob 1 L in
  let P := O * N in
  let Q := frob 2 K in
  let R := Q * P in
  let S := uinv elt in
  let T := S * L in
  let U := frob 3 T in
  let V := U * R in
  V.

(** alt_bn128_pairing.cpp:228-236. *)
Definition bn_final_exponentiation (elt : T) : result T :=
  A <- twelve_first_chunk elt ;; Ok (bn_last_chunk A).

(** bls12_381_pairing.cpp:140-153. *)
Definition bls_exp_by_z (elt : T) : T :=
  let result := cexp elt z in
  if z_neg then uinv result else result.

(** bls12_381_pairing.cpp:155-186. *)
Definition bls_last_chunk (elt : T) : T :=
  let A := uinv (csqr elt) in
  let B := bls_exp_by_z elt in
  let C := csqr B in
  let D := A * B in
  let E := bls_exp_by_z D in
  let F := bls_exp_by_z E in
  let G := bls_exp_by_z F in
  let H := G * C in
  let I := bls_exp_by_z H in
  let J := uinv D in
  let K := J * I in
  let L := elt * K in
  let M := uinv elt in
  let N := E * elt in
  let O := frob 3 N in
  let P := H * M in
  let Q := frob 1 P in
  let R := B * F in
  let S := frob 2 R in
  let T := S * O in
  let U := T * Q in
  U * L.

(** bls12_381_pairing.cpp:188-199. *)
Definition bls_final_exponentiation (elt : T) : result T :=
  A <- twelve_first_chunk elt ;; Ok (bls_last_chunk A).
End Twelve.

(** mnt4, mnt6 and edwards: the exponent of the last chunk is w1 q + w0. *)
Section Chunks.
Context {T : Type} (mul : T -> T -> T) (inv : T -> result T) (frob : Z -> T -> T)
  (cexp : T -> list Z -> result T).
(** final_exponent_last_chunk_w1, _abs_of_w0, _is_w0_neg *)
Variables (w1 abs_of_w0 : list Z) (is_w0_neg : bool).

(** mnt4_pairing.cpp:182-198, mnt6_pairing.cpp:184-200, edwards_pairing.cpp:173-189. *)
Definition last_chunk (elt elt_inv : T) : result T :=
  let elt_q := frob 1 elt in
  w1_part <- cexp elt_q w1 ;;
  w0_part <- (if is_w0_neg then cexp elt_inv abs_of_w0 else cexp elt abs_of_w0) ;;
  Ok (mul w1_part w0_part).

(** mnt4_pairing.cpp:200-213. *)
Definition first_chunk4 (elt elt_inv : T) : T := mul (frob 2 elt) elt_inv.

(** mnt6_pairing.cpp:202-218, edwards_pairing.cpp:191-207. *)
Definition first_chunk6 (elt elt_inv : T) : T :=
  let elt_q3_over_elt := mul (frob 3 elt) elt_inv in
  let alpha := frob 1 elt_q3_over_elt in
  mul alpha elt_q3_over_elt.

(** mnt4_pairing.cpp:215-225, mnt6_pairing.cpp:220-230, edwards_pairing.cpp:209-219. *)
Definition chunked_final_exponentiation (first_chunk : T -> T -> T) (elt : T) : result T :=
  elt_inv <- inv elt ;;
  let elt_to_first_chunk := first_chunk elt elt_inv in
  let elt_inv_to_first_chunk := first_chunk elt_inv elt in
  last_chunk elt_to_first_chunk elt_inv_to_first_chunk.
End Chunks.

(** mnt4: [nr] is mnt4_Fq2::non_residue and mnt4_Fq4::non_residue. *)
Definition mnt4_final_exponentiation {K} (F : Fops K) (nr2 nr4 : K) (t2 t4 : list K)
  (w1 abs_of_w0 : list Z) (is_w0_neg : bool) : K * K * (K * K) -> result (K * K * (K * K)) :=
  chunked_final_exponentiation (omul (fp4_ops F nr2 nr4)) (oinv (fp4_ops F nr2 nr4))
    (fp4_frobenius F t2 t4) (fp4_cyclotomic_exp F nr2 nr4) w1 abs_of_w0 is_w0_neg
    (first_chunk4 (omul (fp4_ops F nr2 nr4)) (fp4_frobenius F t2 t4)).

(** mnt6 and edwards: Fq6 is Fp6_2over3; its cyclotomic_squared works in
    my_Fp2, whose non_residue is [nr2]. *)
Definition six_final_exponentiation {K} (F : Fops K) (nr2 nr3 nr6 : K) (t31 t32 t6 : list K)
  (w1 abs_of_w0 : list Z) (is_w0_neg : bool) : K * K * K * (K * K * K) -> result (K * K * K * (K * K * K)) :=
  chunked_final_exponentiation (omul (fp6_2over3_ops F nr3 nr6)) (oinv (fp6_2over3_ops F nr3 nr6))
    (fp6_2over3_frobenius F t31 t32 t6) (fp6_cyclotomic_exp F nr2 nr3 nr6) w1 abs_of_w0 is_w0_neg
    (first_chunk6 (omul (fp6_2over3_ops F nr3 nr6)) (fp6_2over3_frobenius F t31 t32 t6)).
