(** Property theorems for the extension fields: C23-C27.  F is any commutative
    ring or field described by [Fops]; [prime_base F q] says F is a field of
    prime characteristic q in which x^q = x (every Fp_model is one:
    [C24_base]); [nonresidue F Q r nr] is Euler's criterion. *)
From Coq Require Import ZArith List Lia.
From Verif Require Import Result Limbs LimbsProofs Algebra FieldOps FpModel FpSpec FpField FpInst
  AlgorithmsModel AlgorithmsProofs ExtModel ExtSpec ExtProofs ExtFrob ExtCyc ExtInst ZmInst ExtExtra.
Import ListNotations.

(** ** C23: Fp2 and Fp3 *)
Theorem C23_fp2_mul {K} (F : Fops K) (R : ring_ok F) nr x y :
  coeffs2 (omul (fp2_ops F nr) x y) = quot_mul F 2 nr (coeffs2 x) (coeffs2 y).
Proof. exact (quad_mul_spec F (omul F nr) nr R (fun _ => eq_refl) x y). Qed.
Print Assumptions C23_fp2_mul.

Theorem C23_fp3_mul {K} (F : Fops K) (R : ring_ok F) nr x y :
  coeffs3 (omul (fp3_ops F nr) x y) = quot_mul F 3 nr (coeffs3 x) (coeffs3 y).
Proof. exact (cubic_mul_spec F (omul F nr) nr R (fun _ => eq_refl) x y). Qed.
Print Assumptions C23_fp3_mul.

Theorem C23_fp2_ring {K} (F : Fops K) (R : ring_ok F) nr : ring_ok (fp2_ops F nr).
Proof. exact (fp2_ring F R nr). Qed.
Print Assumptions C23_fp2_ring.

Theorem C23_fp3_ring {K} (F : Fops K) (R : ring_ok F) nr : ring_ok (fp3_ops F nr).
Proof. exact (fp3_ring F R nr). Qed.
Print Assumptions C23_fp3_ring.

Theorem C23_fp2_squared {K} (F : Fops K) (R : ring_ok F) nr x :
  quad_sqr_karatsuba F (omul F nr) x = omul (fp2_ops F nr) x x /\
  quad_sqr_complex F (omul F nr) x = omul (fp2_ops F nr) x x.
Proof. exact (conj (quad_karatsuba_spec F (omul F nr) nr R (fun _ => eq_refl) x)
                   (quad_complex_spec F (omul F nr) nr R (fun _ => eq_refl) x)). Qed.
Print Assumptions C23_fp2_squared.

Theorem C23_fp3_squared {K} (F : Fops K) (R : ring_ok F) nr x :
  cubic_sqr F (omul F nr) x = omul (fp3_ops F nr) x x.
Proof. exact (cubic_sqr_spec F (omul F nr) nr R (fun _ => eq_refl) x). Qed.
Print Assumptions C23_fp3_squared.

Theorem C23_fp2_scalar {K} (F : Fops K) (R : ring_ok F) nr s x :
  quad_scale (omul F) s x = omul (fp2_ops F nr) (s, o0 F) x.
Proof. exact (quad_scale_spec F (omul F nr) nr R (fun _ => eq_refl) s x). Qed.
Print Assumptions C23_fp2_scalar.

Theorem C23_fp3_scalar {K} (F : Fops K) (R : ring_ok F) nr s x :
  cubic_scale (omul F) s x = omul (fp3_ops F nr) (s, o0 F, o0 F) x.
Proof. exact (cubic_scale_spec F (omul F nr) nr R (fun _ => eq_refl) s x). Qed.
Print Assumptions C23_fp3_scalar.

(** Fields, so inverse() is a true inverse of every non-zero element and asserts on zero. *)
Theorem C23_fp2_field {K} (F : Fops K) (FK : field_ok F) nr :
  (forall y, omul F y y <> nr) -> field_ok (fp2_ops F nr).
Proof. exact (fp2_field F FK nr). Qed.
Print Assumptions C23_fp2_field.

Theorem C23_fp3_field {K} (F : Fops K) (FK : field_ok F) nr :
  (forall y, omul F y (omul F y y) <> nr) -> field_ok (fp3_ops F nr).
Proof. exact (fp3_field F FK nr). Qed.
Print Assumptions C23_fp3_field.

Theorem C23_fp2_inverse {K} (F : Fops K) (FK : field_ok F) nr x :
  (forall y, omul F y y <> nr) -> x <> o0 (fp2_ops F nr) ->
  exists y, oinv (fp2_ops F nr) x = Ok y /\ omul (fp2_ops F nr) x y = o1 (fp2_ops F nr).
Proof. exact (fun H => fk_inv _ (fp2_field F FK nr H) x). Qed.
Print Assumptions C23_fp2_inverse.

Example C23_example : field_ok (fp2_ops F13 (f13 2)) /\ field_ok (fp3_ops F13 (f13 2)) /\
  coeffs2 (omul (fp2_ops F13 (f13 2)) (f13 3, f13 5) (f13 2, f13 7)) = [f13 11; f13 5].
Proof.
  split; [|split].
  - apply (fp2_is_field F13 13 F13_base); [exists 6%nat; reflexivity|exact two_nonsquare].
  - apply (fp3_is_field F13 13 F13_base); [exists 4%nat; reflexivity|exact two_noncube].
  - change [f13 11; f13 5] with (coeffs2 (f13 11, f13 5)). f_equal.
    apply (eq_fast F169 F169_ring). vm_compute. reflexivity.
Qed.

(** ** C24: the towers *)
Theorem C24_base P OK OKI : prime_base (fp_ops P OK OKI) (Z.to_nat (val (fp_modulus P))).
Proof. exact (fp_prime_base P OK OKI). Qed.
Print Assumptions C24_base.

(** Fp4 = Fp2[v]/(v^2 - u). *)
Theorem C24_fp4_mul {K} (F : Fops K) (R : ring_ok F) nr x y :
  coeffs2 (omul (fp4_ops F nr nr) x y) = quot_mul (fp2_ops F nr) 2 (o0 F, o1 F) (coeffs2 x) (coeffs2 y).
Proof. exact (quad_mul_spec (fp2_ops F nr) _ (quad_u F) (fp2_ring F R nr) (fp4_mnr_spec F R nr) x y). Qed.
Print Assumptions C24_fp4_mul.

(** Fp6 = Fp3[v]/(v^2 - u). *)
Theorem C24_fp6_2over3_mul {K} (F : Fops K) (R : ring_ok F) nr x y :
  coeffs2 (omul (fp6_2over3_ops F nr nr) x y) =
  quot_mul (fp3_ops F nr) 2 (o0 F, o1 F, o0 F) (coeffs2 x) (coeffs2 y).
Proof. exact (quad_mul_spec (fp3_ops F nr) _ (cubic_u F) (fp3_ring F R nr) (rot_mnr_spec F R nr) x y). Qed.
Print Assumptions C24_fp6_2over3_mul.

(** Fp6 = Fp2[v]/(v^3 - nr6). *)
Theorem C24_fp6_3over2_mul {K} (F : Fops K) (R : ring_ok F) nr2 nr6 x y :
  coeffs3 (omul (fp6_3over2_ops F nr2 nr6) x y) = quot_mul (fp2_ops F nr2) 3 nr6 (coeffs3 x) (coeffs3 y).
Proof. exact (cubic_mul_spec (fp2_ops F nr2) _ nr6 (fp2_ring F R nr2) (fun _ => eq_refl) x y). Qed.
Print Assumptions C24_fp6_3over2_mul.

(** Fp12 = Fp6[w]/(w^2 - v). *)
Theorem C24_fp12_mul {K} (F : Fops K) (R : ring_ok F) nr2 nr6 x y :
  coeffs2 (omul (fp12_ops F nr2 nr6 nr6) x y) =
  quot_mul (fp6_3over2_ops F nr2 nr6) 2 (o0 (fp2_ops F nr2), o1 (fp2_ops F nr2), o0 (fp2_ops F nr2))
    (coeffs2 x) (coeffs2 y).
Proof. exact (quad_mul_spec (fp6_3over2_ops F nr2 nr6) _ (cubic_u (fp2_ops F nr2)) (fp6_3over2_ring F R nr2 nr6)
                (rot_mnr_spec (fp2_ops F nr2) (fp2_ring F R nr2) nr6) x y). Qed.
Print Assumptions C24_fp12_mul.

Theorem C24_rings {K} (F : Fops K) (R : ring_ok F) nr nr2 nr6 :
  ring_ok (fp4_ops F nr nr) /\ ring_ok (fp6_2over3_ops F nr nr) /\
  ring_ok (fp6_3over2_ops F nr2 nr6) /\ ring_ok (fp12_ops F nr2 nr6 nr6).
Proof. exact (conj (fp4_ring F R nr) (conj (fp6_2over3_ring F R nr)
              (conj (fp6_3over2_ring F R nr2 nr6) (fp12_ring F R nr2 nr6)))). Qed.
Print Assumptions C24_rings.

(** The second squaring of Fp12 (squared_karatsuba). *)
Theorem C24_fp12_squared {K} (F : Fops K) (R : ring_ok F) nr2 nr6 x :
  quad_sqr_karatsuba (fp6_3over2_ops F nr2 nr6) (rot_mnr (fp2_ops F nr2) nr6) x = omul (fp12_ops F nr2 nr6 nr6) x x /\
  osqr (fp12_ops F nr2 nr6 nr6) x = omul (fp12_ops F nr2 nr6 nr6) x x.
Proof. exact (conj (quad_karatsuba_spec (fp6_3over2_ops F nr2 nr6) _ _ (fp6_3over2_ring F R nr2 nr6)
                      (rot_mnr_spec (fp2_ops F nr2) (fp2_ring F R nr2) nr6) x)
                   (rk_sqr _ (fp12_ring F R nr2 nr6) x)). Qed.
Print Assumptions C24_fp12_squared.

(** inverse() of any element whose norm can be inverted, whatever the non-residue. *)
Theorem C24_norm_inverse {K} (F : Fops K) (R : ring_ok F) mnr nr a b t : (forall x, mnr x = omul F nr x) ->
  let norm := osub F (omul F a a) (omul F nr (omul F b b)) in
  oinv F norm = Ok t -> omul F norm t = o1 F ->
  exists y, oinv (quad_ops F mnr) (a, b) = Ok y /\ omul (quad_ops F mnr) (a, b) y = o1 (quad_ops F mnr).
Proof. exact (fun H => quad_inv_spec F mnr nr R H (a, b) t). Qed.
Print Assumptions C24_norm_inverse.

Theorem C24_fp4_field {K} (F : Fops K) q (PB : prime_base F q) nr :
  (exists m, q = 1 + 4 * m)%nat -> nonresidue F q 2 nr -> field_ok (fp4_ops F nr nr).
Proof. exact (fp4_is_field F q PB nr). Qed.
Print Assumptions C24_fp4_field.

Theorem C24_fp6_2over3_field {K} (F : Fops K) q (PB : prime_base F q) nr :
  (exists m, q = 1 + 6 * m)%nat -> nonresidue F q 2 nr -> nonresidue F q 3 nr ->
  field_ok (fp6_2over3_ops F nr nr).
Proof. exact (fp6_2over3_is_field F q PB nr). Qed.
Print Assumptions C24_fp6_2over3_field.

Theorem C24_fp6_3over2_field {K} (F : Fops K) q (PB : prime_base F q) nr2 m nr6 :
  (q = 1 + 6 * m)%nat -> nonresidue F q 2 nr2 -> nonresidue (fp2_ops F nr2) (q ^ 2) 3 nr6 ->
  field_ok (fp6_3over2_ops F nr2 nr6).
Proof. exact (fun Hm N => fp6_3over2_is_field F q PB nr2 m Hm N nr6). Qed.
Print Assumptions C24_fp6_3over2_field.

Theorem C24_fp12_field {K} (F : Fops K) q (PB : prime_base F q) nr2 m nr6 :
  (q = 1 + 6 * m)%nat -> nonresidue F q 2 nr2 ->
  nonresidue (fp2_ops F nr2) (q ^ 2) 2 nr6 -> nonresidue (fp2_ops F nr2) (q ^ 2) 3 nr6 ->
  field_ok (fp12_ops F nr2 nr6 nr6).
Proof. exact (fun Hm N => fp12_is_field F q PB nr2 m Hm N nr6). Qed.
Print Assumptions C24_fp12_field.

Example C24_example : field_ok T4 /\ field_ok T6 /\ field_ok (fp6_3over2_ops F13 (f13 2) xi) /\ field_ok T12.
Proof.
  split; [|split; [|split]].
  - apply (C24_fp4_field F13 13 F13_base); [exists 3%nat; reflexivity|exact two_nonsquare].
  - apply (C24_fp6_2over3_field F13 13 F13_base); [exists 2%nat; reflexivity|exact two_nonsquare|exact two_noncube].
  - apply (C24_fp6_3over2_field F13 13 F13_base _ 2); [reflexivity|exact two_nonsquare|exact xi_noncube].
  - apply (C24_fp12_field F13 13 F13_base _ 2); [reflexivity|exact two_nonsquare|exact xi_nonsquare|exact xi_noncube].
Qed.

(** ** C25: the cyclotomic subgroups *)
Theorem C25_fp4_squared {K} (F : Fops K) q (PB : prime_base F q) nr m x : (q = 1 + 4 * m)%nat ->
  nonresidue F q 2 nr -> cyclotomic4 (fp4_ops F nr nr) q x ->
  fp4_cyclotomic_squared F nr nr x = omul (fp4_ops F nr nr) x x.
Proof. exact (fun Hm N => fp4_cyc_squared F q PB nr m Hm N x). Qed.
Print Assumptions C25_fp4_squared.

Theorem C25_fp6_squared {K} (F : Fops K) q (PB : prime_base F q) nr m x : (q = 1 + 6 * m)%nat ->
  nonresidue F q 2 nr -> nonresidue F q 3 nr -> cyclotomic6 (fp6_2over3_ops F nr nr) q x ->
  fp6_cyclotomic_squared F nr nr x = omul (fp6_2over3_ops F nr nr) x x.
Proof. exact (fun Hm N2 N3 => fp6_cyc_squared F q PB nr m Hm N2 N3 x). Qed.
Print Assumptions C25_fp6_squared.

Theorem C25_fp12_squared {K} (F : Fops K) q (PB : prime_base F q) nr2 m nr6 x : (q = 1 + 6 * m)%nat ->
  nonresidue F q 2 nr2 -> nonresidue (fp2_ops F nr2) (q ^ 2) 2 nr6 -> nonresidue (fp2_ops F nr2) (q ^ 2) 3 nr6 ->
  cyclotomic12 (fp12_ops F nr2 nr6 nr6) q x ->
  fp12_cyclotomic_squared (fp2_ops F nr2) nr6 x = omul (fp12_ops F nr2 nr6 nr6) x x.
Proof. exact (fun Hm N N2 N3 => fp12_cyc_squared F q PB nr2 m Hm N nr6 N2 N3 x). Qed.
Print Assumptions C25_fp12_squared.

Theorem C25_fp4_unitary {K} (F : Fops K) q (PB : prime_base F q) nr m x : (q = 1 + 4 * m)%nat ->
  nonresidue F q 2 nr -> cyclotomic4 (fp4_ops F nr nr) q x ->
  omul (fp4_ops F nr nr) x (quad_unitary_inverse (fp2_ops F nr) x) = o1 (fp4_ops F nr nr).
Proof. exact (fun Hm N => fp4_cyc_unitary F q PB nr m Hm N x). Qed.
Print Assumptions C25_fp4_unitary.

Theorem C25_fp6_unitary {K} (F : Fops K) q (PB : prime_base F q) nr m x : (q = 1 + 6 * m)%nat ->
  nonresidue F q 2 nr -> nonresidue F q 3 nr -> cyclotomic6 (fp6_2over3_ops F nr nr) q x ->
  omul (fp6_2over3_ops F nr nr) x (quad_unitary_inverse (fp3_ops F nr) x) = o1 (fp6_2over3_ops F nr nr).
Proof. exact (fun Hm N2 N3 => fp6_cyc_unitary F q PB nr m Hm N2 N3 x). Qed.
Print Assumptions C25_fp6_unitary.

Theorem C25_fp12_unitary {K} (F : Fops K) q (PB : prime_base F q) nr2 m nr6 x : (q = 1 + 6 * m)%nat ->
  nonresidue F q 2 nr2 -> nonresidue (fp2_ops F nr2) (q ^ 2) 2 nr6 -> nonresidue (fp2_ops F nr2) (q ^ 2) 3 nr6 ->
  cyclotomic12 (fp12_ops F nr2 nr6 nr6) q x ->
  omul (fp12_ops F nr2 nr6 nr6) x (quad_unitary_inverse (fp6_3over2_ops F nr2 nr6) x) = o1 (fp12_ops F nr2 nr6 nr6).
Proof. exact (fun Hm N N2 N3 => fp12_cyc_unitary F q PB nr2 m Hm N nr6 N2 N3 x). Qed.
Print Assumptions C25_fp12_unitary.

(** Fp12 scans the exponent bit by bit: every exponent is right. *)
Theorem C25_fp12_exp {K} (F : Fops K) q (PB : prime_base F q) nr2 m nr6 x e : (q = 1 + 6 * m)%nat ->
  nonresidue F q 2 nr2 -> nonresidue (fp2_ops F nr2) (q ^ 2) 2 nr6 -> nonresidue (fp2_ops F nr2) (q ^ 2) 3 nr6 ->
  limbs e -> cyclotomic12 (fp12_ops F nr2 nr6 nr6) q x ->
  fp12_cyclotomic_exp F nr2 nr6 nr6 x e = fpow (fp12_ops F nr2 nr6 nr6) x (Z.to_nat (val e)).
Proof. exact (fun Hm N N2 N3 => fp12_cyc_exp F q PB nr2 m Hm N nr6 N2 N3 x e). Qed.
Print Assumptions C25_fp12_exp.

(** Fp4 and Fp6 use the signed-digit recoding: every exponent but 2^(64 n) - 1. *)
Theorem C25_fp4_exp_partial {K} (F : Fops K) q (PB : prime_base F q) nr m x e : (q = 1 + 4 * m)%nat ->
  nonresidue F q 2 nr -> limbs e -> (1 <= length e)%nat -> (val e <> Bn (length e) - 1)%Z ->
  cyclotomic4 (fp4_ops F nr nr) q x ->
  fp4_cyclotomic_exp F nr nr x e = Ok (fpow (fp4_ops F nr nr) x (Z.to_nat (val e))).
Proof. exact (fun Hm N => fp4_cyc_exp F q PB nr m Hm N x e). Qed.
Print Assumptions C25_fp4_exp_partial.

Theorem C25_fp6_exp_partial {K} (F : Fops K) q (PB : prime_base F q) nr m x e : (q = 1 + 6 * m)%nat ->
  nonresidue F q 2 nr -> nonresidue F q 3 nr -> limbs e -> (1 <= length e)%nat ->
  (val e <> Bn (length e) - 1)%Z -> cyclotomic6 (fp6_2over3_ops F nr nr) q x ->
  fp6_cyclotomic_exp F nr nr nr x e = Ok (fpow (fp6_2over3_ops F nr nr) x (Z.to_nat (val e))).
Proof. exact (fun Hm N2 N3 => fp6_cyc_exp F q PB nr m Hm N2 N3 x e). Qed.
Print Assumptions C25_fp6_exp_partial.

(** For that exponent the result is x^-1. *)
Theorem C25_fp4_exp_all_ones {K} (F : Fops K) q (PB : prime_base F q) nr m x e : (q = 1 + 4 * m)%nat ->
  nonresidue F q 2 nr -> limbs e -> (1 <= length e)%nat -> (val e = Bn (length e) - 1)%Z ->
  cyclotomic4 (fp4_ops F nr nr) q x ->
  fp4_cyclotomic_exp F nr nr x e = Ok (quad_unitary_inverse (fp2_ops F nr) x).
Proof. exact (fun Hm N => fp4_cyc_exp_all_ones F q PB nr m Hm N x e). Qed.
Print Assumptions C25_fp4_exp_all_ones.

Theorem C25_fp6_exp_all_ones {K} (F : Fops K) q (PB : prime_base F q) nr m x e : (q = 1 + 6 * m)%nat ->
  nonresidue F q 2 nr -> nonresidue F q 3 nr -> limbs e -> (1 <= length e)%nat ->
  (val e = Bn (length e) - 1)%Z -> cyclotomic6 (fp6_2over3_ops F nr nr) q x ->
  fp6_cyclotomic_exp F nr nr nr x e = Ok (quad_unitary_inverse (fp3_ops F nr) x).
Proof. exact (fun Hm N2 N3 => fp6_cyc_exp_all_ones F q PB nr m Hm N2 N3 x e). Qed.
Print Assumptions C25_fp6_exp_all_ones.

Theorem C25_fp4_refuted : exists x e y, cyclotomic4 T4 13 x /\ limbs e /\ length e = 1%nat /\
  fp4_cyclotomic_exp F13 (f13 2) (f13 2) x e = Ok y /\ y <> fpow T4 x (Z.to_nat (val e)).
Proof. exact fp4_cyc_refuted. Qed.
Print Assumptions C25_fp4_refuted.

Theorem C25_fp6_refuted : exists x e y, cyclotomic6 T6 13 x /\ limbs e /\ length e = 1%nat /\
  fp6_cyclotomic_exp F13 (f13 2) (f13 2) (f13 2) x e = Ok y /\ y <> fpow T6 x (Z.to_nat (val e)).
Proof. exact fp6_cyc_refuted. Qed.
Print Assumptions C25_fp6_refuted.

Example C25_example :
  (exists x, cyclotomic4 T4 13 x /\ x <> o1 T4) /\ (exists x, cyclotomic6 T6 13 x /\ x <> o1 T6) /\
  (exists x, cyclotomic12 T12 13 x /\ x <> o1 T12 /\
     fp12_cyclotomic_exp F13 (f13 2) xi xi x [123456789; 42]%Z = fpow T12 x (Z.to_nat (val [123456789; 42]%Z))).
Proof.
  split; [exists c4; exact c4_cyc|]. split; [exists c6; exact c6_cyc|].
  exists c12. destruct c12_cyc as [H N]. split; [exact H|]. split; [exact N|].
  apply (C25_fp12_exp F13 13 F13_base (f13 2) 2 xi);
    [reflexivity|exact two_nonsquare|exact xi_nonsquare|exact xi_noncube| |exact H].
  apply limbsb_iff. vm_compute. reflexivity.
Qed.

(** ** C26: sparse multiplications *)
Theorem C26_mul_by_023 {K} (F : Fops K) (R : ring_ok F) nr2 nr4 x a b c :
  fp4_mul_by_023 F nr2 nr4 x ((a, o0 F), (b, c)) = Ok (omul (fp4_ops F nr2 nr4) x ((a, o0 F), (b, c))).
Proof. exact (fp4_mul_by_023_spec F R nr2 nr4 x ((a, o0 F), (b, c)) eq_refl). Qed.
Print Assumptions C26_mul_by_023.

Theorem C26_mul_by_023_asserts {K} (F : Fops K) (R : ring_ok F) nr2 nr4 x y :
  snd (fst y) <> o0 F -> fp4_mul_by_023 F nr2 nr4 x y = AssertFail.
Proof. exact (fp4_mul_by_023_fail F R nr2 nr4 x y). Qed.
Print Assumptions C26_mul_by_023_asserts.

Theorem C26_mul_by_2345 {K} (F : Fops K) (R : ring_ok F) nr x a b c d :
  fp6_mul_by_2345 F nr nr x ((o0 F, o0 F, a), (b, c, d)) =
  Ok (omul (fp6_2over3_ops F nr nr) x ((o0 F, o0 F, a), (b, c, d))).
Proof. exact (fp6_mul_by_2345_spec F R nr x a b c d). Qed.
Print Assumptions C26_mul_by_2345.

Theorem C26_mul_by_2345_asserts {K} (F : Fops K) (R : ring_ok F) nr3 nr6 x y :
  fst (fst (fst y)) <> o0 F \/ snd (fst (fst y)) <> o0 F -> fp6_mul_by_2345 F nr3 nr6 x y = AssertFail.
Proof. exact (fp6_mul_by_2345_fail F R nr3 nr6 x y). Qed.
Print Assumptions C26_mul_by_2345_asserts.

Theorem C26_mul_by_045 {K} (F : Fops K) (R : ring_ok F) nr2 nr6 x ell_0 ell_VW ell_VV :
  let z := o0 (fp2_ops F nr2) in
  fp12_mul_by_045 (fp2_ops F nr2) nr6 x ell_0 ell_VW ell_VV =
  omul (fp12_ops F nr2 nr6 nr6) x ((ell_VW, z, z), (z, ell_0, ell_VV)).
Proof. exact (fp12_mul_by_045_spec (fp2_ops F nr2) (fp2_ring F R nr2) nr6 x ell_0 ell_VW ell_VV). Qed.
Print Assumptions C26_mul_by_045.

Theorem C26_mul_by_024 {K} (F : Fops K) (R : ring_ok F) nr2 nr6 x ell_0 ell_VW ell_VV :
  let z := o0 (fp2_ops F nr2) in
  fp12_mul_by_024 (fp2_ops F nr2) nr6 x ell_0 ell_VW ell_VV =
  omul (fp12_ops F nr2 nr6 nr6) x ((ell_0, z, ell_VV), (z, ell_VW, z)).
Proof. exact (fp12_mul_by_024_spec (fp2_ops F nr2) (fp2_ring F R nr2) nr6 x ell_0 ell_VW ell_VV). Qed.
Print Assumptions C26_mul_by_024.

Example C26_example : ring_ok F13 /\
  fp4_mul_by_023 F13 (f13 2) (f13 2) y4 ((f13 3, f13 0), (f13 1, f13 4)) =
    Ok (omul T4 y4 ((f13 3, f13 0), (f13 1, f13 4))) /\
  fp4_mul_by_023 F13 (f13 2) (f13 2) y4 ((f13 3, f13 1), (f13 1, f13 4)) = AssertFail.
Proof.
  split; [exact F13_ring|]. split; [exact (C26_mul_by_023 F13 F13_ring _ _ _ _ _ _)|].
  apply (C26_mul_by_023_asserts F13 F13_ring). apply (neq_fast F13 F13_ring). vm_compute. reflexivity.
Qed.

(** ** C27: Frobenius maps *)
Theorem C27_fp2 {K} (F : Fops K) q (PB : prime_base F q) nr t k x :
  nr <> o0 F -> (exists m, q = 1 + 2 * m)%nat -> (0 <= k)%Z -> frob_table F q 2 1 2 nr t ->
  fp2_frobenius F t k x = fpow (fp2_ops F nr) x (q ^ Z.to_nat k).
Proof. exact (fp2_frob_spec F q PB nr t k x). Qed.
Print Assumptions C27_fp2.

Theorem C27_fp3 {K} (F : Fops K) q (PB : prime_base F q) nr t1 t2 k x :
  nr <> o0 F -> (exists m, q = 1 + 3 * m)%nat -> (0 <= k)%Z ->
  frob_table F q 3 1 3 nr t1 -> frob_table F q 3 2 3 nr t2 ->
  fp3_frobenius F t1 t2 k x = fpow (fp3_ops F nr) x (q ^ Z.to_nat k).
Proof. exact (fp3_frob_spec F q PB nr t1 t2 k x). Qed.
Print Assumptions C27_fp3.

Theorem C27_fp4 {K} (F : Fops K) q (PB : prime_base F q) nr t2 t4 k x :
  nr <> o0 F -> (exists m, q = 1 + 4 * m)%nat -> (0 <= k)%Z ->
  frob_table F q 2 1 2 nr t2 -> frob_table F q 4 1 4 nr t4 ->
  fp4_frobenius F t2 t4 k x = fpow (fp4_ops F nr nr) x (q ^ Z.to_nat k).
Proof. exact (fp4_frob_spec F q PB nr t2 t4 k x). Qed.
Print Assumptions C27_fp4.

Theorem C27_fp6_2over3 {K} (F : Fops K) q (PB : prime_base F q) nr t31 t32 t6 k x :
  nr <> o0 F -> (exists m, q = 1 + 6 * m)%nat -> (0 <= k)%Z ->
  frob_table F q 3 1 3 nr t31 -> frob_table F q 3 2 3 nr t32 -> frob_table F q 6 1 6 nr t6 ->
  fp6_2over3_frobenius F t31 t32 t6 k x = fpow (fp6_2over3_ops F nr nr) x (q ^ Z.to_nat k).
Proof. exact (fp6_2over3_frob_spec F q PB nr t31 t32 t6 k x). Qed.
Print Assumptions C27_fp6_2over3.

Theorem C27_fp6_3over2 {K} (F : Fops K) q (PB : prime_base F q) nr2 nr6 t2 t61 t62 k x :
  (forall y, omul F y y <> nr2) -> nr6 <> o0 (fp2_ops F nr2) -> (exists m, q = 1 + 6 * m)%nat -> (0 <= k)%Z ->
  frob_table F q 2 1 2 nr2 t2 ->
  frob_table (fp2_ops F nr2) q 3 1 6 nr6 t61 -> frob_table (fp2_ops F nr2) q 3 2 6 nr6 t62 ->
  fp6_3over2_frobenius F nr2 t2 t61 t62 k x = fpow (fp6_3over2_ops F nr2 nr6) x (q ^ Z.to_nat k).
Proof. exact (fp6_3over2_frob_spec F q PB nr2 nr6 t2 t61 t62 k x). Qed.
Print Assumptions C27_fp6_3over2.

Theorem C27_fp12 {K} (F : Fops K) q (PB : prime_base F q) nr2 nr6 t2 t61 t62 t12 k x :
  (forall y, omul F y y <> nr2) -> nr6 <> o0 (fp2_ops F nr2) -> (exists m, q = 1 + 6 * m)%nat -> (0 <= k)%Z ->
  frob_table F q 2 1 2 nr2 t2 ->
  frob_table (fp2_ops F nr2) q 3 1 6 nr6 t61 -> frob_table (fp2_ops F nr2) q 3 2 6 nr6 t62 ->
  frob_table (fp2_ops F nr2) q 6 1 12 nr6 t12 ->
  fp12_frobenius F nr2 t2 t61 t62 t12 k x = fpow (fp12_ops F nr2 nr6 nr6) x (q ^ Z.to_nat k).
Proof. exact (fp12_frob_spec F q PB nr2 nr6 t2 t61 t62 t12 k x). Qed.
Print Assumptions C27_fp12.

Example C27_example k x : (0 <= k)%Z ->
  fp4_frobenius F13 t2_13 t4_13 k x = fpow T4 x (13 ^ Z.to_nat k).
Proof.
  intros Hk. apply (C27_fp4 F13 13 F13_base);
    [apply two_nonsquare|exists 3%nat; reflexivity|exact Hk|exact t2_13_ok|exact t4_13_ok].
Qed.
