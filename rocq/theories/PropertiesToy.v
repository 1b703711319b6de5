(** Property theorems about the values of the pairings, on small curves of the
    families used by the library.  [bilinear_on FT add1 zero1 add2 zero2 pair g1 g2 r]
    says that g1 and g2 have order r and that pair(a g1, b g2) = e^(a b) for all
    a, b in 1 .. r-1, with e of order r. *)
From Coq Require Import ZArith List.
From Verif Require Import Result Limbs Algebra FieldOps NumTheory ZmInst ExtModel CurveModel PairingModel ToyPairing.
Import ListNotations.
Open Scope Z_scope.

(** ** C49: the reduced pairings are bilinear and not degenerate *)
Theorem C49_alt_bn128_partial :
  bilinear_on (fp12_ops F19 (f19 18) (e19 1 1) (e19 1 1))
    (jac_add F19) (jac_is_zero F19) (jac_add (fp2_ops F19 (f19 18))) (jac_is_zero (fp2_ops F19 (f19 18)))
    bn_toy (f19 4, f19 3, f19 1) (e19 7 18, e19 11 8, e19 1 0) 13%nat.
Proof. exact bn_toy_bilinear. Qed.
Print Assumptions C49_alt_bn128_partial.

Theorem C49_bls12_381_partial :
  bilinear_on (fp12_ops F37 (f37 2) (e37 0 1) (e37 0 1))
    (jac_add F37) (jac_is_zero F37) (jac_add (fp2_ops F37 (f37 2))) (jac_is_zero (fp2_ops F37 (f37 2)))
    bls_toy (f37 15, f37 23, f37 1) (e37 14 14, e37 23 16, e37 1 0) 13%nat.
Proof. exact bls_toy_bilinear. Qed.
Print Assumptions C49_bls12_381_partial.

Theorem C49_mnt4_partial :
  bilinear_on (fp4_ops K13 (f13 2) (f13 2))
    (prj_add K13 (omul K13 (f13 4))) (prj_is_zero K13)
    (prj_add (fp2_ops K13 (f13 2)) (mnt4_mul_by_a K13 (f13 4) (f13 2))) (prj_is_zero (fp2_ops K13 (f13 2)))
    mnt4_toy (f13 8, f13 4, f13 1) (e13 5 4, e13 4 10, e13 1 0) 5%nat.
Proof. exact mnt4_toy_bilinear. Qed.
Print Assumptions C49_mnt4_partial.

Theorem C49_mnt4_negative_loop_partial :
  bilinear_on (fp4_ops K13 (f13 2) (f13 2))
    (prj_add K13 (omul K13 (f13 2))) (prj_is_zero K13)
    (prj_add (fp2_ops K13 (f13 2)) (mnt4_mul_by_a K13 (f13 2) (f13 2))) (prj_is_zero (fp2_ops K13 (f13 2)))
    mnt4_toy_neg (f13 0, f13 2, f13 1) (e13 3 9, e13 6 10, e13 1 0) 17%nat.
Proof. exact mnt4_toy_neg_bilinear. Qed.
Print Assumptions C49_mnt4_negative_loop_partial.

Theorem C49_mnt6_partial :
  bilinear_on (fp6_2over3_ops F31 (f31 3) (f31 3))
    (prj_add F31 (omul F31 (f31 1))) (prj_is_zero F31)
    (prj_add (fp3_ops F31 (f31 3)) (mnt6_mul_by_a F31 (f31 1) (f31 3))) (prj_is_zero (fp3_ops F31 (f31 3)))
    mnt6_toy (f31 3, f31 2, f31 1) (g31 8 10 15, g31 7 10 19, g31 1 0 0) 7%nat.
Proof. exact mnt6_toy_bilinear. Qed.
Print Assumptions C49_mnt6_partial.

Theorem C49_mnt6_negative_loop_partial :
  bilinear_on (fp6_2over3_ops F31 (f31 3) (f31 3))
    (prj_add F31 (omul F31 (f31 1))) (prj_is_zero F31)
    (prj_add (fp3_ops F31 (f31 3)) (mnt6_mul_by_a F31 (f31 1) (f31 3))) (prj_is_zero (fp3_ops F31 (f31 3)))
    mnt6_toy_neg (f31 16, f31 20, f31 1) (g31 2 14 7, g31 4 25 26, g31 1 0 0) 7%nat.
Proof. exact mnt6_toy_neg_bilinear. Qed.
Print Assumptions C49_mnt6_negative_loop_partial.

Theorem C49_edwards_partial :
  bilinear_on (fp6_2over3_ops F31 (f31 3) (f31 3))
    (edw_add F31 (fun x => x) (omul F31 (f31 6))) (edw_is_zero F31)
    (edw_add (fp3_ops F31 (f31 3)) (edwards_mul_by_a F31 (f31 1) (f31 3)) (edwards_mul_by_d F31 (f31 6) (f31 3)))
    (edw_is_zero (fp3_ops F31 (f31 3)))
    edw_toy (edw_of_affine F31 (f31 18) (f31 16)) (edw_of_affine (fp3_ops F31 (f31 3)) (g31 13 8 14) (g31 19 10 2)) 7%nat.
Proof. exact edw_toy_bilinear. Qed.
Print Assumptions C49_edwards_partial.

Theorem C49_edwards_tate_partial :
  bilinear_on (fp6_2over3_ops F31 (f31 3) (f31 3))
    (edw_add F31 (fun x => x) (omul F31 (f31 6))) (edw_is_zero F31)
    (edw_add (fp3_ops F31 (f31 3)) (edwards_mul_by_a F31 (f31 1) (f31 3)) (edwards_mul_by_d F31 (f31 6) (f31 3)))
    (edw_is_zero (fp3_ops F31 (f31 3)))
    tate_toy (edw_of_affine F31 (f31 18) (f31 16)) (edw_of_affine (fp3_ops F31 (f31 3)) (g31 13 8 14) (g31 19 10 2)) 7%nat.
Proof. exact tate_toy_bilinear. Qed.
Print Assumptions C49_edwards_tate_partial.

(** ** C50: the affine pairing of mnt4 and mnt6 computes the same value as the
    projective one *)
Theorem C50_mnt4_partial :
  relates_on (T := Zm 109 * Zm 109 * (Zm 109 * Zm 109)) eq
    (prj_add F109 (omul F109 (f109 1))) (prj_add (fp2_ops F109 (f109 2)) (mnt4_mul_by_a F109 (f109 1) (f109 2)))
    mnt4_toy5_affine mnt4_toy5 (f109 5, f109 93, f109 1) (e109 23 88, e109 24 21, e109 1 0) 13%nat.
Proof. exact mnt4_toy_affine_eq. Qed.
Print Assumptions C50_mnt4_partial.

Theorem C50_mnt6_partial :
  relates_on (T := Zm 31 * Zm 31 * Zm 31 * (Zm 31 * Zm 31 * Zm 31)) eq
    (prj_add F31 (omul F31 (f31 1))) (prj_add (fp3_ops F31 (f31 3)) (mnt6_mul_by_a F31 (f31 1) (f31 3)))
    mnt6_toy_affine mnt6_toy (f31 3, f31 2, f31 1) (g31 8 10 15, g31 7 10 19, g31 1 0 0) 7%nat.
Proof. exact mnt6_toy_affine_eq. Qed.
Print Assumptions C50_mnt6_partial.

(** With a negative loop count, which mnt6 has, the affine pairing is the inverse
    of the projective one: the handling of the sign is commented out. *)
Theorem C50_mnt6_negative_loop_refuted :
  relates_on (inverse_of (fp6_2over3_ops F31 (f31 3) (f31 3)))
    (prj_add F31 (omul F31 (f31 1))) (prj_add (fp3_ops F31 (f31 3)) (mnt6_mul_by_a F31 (f31 1) (f31 3)))
    mnt6_toy_affine_neg mnt6_toy_neg (f31 16, f31 20, f31 1) (g31 2 14 7, g31 4 25 26, g31 1 0 0) 7%nat.
Proof. exact mnt6_toy_affine_inverse. Qed.
Print Assumptions C50_mnt6_negative_loop_refuted.
