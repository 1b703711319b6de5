(** C71: size_in_bits bits are enough for a point. *)
From Coq Require Import ZArith List.
From Verif Require Import Limbs BigintProofs BigintModel FpModel FpSpec FpField FieldOps WordsModel WordsProofs CurveSpec ParamsModel GroupSizeModel GroupSizeProofs.
Import ListNotations.
Open Scope Z_scope.

(** G1 over a prime field and G2 over Fp2 or Fp3, for short Weierstrass curves,
    the neutral element included. *)
Theorem C71_weierstrass P (OK : fp_ok P) : fp_num_bits P = bit_length (val (fp_modulus P)) ->
  (forall (F : Fops (Fp P)) a b, field_ok F -> enough (g1_size_in_bits P) (sw_on F a b)) /\
  (forall (F : Fops (Fp P * Fp P)) a b, field_ok F -> enough (g2_size_in_bits P) (sw_on F a b)) /\
  (forall (F : Fops (Fp P * Fp P * Fp P)) a b, field_ok F -> enough (g2_cubic_size_in_bits P) (sw_on F a b)).
Proof. exact (sizes_weierstrass P OK). Qed.
Print Assumptions C71_weierstrass.

(** Edwards curves whose d is not a square. *)
Theorem C71_edwards P (OK : fp_ok P) : fp_num_bits P = bit_length (val (fp_modulus P)) ->
  (forall (F : Fops (Fp P)) a d, field_ok F -> (forall z, omul F z z <> d) -> enough (g1_size_in_bits P) (te_on F a d)) /\
  (forall (F : Fops (Fp P * Fp P * Fp P)) a d, field_ok F -> (forall z, omul F z z <> d) -> enough (g2_cubic_size_in_bits P) (te_on F a d)).
Proof. exact (sizes_edwards P OK). Qed.
Print Assumptions C71_edwards.

(** curve_size_in_bits: vectors of the same length. *)
Theorem C71_vector T n (ok : T -> Prop) : 0 <= n -> enough n ok -> forall u : list T,
  exists code : list T -> Z, (forall v, length v = length u -> 0 <= code v < 2 ^ curve_size_in_bits n u) /\
    forall v w, length v = length u -> length w = length u -> Forall ok v -> Forall ok w -> code v = code w -> v = w.
Proof. exact (fun N E u => enough_vector n ok N E (length u)). Qed.
Print Assumptions C71_vector.

(** The shipped curves; the two sizes of test_common.cpp:76,86.  [enough] is not vacuous: no bits are not enough for two values. *)
Example C71_example :
  (g1_size_in_bits (fc_P alt_bn128_Fq_C), g2_size_in_bits (fc_P alt_bn128_Fq_C)) = (255, 509) /\
  (g1_size_in_bits (fc_P bls12_381_Fq_C), g2_size_in_bits (fc_P bls12_381_Fq_C)) = (382, 763) /\
  (g1_size_in_bits (fc_P mnt4_Fq_C), g2_size_in_bits (fc_P mnt4_Fq_C)) = (299, 597) /\
  (g1_size_in_bits (fc_P mnt6_Fq_C), g2_cubic_size_in_bits (fc_P mnt6_Fq_C)) = (299, 895) /\
  (g1_size_in_bits (fc_P edwards_Fq_C), g2_cubic_size_in_bits (fc_P edwards_Fq_C)) = (184, 550) /\
  curve_size_in_bits (g1_size_in_bits (fc_P edwards_Fq_C)) [1; 2; 3] = 552 /\
  curve_size_in_bits (g2_cubic_size_in_bits (fc_P mnt6_Fq_C)) [1; 2; 3; 4; 5] = 4475 /\ ~ enough 0 (fun z : Z => z = 1 \/ z = 2).
Proof. exact size_examples. Qed.
