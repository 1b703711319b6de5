(** Property theorems about the bilinearity of the pairings with the shipped
    constants: C49, C50.

    For P, P1, P2 in G1 and Q, Q1, Q2 in G2 (any Jacobian coordinates):
    [pair_mult]: pairing(m P, n Q) = pairing(P, Q)^(m n) unless m P or n Q is O,
    and pairing(P, Q)^r = 1.
    [pair_add_P], [pair_add_Q]: pairing(P1 + P2, Q) = pairing(P1, Q) pairing(P2, Q)
    unless P1 + P2 is O, in which case the right-hand side is one; same for Q.
    [pair_generators]: there is v with v^r = 1 and pairing(a G1, b G2) = v^(a b)
    for 1 <= a, b < r.
    [pair_nondegenerate]: the same with v of order exactly r (v^n = 1 iff r
    divides n), and no pairing(a G1, b G2) is one.
    [fo_bilinear], [si_bilinear]: the first three for mnt4 and mnt6, in projective
    coordinates ([pair_bilinear] of BilinearQuad.v).
    [fo_nondegenerate], [si_nondegenerate]: [pair_nondegenerate] for mnt4 and mnt6
    ([quad_nondegenerate] of MntNonDeg.v).
    [si_edw_bilinear]: the first three for the edwards ate pairing, in inverted
    coordinates, with the addition law of the Edwards curve and of its twist
    ([te_bilinear] of EdwSpec.v).
    [si_edw_nondegenerate]: [pair_nondegenerate] for it ([te_nondegenerate] of EdwGen.v).
    [si_tate_bilinear], [si_tate_nondegenerate]: the same for the edwards Tate
    pairing, with every point Q of order r of the twist.
    The points m P and P1 + P2 are those of the group law of CurveSpec.v.

    C50, the affine pairing of mnt4 and mnt6 against the projective one
    ([affine_agrees], [affine_inverse] of MntAffine.v): for all P of order r on the
    curve and Q of order r on the twist. *)
From Coq Require Import ZArith List.
From Verif Require Import Result FieldOps ParamsModel ParamsProofs ExtModel CurveSpec CurveModel Hom TowerModel TowerSpec TowerShipped
  PairingModel PairingShipped MillerSpec MillerShipped GenProofs GenShipped BilinearShipped NonDegenerate MntShipped MntGen MntNonDeg MntAffine EdwSpec EdwBilinear EdwShipped EdwGen EdwTateValue EdwTateShipped.
Open Scope Z_scope.

(** ** C49: the reduced pairings are bilinear *)
Theorem C49_alt_bn128 CO : let D := alt_bn128_tower in let F := cF (bt_Fq D) CO in let e := ce (bt_Fq D) CO in
  let pairing := tw_alt_reduced_pairing F e D in
  pair_mult F e D pairing /\ pair_add_P F e D pairing /\ pair_add_Q F e D pairing.
Proof. exact (alt_bn128_pairs CO). Qed.
Print Assumptions C49_alt_bn128.
Theorem C49_bls12_381 CO : let D := bls12_381_tower in let F := cF (bt_Fq D) CO in let e := ce (bt_Fq D) CO in
  let pairing := tw_bls_reduced_pairing F e D in
  pair_mult F e D pairing /\ pair_add_P F e D pairing /\ pair_add_Q F e D pairing.
Proof. exact (bls12_381_pairs CO). Qed.
Print Assumptions C49_bls12_381.
Theorem C49_alt_bn128_generators CO : let D := alt_bn128_tower in let F := cF (bt_Fq D) CO in let e := ce (bt_Fq D) CO in
  pair_generators F e D (tw_alt_reduced_pairing F e D).
Proof. exact (alt_bn128_generators CO). Qed.
Print Assumptions C49_alt_bn128_generators.
Theorem C49_bls12_381_generators CO : let D := bls12_381_tower in let F := cF (bt_Fq D) CO in let e := ce (bt_Fq D) CO in
  pair_generators F e D (tw_bls_reduced_pairing F e D).
Proof. exact (bls12_381_generators CO). Qed.
Print Assumptions C49_bls12_381_generators.
Theorem C49_alt_bn128_nondegenerate CO : let D := alt_bn128_tower in let F := cF (bt_Fq D) CO in let e := ce (bt_Fq D) CO in
  pair_nondegenerate F e D (tw_alt_reduced_pairing F e D).
Proof. exact (alt_bn128_nondegenerate CO). Qed.
Print Assumptions C49_alt_bn128_nondegenerate.
Theorem C49_bls12_381_nondegenerate CO : let D := bls12_381_tower in let F := cF (bt_Fq D) CO in let e := ce (bt_Fq D) CO in
  pair_nondegenerate F e D (tw_bls_reduced_pairing F e D).
Proof. exact (bls12_381_nondegenerate CO). Qed.
Print Assumptions C49_bls12_381_nondegenerate.
Theorem C49_mnt4 CO : let D := mnt4_tower in fo_bilinear (cF (ft_Fq D) CO) (ce (ft_Fq D) CO) D.
Proof. exact (proj2 (mnt4_shipped CO)). Qed.
Print Assumptions C49_mnt4.
Theorem C49_mnt6 CO : let D := mnt6_tower in si_bilinear (cF (st_Fq D) CO) (ce (st_Fq D) CO) D.
Proof. exact (proj2 (mnt6_shipped CO)). Qed.
Print Assumptions C49_mnt6.
Theorem C49_edwards CO : let D := edwards_tower in si_edw_bilinear (cF (st_Fq D) CO) (ce (st_Fq D) CO) D.
Proof. exact (proj2 (edwards_shipped CO)). Qed.
Print Assumptions C49_edwards.
Theorem C49_mnt4_nondegenerate CO : let D := mnt4_tower in fo_nondegenerate (cF (ft_Fq D) CO) (ce (ft_Fq D) CO) D.
Proof. exact (mnt4_nondegenerate CO). Qed.
Print Assumptions C49_mnt4_nondegenerate.
Theorem C49_mnt6_nondegenerate CO : let D := mnt6_tower in si_nondegenerate (cF (st_Fq D) CO) (ce (st_Fq D) CO) D.
Proof. exact (mnt6_nondegenerate CO). Qed.
Print Assumptions C49_mnt6_nondegenerate.
Theorem C49_edwards_tate CO : let D := edwards_tower in si_tate_bilinear (cF (st_Fq D) CO) (ce (st_Fq D) CO) D.
Proof. exact (proj2 (edwards_tate_shipped CO)). Qed.
Print Assumptions C49_edwards_tate.
Theorem C49_edwards_tate_nondegenerate CO : let D := edwards_tower in si_tate_nondegenerate (cF (st_Fq D) CO) (ce (st_Fq D) CO) D.
Proof. exact (edwards_tate_nondegenerate CO). Qed.
Print Assumptions C49_edwards_tate_nondegenerate.
Theorem C49_edwards_nondegenerate CO : let D := edwards_tower in si_edw_nondegenerate (cF (st_Fq D) CO) (ce (st_Fq D) CO) D.
Proof. exact (edwards_nondegenerate CO). Qed.
Print Assumptions C49_edwards_nondegenerate.
(** The hypotheses are met: G1 and G2 contain the generators. *)
Example C49_example CO : let D := alt_bn128_tower in let F := cF (bt_Fq D) CO in let e := ce (bt_Fq D) CO in
  tw_G1 F e D (gen1 e D) /\ tw_G2 F e D (gen2 e D).
Proof. exact (shipped_generators alt_bn128_tower CO (or_introl eq_refl)). Qed.
Example C49_mnt4_example CO : let D := mnt4_tower in let F := cF (ft_Fq D) CO in let e := ce (ft_Fq D) CO in
  fo_G1 F e D (fo_gen1 e D) /\ fo_G2 F e D (fo_gen2 e D).
Proof. exact (mnt4_generators CO). Qed.
Example C49_edwards_example CO : let D := edwards_tower in let F := cF (st_Fq D) CO in let e := ce (st_Fq D) CO in
  si_edw_G1 F e D (si_edw_gen1 e D) /\ si_edw_G2 F e D (si_edw_gen2 e D).
Proof. exact (edwards_generators CO). Qed.

(** ** C50: the affine pairing computes the same value as the projective one *)
Theorem C50_mnt4 CO : let D := mnt4_tower in fo_affine_agrees (cF (ft_Fq D) CO) (ce (ft_Fq D) CO) D.
Proof. exact (mnt4_affine CO). Qed.
Print Assumptions C50_mnt4.
(** mnt6 has a negative loop count, whose handling is commented out in the affine
    code: the affine pairing is the inverse of the projective one, and differs
    from it on all non-zero multiples of the generators. *)
Theorem C50_mnt6_refuted CO : let D := mnt6_tower in let F := cF (st_Fq D) CO in let e := ce (st_Fq D) CO in
  si_affine_inverse F e D /\ si_affine_differs F e D.
Proof. exact (mnt6_affine CO). Qed.
Print Assumptions C50_mnt6_refuted.
