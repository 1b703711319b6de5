(** Property theorems about the values of the shipped pairings on the shipped
    groups: C51 and C52.

    [textbook F e D ate pairing]: there is c >= 0, coprime to r and the same for
    all points, such that for every P in G1 and Q in G2 (any Jacobian
    coordinates), pairing(P, Q) = ate(Q, P)^(c (p^12 - 1) / r), and ate(Q, P) is
    not zero.  [tw_optimal] and [tw_ate] are the textbook optimal ate and ate
    pairings of MillerSpec.v, with Q mapped to the curve over Fp12 by [psi].
    [fo_textbook], [si_textbook]: the same for the ate pairings of mnt4 and mnt6,
    with every point Q of order r of the twist ([quad_is_textbook] of MntShipped.v).
    [si_edw_textbook]: for the edwards ate pairing, on the short Weierstrass form
    of the curve; q = -n modulo r for the loop count n and the code does not invert
    the value, which is the inverse of the ate pairing's ([edw_is_textbook] of
    EdwBilinear.v).
    [si_tate_textbook]: for the edwards Tate pairing, the value of f_r,P at Q
    ([edw_tate_is_textbook] of EdwTateValue.v).
    [tw_G1]: affine points of the curve of order r.  [tw_G2]: affine points of
    the twist of order r whose image is an eigenvector of the Frobenius.
    [fo_G1], [fo_G2], [si_G1], [si_G2]: the same for mnt4 and mnt6, with O;
    [fo_psi], [si_psi] map the twist to the curve over Fq4 and Fq6.
    [si_edw_G1], [si_edw_G2], [si_edw_psi]: the same for edwards (EdwBilinear.v). *)
From Coq Require Import ZArith List.
From Verif Require Import Result FieldOps ParamsModel ParamsProofs ExtModel CurveSpec CurveModel Hom TowerModel TowerSpec TowerShipped
  PairingModel PairingShipped MillerSpec MillerShipped GenProofs GenShipped MntShipped MntGen EdwSpec EdwSw EdwBilinear EdwShipped EdwGen EdwTateValue EdwTateShipped.
Open Scope Z_scope.

(** ** C51: the pairings compute the textbook pairings *)
Theorem C51_alt_bn128 CO : let D := alt_bn128_tower in let F := cF (bt_Fq D) CO in let e := ce (bt_Fq D) CO in
  textbook F e D (tw_optimal F e D) (tw_alt_reduced_pairing F e D).
Proof. exact (alt_bn128_textbook CO). Qed.
Print Assumptions C51_alt_bn128.
Theorem C51_bls12_381 CO : let D := bls12_381_tower in let F := cF (bt_Fq D) CO in let e := ce (bt_Fq D) CO in
  textbook F e D (tw_ate F e D) (tw_bls_reduced_pairing F e D).
Proof. exact (bls12_381_textbook CO). Qed.
Print Assumptions C51_bls12_381.
Theorem C51_mnt4 CO : let D := mnt4_tower in fo_textbook (cF (ft_Fq D) CO) (ce (ft_Fq D) CO) D.
Proof. exact (proj1 (mnt4_shipped CO)). Qed.
Print Assumptions C51_mnt4.
Theorem C51_mnt6 CO : let D := mnt6_tower in si_textbook (cF (st_Fq D) CO) (ce (st_Fq D) CO) D.
Proof. exact (proj1 (mnt6_shipped CO)). Qed.
Print Assumptions C51_mnt6.
Theorem C51_edwards CO : let D := edwards_tower in si_edw_textbook (cF (st_Fq D) CO) (ce (st_Fq D) CO) D.
Proof. exact (proj1 (edwards_shipped CO)). Qed.
Print Assumptions C51_edwards.
Theorem C51_edwards_tate CO : let D := edwards_tower in si_tate_textbook (cF (st_Fq D) CO) (ce (st_Fq D) CO) D.
Proof. exact (proj1 (edwards_tate_shipped CO)). Qed.
Print Assumptions C51_edwards_tate.
(** The hypotheses are met by the generators. *)
Example C51_at_generators CO : let D := alt_bn128_tower in let F := cF (bt_Fq D) CO in let e := ce (bt_Fq D) CO in let F2 := twF2 F e D in
  exists c, Z.gcd c (fc_p (bt_Fr D)) = 1 /\
  tw_alt_reduced_pairing F e D (e (fst (bt_G1 D)), e (snd (bt_G1 D)), o1 F) (map2 e (fst (bt_G2 D)), map2 e (snd (bt_G2 D)), o1 F2) =
  Ok (fpow (twF12 F e D) (tw_optimal F e D (gen2 e D) (e (fst (bt_G1 D))) (e (snd (bt_G1 D))))
        (Z.to_nat (c * ((fc_p (bt_Fq D) ^ 12 - 1) / fc_p (bt_Fr D))))).
Proof. exact (at_generators alt_bn128_tower CO _ _ (or_introl eq_refl) (alt_bn128_textbook CO)). Qed.

(** ** C52: generators and mul_by_q *)
Theorem C52_generators D CO : In D shipped_twelve -> let F := cF (bt_Fq D) CO in let e := ce (bt_Fq D) CO in
  tw_G1 F e D (gen1 e D) /\ tw_G2 F e D (gen2 e D).
Proof. exact (shipped_generators D CO). Qed.
Print Assumptions C52_generators.
(** For every triple, on the curve or not. *)
Theorem C52_mul_by_q D CO Q : In D shipped_twelve -> let F := cF (bt_Fq D) CO in let e := ce (bt_Fq D) CO in
  let F2 := twF2 F e D in let F12 := twF12 F e D in
  psi F12 (emb12 F2) (tw_u F e D) (jac_den F2 (bn_mul_by_q F (e (bt_nr2 D)) (map e (bt_c2 D)) (map2 e (bt_qX D)) (map2 e (bt_qY D)) Q)) =
  frob_pt F12 (cq (bt_Fq D)) (psi F12 (emb12 F2) (tw_u F e D) (jac_den F2 Q)).
Proof. exact (shipped_mul_by_q D CO Q). Qed.
Print Assumptions C52_mul_by_q.
Theorem C52_mnt4_generators CO : let D := mnt4_tower in let F := cF (ft_Fq D) CO in let e := ce (ft_Fq D) CO in
  fo_G1 F e D (fo_gen1 e D) /\ fo_G2 F e D (fo_gen2 e D).
Proof. exact (mnt4_generators CO). Qed.
Print Assumptions C52_mnt4_generators.
Theorem C52_mnt6_generators CO : let D := mnt6_tower in let F := cF (st_Fq D) CO in let e := ce (st_Fq D) CO in
  si_G1 F e D (si_gen1 e D) /\ si_G2 F e D (si_gen2 e D).
Proof. exact (mnt6_generators CO). Qed.
Print Assumptions C52_mnt6_generators.
Theorem C52_mnt4_mul_by_q CO Q : let D := mnt4_tower in let F := cF (ft_Fq D) CO in let e := ce (ft_Fq D) CO in let F2 := foF2 F e D in
  fo_psi F e D (prj_den F2 (mnt_mul_by_q (quad_scale (omul F)) (fp2_frobenius F (map e (ft_c2 D)) 1) (e (ft_qX D)) (e (ft_qY D)) Q)) =
  frob_pt (foF4 F e D) (cq (ft_Fq D)) (fo_psi F e D (prj_den F2 Q)).
Proof. exact (mnt4_mul_by_q CO Q). Qed.
Print Assumptions C52_mnt4_mul_by_q.
Theorem C52_mnt6_mul_by_q CO Q : let D := mnt6_tower in let F := cF (st_Fq D) CO in let e := ce (st_Fq D) CO in let F3 := siF3 F e D in
  si_psi F e D (prj_den F3 (mnt_mul_by_q (cubic_scale (omul F)) (fp3_frobenius F (map e (st_c31 D)) (map e (st_c32 D)) 1) (e (st_q1 D)) (e (st_q2 D)) Q)) =
  frob_pt (siF6 F e D) (cq (st_Fq D)) (si_psi F e D (prj_den F3 Q)).
Proof. exact (mnt6_mul_by_q CO Q). Qed.
Print Assumptions C52_mnt6_mul_by_q.
Theorem C52_edwards_generators CO : let D := edwards_tower in let F := cF (st_Fq D) CO in let e := ce (st_Fq D) CO in
  si_edw_G1 F e D (si_edw_gen1 e D) /\ si_edw_G2 F e D (si_edw_gen2 e D).
Proof. exact (edwards_generators CO). Qed.
Print Assumptions C52_edwards_generators.
Theorem C52_edwards_mul_by_q CO Q : let D := edwards_tower in let F := cF (st_Fq D) CO in let e := ce (st_Fq D) CO in let F3 := siF3 F e D in
  si_edw_psi F e D (edw_den F3 (edwards_mul_by_q (cubic_scale (omul F)) (fp3_frobenius F (map e (st_c31 D)) (map e (st_c32 D)) 1) (e (st_q1 D)) (e (st_q2 D)) Q)) =
  te_frob (siF6 F e D) (cq (st_Fq D)) (si_edw_psi F e D (edw_den F3 Q)).
Proof. exact (edwards_mul_by_q_ok CO Q). Qed.
Print Assumptions C52_edwards_mul_by_q.
