(** What the constants of the shipped towers and curves have to satisfy. *)
From Coq Require Import ZArith List Bool.
From Verif Require Import Result Limbs LimbsProofs Algebra FieldOps FpModel FpSpec FpField FpInst
  ParamsModel ParamsProofs AlgorithmsModel AlgorithmsProofs AlgorithmsField ExtModel ExtSpec CurveSpec CurveModel Hom TowerModel.
Import ListNotations.
Open Scope Z_scope.

(** The members of an extension field used by tonelli_shanks_sqrt, as the code
    stores them: t and (t-1)/2 as bigints. *)
Definition sqrt_of {E K} (e : E -> K) (limbs_n : nat) (S : sqrt_consts E) : sqrt_params K :=
  {| sq_s := sc_s S; sq_t := limbs_of limbs_n (sc_t S); sq_tm1 := limbs_of limbs_n (sc_tm1 S);
     sq_nqr := e (sc_nqr S); sq_nqr_to_t := e (sc_nqr_to_t S) |}.

(** The prime field of a set of constants, and the embedding of integers. *)
Section Base.
Context (C : field_consts) (CO : field_consts_ok C).
Definition cF : Fops (Fp (fc_P C)) := fp_ops (fc_P C) (fco_ok C CO) (fco_inv C CO).
Definition ce : Z -> Fp (fc_P C) := fofZ (fc_P C) (fco_ok C CO).
Definition cq : nat := Z.to_nat (fc_p C).
Definition cn : nat := length (fp_modulus (fc_P C)).
End Base.

Section Twelve.
Context {K : Type} (F : Fops K) (e : Z -> K) (D : twelve_consts).
Definition twq := cq (bt_Fq D).
Definition twF2 := fp2_ops F (e (bt_nr2 D)).
Definition twF6 := fp6_3over2_ops F (e (bt_nr2 D)) (map2 e (bt_nr6 D)).
Definition twF12 := fp12_ops F (e (bt_nr2 D)) (map2 e (bt_nr6 D)) (map2 e (bt_nr12 D)).
Definition tw_b : K := e (bt_b D).
(** alt_bn128_init.cpp:37 and bls12_381_init.cpp:31 *)
Definition tw_twist_b : K * K :=
  quad_scale (omul F) tw_b
    (if bt_twist_b_inv D then tinv twF2 (map2 e (bt_twist D)) else map2 e (bt_twist D)).

Record twelve_ok : Prop := {
  to_m : exists m, (twq = 1 + 6 * m)%nat;
  to_nr2 : nonresidue F twq 2 (e (bt_nr2 D));
  to_t2 : frob_table F twq 2 1 2 (e (bt_nr2 D)) (map e (bt_c2 D));
  to_nr6_2 : nonresidue twF2 (twq ^ 2) 2 (map2 e (bt_nr6 D));
  to_nr6_3 : nonresidue twF2 (twq ^ 2) 3 (map2 e (bt_nr6 D));
  to_t61 : frob_table twF2 twq 3 1 6 (map2 e (bt_nr6 D)) (map (map2 e) (bt_c61 D));
  to_t62 : frob_table twF2 twq 3 2 6 (map2 e (bt_nr6 D)) (map (map2 e) (bt_c62 D));
  to_nr12 : bt_nr12 D = bt_nr6 D;
  to_t12 : frob_table twF2 twq 6 1 12 (map2 e (bt_nr6 D)) (map (map2 e) (bt_c12 D));
  to_e2 : fc_p (bt_Fq D) ^ 2 = 2 * sc_euler (bt_s2 D) + 1;
  to_e6 : fc_p (bt_Fq D) ^ 6 = 2 * sc_euler (bt_s6 D) + 1;
  to_e12 : fc_p (bt_Fq D) ^ 12 = 2 * sc_euler (bt_s12 D) + 1;
  to_s2 : sqrt_ok twF2 (sqrt_of (map2 e) (2 * cn (bt_Fq D)) (bt_s2 D)) (fc_p (bt_Fq D) ^ 2);
  to_s6 : sqrt_ok twF6 (sqrt_of (map3 (map2 e)) (6 * cn (bt_Fq D)) (bt_s6 D)) (fc_p (bt_Fq D) ^ 6);
  to_s12 : sqrt_ok twF12 (sqrt_of (map2 (map3 (map2 e))) (12 * cn (bt_Fq D)) (bt_s12 D)) (fc_p (bt_Fq D) ^ 12);
  to_g1 : sw_on F (o0 F) tw_b (Aff (e (fst (bt_G1 D))) (e (snd (bt_G1 D))));
  to_g2 : sw_on twF2 (o0 twF2) tw_twist_b (Aff (map2 e (fst (bt_G2 D))) (map2 e (snd (bt_G2 D))));
  to_qX : fpow twF2 (map2 e (bt_qX D)) 3 = fpow twF2 (map2 e (bt_qY D)) 2;
  to_qY : omul twF2 (fpow twF2 (map2 e (bt_qY D)) 2) (fpow twF2 tw_twist_b twq) = tw_twist_b
}.
End Twelve.

Section Four.
Context {K : Type} (F : Fops K) (e : Z -> K) (D : four_consts).
Definition foq := cq (ft_Fq D).
Definition foF2 := fp2_ops F (e (ft_nr2 D)).
Definition foF4 := fp4_ops F (e (ft_nr2 D)) (e (ft_nr4 D)).
Definition fo_twist_a := mnt4_twist_a F (e (ft_a D)) (e (ft_nr2 D)).
Definition fo_twist_b := mnt4_twist_b F (e (ft_b D)) (e (ft_nr2 D)).

Record four_ok : Prop := {
  fo_m : exists m, (foq = 1 + 4 * m)%nat;
  fo_nr2 : nonresidue F foq 2 (e (ft_nr2 D));
  fo_nr4 : ft_nr4 D = ft_nr2 D;
  fo_t2 : frob_table F foq 2 1 2 (e (ft_nr2 D)) (map e (ft_c2 D));
  fo_t4 : frob_table F foq 4 1 4 (e (ft_nr2 D)) (map e (ft_c4 D));
  fo_e2 : fc_p (ft_Fq D) ^ 2 = 2 * sc_euler (ft_s2 D) + 1;
  fo_e4 : fc_p (ft_Fq D) ^ 4 = 2 * sc_euler (ft_s4 D) + 1;
  fo_s2 : sqrt_ok foF2 (sqrt_of (map2 e) (2 * cn (ft_Fq D)) (ft_s2 D)) (fc_p (ft_Fq D) ^ 2);
  fo_s4 : sqrt_ok foF4 (sqrt_of (map2 (map2 e)) (4 * cn (ft_Fq D)) (ft_s4 D)) (fc_p (ft_Fq D) ^ 4);
  fo_g1 : sw_on F (e (ft_a D)) (e (ft_b D)) (Aff (e (fst (ft_G1 D))) (e (snd (ft_G1 D))));
  fo_g2 : sw_on foF2 fo_twist_a fo_twist_b (Aff (map2 e (fst (ft_G2 D))) (map2 e (snd (ft_G2 D))));
  fo_qX : fpow F (e (ft_qX D)) 3 = fpow F (e (ft_qY D)) 2;
  fo_qa : quad_scale (omul F) (fpow F (e (ft_qY D)) 2) (fpow foF2 fo_twist_a foq) =
          quad_scale (omul F) (e (ft_qX D)) fo_twist_a;
  fo_qb : quad_scale (omul F) (fpow F (e (ft_qY D)) 2) (fpow foF2 fo_twist_b foq) = fo_twist_b
}.
End Four.

Section Six.
Context {K : Type} (F : Fops K) (e : Z -> K) (D : six_consts).
Definition siq := cq (st_Fq D).
Definition siF3 := fp3_ops F (e (st_nr3 D)).
Definition siF6 := fp6_2over3_ops F (e (st_nr3 D)) (e (st_nr6 D)).

Record six_ok : Prop := {
  so_m : exists m, (siq = 1 + 6 * m)%nat;
  so_nr2 : nonresidue F siq 2 (e (st_nr3 D));
  so_nr3 : nonresidue F siq 3 (e (st_nr3 D));
  so_nr6 : st_nr6 D = st_nr3 D;
  so_t31 : frob_table F siq 3 1 3 (e (st_nr3 D)) (map e (st_c31 D));
  so_t32 : frob_table F siq 3 2 3 (e (st_nr3 D)) (map e (st_c32 D));
  so_t6 : frob_table F siq 6 1 6 (e (st_nr3 D)) (map e (st_c6 D));
  so_e3 : fc_p (st_Fq D) ^ 3 = 2 * sc_euler (st_s3 D) + 1;
  so_e6 : fc_p (st_Fq D) ^ 6 = 2 * sc_euler (st_s6 D) + 1;
  so_s3 : sqrt_ok siF3 (sqrt_of (map3 e) (3 * cn (st_Fq D)) (st_s3 D)) (fc_p (st_Fq D) ^ 3);
  so_s6 : sqrt_ok siF6 (sqrt_of (map2 (map3 e)) (6 * cn (st_Fq D)) (st_s6 D)) (fc_p (st_Fq D) ^ 6)
}.

(** mnt6: short Weierstrass curve and twist. *)
Definition si_twist_a := mnt6_twist_a F (e (fst (st_ad D))).
Definition si_twist_b := mnt6_twist_b F (e (snd (st_ad D))) (e (st_nr3 D)).
Record six_sw_ok : Prop := {
  so_g1 : sw_on F (e (fst (st_ad D))) (e (snd (st_ad D))) (Aff (e (fst (st_G1 D))) (e (snd (st_G1 D))));
  so_g2 : sw_on siF3 si_twist_a si_twist_b (Aff (map3 e (fst (st_G2 D))) (map3 e (snd (st_G2 D))));
  so_qX : fpow F (e (st_q1 D)) 3 = fpow F (e (st_q2 D)) 2;
  so_qa : cubic_scale (omul F) (fpow F (e (st_q2 D)) 2) (fpow siF3 si_twist_a siq) =
          cubic_scale (omul F) (e (st_q1 D)) si_twist_a;
  so_qb : cubic_scale (omul F) (fpow F (e (st_q2 D)) 2) (fpow siF3 si_twist_b siq) = si_twist_b
}.

(** edwards: twisted Edwards curve a x^2 + y^2 = 1 + d x^2 y^2 and its twist. *)
Definition si_tw_a := edwards_twist_a F (e (fst (st_ad D))).
Definition si_tw_d := edwards_twist_d F (e (snd (st_ad D))).
Record six_te_ok : Prop := {
  se_g1 : te_on F (e (fst (st_ad D))) (e (snd (st_ad D))) (e (fst (st_G1 D)), e (snd (st_G1 D)));
  se_g2 : te_on siF3 si_tw_a si_tw_d (map3 e (fst (st_G2 D)), map3 e (snd (st_G2 D)));
  se_qY : st_q1 D = st_q2 D;
  se_qa : cubic_scale (omul F) (fpow F (e (st_q2 D)) 2) si_tw_a = fpow siF3 si_tw_a siq;
  se_qd : cubic_scale (omul F) (fpow F (e (st_q2 D)) 2) si_tw_d = fpow siF3 si_tw_d siq
}.
End Six.
