(** Property theorems about the shipped towers, curves and final
    exponentiations: C41, C44, and shipped instances of C10 and C27. *)
From Coq Require Import ZArith List Bool Lia.
From Verif Require Import Result Limbs LimbsProofs Algebra FieldOps FpField ParamsModel ParamsProofs ParamsAll
  AlgorithmsModel AlgorithmsProofs AlgorithmsField ExtModel ExtSpec ExtFrob FinalExpModel FinalExpSpec FinalExpProofs
  CurveSpec Hom TowerModel TowerSpec TowerProofs TowerShipped LoopShipped TowerSqrt.
Import ListNotations.
Open Scope Z_scope.

(** ** C44: tower constants, twists and generators *)
Theorem C44_alt_bn128_bls12_381 D CO : In D shipped_twelve -> twelve_ok (cF (bt_Fq D) CO) (ce (bt_Fq D) CO) D.
Proof. exact (shipped_twelve_ok D CO). Qed.
Print Assumptions C44_alt_bn128_bls12_381.

Theorem C44_mnt4 D CO : In D shipped_four -> four_ok (cF (ft_Fq D) CO) (ce (ft_Fq D) CO) D.
Proof. exact (shipped_four_ok D CO). Qed.
Print Assumptions C44_mnt4.

Theorem C44_mnt6_edwards D CO : In D shipped_six -> six_ok (cF (st_Fq D) CO) (ce (st_Fq D) CO) D.
Proof. exact (shipped_six_ok D CO). Qed.
Print Assumptions C44_mnt6_edwards.

Theorem C44_mnt6_curve CO : six_sw_ok (cF (st_Fq mnt6_tower) CO) (ce (st_Fq mnt6_tower) CO) mnt6_tower.
Proof. exact (mnt6_sw_ok CO). Qed.
Print Assumptions C44_mnt6_curve.

Theorem C44_edwards_curve CO : six_te_ok (cF (st_Fq edwards_tower) CO) (ce (st_Fq edwards_tower) CO) edwards_tower.
Proof. exact (edwards_te_ok CO). Qed.
Print Assumptions C44_edwards_curve.

Example C44_towers_not_empty : In alt_bn128_tower shipped_twelve /\ In bls12_381_tower shipped_twelve /\
  In mnt4_tower shipped_four /\ In mnt6_tower shipped_six /\ In edwards_tower shipped_six.
Proof. exact (conj (or_introl eq_refl) (conj (or_intror (or_introl eq_refl)) (conj (or_introl eq_refl)
  (conj (or_introl eq_refl) (or_intror (or_introl eq_refl)))))). Qed.
(** The side condition field_consts_ok holds of every base field used here. *)
Example C44_base_fields : field_consts_ok (bt_Fq alt_bn128_tower) /\ field_consts_ok (st_Fq edwards_tower).
Proof. split; apply shipped_fields_ok; cbv [shipped_fields In]; tauto. Qed.

(** ** C10: square roots in the shipped extension fields *)
Theorem C10_shipped_twelve D CO : In D shipped_twelve -> let F := cF (bt_Fq D) CO in let e := ce (bt_Fq D) CO in
  let n := cn (bt_Fq D) in let p := fc_p (bt_Fq D) in
  big_field_ok (twF2 F e D) (sqrt_of (map2 e) (2 * n) (bt_s2 D)) (p ^ 2) /\
  big_field_ok (twF6 F e D) (sqrt_of (map3 (map2 e)) (6 * n) (bt_s6 D)) (p ^ 6) /\
  big_field_ok (twF12 F e D) (sqrt_of (map2 (map3 (map2 e))) (12 * n) (bt_s12 D)) (p ^ 12).
Proof. exact (shipped_twelve_fields D CO). Qed.
Print Assumptions C10_shipped_twelve.

Theorem C10_shipped_four D CO : In D shipped_four -> let F := cF (ft_Fq D) CO in let e := ce (ft_Fq D) CO in
  let n := cn (ft_Fq D) in let p := fc_p (ft_Fq D) in
  big_field_ok (foF2 F e D) (sqrt_of (map2 e) (2 * n) (ft_s2 D)) (p ^ 2) /\
  big_field_ok (foF4 F e D) (sqrt_of (map2 (map2 e)) (4 * n) (ft_s4 D)) (p ^ 4).
Proof. exact (shipped_four_fields D CO). Qed.
Print Assumptions C10_shipped_four.

Theorem C10_shipped_six D CO : In D shipped_six -> let F := cF (st_Fq D) CO in let e := ce (st_Fq D) CO in
  let n := cn (st_Fq D) in let p := fc_p (st_Fq D) in
  big_field_ok (siF3 F e D) (sqrt_of (map3 e) (3 * n) (st_s3 D)) (p ^ 3) /\
  big_field_ok (siF6 F e D) (sqrt_of (map2 (map3 e)) (6 * n) (st_s6 D)) (p ^ 6).
Proof. exact (shipped_six_fields D CO). Qed.
Print Assumptions C10_shipped_six.

(** In each of these fields the square root of y^2 is y or -y. *)
Theorem C10_extension_sqrt {K} (F : Fops K) S Q debug y : big_field_ok F S Q ->
  exists r, field_sqrt F S debug (Z.to_nat (sq_s S) + 1) (omul F y y) = Ok r /\ (r = y \/ r = oopp F y).
Proof. exact (big_field_sqrt F S Q debug y). Qed.
Print Assumptions C10_extension_sqrt.

(** ** C27: the shipped Frobenius tables *)
Theorem C27_shipped_twelve D CO k : In D shipped_twelve -> 0 <= k ->
  let F := cF (bt_Fq D) CO in let e := ce (bt_Fq D) CO in let q := cq (bt_Fq D) in
  (forall x, tw_frob2 F e D k x = fpow (twF2 F e D) x (q ^ Z.to_nat k)) /\
  (forall x, tw_frob6 F e D k x = fpow (twF6 F e D) x (q ^ Z.to_nat k)) /\
  (forall x, tw_frob12 F e D k x = fpow (twF12 F e D) x (q ^ Z.to_nat k)).
Proof. exact (shipped_twelve_frob D CO k). Qed.
Print Assumptions C27_shipped_twelve.

Theorem C27_shipped_four D CO k : In D shipped_four -> 0 <= k ->
  let F := cF (ft_Fq D) CO in let e := ce (ft_Fq D) CO in let q := cq (ft_Fq D) in
  (forall x, fo_frob2 F e D k x = fpow (foF2 F e D) x (q ^ Z.to_nat k)) /\
  (forall x, fo_frob4 F e D k x = fpow (foF4 F e D) x (q ^ Z.to_nat k)).
Proof. exact (shipped_four_frob D CO k). Qed.
Print Assumptions C27_shipped_four.

Theorem C27_shipped_six D CO k : In D shipped_six -> 0 <= k ->
  let F := cF (st_Fq D) CO in let e := ce (st_Fq D) CO in let q := cq (st_Fq D) in
  (forall x, si_frob3 F e D k x = fpow (siF3 F e D) x (q ^ Z.to_nat k)) /\
  (forall x, si_frob6 F e D k x = fpow (siF6 F e D) x (q ^ Z.to_nat k)).
Proof. exact (shipped_six_frob D CO k). Qed.
Print Assumptions C27_shipped_six.

(** The loop count of the Miller loop fits the orders: the pairing of the family
    (optimal ate for alt_bn128, ate for the others) needs these congruences.
    [signed neg z] is z with its sign flag. *)
Theorem C44_alt_bn128_loop : let D := alt_bn128_tower in let q := fc_p (bt_Fq D) in let r := fc_p (bt_Fr D) in
  let T := signed (bt_loop_neg D) (bt_loop D) in
  T = 6 * signed (bt_z_neg D) (bt_z D) + 2 /\ (r | T + q - q ^ 2 + q ^ 3) /\ (r | q ^ 4 - q ^ 2 + 1).
Proof. exact alt_bn128_loop. Qed.
Print Assumptions C44_alt_bn128_loop.

Theorem C44_bls12_381_loop : let D := bls12_381_tower in let q := fc_p (bt_Fq D) in let r := fc_p (bt_Fr D) in
  let T := signed (bt_loop_neg D) (bt_loop D) in
  T = signed (bt_z_neg D) (bt_z D) /\ (r | T - q) /\ (r | q ^ 4 - q ^ 2 + 1).
Proof. exact bls12_381_loop. Qed.
Print Assumptions C44_bls12_381_loop.

Theorem C44_mnt4_loop : let D := mnt4_tower in let q := fc_p (ft_Fq D) in let r := fc_p (ft_Fr D) in
  (r | signed (ft_loop_neg D) (ft_loop D) - q) /\ (r | q ^ 2 + 1).
Proof. exact mnt4_loop. Qed.
Print Assumptions C44_mnt4_loop.

Theorem C44_mnt6_loop : let D := mnt6_tower in let q := fc_p (st_Fq D) in let r := fc_p (st_Fr D) in
  (r | signed (st_loop_neg D) (st_loop D) - q) /\ (r | q ^ 2 - q + 1).
Proof. exact mnt6_loop. Qed.
Print Assumptions C44_mnt6_loop.

(** edwards_ate_loop_count is -q mod r and has no sign flag: the pairing is the
    inverse of the ate pairing. *)
Theorem C44_edwards_loop : let D := edwards_tower in let q := fc_p (st_Fq D) in let r := fc_p (st_Fr D) in
  (r | st_loop D + q) /\ ~ (r | st_loop D - q) /\ (r | q ^ 2 - q + 1).
Proof. exact edwards_loop. Qed.
Print Assumptions C44_edwards_loop.

(** ** C41: final exponentiation *)
Theorem C41_alt_bn128 CO : let D := alt_bn128_tower in let F := cF (bt_Fq D) CO in let e := ce (bt_Fq D) CO in
  final_exp_ok (twF12 F e D) (fc_p (bt_Fq D) ^ 12 - 1) (fc_p (bt_Fr D)) (tw_bn_final F e D).
Proof. exact (alt_bn128_final CO). Qed.
Print Assumptions C41_alt_bn128.

Theorem C41_bls12_381 CO : let D := bls12_381_tower in let F := cF (bt_Fq D) CO in let e := ce (bt_Fq D) CO in
  final_exp_ok (twF12 F e D) (fc_p (bt_Fq D) ^ 12 - 1) (fc_p (bt_Fr D)) (tw_bls_final F e D).
Proof. exact (bls12_381_final CO). Qed.
Print Assumptions C41_bls12_381.

Theorem C41_mnt4 CO : let D := mnt4_tower in let F := cF (ft_Fq D) CO in let e := ce (ft_Fq D) CO in
  final_exp_ok (foF4 F e D) (fc_p (ft_Fq D) ^ 4 - 1) (fc_p (ft_Fr D)) (fo_final F e D).
Proof. exact (mnt4_final_shipped CO). Qed.
Print Assumptions C41_mnt4.

Theorem C41_mnt6_edwards D CO : In D shipped_six -> let F := cF (st_Fq D) CO in let e := ce (st_Fq D) CO in
  final_exp_ok (siF6 F e D) (fc_p (st_Fq D) ^ 6 - 1) (fc_p (st_Fr D)) (si_final F e D).
Proof. exact (six_final_shipped D CO). Qed.
Print Assumptions C41_mnt6_edwards.
