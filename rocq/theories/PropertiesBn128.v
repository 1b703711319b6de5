(** Property theorems about the bn128 curve: C25, C34, C37-C39, C43, C44, C52
    and C55.  [ecdouble_ok], [ecadd_ok] spell out what is asked of the
    ate-pairing library. *)
From Coq Require Import ZArith List Bool Arith.
From Verif Require Import Hom Result Limbs LimbsProofs StreamModel Algebra NumTheory FieldOps AlgorithmsModel AlgorithmsField GroupOps
  FpModel FpSpec FpField ParamsModel ParamsProofs FpInst ZmInst ExtModel ExtSpec ExtFrob ExtExtra
  CurveSpec CurveGroup CurveModel CurveProofs CurveIoModel CurveIoProofs CurveExtra
  TowerModel TowerSpec TowerProofs TowerShipped TowerSqrt MillerSpec MillerTwelve MillerShipped GenProofs GenShipped
  ParamsB Bn128Model Bn128Proofs Bn128Shipped.
Import ListNotations.

(** ** C34 *)
Theorem C34_bn128_add {K} (F : Fops K) (FK : field_ok F) b ec_add ec_dbl : oadd F (o1 F) (o1 F) <> o0 F ->
  sw_disc F (o0 F) b <> o0 F -> ecdouble_ok F b ec_dbl -> ecadd_ok F b ec_add ->
  forall p q, jac_ok F b p -> jac_ok F b q ->
  jac_ok F b (bn_add F ec_add ec_dbl p q) /\
  jac_den F (bn_add F ec_add ec_dbl p q) = sw_add F (o0 F) (jac_den F p) (jac_den F q).
Proof.
  intros H2 HD DBL ADD p q OP OQ.
  exact (conj (bn_ok_add F FK b H2 HD ec_add ec_dbl DBL ADD p q OP OQ) (bn_add_den F FK b ec_add ec_dbl DBL ADD p q OP OQ)).
Qed.
Print Assumptions C34_bn128_add.
Theorem C34_bn128_dbl {K} (F : Fops K) (FK : field_ok F) b ec_dbl : oadd F (o1 F) (o1 F) <> o0 F ->
  sw_disc F (o0 F) b <> o0 F -> ecdouble_ok F b ec_dbl -> forall p, jac_ok F b p ->
  jac_ok F b (bn_dbl ec_dbl p) /\ jac_den F (bn_dbl ec_dbl p) = sw_add F (o0 F) (jac_den F p) (jac_den F p).
Proof.
  intros H2 HD DBL p OP. exact (conj (bn_ok_dbl F FK b H2 HD ec_dbl DBL p OP) (bn_dbl_den F b ec_dbl DBL p OP)).
Qed.
Print Assumptions C34_bn128_dbl.
(** mixed_add has its own formula and only calls the library to double. *)
Theorem C34_bn128_mixed_add {K} (F : Fops K) (FK : field_ok F) b ec_dbl : oadd F (o1 F) (o1 F) <> o0 F ->
  sw_disc F (o0 F) b <> o0 F -> ecdouble_ok F b ec_dbl ->
  forall p q, jac_ok F b p -> jac_ok F b q -> bn_is_special F q = true ->
  jac_ok F b (bn_mixed_add F ec_dbl p q) /\
  jac_den F (bn_mixed_add F ec_dbl p q) = sw_add F (o0 F) (jac_den F p) (jac_den F q).
Proof.
  intros H2 HD DBL p q OP OQ S.
  exact (conj (bn_ok_mixed F FK b H2 HD ec_dbl DBL p q OP OQ S) (bn_mixed_add_den F FK b H2 HD ec_dbl DBL p q OP OQ S)).
Qed.
Print Assumptions C34_bn128_mixed_add.
Theorem C34_bn128_opp {K} (F : Fops K) (FK : field_ok F) b p : jac_ok F b p ->
  jac_ok F b (bn_opp F p) /\ jac_den F (bn_opp F p) = sw_opp F (jac_den F p).
Proof. intros OP. exact (conj (bn_ok_opp F FK b p OP) (bn_opp_den F FK p)). Qed.
Print Assumptions C34_bn128_opp.
Theorem C34_bn128_sub {K} (F : Fops K) (FK : field_ok F) b ec_add ec_dbl : oadd F (o1 F) (o1 F) <> o0 F ->
  sw_disc F (o0 F) b <> o0 F -> ecdouble_ok F b ec_dbl -> ecadd_ok F b ec_add ->
  forall p q, jac_ok F b p -> jac_ok F b q ->
  jac_ok F b (bn_sub F ec_add ec_dbl p q) /\
  jac_den F (bn_sub F ec_add ec_dbl p q) = sw_add F (o0 F) (jac_den F p) (sw_opp F (jac_den F q)).
Proof.
  intros H2 HD DBL ADD p q OP OQ.
  exact (conj (bn_ok_sub F FK b H2 HD ec_add ec_dbl DBL ADD p q OP OQ) (bn_sub_den F FK b ec_add ec_dbl DBL ADD p q OP OQ)).
Qed.
Print Assumptions C34_bn128_sub.
(** The formulas libff uses for its own curves meet the two requirements. *)
Example C34_bn128_hypotheses_met : field_ok F13 /\ oadd F13 (o1 F13) (o1 F13) <> o0 F13 /\
  sw_disc F13 (o0 F13) (f13 1) <> o0 F13 /\ ecdouble_ok F13 (f13 1) (jac_dbl F13) /\ ecadd_ok F13 (f13 1) (jac_add F13) /\
  apt_z (jac_den F13 (bn_add F13 (jac_add F13) (jac_dbl F13) jp jq)) = Some (12, 0)%Z.
Proof.
  exact (conj F13_field (conj F13_two (conj jac13_disc
    (conj (fun p => jac_dbl_den F13 F13_field (f13 1) F13_two jac13_disc p)
    (conj (fun p q OP OQ _ _ _ => jac_add_den F13 F13_field (f13 1) F13_two jac13_disc p q OP OQ) eq_refl))))).
Qed.

(** ** C37 *)
Theorem C37_bn128_eq {K} (F : Fops K) (FK : field_ok F) p q : bn_eqb F p q = true <-> jac_den F p = jac_den F q.
Proof. exact (bn_eqb_den F FK p q). Qed.
Print Assumptions C37_bn128_eq.
Theorem C37_bn128_is_zero {K} (F : Fops K) (p : pt K) : bn_is_zero F p = true <-> jac_den F p = Inf.
Proof. exact (bn_is_zero_den F p). Qed.
Print Assumptions C37_bn128_is_zero.
Theorem C37_bn128_normal_form {K} (F : Fops K) (FK : field_ok F) p :
  exists q, bn_to_affine F p = Ok q /\ bn_to_special F p = Ok q /\ jac_den F q = jac_den F p /\
    (q = (o0 F, o1 F, o0 F) \/ exists x y, q = (x, y, o1 F)) /\ bn_is_special F q = true.
Proof.
  destruct (bn_to_affine_spec F FK p) as (q & E & D & S).
  exact (ex_intro _ q (conj E (conj E (conj D S)))).
Qed.
Print Assumptions C37_bn128_normal_form.
Theorem C37_bn128_batch {K} (F : Fops K) (FK : field_ok F) vec : Forall (fun p => bn_is_zero F p = false) vec ->
  exists out, bn_batch_to_special F vec = Ok out /\ Forall2 (fun p q => bn_to_special F p = Ok q) vec out.
Proof. exact (bn_batch_spec F FK vec). Qed.
Print Assumptions C37_bn128_batch.
Theorem C37_bn128_batch_zero {K} (F : Fops K) (FK : field_ok F) vec : In (o0 F) (map snd vec) ->
  bn_batch_to_special F vec = AssertFail.
Proof. exact (bn_batch_zero F FK vec). Qed.
Print Assumptions C37_bn128_batch_zero.
Example C37_bn128_example : bn_eqb F13 jq (pt13 2 3 1) = true /\ bn_eqb F13 jq jp = false /\
  Forall (fun p => bn_is_zero F13 p = false) [jp; jq].
Proof. split; [vm_compute; reflexivity|]. split; [vm_compute; reflexivity|]. repeat constructor. Qed.

(** ** C39 *)
Theorem C39_bn128 {K} (F : Fops K) (FK : field_ok F) b ec_add ec_dbl : oadd F (o1 F) (o1 F) <> o0 F ->
  sw_disc F (o0 F) b <> o0 F -> ecdouble_ok F b ec_dbl -> ecadd_ok F b ec_add ->
  point_laws (bn_gops F ec_add ec_dbl) (bn_opp F) (bn_eqb F) (jac_ok F b).
Proof. exact (bn_laws F FK b ec_add ec_dbl). Qed.
Print Assumptions C39_bn128.
(** The generic algorithms (scalar multiplication, wNAF, multi-exponentiation)
    apply to bn128 as to the other curves. *)
Theorem C39_bn128_gops {K} (F : Fops K) (FK : field_ok F) b ec_add ec_dbl : oadd F (o1 F) (o1 F) <> o0 F ->
  sw_disc F (o0 F) b <> o0 F -> ecdouble_ok F b ec_dbl -> ecadd_ok F b ec_add ->
  gops_ok (bn_gops F ec_add ec_dbl) (jac_ok F b) (jac_dent F b) (sp_zero F (o0 F) b) (sp_add F (o0 F) b) (sp_opp F (o0 F) b).
Proof. exact (fun H2 HD DBL ADD => bn_gops_ok F FK b H2 HD ec_add ec_dbl DBL ADD). Qed.
Print Assumptions C39_bn128_gops.

(** ** C43 *)
Theorem C43_bn128 {K} (F : Fops K) (FK : field_ok F) b p : bn_is_well_formed F b p = true <-> jac_ok F b p.
Proof. exact (bn_well_formed_spec F FK b p). Qed.
Print Assumptions C43_bn128.
Example C43_bn128_example : bn_is_well_formed F13 (f13 1) jq = true /\ bn_is_well_formed F13 (f13 1) (pt13 2 4 1) = false /\
  bn_is_well_formed F13 (f13 1) (bn_zero F13) = true.
Proof. repeat split; vm_compute; reflexivity. Qed.

(** ** C44, C52: the constants of bn128_init.cpp *)
Theorem C44_bn128_fields CO : let D := alt_bn128_tower in let F := cF (bt_Fq D) CO in let e := ce (bt_Fq D) CO in
  let q := fc_p bn128_Fq_C in
  big_field_ok F (bn128_sqrt1 e) q /\ big_field_ok (twF2 F e D) (bn128_sqrt2 e) (q ^ 2).
Proof. exact (bn128_fields CO). Qed.
Print Assumptions C44_bn128_fields.
Theorem C44_bn128_curve CO : let D := alt_bn128_tower in let F := cF (bt_Fq D) CO in let e := ce (bt_Fq D) CO in
  bn_b bn128_init = bt_b D /\ map2 e (bn_twist_b bn128_init) = tw_twist_b F e D /\
  bn_h1 bn128_init = bt_h1 D /\ bn_h2 bn128_init = bt_h2 D.
Proof. exact (bn128_curve CO). Qed.
Print Assumptions C44_bn128_curve.
Theorem C52_bn128_generators CO : let D := bn128_tower in let F := cF (bt_Fq D) CO in let e := ce (bt_Fq D) CO in
  tw_G1 F e D (gen1 e D) /\ tw_G2 F e D (gen2 e D).
Proof. exact (bn128_generators CO). Qed.
Print Assumptions C52_bn128_generators.

(** ** C38: streams.  [C] stands for the operators of bn::Fp and the parity of
    its representation. *)
Theorem C38_bn128_g1 CO C bin comp debug fuel p : let D := alt_bn128_tower in let F := cF (bt_Fq D) CO in let e := ce (bt_Fq D) CO in
  codec_ok bin C -> (forall y, y <> o0 F -> cd_lsb C (oopp F y) <> cd_lsb C y) -> (4 < Z.of_nat fuel)%Z ->
  torsion F (o0 F) (tw_b e D) (fc_p (bt_Fr D)) (jac_den F p) ->
  exists w q, bn_write F C bin comp p = Ok w /\ bn_normal F p q /\
    forall rest, (comp = true \/ after bin rest) ->
      bn_read F C bin comp (bn_sqrt F (bn128_sqrt1 e) debug fuel) (tw_b e D) (w ++ rest) = Ok (q, rest).
Proof.
  intros D F e HC HL Hf T. destruct (bn128_g1_torsion CO p T) as [O N].
  exact (bn128_g1_io CO C bin comp debug fuel HC HL Hf p O N).
Qed.
Print Assumptions C38_bn128_g1.
Theorem C38_bn128_g1_vector CO C bin comp debug fuel vec : let D := alt_bn128_tower in let F := cF (bt_Fq D) CO in let e := ce (bt_Fq D) CO in
  codec_ok bin C -> (forall y, y <> o0 F -> cd_lsb C (oopp F y) <> cd_lsb C y) -> (4 < Z.of_nat fuel)%Z ->
  Forall (fun p => torsion F (o0 F) (tw_b e D) (fc_p (bt_Fr D)) (jac_den F p)) vec -> (Z.of_nat (length vec) < 2 ^ 64)%Z ->
  exists w out, bn_write_vector F C bin comp vec = Ok w /\ Forall2 (bn_normal F) vec out /\
    forall rest, bn_read_vector F C bin comp (bn_sqrt F (bn128_sqrt1 e) debug fuel) (tw_b e D) (w ++ rest) = Ok (out, rest).
Proof.
  intros D F e HC HL Hf HT HN.
  exact (bn128_g1_vector_io CO C bin comp debug fuel HC HL Hf vec (Forall_impl _ (bn128_g1_torsion CO) HT) HN).
Qed.
Print Assumptions C38_bn128_g1_vector.
Theorem C38_bn128_g2 CO C bin comp debug fuel p : let D := alt_bn128_tower in let F := cF (bt_Fq D) CO in let e := ce (bt_Fq D) CO in
  let F2 := twF2 F e D in let C2 := bn_fp2_codec bin C in
  codec_ok bin C -> (forall y, y <> o0 F -> cd_lsb C (oopp F y) <> cd_lsb C y) -> (4 < Z.of_nat fuel)%Z ->
  jac_ok F2 (tw_twist_b F e D) p -> (forall x y, jac_den F2 p = Aff x y -> fst y <> o0 F) ->
  exists w q, bn_write F2 C2 bin comp p = Ok w /\ bn_normal F2 p q /\
    forall rest, (comp = true \/ after bin rest) ->
      bn_read F2 C2 bin comp (bn_sqrt F2 (bn128_sqrt2 e) debug fuel) (tw_twist_b F e D) (w ++ rest) = Ok (q, rest).
Proof. exact (fun HC HL Hf => bn128_g2_io CO C bin comp debug fuel HC HL Hf p). Qed.
Print Assumptions C38_bn128_g2.
(** What is read back is the same point. *)
Theorem C38_bn128_same {K} (F : Fops K) (FK : field_ok F) p q : bn_normal F p q ->
  jac_den F q = jac_den F p /\ bn_is_special F q = true.
Proof. exact (bn_normal_den F FK p q). Qed.
Print Assumptions C38_bn128_same.
Theorem C38_bn128_g2_ambiguous CO C bin p x y1 : let D := alt_bn128_tower in let F := cF (bt_Fq D) CO in let e := ce (bt_Fq D) CO in
  let F2 := twF2 F e D in let C2 := bn_fp2_codec bin C in
  jac_den F2 p = Aff x (o0 F, y1) -> y1 <> o0 F ->
  bn_write F2 C2 bin true (bn_opp F2 p) = bn_write F2 C2 bin true p /\ jac_den F2 (bn_opp F2 p) <> jac_den F2 p.
Proof. exact (bn128_g2_ambiguous CO C bin p x y1). Qed.
Print Assumptions C38_bn128_g2_ambiguous.
Theorem C38_bn128_off_curve CO C bin debug fuel x w c rest : let D := alt_bn128_tower in let F := cF (bt_Fq D) CO in let e := ce (bt_Fq D) CO in
  cd_wr C x = Ok w -> codec_ok bin C ->
  (forall y, y <> o0 F -> omul F y y <> oadd F (omul F (omul F x x) x) (tw_b e D)) ->
  bn_read F C bin true (bn_sqrt F (bn128_sqrt1 e) debug fuel) (tw_b e D)
    (ch_0 :: output_separator bin ++ w ++ output_separator bin ++ c :: rest)
  = if debug then AssertFail else OutOfFuel.
Proof. exact (bn128_read_stuck CO C bin debug fuel x w c rest). Qed.
Print Assumptions C38_bn128_off_curve.
(** The requirements on [C] hold for decimal or binary digits and a Montgomery
    representation. *)
Example C38_bn128_hypotheses_met (CO : field_consts_ok alt_bn128_Fq_C) bin mont :
  let C := mont_codec (fc_P alt_bn128_Fq_C) bin mont in let F := cF alt_bn128_Fq_C CO in
  codec_ok bin C /\ (forall y, y <> o0 F -> cd_lsb C (oopp F y) <> cd_lsb C y).
Proof.
  exact (conj (mont_codec_ok _ bin mont (fco_ok _ CO)) (fun y N => mont_lsb_opp _ (fco_ok _ CO) (fco_inv _ CO) bin mont y (fco_odd _ CO) N)).
Qed.

(** ** C55: square roots *)
Theorem C55_square {K} (F : Fops K) (FK : field_ok F) S q debug fuel y : char_not_2 F -> sqrt_ok F S q -> order_divides F q ->
  (sq_s S < Z.of_nat fuel)%Z -> y <> o0 F ->
  exists r, bn_sqrt F S debug fuel (omul F y y) = Ok r /\ (r = y \/ r = oopp F y).
Proof. exact (bn_sqrt_square F FK S q debug fuel y). Qed.
Print Assumptions C55_square.
Theorem C55_nonsquare {K} (F : Fops K) (FK : field_ok F) S q debug fuel a : char_not_2 F -> sqrt_ok F S q -> order_divides F q ->
  (forall y, omul F y y <> a) -> bn_sqrt F S debug fuel a = if debug then AssertFail else OutOfFuel.
Proof. exact (bn_sqrt_nonsquare F FK S q debug fuel a). Qed.
Print Assumptions C55_nonsquare.
(** Away from zero it is the function of algorithms.tcc. *)
Theorem C55_same {K} (F : Fops K) (FK : field_ok F) S q debug fuel a : sqrt_ok F S q -> order_divides F q -> a <> o0 F ->
  bn_sqrt F S debug fuel a = field_sqrt F S debug fuel a.
Proof. exact (bn_sqrt_nonzero F FK S q debug fuel a). Qed.
Print Assumptions C55_same.
Theorem C55_shipped CO debug fuel : (4 < Z.of_nat fuel)%Z ->
  let D := alt_bn128_tower in let F := cF (bt_Fq D) CO in let e := ce (bt_Fq D) CO in let F2 := twF2 F e D in
  (forall y, y <> o0 F -> exists r, bn_sqrt F (bn128_sqrt1 e) debug fuel (omul F y y) = Ok r /\ (r = y \/ r = oopp F y)) /\
  (forall y, y <> o0 F2 -> exists r, bn_sqrt F2 (bn128_sqrt2 e) debug fuel (omul F2 y y) = Ok r /\ (r = y \/ r = oopp F2 y)).
Proof. exact (bn128_sqrt_nonzero CO debug fuel). Qed.
Print Assumptions C55_shipped.
(** Zero: no amount of iterations is enough, and DEBUG builds abort. *)
Theorem C55_zero_refuted CO debug fuel : let D := alt_bn128_tower in let F := cF (bt_Fq D) CO in let e := ce (bt_Fq D) CO in
  let F2 := twF2 F e D in
  bn_sqrt F (bn128_sqrt1 e) debug fuel (o0 F) = (if debug then AssertFail else OutOfFuel) /\
  bn_sqrt F2 (bn128_sqrt2 e) debug fuel (o0 F2) = (if debug then AssertFail else OutOfFuel).
Proof. exact (bn128_sqrt_zero CO debug fuel). Qed.
Print Assumptions C55_zero_refuted.
Example C55_example : field_consts_ok alt_bn128_Fq_C.
Proof. exact (alt_bn128_Fq_ok). Qed.

(** ** C25: GT *)
Theorem C25_bn128_unitary {K} (F : Fops K) q (PB : prime_base F q) nr2 m nr6 x : (q = 1 + 6 * m)%nat ->
  nonresidue F q 2 nr2 -> nonresidue (fp2_ops F nr2) (q ^ 2) 2 nr6 -> nonresidue (fp2_ops F nr2) (q ^ 2) 3 nr6 ->
  cyclotomic12 (fp12_ops F nr2 nr6 nr6) q x ->
  bn_gt_mul (fp12_ops F nr2 nr6 nr6) x (bn_gt_unitary_inverse (oopp (fp6_3over2_ops F nr2 nr6)) x) = o1 (fp12_ops F nr2 nr6 nr6).
Proof. exact (bn_gt_unitary F q PB nr2 m nr6 x). Qed.
Print Assumptions C25_bn128_unitary.

(** operator== of GT *)
Theorem C25_bn128_eqb {K} (F : Fops (K * K)) (R : ring_ok F) x y : bn_gt_eqb F x y = true <-> x = y.
Proof. exact (bn_gt_eqb_spec F R x y). Qed.
Print Assumptions C25_bn128_eqb.
