(** Fp_model as an instance of the generic field interface, with its order,
    square root and roots of unity. *)
From Coq Require Import ZArith List Lia Bool Znumtheory Ring_theory Field_theory.
From Verif Require Import Result Limbs LimbsProofs BigintModel BigintProofs UtilsModel UtilsProofs
  Algebra NumTheory FieldOps AlgorithmsModel AlgorithmsProofs FpModel FpSpec FpProofs FpField
  ParamsModel ParamsProofs.
Import ListNotations.
Open Scope Z_scope.

Section Inst.
Variable P : fp_params.
Hypothesis OK : fp_ok P.
Hypothesis OKI : fp_ok_inv P.
Let p := val (fp_modulus P).

(** [squared()] and [inverse()] on the canonical carrier. *)
Definition fsqr (x : Fp P) : Fp P := 
  lift P (fp_squared P (repr P x)) (ok_weak P _ _ (fp_squared_spec P OK _ (repr_canon P x))).
Definition finverse (x : Fp P) : result (Fp P) :=
  match fp_invert P (repr P x) with
  | Ok _ => Ok (finv P OK OKI x)
  | AssertFail => AssertFail | Throw => Throw | UB => UB | StreamFail => StreamFail | OutOfFuel => OutOfFuel
  end.

Definition fp_ops : Fops (Fp P) :=
  {| o0 := fzero P OK; o1 := fone P OK; oadd := fadd P OK; osub := fsub P OK; omul := fmul P OK;
     oopp := fopp P OK; osqr := fsqr; oinv := finverse; oeqb := feqb P |}.

Lemma fp_ops_ring : ring_ok fp_ops.
Proof.
  constructor; cbn.
  - apply fp_ring_theory.
  - apply (feqb_eq P OK).
  - intros x. apply (Fp_ext P). destruct (fp_mul_spec P OK _ _ (repr_canon P x) (repr_canon P x)) as (r & E & _).
    unfold fsqr, fmul. rewrite (repr_lift P _ _ r), (repr_lift P _ _ r); auto.
Qed.

(** finverse is fp_invert. *)
Lemma finverse_spec x : rmap (repr P) (finverse x) = fp_invert P (repr P x).
Proof.
  unfold finverse. destruct (fp_invert P (repr P x)) eqn:E; try reflexivity.
  cbn. f_equal. destruct (Z.eq_dec (den P (repr P x)) 0) as [D|D].
  - rewrite (fp_invert_zero P OK) in E by (auto using repr_canon). discriminate.
  - assert (N : x <> fzero P OK).
    { intros ->. apply D. apply (toZ_zero P OK). }
    pose proof (finv_is_invert P OK OKI x N) as H. rewrite E in H. now injection H.
Qed.

Lemma fp_ops_field : field_ok fp_ops.
Proof.
  constructor; cbn.
  - apply fp_ops_ring.
  - apply (fone_neq_fzero P OK).
  - intros x N. exists (finv P OK OKI x). split.
    + unfold finverse. now rewrite (finv_is_invert P OK OKI).
    + transitivity (fmul P OK (finv P OK OKI x) x); [exact (rk_mul_comm fp_ops fp_ops_ring _ _)|].
      now apply (finv_mul P OK OKI).
  - unfold finverse. rewrite (fp_invert_zero P OK); auto using repr_canon.
    apply (toZ_zero P OK).
Qed.

Lemma toZ_pow x n : toZ P (fpow fp_ops x n) = toZ P x ^ Z.of_nat n mod p.
Proof.
  pose proof (p_pos P OK) as Hp. fold p in Hp.
  assert (Hp1 : 1 < p) by (apply (p_gt1 P OK)).
  induction n; cbn [npow].
  - cbn. rewrite (toZ_one P OK). symmetry. apply Z.mod_small. lia.
  - change (omul fp_ops) with (fmul P OK) in *. rewrite (toZ_mul P OK). fold p.
    change (omul fp_ops) with (fmul P OK) in IHn. rewrite IHn, Z.mul_mod_idemp_r by lia.
    rewrite Nat2Z.inj_succ, Z.pow_succ_r by lia. reflexivity.
Qed.

(** Lagrange for the multiplicative group. *)
Lemma fp_order x : x <> o0 fp_ops -> fpow fp_ops x (Z.to_nat (p - 1)) = o1 fp_ops.
Proof.
  intros N. assert (Hp : prime p) by apply (oki_prime P OKI).
  assert (1 < p) by (destruct Hp; lia).
  apply (toZ_inj P OK). rewrite toZ_pow, Z2Nat.id by lia.
  cbn [o1 fp_ops]. rewrite (toZ_one P OK). apply fermat_pred; auto.
  rewrite (toZ_mod P OK). intros E. apply N. apply (toZ_inj P OK). cbn [o0 fp_ops].
  now rewrite (toZ_zero P OK).
Qed.
(** The characteristic. *)
Lemma toZ_nmul x n : toZ P (fnmul fp_ops x n) = (Z.of_nat n * toZ P x) mod p.
Proof.
  assert (Hp1 : 1 < p) by (apply (p_gt1 P OK)).
  induction n; cbn [npow].
  - cbn [o0 fp_ops]. rewrite (toZ_zero P OK). symmetry. apply Z.mod_0_l. lia.
  - change (oadd fp_ops) with (fadd P OK). rewrite (toZ_add P OK). fold p.
    change (oadd fp_ops) with (fadd P OK) in IHn. rewrite IHn, Z.add_mod_idemp_r by lia.
    f_equal. lia.
Qed.
Lemma fp_char : fnmul fp_ops (o1 fp_ops) (Z.to_nat p) = o0 fp_ops.
Proof.
  assert (Hp1 : 1 < p) by (apply (p_gt1 P OK)).
  apply (toZ_inj P OK). rewrite toZ_nmul, Z2Nat.id by lia. cbn [o0 fp_ops].
  rewrite (toZ_zero P OK). rewrite Z.mul_comm. apply Z_mod_mult.
Qed.
End Inst.

Section Consts.
Variable C : field_consts.
Hypothesis CO : field_consts_ok C.
Let P := fc_P C.
Let OK : fp_ok P := fco_ok C CO.
Let OKI : fp_ok_inv P := fco_inv C CO.
Let F := fp_ops P OK OKI.

(** Static members of the field type as field elements. *)
Definition fp_sqrt_params : sqrt_params (Fp P) :=
  {| sq_s := fc_s C; sq_t := limbs_of (fp_n P) (fc_t C); sq_tm1 := limbs_of (fp_n P) (fc_tm1 C);
     sq_nqr := fofZ P OK (fc_nqr C); sq_nqr_to_t := fofZ P OK (fc_nqr_to_t C) |}.

Lemma fc_p_small : fc_p C < Bn (fp_n P).
Proof.
  pose proof (ok_half P OK) as H. change (val (fp_modulus P)) with (fc_p C) in H.
  pose proof (p_gt1 P OK) as H1. change (val (fp_modulus P)) with (fc_p C) in H1. lia.
Qed.

Lemma pow2s_bound : 0 < 2 ^ fc_s C /\ 0 < fc_t C /\ fc_t C <= fc_p C - 1.
Proof.
  pose proof (fco_s C CO). pose proof (fco_t C CO). pose proof (fco_tm1 C CO). pose proof (fco_tm1_pos C CO).
  assert (0 < 2 ^ fc_s C) by (apply Z.pow_pos_nonneg; lia). nia.
Qed.

Lemma toZ_m1 : toZ P (oopp F (o1 F)) = fc_p C - 1.
Proof.
  pose proof (p_gt1 P OK) as H1. change (val (fp_modulus P)) with (fc_p C) in H1.
  cbn [oopp o1 F fp_ops]. unfold F. cbn. rewrite (toZ_opp P OK), (toZ_one P OK).
  change (val (fp_modulus P)) with (fc_p C). rewrite Z_mod_nz_opp_full.
  - now rewrite Z.mod_small by lia.
  - rewrite Z.mod_small; lia.
Qed.

Lemma nqr_to_t_ok : fpow F (fofZ P OK (fc_nqr_to_t C)) (Z.to_nat (2 ^ (fc_s C - 1))) = oopp F (o1 F).
Proof.
  pose proof (p_gt1 P OK) as H1. change (val (fp_modulus P)) with (fc_p C) in H1.
  pose proof (fco_s C CO) as Hs. destruct pow2s_bound as (B0 & B1 & B2).
  assert (0 < 2 ^ (fc_s C - 1)) by (apply Z.pow_pos_nonneg; lia).
  apply (toZ_inj P OK). rewrite toZ_m1. unfold F. rewrite (toZ_pow P OK OKI), Z2Nat.id by lia.
  change (val (fp_modulus P)) with (fc_p C).
  assert (Hr : 0 <= fc_nqr_to_t C < fc_p C).
  { rewrite <- (fco_nqr_to_t C CO). apply Z.mod_pos_bound. lia. }
  pose proof fc_p_small as Hsm.
  rewrite (toZ_ofZ P OK) by lia. change (val (fp_modulus P)) with (fc_p C).
  rewrite (Z.mod_small (fc_nqr_to_t C)) by lia. rewrite <- (fco_nqr_to_t C CO).
  rewrite <- Zpow_facts.Zpower_mod by lia. rewrite <- Z.pow_mul_r by lia.
  replace (fc_t C * 2 ^ (fc_s C - 1)) with (fc_euler C).
  - apply (fco_nqr_euler C CO).
  - pose proof (fco_t C CO) as Ht. pose proof (fco_euler C CO) as He.
    replace (2 ^ fc_s C) with (2 * 2 ^ (fc_s C - 1)) in Ht; [lia|].
    rewrite <- Z.pow_succ_r by lia. f_equal. lia.
Qed.

Lemma rou_ok : fpow F (fofZ P OK (fc_rou C)) (Z.to_nat (2 ^ (fc_s C - 1))) = oopp F (o1 F).
Proof.
  pose proof (p_gt1 P OK) as H1. change (val (fp_modulus P)) with (fc_p C) in H1.
  pose proof (fco_s C CO) as Hs.
  assert (0 < 2 ^ (fc_s C - 1)) by (apply Z.pow_pos_nonneg; lia).
  apply (toZ_inj P OK). rewrite toZ_m1. unfold F. rewrite (toZ_pow P OK OKI), Z2Nat.id by lia.
  change (val (fp_modulus P)) with (fc_p C).
  assert (Hr : 0 <= fc_rou C < fc_p C).
  { rewrite <- (fco_rou_gen C CO). apply Z.mod_pos_bound. lia. }
  pose proof fc_p_small as Hsm.
  rewrite (toZ_ofZ P OK) by lia. change (val (fp_modulus P)) with (fc_p C).
  rewrite (Z.mod_small (fc_rou C)) by lia. apply (fco_rou C CO).
Qed.

Lemma fp_sqrt_params_ok : fc_s C < 2 ^ 31 ->
  sqrt_params_ok (o0 F) (o1 F) (omul F) fp_sqrt_params (oopp F (o1 F)) (fc_p C - 1).
Proof.
  intros Hs. pose proof fc_p_small as Hsm. destruct pow2s_bound as (B0 & B1 & B2).
  pose proof (fco_tm1 C CO) as Ht. pose proof (fco_tm1_pos C CO) as Ht0.
  constructor; cbn [fp_sqrt_params sq_s sq_t sq_tm1 sq_nqr sq_nqr_to_t].
  - split; auto. apply (fco_s C CO).
  - apply limbs_of_limbs.
  - apply limbs_of_limbs.
  - rewrite !val_limbs_of_small by lia. exact Ht.
  - rewrite !val_limbs_of_small by lia. apply (fco_t C CO).
  - intros E. apply (f_equal (toZ P)) in E. cbn [o0 F fp_ops] in E. unfold F in E. cbn in E.
    rewrite (toZ_zero P OK) in E. pose proof (fco_nqr_range C CO).
    rewrite (toZ_ofZ P OK) in E by lia. change (val (fp_modulus P)) with (fc_p C) in E.
    rewrite Z.mod_small in E; lia.
  - apply nqr_to_t_ok.
Qed.

Lemma fp_m1_neq_1 : oopp F (o1 F) <> o1 F.
Proof.
  intros E. apply (f_equal (toZ P)) in E. rewrite toZ_m1 in E. cbn [o1 F fp_ops] in E. unfold F in E. cbn in E.
  rewrite (toZ_one P OK) in E. pose proof (fco_odd C CO) as O.
  assert (E2 : fc_p C = 2) by lia. rewrite E2 in O. discriminate.
Qed.

(** [sqrt()] of the prime field: fp.tcc:769-773. *)
Definition fp_sqrt (debug : bool) (fuel : nat) (a : Fp P) : result (Fp P) :=
  tonelli_shanks_sqrt (o0 F) (o1 F) (omul F) (osqr F) (oeqb F) fp_sqrt_params debug fuel a.
End Consts.
