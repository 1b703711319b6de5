(** Consequences of the constants being right, for the shipped prime fields. *)
From Coq Require Import ZArith List Lia.
From Verif Require Import Result Algebra FieldOps AlgorithmsModel FpModel FpSpec FpField ParamsModel ParamsProofs
  ParamsAll FpInst AlgorithmsField.
Import ListNotations.
Open Scope Z_scope.

Lemma shipped_s C : In C shipped_fields -> 1 <= fc_s C < 64.
Proof.
  cbn [In shipped_fields].
  intros [<-|[<-|[<-|[<-|[<-|[<-|[<-|[<-|[<-|[<-|[<-|[<-|[]]]]]]]]]]]]];
    cbn [fc_s alt_bn128_Fr_C alt_bn128_Fq_C bn128_Fr_C bn128_Fq_C bls12_381_Fr_C bls12_381_Fq_C
      edwards_Fr_C edwards_Fq_C mnt4_Fr_C mnt4_Fq_C mnt6_Fr_C mnt6_Fq_C]; lia.
Qed.

Lemma shipped_sqrt C (H : In C shipped_fields) debug y :
  let CO := shipped_fields_ok C H in
  let F := fp_ops (fc_P C) (fco_ok C CO) (fco_inv C CO) in
  exists r, fp_sqrt C CO debug (Z.to_nat (fc_s C) + 1) (omul F y y) = Ok r /\ (r = y \/ r = oopp F y).
Proof.
  cbv zeta. pose proof (shipped_s C H). apply prime_sqrt_square; lia.
Qed.
