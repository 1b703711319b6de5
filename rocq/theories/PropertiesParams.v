(** Property theorems about the shipped prime-field constants: C44, and C10,
    C11 for the shipped prime fields.
    [field_consts_ok] (ParamsProofs.v) lists the equations. *)
From Coq Require Import ZArith List Znumtheory.
From Verif Require Import Result Algebra FieldOps AlgorithmsModel FpModel FpSpec FpField ParamsModel ParamsProofs
  ParamsAll FpInst AlgorithmsField ParamsExtra.
Open Scope Z_scope.

Theorem C44_shipped_fields C : In C shipped_fields -> field_consts_ok C.
Proof. exact (shipped_fields_ok C). Qed.
Print Assumptions C44_shipped_fields.

Theorem C44_moduli_prime C : In C shipped_fields -> prime (fc_p C).
Proof. intros H. exact (oki_prime _ (fco_inv C (shipped_fields_ok C H))). Qed.
Print Assumptions C44_moduli_prime.

Example C44_list_not_empty : length shipped_fields = 12%nat /\ In alt_bn128_Fq_C shipped_fields.
Proof. split; [reflexivity|]. right. left. reflexivity. Qed.

Theorem C10_shipped_fields C (H : In C shipped_fields) debug y :
  let CO := shipped_fields_ok C H in
  let F := fp_ops (fc_P C) (fco_ok C CO) (fco_inv C CO) in
  exists r, fp_sqrt C CO debug (Z.to_nat (fc_s C) + 1) (omul F y y) = Ok r /\ (r = y \/ r = oopp F y).
Proof. exact (shipped_sqrt C H debug y). Qed.
Print Assumptions C10_shipped_fields.

Theorem C11_shipped_fields C (H : In C shipped_fields) k : 0 <= k <= fc_s C -> k < 32 ->
  let CO := shipped_fields_ok C H in
  let F := fp_ops (fc_P C) (fco_ok C CO) (fco_inv C CO) in
  exists w, get_root_of_unity (omul F) (fc_s C) (fofZ (fc_P C) (fco_ok C CO) (fc_rou C)) (2 ^ k) = Ok w /\
    fpow F w (Z.to_nat (2 ^ k)) = o1 F /\
    (1 <= k -> fpow F w (Z.to_nat (2 ^ (k - 1))) = oopp F (o1 F)).
Proof. exact (prime_root_of_unity C (shipped_fields_ok C H) k). Qed.
Print Assumptions C11_shipped_fields.
