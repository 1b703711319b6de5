(** Property theorems about as_ulong and operator!= of prime fields: C03. *)
From Coq Require Import ZArith List Bool.
From Verif Require Import Result Limbs BigintModel BigintProofs FpModel FpSpec FpReach FpConvProofs Examples.
Open Scope Z_scope.

(** *** C03: as_ulong is the residue modulo 2^64, and != the negation of equality of residues. *)
Theorem C03_conversions P (OK : fp_ok P) (OKI : fp_ok_inv P) (NB : fp_num_bits P = bit_length (val (fp_modulus P))) a b :
  produced P a -> produced P b ->
  fp_as_ulong P a = Ok (den P a mod 2 ^ 64) /\ (fp_neqb a b = true <-> den P a <> den P b).
Proof. exact (produced_conv P OK OKI NB a b). Qed.
Print Assumptions C03_conversions.
Example C03_conversions_example : exists r, fp_of_long toy 5 false = Ok r /\ fp_as_ulong toy r = Ok 5 /\ fp_neqb r (fp_zero toy) = true.
Proof. eexists. repeat split; vm_compute; reflexivity. Qed.
