(** Small concrete parameter sets, used beside the property theorems to show
    that their hypotheses are met by non-trivial cases. *)
From Coq Require Import ZArith List Lia Bool Znumtheory.
From Verif Require Import Result Limbs LimbsProofs BigintModel BigintProofs FpModel FpSpec FpProofs
  FpField NumTheory Certs.
Import ListNotations.
Open Scope Z_scope.

(** One limb, prime modulus 65537 = 2^16 + 1. *)
Definition toy : fp_params := {|
  fp_n := 1; fp_modulus := [65537];
  fp_inv := 281470681808895;
  fp_Rsquared := [1]; fp_Rcubed := [1]; fp_num_bits := 17 |}.

(** Two limbs, odd modulus 2^100 + 277. *)
Definition toy2_p : Z := 2 ^ 100 + 277.
Definition toy2 : fp_params := {|
  fp_n := 2; fp_modulus := limbs_of 2 toy2_p;
  fp_inv := 1265300135019788739;
  fp_Rsquared := limbs_of 2 ((Bn 2 * Bn 2) mod toy2_p);
  fp_Rcubed := limbs_of 2 ((Bn 2 * Bn 2 * Bn 2) mod toy2_p); fp_num_bits := 101 |}.

Definition fp_okb (P : fp_params) : bool :=
  let p := val (fp_modulus P) in
  (1 <=? fp_n P)%nat && (length (fp_modulus P) =? fp_n P)%nat && limbsb (fp_modulus P) &&
  (1 <? p) && (2 * p <=? Bn (fp_n P)) && ((fp_inv P * p + 1) mod B =? 0) &&
  (length (fp_Rsquared P) =? fp_n P)%nat && limbsb (fp_Rsquared P) &&
  (val (fp_Rsquared P) =? (Bn (fp_n P) * Bn (fp_n P)) mod p).
Lemma fp_okb_ok P : fp_okb P = true -> fp_ok P.
Proof.
  unfold fp_okb. rewrite !andb_true_iff, !limbsb_iff, !Nat.eqb_eq, !Z.eqb_eq, Z.ltb_lt, Z.leb_le, Nat.leb_le.
  intros H. decompose [and] H. constructor; auto.
Qed.
Definition fp_ok_invb (P : fp_params) : bool :=
  (length (fp_Rcubed P) =? fp_n P)%nat && limbsb (fp_Rcubed P) &&
  (val (fp_Rcubed P) =? (Bn (fp_n P) * Bn (fp_n P) * Bn (fp_n P)) mod val (fp_modulus P)) &&
  negb (nth (fp_n P - 1) (fp_modulus P) 0 =? 0).
Lemma fp_ok_invb_ok P : fp_ok_invb P = true -> prime (val (fp_modulus P)) -> fp_ok_inv P.
Proof.
  unfold fp_ok_invb. rewrite !andb_true_iff, !limbsb_iff, !Nat.eqb_eq, !Z.eqb_eq, negb_true_iff, Z.eqb_neq.
  intros H Hp. decompose [and] H. constructor; auto.
Qed.

Lemma toy_ok : fp_ok toy.
Proof. apply fp_okb_ok. vm_compute. reflexivity. Qed.
Lemma toy2_ok : fp_ok toy2.
Proof. apply fp_okb_ok. vm_compute. reflexivity. Qed.
Lemma prime_65537 : prime 65537.
Proof. apply trial_prime_spec. vm_compute. reflexivity. Qed.
Lemma toy_oki : fp_ok_inv toy.
Proof. apply fp_ok_invb_ok; [vm_compute; reflexivity|]. exact prime_65537. Qed.
