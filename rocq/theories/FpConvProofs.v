(** as_ulong and operator!= of prime fields. *)
From Coq Require Import ZArith List Bool Lia.
From Verif Require Import Result Limbs LimbsProofs BigintModel BigintProofs FpModel FpSpec FpProofs FpField FpReach FpExtra.
Open Scope Z_scope.

Lemma fp_as_ulong_spec P a : fp_ok P -> canon P a -> fp_as_ulong P a = Ok (den P a mod B).
Proof.
  intros OK C. destruct (as_bigint_spec P OK a) as (r & E & Cr & V & _); try apply C.
  unfold fp_as_ulong. rewrite E. cbn. rewrite bigint_as_ulong_spec by apply Cr. now rewrite V.
Qed.
Lemma fp_neqb_spec P a b : fp_ok P -> canon P a -> canon P b -> fp_neqb a b = true <-> den P a <> den P b.
Proof.
  intros OK Ca Cb. unfold fp_neqb, bigint_neqb. change (bigint_eqb a b) with (fp_eqb a b).
  rewrite (fp_eqb_spec P OK a b Ca Cb), negb_true_iff. apply Z.eqb_neq.
Qed.
Lemma produced_conv P (OK : fp_ok P) (OKI : fp_ok_inv P) (NB : fp_num_bits P = bit_length (val (fp_modulus P))) a b :
  produced P a -> produced P b ->
  fp_as_ulong P a = Ok (den P a mod 2 ^ 64) /\ (fp_neqb a b = true <-> den P a <> den P b).
Proof.
  intros Pa Pb. pose proof (produced_canon P OK OKI NB a Pa) as Ca. pose proof (produced_canon P OK OKI NB b Pb) as Cb.
  split; [exact (fp_as_ulong_spec P a OK Ca)|exact (fp_neqb_spec P a b OK Ca Cb)].
Qed.
