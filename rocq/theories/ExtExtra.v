(** A small tower over the prime field of 13 elements, used beside the property
    theorems, and the exponent for which cyclotomic_exp goes wrong. *)
From Coq Require Import ZArith Znumtheory List Bool Lia Arith.
From Verif Require Import Result Limbs LimbsProofs Algebra NumTheory Certs FieldOps BigintModel AlgorithmsModel AlgorithmsProofs
  ZmInst ExtModel ExtSpec ExtProofs ExtFrob ExtCyc ExtInst.
Import ListNotations.

Lemma prime_13 : prime 13.
Proof. apply trial_prime_spec. vm_compute. reflexivity. Qed.
Lemma gt_13 : (1 < 13)%Z.
Proof. reflexivity. Qed.
Notation F13 := (zm_ops 13 gt_13).
Definition f13 (z : Z) : Zm 13 := mkzm 13 gt_13 z.
Lemma F13_base : prime_base F13 13.
Proof. exact (zm_prime_base 13 gt_13 prime_13). Qed.
Lemma F13_ring : ring_ok F13.
Proof. exact (fk_ring _ (pb_field _ _ F13_base)). Qed.

(** Powers are computed with the model's square-and-multiply. *)
Lemma fpow_fast {K} (F : Fops K) (R : ring_ok F) b n e (c : bool) : limbsb [e] = true -> Z.to_nat e = n ->
  oeqb F (power_bigint (o1 F) (omul F) b [e]) (o1 F) = c ->
  if c then fpow F b n = o1 F else fpow F b n <> o1 F.
Proof.
  intros L N E. rewrite power_bigint_spec in E by (apply (rk_monoid F R) || now apply limbsb_iff).
  replace (Z.to_nat (val [e])) with n in E by (unfold val; rewrite Z.mul_0_r, Z.add_0_r; auto).
  destruct c.
  - now destruct (rk_eqb_spec F R (fpow F b n) (o1 F)).
  - intros H. destruct (rk_eqb_spec F R (fpow F b n) (o1 F)); congruence.
Qed.
Lemma neq_fast {K} (F : Fops K) (R : ring_ok F) a b : oeqb F a b = false -> a <> b.
Proof. intros E H. destruct (rk_eqb_spec F R a b); congruence. Qed.
Lemma eq_fast {K} (F : Fops K) (R : ring_ok F) a b : oeqb F a b = true -> a = b.
Proof. intros E. destruct (rk_eqb_spec F R a b); congruence. Qed.

Lemma two_nonsquare : nonresidue F13 13 2 (f13 2).
Proof.
  split; [apply (neq_fast _ F13_ring); vm_compute; reflexivity|].
  apply (fpow_fast F13 F13_ring (f13 2) 6 6 false); vm_compute; reflexivity.
Qed.
Lemma two_noncube : nonresidue F13 13 3 (f13 2).
Proof.
  split; [apply (neq_fast _ F13_ring); vm_compute; reflexivity|].
  apply (fpow_fast F13 F13_ring (f13 2) 4 4 false); vm_compute; reflexivity.
Qed.

Notation F169 := (fp2_ops F13 (f13 2)).
Lemma F169_ring : ring_ok F169.
Proof. exact (fp2_ring F13 F13_ring (f13 2)). Qed.
Definition xi : Zm 13 * Zm 13 := (f13 1, f13 2).
Lemma xi_nonsquare : nonresidue F169 (13 ^ 2) 2 xi.
Proof.
  split; [apply (neq_fast _ F169_ring); vm_compute; reflexivity|].
  apply (fpow_fast F169 F169_ring xi 84 84 false); vm_compute; reflexivity.
Qed.
Lemma xi_noncube : nonresidue F169 (13 ^ 2) 3 xi.
Proof.
  split; [apply (neq_fast _ F169_ring); vm_compute; reflexivity|].
  apply (fpow_fast F169 F169_ring xi 56 56 false); vm_compute; reflexivity.
Qed.

Notation T4 := (fp4_ops F13 (f13 2) (f13 2)).
Notation T6 := (fp6_2over3_ops F13 (f13 2) (f13 2)).
Notation T12 := (fp12_ops F13 (f13 2) xi xi).

Definition powz {K} (F : Fops K) (b : K) (e : Z) : K := power_bigint (o1 F) (omul F) b [e].
(** Subgroup elements: y^(q^2-1), y^((q^6-1)/(q^2-q+1)), y^((q^12-1)/(q^4-q^2+1))
    for generic y, different from one. *)
Definition y4 : (Zm 13 * Zm 13) * (Zm 13 * Zm 13) := ((f13 1, f13 5), (f13 3, f13 1)).
Definition c4 := powz T4 y4 168.
Lemma c4_cyc : cyclotomic4 T4 13 c4 /\ c4 <> o1 T4.
Proof.
  pose proof (fp4_ring F13 F13_ring (f13 2)) as R4. split.
  - apply (fpow_fast T4 R4 c4 170 170 true); vm_compute; reflexivity.
  - apply (neq_fast T4 R4). vm_compute. reflexivity.
Qed.
Definition y6 := ((f13 1, f13 5, f13 2), (f13 3, f13 1, f13 7)).
Definition c6 := powz T6 y6 ((13 ^ 6 - 1) / (13 ^ 2 - 13 + 1)).
Lemma c6_cyc : cyclotomic6 T6 13 c6 /\ c6 <> o1 T6.
Proof.
  pose proof (fp6_2over3_ring F13 F13_ring (f13 2)) as R6. split.
  - apply (fpow_fast T6 R6 c6 157 157 true); vm_compute; reflexivity.
  - apply (neq_fast T6 R6). vm_compute. reflexivity.
Qed.
Definition y12 := (((f13 1, f13 5), (f13 2, f13 3), (f13 0, f13 1)), ((f13 4, f13 0), (f13 7, f13 7), (f13 9, f13 1))).
Definition c12 := powz T12 y12 ((13 ^ 12 - 1) / (13 ^ 4 - 13 ^ 2 + 1)).
Lemma c12_cyc : cyclotomic12 T12 13 c12 /\ c12 <> o1 T12.
Proof.
  pose proof (fp12_ring F13 F13_ring (f13 2) xi) as R12. split.
  - apply (fpow_fast T12 R12 c12 (13 ^ 4 - 13 ^ 2 + 1) 28393 true);
      [vm_compute; reflexivity| |vm_compute; reflexivity].
    apply Nat2Z.inj. rewrite Z2Nat.id by lia. rewrite Nat2Z.inj_add, Nat2Z.inj_sub, !Nat2Z.inj_pow.
    + reflexivity.
    + apply Nat.pow_le_mono_r; lia.
  - apply (neq_fast T12 R12). vm_compute. reflexivity.
Qed.

(** The exponent 2^64 - 1: cyclotomic_exp of Fp4 and Fp6 returns x^-1. *)
Lemma fp4_cyc_refuted : exists x e y, cyclotomic4 T4 13 x /\ limbs e /\ length e = 1%nat /\
  fp4_cyclotomic_exp F13 (f13 2) (f13 2) x e = Ok y /\ y <> fpow T4 x (Z.to_nat (val e)).
Proof.
  pose proof (fp4_ring F13 F13_ring (f13 2)) as R4.
  set (e := [2 ^ 64 - 1]%Z).
  assert (L : limbs e) by (apply limbsb_iff; vm_compute; reflexivity).
  exists c4, e, (quad_unitary_inverse F169 c4).
  split; [apply c4_cyc|]. split; [exact L|]. split; [reflexivity|]. split.
  - apply (fp4_cyc_exp_all_ones F13 13 F13_base (f13 2) 3); [reflexivity|exact two_nonsquare|exact L|cbn; lia| |apply c4_cyc].
    vm_compute. reflexivity.
  - rewrite <- (power_bigint_spec _ _ (rk_monoid T4 R4) c4 e L).
    apply (neq_fast T4 R4). vm_compute. reflexivity.
Qed.
Lemma fp6_cyc_refuted : exists x e y, cyclotomic6 T6 13 x /\ limbs e /\ length e = 1%nat /\
  fp6_cyclotomic_exp F13 (f13 2) (f13 2) (f13 2) x e = Ok y /\ y <> fpow T6 x (Z.to_nat (val e)).
Proof.
  pose proof (fp6_2over3_ring F13 F13_ring (f13 2)) as R6.
  set (e := [2 ^ 64 - 1]%Z).
  assert (L : limbs e) by (apply limbsb_iff; vm_compute; reflexivity).
  exists c6, e, (quad_unitary_inverse (fp3_ops F13 (f13 2)) c6).
  split; [apply c6_cyc|]. split; [exact L|]. split; [reflexivity|]. split.
  - apply (fp6_cyc_exp_all_ones F13 13 F13_base (f13 2) 2);
      [reflexivity|exact two_nonsquare|exact two_noncube|exact L|cbn; lia| |apply c6_cyc].
    vm_compute. reflexivity.
  - rewrite <- (power_bigint_spec _ _ (rk_monoid T6 R6) c6 e L).
    apply (neq_fast T6 R6). vm_compute. reflexivity.
Qed.

(** Frobenius tables for the toy tower. *)
Definition t2_13 := [f13 1; f13 12].
Lemma t2_13_ok : frob_table F13 13 2 1 2 (f13 2) t2_13.
Proof.
  split; [reflexivity|]. intros i Hi.
  destruct i as [|[|i]]; [| |lia]; cbn [nth t2_13]; apply (eq_fast F13 F13_ring); vm_compute; reflexivity.
Qed.
(** 2^((13^i - 1)/4) for i = 0..3: 1, 8, -1, 5. *)
Definition t4_13 := [f13 1; f13 8; f13 12; f13 5].
Lemma t4_13_ok : frob_table F13 13 4 1 4 (f13 2) t4_13.
Proof.
  split; [reflexivity|]. intros i Hi.
  destruct i as [|[|[|[|i]]]]; [| | | |lia]; cbn [nth t4_13]; apply (eq_fast F13 F13_ring); vm_compute; reflexivity.
Qed.
