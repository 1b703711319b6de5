(** The extension-field results over prime fields. *)
From Coq Require Import ZArith Znumtheory List Bool Lia Ring Field Arith.
From Verif Require Import Result Limbs LimbsProofs Algebra NumTheory FieldOps BigintModel AlgorithmsModel AlgorithmsProofs
  WnafModel WnafProofs FpModel FpSpec FpField FpInst Examples Certs ExtModel ExtSpec ExtProofs ExtFrob ExtCyc.
Import ListNotations.

Section Euler.
Context {K : Type} (F : Fops K) (FK : field_ok F) (Q : nat).
Let R : ring_ok F := fk_ring F FK.
Let M := rk_monoid F R.
Add Ring Kre : (rk_ring F (fk_ring F FK)).
Hypothesis Hfix : forall a, fpow F a Q = a.

Lemma nonresidue_not_power r m nr : (0 < r)%nat -> (Q = 1 + r * m)%nat -> nonresidue F Q r nr ->
  forall y, fpow F y r <> nr.
Proof.
  intros Hr HQ [N0 N] y E. apply N.
  assert (Ny : y <> o0 F).
  { intros ->. apply N0. rewrite <- E. destruct r; [lia|]. cbn [npow]. ring. }
  rewrite HQ, quo_1 by auto. rewrite <- E, <- (npow_mul _ _ M).
  replace (r * m)%nat with (Q - 1)%nat by lia. apply (fix_pred F FK); auto. lia.
Qed.
Lemma nonresidue_2 m nr : (Q = 1 + 2 * m)%nat -> nonresidue F Q 2 nr ->
  fpow F nr m = oopp F (o1 F) /\ forall y, omul F y y <> nr.
Proof.
  intros HQ N. split.
  - destruct N as [N0 N]. rewrite HQ, quo_1 in N by lia.
    destruct (fk_roots_1 F FK (fpow F nr m)) as [E|E]; auto; [|contradiction].
    rewrite <- (npow_double _ _ M). replace (2 * m)%nat with (Q - 1)%nat by lia.
    apply (fix_pred F FK); auto. lia.
  - intros y. rewrite <- (npow_2 _ _ M). apply (nonresidue_not_power 2 m); auto.
Qed.
Lemma nonresidue_3 m nr : (Q = 1 + 3 * m)%nat -> nonresidue F Q 3 nr ->
  fpow F nr m <> o1 F /\ forall y, omul F y (omul F y y) <> nr.
Proof.
  intros HQ N. split.
  - destruct N as [N0 N]. now rewrite HQ, quo_1 in N by lia.
  - intros y. replace (omul F y (omul F y y)) with (fpow F y 3) by (cbn [npow]; ring).
    apply (nonresidue_not_power 3 m); auto; lia.
Qed.
End Euler.

Section Prime.
Context {K : Type} (F : Fops K) (q : nat).
Hypothesis PB : prime_base F q.
Let FK : field_ok F := pb_field F q PB.
Let R : ring_ok F := fk_ring F (pb_field F q PB).
Add Ring Krp : (rk_ring F (fk_ring F (pb_field F q PB))).
Let MF := rk_monoid F R.

(** ** C24: the towers are fields *)
Lemma fp2_is_field nr : (exists m, q = 1 + 2 * m)%nat -> nonresidue F q 2 nr -> field_ok (fp2_ops F nr).
Proof.
  intros [m Hm] N. apply fp2_field; [exact FK|].
  apply (nonresidue_2 F FK q (pb_fermat F q PB) m); auto.
Qed.
Lemma fp3_is_field nr : (exists m, q = 1 + 3 * m)%nat -> nonresidue F q 3 nr -> field_ok (fp3_ops F nr).
Proof.
  intros [m Hm] N. apply fp3_field; [exact FK|].
  apply (nonresidue_3 F FK q (pb_fermat F q PB) m); auto.
Qed.
Lemma minus_one_square m : (q = 1 + 4 * m)%nat -> forall nr, nonresidue F q 2 nr -> nonresidue F q 2 (oopp F nr).
Proof.
  intros Hm nr [N0 N]. split.
  - intros E. apply N0. replace nr with (oopp F (oopp F nr)) by ring. rewrite E. ring.
  - replace ((q - 1) / 2)%nat with (2 * m)%nat in *.
    2:{ replace (q - 1)%nat with (2 * m * 2)%nat by lia. symmetry. apply Nat.div_mul. lia. }
    rewrite (npow_mul _ _ MF) in *. replace (fpow F (oopp F nr) 2) with (fpow F nr 2) by (cbn [npow]; ring).
    exact N.
Qed.
Lemma fp4_is_field nr : (exists m, q = 1 + 4 * m)%nat -> nonresidue F q 2 nr -> field_ok (fp4_ops F nr nr).
Proof.
  intros [m Hm] N. assert (Hm2 : (q = 1 + 2 * (2 * m))%nat) by lia. apply fp4_field; [exact FK| |].
  - apply (nonresidue_2 F FK q (pb_fermat F q PB) (2 * m)); auto.
  - apply (nonresidue_2 F FK q (pb_fermat F q PB) (2 * m)); auto. now apply (minus_one_square m).
Qed.
Lemma fp6_2over3_is_field nr : (exists m, q = 1 + 6 * m)%nat -> nonresidue F q 2 nr -> nonresidue F q 3 nr ->
  field_ok (fp6_2over3_ops F nr nr).
Proof.
  intros [m Hm] N2 N3. apply fp6_2over3_field; [exact FK| |].
  - apply (nonresidue_2 F FK q (pb_fermat F q PB) (3 * m)); auto. lia.
  - apply (nonresidue_3 F FK q (pb_fermat F q PB) (2 * m)); auto. lia.
Qed.

Section Two.
Variable nr2 : K.
Notation F2 := (fp2_ops F nr2).
Variable m : nat.
Hypothesis Hm : (q = 1 + 6 * m)%nat.
Hypothesis N : nonresidue F q 2 nr2.

Lemma two_square : forall y, omul F y y <> nr2.
Proof. apply (nonresidue_2 F FK q (pb_fermat F q PB) (3 * m)); auto. lia. Qed.
Lemma two_field : field_ok F2.
Proof. apply fp2_field; [exact FK|apply two_square]. Qed.
Lemma two_fix a : fpow F2 a (q ^ 2) = a.
Proof. apply (fp2_fix F q PB); [apply two_square|]. exists (3 * m)%nat. lia. Qed.
Lemma two_quo : exists m6, (q ^ 2 = 1 + 6 * m6)%nat.
Proof. apply (pow_1_mod q 6 m 2 Hm). Qed.

Lemma fp6_3over2_is_field nr6 : nonresidue F2 (q ^ 2) 3 nr6 -> field_ok (fp6_3over2_ops F nr2 nr6).
Proof.
  intros N3. destruct two_quo as [m6 H6]. apply fp6_3over2_field; [exact FK|apply two_square|].
  apply (nonresidue_3 F2 two_field (q ^ 2) two_fix (2 * m6)); auto. lia.
Qed.
Lemma fp12_is_field nr6 : nonresidue F2 (q ^ 2) 2 nr6 -> nonresidue F2 (q ^ 2) 3 nr6 ->
  field_ok (fp12_ops F nr2 nr6 nr6).
Proof.
  intros N2 N3. destruct two_quo as [m6 H6]. apply fp12_field; [exact FK|apply two_square| |].
  - apply (nonresidue_2 F2 two_field (q ^ 2) two_fix (3 * m6)); auto. lia.
  - apply (nonresidue_3 F2 two_field (q ^ 2) two_fix (2 * m6)); auto. lia.
Qed.

(** ** C25 for Fp12 *)
Section Twelve.
Variable nr6 : K * K.
Hypothesis N2 : nonresidue F2 (q ^ 2) 2 nr6.
Hypothesis N3 : nonresidue F2 (q ^ 2) 3 nr6.
Notation F12 := (fp12_ops F nr2 nr6 nr6).

Lemma order12 : (q ^ 4 - q ^ 2 + 1 = cyc_order q 2)%nat.
Proof. unfold cyc_order. rewrite <- Nat.pow_add_r. reflexivity. Qed.

Lemma fp12_cyc_squared x : cyclotomic12 F12 q x -> fp12_cyclotomic_squared F2 nr6 x = omul F12 x x.
Proof.
  unfold cyclotomic12. rewrite order12. destruct two_quo as [m6 H6]. intros H.
  apply (cyc_squared_spec F2 two_field nr6 q 2 m6); auto using two_fix.
  - apply (pb_prime F q PB).
  - apply (quad_char F (omul F nr2) R). apply (pb_char F q PB).
  - apply (nonresidue_2 F2 two_field (q ^ 2) two_fix); auto. lia.
  - apply (nonresidue_3 F2 two_field (q ^ 2) two_fix); auto. lia.
Qed.
Lemma fp12_cyc_unitary x : cyclotomic12 F12 q x ->
  omul F12 x (quad_unitary_inverse (fp6_3over2_ops F nr2 nr6) x) = o1 F12.
Proof.
  unfold cyclotomic12. rewrite order12. destruct two_quo as [m6 H6]. intros H.
  apply (cyc_unitary F2 two_field nr6 q 2 m6); auto using two_fix.
  - apply (pb_prime F q PB).
  - apply (quad_char F (omul F nr2) R). apply (pb_char F q PB).
  - apply (nonresidue_2 F2 two_field (q ^ 2) two_fix); auto. lia.
  - apply (nonresidue_3 F2 two_field (q ^ 2) two_fix); auto. lia.
Qed.
Lemma fp12_cyc_exp x e : limbs e -> cyclotomic12 F12 q x ->
  fp12_cyclotomic_exp F nr2 nr6 nr6 x e = fpow F12 x (Z.to_nat (val e)).
Proof.
  intros L. unfold cyclotomic12. rewrite order12. destruct two_quo as [m6 H6]. intros H.
  apply (cyc_exp_bits_spec F2 two_field nr6 q 2 m6); auto using two_fix.
  - apply (pb_prime F q PB).
  - apply (quad_char F (omul F nr2) R). apply (pb_char F q PB).
  - apply (nonresidue_2 F2 two_field (q ^ 2) two_fix); auto. lia.
  - apply (nonresidue_3 F2 two_field (q ^ 2) two_fix); auto. lia.
Qed.
End Twelve.
End Two.

(** ** C25 for Fp6_2over3 *)
Section Six.
Variable nr : K.
Variable m : nat.
Hypothesis Hm : (q = 1 + 6 * m)%nat.
Hypothesis N2 : nonresidue F q 2 nr.
Hypothesis N3 : nonresidue F q 3 nr.
Notation F6 := (fp6_2over3_ops F nr nr).

Lemma order6 : (q ^ 2 - q + 1 = cyc_order q 1)%nat.
Proof. unfold cyc_order. now rewrite Nat.pow_1_r, Nat.pow_2_r. Qed.
Let H1 : (q ^ 1 = 1 + 6 * m)%nat.
Proof. now rewrite Nat.pow_1_r. Qed.
Let Hf a : fpow F a (q ^ 1) = a.
Proof. rewrite Nat.pow_1_r. apply (pb_fermat F q PB). Qed.
Let Hns : fpow F nr (3 * m) = oopp F (o1 F).
Proof. apply (nonresidue_2 F FK q (pb_fermat F q PB)); auto. lia. Qed.
Let Hnc : fpow F nr (2 * m) <> o1 F.
Proof. apply (nonresidue_3 F FK q (pb_fermat F q PB)); auto. lia. Qed.

Lemma fp6_cyc_squared x : cyclotomic6 F6 q x -> fp6_cyclotomic_squared F nr nr x = omul F6 x x.
Proof.
  unfold cyclotomic6. rewrite order6, fp6_fp12_cyclotomic. intros H.
  apply (cyc_squared_spec F FK nr q 1 m); auto; [apply (pb_prime F q PB)|apply (pb_char F q PB)].
Qed.
Lemma fp6_cyc_unitary x : cyclotomic6 F6 q x -> omul F6 x (quad_unitary_inverse (fp3_ops F nr) x) = o1 F6.
Proof.
  unfold cyclotomic6. rewrite order6. intros H.
  apply (cyc_unitary F FK nr q 1 m); auto; [apply (pb_prime F q PB)|apply (pb_char F q PB)].
Qed.
Lemma fp6_cyc_exp x e : limbs e -> (1 <= length e)%nat -> (val e <> Bn (length e) - 1)%Z ->
  cyclotomic6 F6 q x -> fp6_cyclotomic_exp F nr nr nr x e = Ok (fpow F6 x (Z.to_nat (val e))).
Proof.
  intros L Ln V. unfold cyclotomic6. rewrite order6. intros H.
  apply (cyc_exp_naf_spec F FK nr q 1 m); auto using fp6_fp12_cyclotomic;
    [apply (pb_prime F q PB)|apply (pb_char F q PB)].
Qed.
Lemma fp6_cyc_exp_all_ones x e : limbs e -> (1 <= length e)%nat -> (val e = Bn (length e) - 1)%Z ->
  cyclotomic6 F6 q x -> fp6_cyclotomic_exp F nr nr nr x e = Ok (quad_unitary_inverse (fp3_ops F nr) x).
Proof.
  intros L Ln V. unfold cyclotomic6. rewrite order6. intros H.
  apply (cyc_exp_naf_all_ones F FK nr q 1 m); auto using fp6_fp12_cyclotomic;
    [apply (pb_prime F q PB)|apply (pb_char F q PB)].
Qed.
End Six.

(** ** C25 for Fp4 *)
Section Four.
Variable nr : K.
Variable m : nat.
Hypothesis Hm : (q = 1 + 4 * m)%nat.
Hypothesis N2 : nonresidue F q 2 nr.
Notation F2 := (fp2_ops F nr).
Notation F4 := (fp4_ops F nr nr).
Let R2 : ring_ok F2 := fp2_ring F R nr.
Add Ring Kr2x : (rk_ring F2 (fp2_ring F (fk_ring F (pb_field F q PB)) nr)).

Lemma cyc4_norm x : cyclotomic4 F4 q x -> quad_norm F2 (quad_u F) x = o1 F2.
Proof.
  unfold cyclotomic4. intros H.
  assert (Hm2 : (q = 1 + 2 * (2 * m))%nat) by lia.
  destruct (nonresidue_2 F FK q (pb_fermat F q PB) (2 * m) nr Hm2 N2) as [Hns Hsq].
  assert (Hc2 : fnmul F2 (o1 F2) q = o0 F2) by (apply (quad_char F (omul F nr) R); apply (pb_char F q PB)).
  assert (E2 : fpow F4 x (q ^ 2) = quad_unitary_inverse F2 x).
  { destruct x as [a b]. unfold fp4_ops.
    rewrite (quad_frob F2 _ (quad_u F) R2 (fp4_mnr_spec F R nr) q 2 (2 * (2 * m * (1 + 2 * m))));
      [|apply (pb_prime F q PB)|exact Hc2|].
    2:{ rewrite Hm. cbn [Nat.pow]. ring. }
    rewrite !(fp2_fix F q PB) by (auto; exists (2 * m)%nat; lia).
    cbn [quad_unitary_inverse]. f_equal.
    unfold fp2_ops at 2. rewrite (quad_u_pow F (omul F nr) nr R (fun _ => eq_refl)).
    assert (E : fpow F nr (2 * m * (1 + 2 * m)) = oopp F (o1 F)).
    { rewrite (npow_mul _ _ MF), Hns, (npow_add _ _ MF), (npow_mul _ _ MF).
      rewrite (npow_1 _ _ MF), (npow_2 _ _ MF), (rk_m1_sqr F R), (npow_one _ _ MF). ring. }
    rewrite E. destruct b as [b0 b1]. cbn. f_equal; ring. }
  rewrite Nat.add_1_r in H. cbn [npow] in H. rewrite E2 in H.
  rewrite (quad_norm_conj F2 _ (quad_u F) R2 (fp4_mnr_spec F R nr)) in H.
  change (o1 F4) with (o1 F2, o0 F2) in H. now inversion H.
Qed.
Lemma fp4_cyc_squared x : cyclotomic4 F4 q x -> fp4_cyclotomic_squared F nr nr x = omul F4 x x.
Proof. intros H. apply (fp4_cyclotomic_squared_spec F R). now apply cyc4_norm. Qed.
Lemma fp4_cyc_unitary x : cyclotomic4 F4 q x -> omul F4 x (quad_unitary_inverse F2 x) = o1 F4.
Proof. intros H. apply (fp4_unitary F R). now apply cyc4_norm. Qed.
Lemma fp4_cyc_exp x e : limbs e -> (1 <= length e)%nat -> (val e <> Bn (length e) - 1)%Z ->
  cyclotomic4 F4 q x -> fp4_cyclotomic_exp F nr nr x e = Ok (fpow F4 x (Z.to_nat (val e))).
Proof. intros L Ln V H. apply (fp4_cyclotomic_exp_spec F R); auto. now apply cyc4_norm. Qed.
Lemma fp4_cyc_exp_all_ones x e : limbs e -> (1 <= length e)%nat -> (val e = Bn (length e) - 1)%Z ->
  cyclotomic4 F4 q x -> fp4_cyclotomic_exp F nr nr x e = Ok (quad_unitary_inverse F2 x).
Proof. intros L Ln V H. apply (fp4_cyclotomic_exp_all_ones F R); auto. now apply cyc4_norm. Qed.
End Four.
End Prime.

(** The prime fields of the model. *)
Lemma fp_prime_base P OK OKI : prime_base (fp_ops P OK OKI) (Z.to_nat (val (fp_modulus P))).
Proof.
  pose proof (oki_prime P OKI) as Hp. assert (1 < val (fp_modulus P))%Z by (destruct Hp; lia).
  constructor.
  - apply fp_ops_field.
  - now rewrite Z2Nat.id by lia.
  - apply fp_char.
  - intros a. destruct (rk_dec _ (fp_ops_ring P OK OKI) a (o0 (fp_ops P OK OKI))) as [->|N].
    + destruct (Z.to_nat (val (fp_modulus P))) as [|k] eqn:E; [lia|]. cbn [npow].
      apply (rk_mul_0_l _ (fp_ops_ring P OK OKI)).
    + replace (Z.to_nat (val (fp_modulus P))) with (S (Z.to_nat (val (fp_modulus P) - 1))) by lia.
      cbn [npow]. rewrite fp_order by auto.
      apply (ml_1_r _ _ (rk_monoid _ (fp_ops_ring P OK OKI))).
Qed.
