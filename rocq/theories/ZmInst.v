(** Z/p with plain residues as a second instance of the field interface, used
    for the concrete examples (cheaper to evaluate than Montgomery form). *)
From Coq Require Import ZArith Znumtheory List Bool Lia Arith.
From Verif Require Import Result Algebra NumTheory FieldOps ExtFrob.
Import ListNotations.
Open Scope Z_scope.

Section ZmOps.
Variable m : Z.
Hypothesis Hm : 1 < m.

Definition zm_inv (x : Zm m) : result (Zm m) :=
  if zval m x =? 0 then AssertFail else Ok (npow (mkzm m Hm 1) (zmul m Hm) x (Z.to_nat (m - 2))).
Definition zm_ops : Fops (Zm m) :=
  mkFops (mkzm m Hm 0) (mkzm m Hm 1) (zadd m Hm) (zsub m Hm) (zmul m Hm) (zopp m Hm)
    (fun x => zmul m Hm x x) zm_inv (fun x y => zval m x =? zval m y).

Lemma zm_ops_ring : ring_ok zm_ops.
Proof.
  constructor.
  - exact (zm_ring m Hm).
  - intros x y. cbn. rewrite Z.eqb_eq. split; [apply zval_inj|now intros ->].
  - reflexivity.
Qed.
Lemma zm_fpow x n : fpow zm_ops x n = mkzm m Hm (zval m x ^ Z.of_nat n).
Proof. rewrite <- (mkzm_zval m Hm x) at 1. apply (zm_npow m Hm). Qed.

Hypothesis Hp : prime m.
Lemma zm_zero x : x <> o0 zm_ops -> zval m x mod m <> 0.
Proof.
  intros N E. apply N. apply zval_inj. rewrite (zval_mod m) in E. rewrite E. symmetry. apply Z.mod_0_l. lia.
Qed.
Lemma zm_ops_field : field_ok zm_ops.
Proof.
  constructor.
  - exact zm_ops_ring.
  - intros E. apply (f_equal (zval m)) in E. cbn [zm_ops o0 o1] in E.
    rewrite !zval_mk, Z.mod_0_l, Z.mod_small in E by lia. lia.
  - intros x N. pose proof (zm_zero x N) as Z0. exists (fpow zm_ops x (Z.to_nat (m - 2))). split.
    + cbn. unfold zm_inv. destruct (Z.eqb_spec (zval m x) 0) as [E|E]; [|reflexivity].
      exfalso. apply Z0. rewrite E. apply Z.mod_0_l. lia.
    + change (omul zm_ops x (fpow zm_ops x (Z.to_nat (m - 2)))) with (fpow zm_ops x (S (Z.to_nat (m - 2)))).
      rewrite zm_fpow. cbn [zm_ops o1]. apply mkzm_eq.
      rewrite Nat2Z.inj_succ, Z2Nat.id by lia. replace (Z.succ (m - 2)) with (m - 1) by lia.
      rewrite (fermat_pred m _ Hp Z0). symmetry. apply Z.mod_small. lia.
  - cbn [zm_ops oinv o0]. unfold zm_inv. rewrite zval_mk, Z.mod_0_l by lia. reflexivity.
Qed.
Lemma zm_prime_base : prime_base zm_ops (Z.to_nat m).
Proof.
  constructor.
  - exact zm_ops_field.
  - now rewrite Z2Nat.id by lia.
  - etransitivity; [apply (zm_nmul m Hm)|]. cbn [zm_ops o0]. apply mkzm_eq.
    rewrite Z2Nat.id, Z.mul_1_r, Z.mod_same, Z.mod_0_l by lia. reflexivity.
  - intros a. rewrite zm_fpow, Z2Nat.id by lia. rewrite <- (mkzm_zval m Hm a) at 2.
    apply mkzm_eq. now apply fermat.
Qed.
End ZmOps.
