(** The interface every libff field type provides to generic code
    (templates parameterised by FieldT), as a record of operations, and what
    it means for such a type to be a commutative ring or a field. *)
From Coq Require Import ZArith List Bool Ring_theory Field_theory Ring Field.
From Verif Require Import Result Algebra.

(** [zero(), one(), +, -, *, unary -, squared(), inverse(), ==]; inverse()
    asserts that its argument is not zero. *)
Record Fops (K : Type) : Type := mkFops {
  o0 : K;
  o1 : K;
  oadd : K -> K -> K;
  osub : K -> K -> K;
  omul : K -> K -> K;
  oopp : K -> K;
  osqr : K -> K;
  oinv : K -> result K;
  oeqb : K -> K -> bool
}.
Arguments mkFops {K}.
Arguments o0 {K}. Arguments o1 {K}. Arguments oadd {K}. Arguments osub {K}. Arguments omul {K}.
Arguments oopp {K}. Arguments osqr {K}. Arguments oinv {K}. Arguments oeqb {K}.

(** Powers, multiples. *)
Notation fpow F := (npow (o1 F) (omul F)).
Notation fnmul F := (npow (o0 F) (oadd F)).

Record ring_ok {K} (F : Fops K) : Prop := {
  rk_ring : ring_theory (o0 F) (o1 F) (oadd F) (omul F) (osub F) (oopp F) eq;
  rk_eqb : forall x y, oeqb F x y = true <-> x = y;
  rk_sqr : forall x, osqr F x = omul F x x
}.

Record field_ok {K} (F : Fops K) : Prop := {
  fk_ring : ring_ok F;
  fk_1_neq_0 : o1 F <> o0 F;
  fk_inv : forall x, x <> o0 F -> exists y, oinv F x = Ok y /\ omul F x y = o1 F;
  fk_inv_0 : oinv F (o0 F) = AssertFail
}.

(** inverse made total, for the [field] tactic. *)
Definition tinv {K} (F : Fops K) (x : K) : K := get_ok (o0 F) (oinv F x).
Definition tdiv {K} (F : Fops K) (x y : K) : K := omul F x (tinv F y).

Section Laws.
Context {K : Type} (F : Fops K).
Hypothesis R : ring_ok F.
Add Ring Fring : (rk_ring F R).

Lemma rk_monoid : monoid_laws (o1 F) (omul F).
Proof. constructor; intros; ring. Qed.
Lemma rk_add_monoid : monoid_laws (o0 F) (oadd F).
Proof. constructor; intros; ring. Qed.
Lemma rk_mul_comm x y : omul F x y = omul F y x. Proof. ring. Qed.
Lemma rk_add_comm x y : oadd F x y = oadd F y x. Proof. ring. Qed.
Lemma rk_mul_0_l x : omul F (o0 F) x = o0 F. Proof. ring. Qed.
Lemma rk_m1_sqr : omul F (oopp F (o1 F)) (oopp F (o1 F)) = o1 F. Proof. ring. Qed.
Lemma rk_m1_1 : oadd F (o1 F) (o1 F) = o0 F -> oopp F (o1 F) = o1 F.
Proof. intros E. replace (o1 F) with (osub F (oadd F (o1 F) (o1 F)) (o1 F)) at 2 by ring. rewrite E. ring. Qed.
Lemma rk_eqb_refl x : oeqb F x x = true. Proof. now apply (rk_eqb F R). Qed.
Lemma rk_eqb_neq x y : oeqb F x y = false <-> x <> y.
Proof.
  rewrite <- (rk_eqb F R x y). destruct (oeqb F x y); split; congruence.
Qed.
Lemma rk_eqb_spec x y : reflect (x = y) (oeqb F x y).
Proof. apply iff_reflect. symmetry. apply (rk_eqb F R). Qed.
Lemma rk_dec (x y : K) : {x = y} + {x <> y}.
Proof. destruct (rk_eqb_spec x y); auto. Qed.
Lemma rk_sub_0 x y : osub F x y = o0 F <-> x = y.
Proof.
  split; [|intros ->; ring]. intros H.
  replace x with (oadd F (osub F x y) y) by ring. rewrite H. ring.
Qed.
End Laws.

Section FieldLaws.
Context {K : Type} (F : Fops K).
Hypothesis FK : field_ok F.
Let R := fk_ring F FK.
Add Ring Fring2 : (rk_ring F (fk_ring F FK)).

Lemma tinv_spec x : x <> o0 F -> oinv F x = Ok (tinv F x) /\ omul F (tinv F x) x = o1 F.
Proof.
  intros N. destruct (fk_inv F FK x N) as (y & E & M). unfold tinv. rewrite E. cbn.
  split; auto. rewrite <- M. ring.
Qed.

Lemma fk_field : field_theory (o0 F) (o1 F) (oadd F) (omul F) (osub F) (oopp F) (tdiv F) (tinv F) eq.
Proof.
  constructor.
  - exact (rk_ring F R).
  - apply (fk_1_neq_0 F FK).
  - reflexivity.
  - intros x N. now apply tinv_spec.
Qed.

Lemma fk_mul_0 x y : omul F x y = o0 F -> x = o0 F \/ y = o0 F.
Proof.
  intros H. destruct (rk_dec F R x (o0 F)) as [|N]; auto. right.
  destruct (tinv_spec x N) as [_ I].
  replace y with (omul F (tinv F x) (omul F x y)).
  - rewrite H. ring.
  - transitivity (omul F (omul F (tinv F x) x) y); [ring|]. rewrite I. ring.
Qed.
Lemma fk_mul_neq_0 x y : x <> o0 F -> y <> o0 F -> omul F x y <> o0 F.
Proof. intros Hx Hy H. apply fk_mul_0 in H. tauto. Qed.
Lemma fk_mul_cancel x y z : z <> o0 F -> omul F x z = omul F y z -> x = y.
Proof.
  intros N H. apply (rk_sub_0 F R). destruct (fk_mul_0 (osub F x y) z) as [E|E]; auto; [|contradiction].
  replace (omul F (osub F x y) z) with (osub F (omul F x z) (omul F y z)) by ring.
  rewrite H. ring.
Qed.
Lemma fk_pow_neq_0 x n : x <> o0 F -> fpow F x n <> o0 F.
Proof.
  intros N. induction n; cbn [npow]; [apply (fk_1_neq_0 F FK)|now apply fk_mul_neq_0].
Qed.
(** The square roots of 1. *)
Lemma fk_roots_1 x : omul F x x = o1 F -> x = o1 F \/ x = oopp F (o1 F).
Proof.
  intros H. destruct (fk_mul_0 (osub F x (o1 F)) (oadd F x (o1 F))) as [E|E].
  - replace (omul F (osub F x (o1 F)) (oadd F x (o1 F))) with (osub F (omul F x x) (o1 F)) by ring.
    rewrite H. ring.
  - left. now apply (rk_sub_0 F R).
  - right. apply (rk_sub_0 F R). rewrite <- E. ring.
Qed.
Lemma fk_sqr_eq x y : omul F x x = omul F y y -> x = y \/ x = oopp F y.
Proof.
  intros H. destruct (fk_mul_0 (osub F x y) (oadd F x y)) as [E|E].
  - replace (omul F (osub F x y) (oadd F x y)) with (osub F (omul F x x) (omul F y y)) by ring.
    rewrite H. ring.
  - left. now apply (rk_sub_0 F R).
  - right. apply (rk_sub_0 F R). rewrite <- E. ring.
Qed.
Lemma fk_m1_neq_1 : oadd F (o1 F) (o1 F) <> o0 F -> oopp F (o1 F) <> o1 F.
Proof.
  intros N E. apply N. rewrite <- E at 1. ring.
Qed.
End FieldLaws.
