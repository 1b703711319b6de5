(** Inverses in extension fields in a build without assertions. *)
From Coq Require Import List Bool Ring.
From Verif Require Import Result FieldOps ExtModel NdebugModel.
Open Scope result_scope.

(** What is needed of the arithmetic at zero. *)
Record zero_laws {K} (F : Fops K) : Prop := {
  zl_mul : forall x, omul F x (o0 F) = o0 F;
  zl_add : oadd F (o0 F) (o0 F) = o0 F;
  zl_sub : osub F (o0 F) (o0 F) = o0 F;
  zl_sqr : osqr F (o0 F) = o0 F }.

(** [i] is the inverse without assertions. *)
Definition nd_inverse {K} (F : Fops K) (i : K -> result K) : Prop :=
  (forall x y, oinv F x = Ok y -> i x = Ok y) /\ i (o0 F) = UB.
Section Ring.
Context {K : Type} (F : Fops K) (R : ring_ok F).
Add Ring NTring : (rk_ring F R).
Lemma ring_zero_laws : zero_laws F.
Proof. split; intros; rewrite ?(rk_sqr F R); ring. Qed.
End Ring.

Section Quad.
Context {K : Type} (F : Fops K) (Z : zero_laws F) (mnr : K -> K) (M : mnr (o0 F) = o0 F) (i : K -> result K).
Ltac zs := repeat (rewrite ?(zl_mul F Z), ?(zl_add F Z), ?(zl_sub F Z), ?(zl_sqr F Z), ?M); reflexivity.
Lemma quad_zero_laws : zero_laws (quad_ops F mnr).
Proof.
  split; cbn; unfold quad_zero, quad_mul, quad_add, quad_sub, quad_sqr_complex; [intros [x y]| | |]; apply f_equal2; zs.
Qed.
Lemma quad_nd : nd_inverse F i -> nd_inverse (quad_ops F mnr) (oinv (quad_ops (with_inv F i) mnr)).
Proof.
  intros [A U]. split.
  - intros [a b] y. cbn. destruct (oinv F _) as [t| | | | |] eqn:E; cbn [bind]; try discriminate.
    rewrite (A _ _ E). cbn [bind]. auto.
  - cbn. rewrite !(zl_sqr F Z), M, (zl_sub F Z), U. reflexivity.
Qed.
Lemma quad_with_inv : quad_ops (with_inv F i) mnr = with_inv (quad_ops F mnr) (oinv (quad_ops (with_inv F i) mnr)).
Proof. reflexivity. Qed.
Lemma cubic_zero_laws : zero_laws (cubic_ops F mnr).
Proof.
  split; cbn; unfold cubic_zero, cubic_mul, cubic_add, cubic_sub, cubic_sqr; [intros [[x y] z]| | |]; repeat apply f_equal2; zs.
Qed.
Lemma cubic_nd : nd_inverse F i -> nd_inverse (cubic_ops F mnr) (oinv (cubic_ops (with_inv F i) mnr)).
Proof.
  intros [A U]. split.
  - intros [[a b] c] y. cbn. destruct (oinv F _) as [t| | | | |] eqn:E; cbn [bind]; try discriminate.
    rewrite (A _ _ E). cbn [bind]. auto.
  - cbn. repeat (rewrite ?(zl_sqr F Z), ?M, ?(zl_sub F Z), ?(zl_mul F Z), ?(zl_add F Z)). rewrite U. reflexivity.
Qed.
End Quad.

Section Tower.
Context {K : Type} (F : Fops K) (R : ring_ok F) (i : K -> result K) (N : nd_inverse F i).
Let Z0 : zero_laws F := ring_zero_laws F R.
Let M0 nr : omul F nr (o0 F) = o0 F := zl_mul F Z0 nr.
Lemma fp2_nd nr2 : nd_inverse (fp2_ops F nr2) (oinv (fp2_ops (with_inv F i) nr2)).
Proof. exact (quad_nd F Z0 (omul F nr2) (M0 nr2) i N). Qed.
Lemma fp3_nd nr3 : nd_inverse (fp3_ops F nr3) (oinv (fp3_ops (with_inv F i) nr3)).
Proof. exact (cubic_nd F Z0 (omul F nr3) (M0 nr3) i N). Qed.
Let Z2 nr2 : zero_laws (fp2_ops F nr2) := quad_zero_laws F Z0 (omul F nr2) (M0 nr2).
Let Z3 nr3 : zero_laws (fp3_ops F nr3) := cubic_zero_laws F Z0 (omul F nr3) (M0 nr3).
Lemma fp4_nd nr2 nr4 : nd_inverse (fp4_ops F nr2 nr4) (oinv (fp4_ops (with_inv F i) nr2 nr4)).
Proof.
  refine (quad_nd (fp2_ops F nr2) (Z2 nr2) (fp4_mnr F nr4) _ _ (fp2_nd nr2)). cbn. now rewrite M0.
Qed.
Lemma fp6_2over3_nd nr3 nr6 : nd_inverse (fp6_2over3_ops F nr3 nr6) (oinv (fp6_2over3_ops (with_inv F i) nr3 nr6)).
Proof.
  refine (quad_nd (fp3_ops F nr3) (Z3 nr3) (rot_mnr F nr6) _ _ (fp3_nd nr3)). cbn. now rewrite M0.
Qed.
Lemma fp6_3over2_nd nr2 nr6 : nd_inverse (fp6_3over2_ops F nr2 nr6) (oinv (fp6_3over2_ops (with_inv F i) nr2 nr6)).
Proof. exact (cubic_nd (fp2_ops F nr2) (Z2 nr2) (omul (fp2_ops F nr2) nr6) (zl_mul _ (Z2 nr2) nr6) _ (fp2_nd nr2)). Qed.
Lemma fp12_nd nr2 nr6 nr12 : nd_inverse (fp12_ops F nr2 nr6 nr12) (oinv (fp12_ops (with_inv F i) nr2 nr6 nr12)).
Proof.
  assert (Z6 : zero_laws (fp6_3over2_ops F nr2 nr6))
    by exact (cubic_zero_laws (fp2_ops F nr2) (Z2 nr2) (omul (fp2_ops F nr2) nr6) (zl_mul _ (Z2 nr2) nr6)).
  refine (quad_nd (fp6_3over2_ops F nr2 nr6) Z6 (rot_mnr (fp2_ops F nr2) nr12) _ _ (fp6_3over2_nd nr2 nr6)).
  change (rot_mnr (fp2_ops F nr2) nr12 (o0 (fp2_ops F nr2), o0 (fp2_ops F nr2), o0 (fp2_ops F nr2)) =
    (o0 (fp2_ops F nr2), o0 (fp2_ops F nr2), o0 (fp2_ops F nr2))).
  cbv [rot_mnr]. now rewrite (zl_mul _ (Z2 nr2)).
Qed.
Theorem tower_nd nr2 nr3 nr4 nr6 nr6' nr12 :
  nd_inverse (fp2_ops F nr2) (oinv (fp2_ops (with_inv F i) nr2)) /\
  nd_inverse (fp3_ops F nr3) (oinv (fp3_ops (with_inv F i) nr3)) /\
  nd_inverse (fp4_ops F nr2 nr4) (oinv (fp4_ops (with_inv F i) nr2 nr4)) /\
  nd_inverse (fp6_2over3_ops F nr3 nr6) (oinv (fp6_2over3_ops (with_inv F i) nr3 nr6)) /\
  nd_inverse (fp6_3over2_ops F nr2 nr6') (oinv (fp6_3over2_ops (with_inv F i) nr2 nr6')) /\
  nd_inverse (fp12_ops F nr2 nr6' nr12) (oinv (fp12_ops (with_inv F i) nr2 nr6' nr12)).
Proof.
  exact (conj (fp2_nd nr2) (conj (fp3_nd nr3) (conj (fp4_nd nr2 nr4)
    (conj (fp6_2over3_nd nr3 nr6) (conj (fp6_3over2_nd nr2 nr6') (fp12_nd nr2 nr6' nr12)))))).
Qed.
End Tower.

(** By C67_prime_zero this is what the prime field does. *)
Definition prime_inv_nd {K} (F : Fops K) (x : K) : result K := if oeqb F x (o0 F) then UB else oinv F x.
Lemma prime_inv_nd_ok {K} (F : Fops K) : field_ok F -> nd_inverse F (prime_inv_nd F).
Proof.
  intros FK. unfold prime_inv_nd. split.
  - intros x y H. destruct (oeqb F x (o0 F)) eqn:E; auto.
    apply (rk_eqb F (fk_ring F FK)) in E. subst. rewrite (fk_inv_0 F FK) in H. discriminate.
  - now rewrite (proj2 (rk_eqb F (fk_ring F FK) _ _) eq_refl).
Qed.
Theorem tower_nd_field {K} (F : Fops K) (FK : field_ok F) nr2 nr3 nr4 nr6 nr6' nr12 :
  let Fn := with_inv F (prime_inv_nd F) in
  nd_inverse (fp2_ops F nr2) (oinv (fp2_ops Fn nr2)) /\
  nd_inverse (fp3_ops F nr3) (oinv (fp3_ops Fn nr3)) /\
  nd_inverse (fp4_ops F nr2 nr4) (oinv (fp4_ops Fn nr2 nr4)) /\
  nd_inverse (fp6_2over3_ops F nr3 nr6) (oinv (fp6_2over3_ops Fn nr3 nr6)) /\
  nd_inverse (fp6_3over2_ops F nr2 nr6') (oinv (fp6_3over2_ops Fn nr2 nr6')) /\
  nd_inverse (fp12_ops F nr2 nr6' nr12) (oinv (fp12_ops Fn nr2 nr6' nr12)).
Proof. exact (tower_nd F (fk_ring F FK) (prime_inv_nd F) (prime_inv_nd_ok F FK) nr2 nr3 nr4 nr6 nr6' nr12). Qed.
