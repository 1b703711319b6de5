(** The extension fields are the quotient rings they stand for. *)
From Coq Require Import ZArith List Bool Lia Ring Field.
From Verif Require Import Result Algebra FieldOps ExtModel ExtSpec.
Import ListNotations.

Section Quad.
Context {K : Type} (F : Fops K) (mnr : K -> K) (nr : K).
Hypothesis R : ring_ok F.
Hypothesis Hmnr : forall x, mnr x = omul F nr x.
Add Ring Kr : (rk_ring F R).
Notation Q := (quad_ops F mnr).

Lemma quad_mul_spec x y : coeffs2 (omul Q x y) = quot_mul F 2 nr (coeffs2 x) (coeffs2 y).
Proof.
  destruct x as [a b], y as [A B].
  cbn [omul quad_ops quad_mul coeffs2 quot_mul map seq poly_mul_coeff conv nth Nat.sub Nat.add].
  unfold poly_mul_coeff. cbn [conv nth Nat.sub Nat.add]. rewrite Hmnr. f_equal; [ring|]. f_equal. ring.
Qed.
Lemma quad_karatsuba_spec x : quad_sqr_karatsuba F mnr x = omul Q x x.
Proof.
  destruct x as [a b]. cbn [omul quad_ops quad_mul quad_sqr_karatsuba]. rewrite !Hmnr, !(rk_sqr F R).
  f_equal; ring.
Qed.
Lemma quad_complex_spec x : quad_sqr_complex F mnr x = omul Q x x.
Proof.
  destruct x as [a b]. cbn [omul quad_ops quad_mul quad_sqr_complex]. rewrite !Hmnr. f_equal; ring.
Qed.

Lemma quad_ring : ring_ok Q.
Proof.
  constructor.
  - constructor; repeat intros [? ?]; cbn; unfold quad_zero, quad_one; cbn; rewrite ?Hmnr; f_equal; ring.
  - intros [a b] [c d]. cbn. rewrite andb_true_iff, !(rk_eqb F R). split; [intros [-> ->]; auto|].
    intros H. now inversion H.
  - apply quad_complex_spec.
Qed.

(** The norm down to the base. *)
Definition quad_norm (x : K * K) : K := let '(a, b) := x in osub F (omul F a a) (omul F nr (omul F b b)).
Lemma quad_norm_mul x y : quad_norm (omul Q x y) = omul F (quad_norm x) (quad_norm y).
Proof. destruct x as [a b], y as [A B]. cbn. rewrite Hmnr. ring. Qed.
Lemma quad_norm_conj x : omul Q x (quad_unitary_inverse F x) = (quad_norm x, o0 F).
Proof. destruct x as [a b]. cbn. rewrite Hmnr. f_equal; ring. Qed.
Lemma quad_unitary_spec x : quad_norm x = o1 F -> omul Q x (quad_unitary_inverse F x) = o1 Q.
Proof. intros H. rewrite quad_norm_conj, H. reflexivity. Qed.

(** inverse() succeeds exactly when the norm can be inverted. *)
Lemma quad_inv_spec x t : oinv F (quad_norm x) = Ok t -> omul F (quad_norm x) t = o1 F ->
  exists y, oinv Q x = Ok y /\ omul Q x y = o1 Q.
Proof.
  destruct x as [a b]. cbn [quad_norm]. intros E H.
  exists (omul F a t, oopp F (omul F b t)). cbn [oinv quad_ops quad_inv].
  rewrite !(rk_sqr F R), Hmnr, E. split; [reflexivity|].
  cbn [o1 quad_ops quad_one omul quad_mul]. unfold quad_one. rewrite Hmnr. f_equal; [|ring].
  rewrite <- H. ring.
Qed.
Lemma quad_inv_fail x : quad_norm x = o0 F -> oinv F (o0 F) = AssertFail -> oinv Q x = AssertFail.
Proof.
  destruct x as [a b]. cbn [quad_norm]. intros E H. cbn [oinv quad_ops quad_inv].
  rewrite !(rk_sqr F R), Hmnr, E, H. reflexivity.
Qed.

Section Field.
Hypothesis FK : field_ok F.
Add Field Kf : (fk_field F FK).
Hypothesis nonsquare : forall y, omul F y y <> nr.

Lemma quad_norm_0 x : quad_norm x = o0 F -> x = o0 Q.
Proof.
  destruct x as [a b]. cbn [quad_norm]. intros H.
  assert (E : omul F a a = omul F nr (omul F b b)) by now apply (rk_sub_0 F R).
  destruct (rk_dec F R b (o0 F)) as [->|Nb].
  - cbn. unfold quad_zero. f_equal. assert (omul F a a = o0 F) as H0 by (rewrite E; ring).
    apply (fk_mul_0 F FK) in H0. tauto.
  - exfalso. apply (nonsquare (tdiv F a b)). apply (fk_mul_cancel F FK _ _ (omul F b b)).
    { now apply (fk_mul_neq_0 F FK). }
    rewrite <- E. field. exact Nb.
Qed.

Lemma quad_field : field_ok Q.
Proof.
  constructor.
  - exact quad_ring.
  - cbn. unfold quad_one, quad_zero. intros H. inversion H. now apply (fk_1_neq_0 F FK).
  - intros x N. assert (Nn : quad_norm x <> o0 F) by (intros E; now apply quad_norm_0 in E).
    destruct (fk_inv F FK _ Nn) as (t & E & M). now apply (quad_inv_spec x t).
  - apply quad_inv_fail; [|apply (fk_inv_0 F FK)]. cbn. ring.
Qed.
End Field.

(** The base field inside, and the generator: u^2 = nr, x = a + b u. *)
Definition quad_emb (a : K) : K * K := (a, o0 F).
Definition quad_u : K * K := (o0 F, o1 F).
Lemma quad_u_sqr : omul Q quad_u quad_u = quad_emb nr.
Proof. cbn. unfold quad_emb. rewrite Hmnr. f_equal; ring. Qed.
Lemma quad_basis x : x = oadd Q (quad_emb (fst x)) (omul Q (quad_emb (snd x)) quad_u).
Proof. destruct x as [a b]. cbn. rewrite Hmnr. f_equal; ring. Qed.
Lemma quad_emb_mul a b : quad_emb (omul F a b) = omul Q (quad_emb a) (quad_emb b).
Proof. cbn. unfold quad_emb. rewrite Hmnr. f_equal; ring. Qed.
Lemma quad_emb_add a b : quad_emb (oadd F a b) = oadd Q (quad_emb a) (quad_emb b).
Proof. cbn. unfold quad_emb. f_equal; ring. Qed.
Lemma quad_scale_spec s x : quad_scale (omul F) s x = omul Q (quad_emb s) x.
Proof. destruct x as [a b]. cbn. rewrite Hmnr. f_equal; ring. Qed.
End Quad.

Section Cubic.
Context {K : Type} (F : Fops K) (mnr : K -> K) (nr : K).
Hypothesis R : ring_ok F.
Hypothesis Hmnr : forall x, mnr x = omul F nr x.
Add Ring Kr3 : (rk_ring F R).
Notation C := (cubic_ops F mnr).

Lemma cubic_mul_spec x y : coeffs3 (omul C x y) = quot_mul F 3 nr (coeffs3 x) (coeffs3 y).
Proof.
  destruct x as [[a b] c], y as [[A B] C].
  cbn [omul cubic_ops cubic_mul coeffs3 quot_mul map seq].
  unfold poly_mul_coeff. cbn [conv nth Nat.sub Nat.add]. rewrite !Hmnr.
  f_equal; [ring|]. f_equal; [ring|]. f_equal. ring.
Qed.
Lemma cubic_sqr_spec x : cubic_sqr F mnr x = omul C x x.
Proof.
  destruct x as [[a b] c]. cbn [omul cubic_ops cubic_mul cubic_sqr]. rewrite !Hmnr, !(rk_sqr F R).
  f_equal; [f_equal|]; ring.
Qed.

Lemma cubic_ring : ring_ok C.
Proof.
  constructor.
  - constructor; repeat intros [[? ?] ?]; cbn; unfold cubic_zero, cubic_one; cbn; rewrite ?Hmnr;
      (f_equal; [f_equal|]; ring).
  - intros [[a b] c] [[d e] f]. cbn. rewrite !andb_true_iff, !(rk_eqb F R).
    split; [intros [[-> ->] ->]; auto|]. intros H. now inversion H.
  - apply cubic_sqr_spec.
Qed.

Notation "x + y" := (oadd F x y). Notation "x - y" := (osub F x y). Notation "x * y" := (omul F x y).
Definition cubic_norm (x : K * K * K) : K :=
  let '(a, b, c) := x in
  a * (a * a - nr * (b * c)) + nr * (c * (nr * (c * c) - a * b) + b * (b * b - a * c)).
Lemma cubic_norm_mul x y : cubic_norm (omul C x y) = cubic_norm x * cubic_norm y.
Proof. destruct x as [[a b] c], y as [[A B] C]. cbn. rewrite !Hmnr. ring. Qed.

Lemma cubic_inv_spec x t : oinv F (cubic_norm x) = Ok t -> cubic_norm x * t = o1 F ->
  exists y, oinv C x = Ok y /\ omul C x y = o1 C.
Proof.
  destruct x as [[a b] c]. cbn [cubic_norm]. intros E H.
  eexists. cbn [oinv cubic_ops cubic_inv].
  rewrite !(rk_sqr F R), !Hmnr, E. split; [reflexivity|].
  cbn [o1 cubic_ops cubic_one omul cubic_mul]. unfold cubic_one. rewrite !Hmnr.
  f_equal; [|ring]. f_equal; [|ring]. rewrite <- H. ring.
Qed.
Lemma cubic_inv_fail x : cubic_norm x = o0 F -> oinv F (o0 F) = AssertFail -> oinv C x = AssertFail.
Proof.
  destruct x as [[a b] c]. cbn [cubic_norm]. intros E H. cbn [oinv cubic_ops cubic_inv].
  rewrite !(rk_sqr F R), !Hmnr, E, H. reflexivity.
Qed.

Section Field.
Hypothesis FK : field_ok F.
Add Field Kf3 : (fk_field F FK).
Hypothesis noncube : forall y, y * (y * y) <> nr.

Lemma cube_0 x : x * (x * x) = o0 F -> x = o0 F.
Proof.
  intros H. apply (fk_mul_0 F FK) in H. destruct H as [|H]; auto. apply (fk_mul_0 F FK) in H. tauto.
Qed.
(** x^3 = nr y^3 only for x = y = 0. *)
Lemma cube_ratio x y : x * (x * x) = nr * (y * (y * y)) -> x = o0 F /\ y = o0 F.
Proof.
  intros H. destruct (rk_dec F R y (o0 F)) as [->|N].
  - split; auto. apply cube_0. rewrite H. ring.
  - exfalso. apply (noncube (tdiv F x y)). apply (fk_mul_cancel F FK _ _ (y * (y * y))).
    { apply (fk_mul_neq_0 F FK); auto. now apply (fk_mul_neq_0 F FK). }
    rewrite <- H. field. exact N.
Qed.

Lemma cubic_norm_0 x : cubic_norm x = o0 F -> x = o0 C.
Proof.
  destruct x as [[a b] c]. intros H.
  set (c1 := nr * (c * c) - a * b). set (c2 := b * b - a * c).
  assert (E : c1 * (c1 * c1) = nr * (c2 * (c2 * c2))).
  { apply (rk_sub_0 F R).
    replace (c1 * (c1 * c1) - nr * (c2 * (c2 * c2))) with
      ((nr * (c * (c * c)) - b * (b * b)) * cubic_norm (a, b, c))
      by (unfold c1, c2; cbn [cubic_norm]; ring).
    rewrite H. ring. }
  apply cube_ratio in E as [E1 E2]. unfold c1, c2 in *.
  apply (proj1 (rk_sub_0 F R _ _)) in E1, E2.
  assert (E : b * (b * b) = nr * (c * (c * c))).
  { rewrite E2. transitivity ((a * b) * c); [ring|]. rewrite <- E1. ring. }
  apply cube_ratio in E as [-> ->]. cbn. unfold cubic_zero. f_equal. f_equal.
  apply cube_0. rewrite <- H. cbn [cubic_norm]. ring.
Qed.

Lemma cubic_field : field_ok C.
Proof.
  constructor.
  - exact cubic_ring.
  - cbn. unfold cubic_one, cubic_zero. intros H. inversion H. now apply (fk_1_neq_0 F FK).
  - intros x N. assert (Nn : cubic_norm x <> o0 F) by (intros E; now apply cubic_norm_0 in E).
    destruct (fk_inv F FK _ Nn) as (t & E & M). now apply (cubic_inv_spec x t).
  - apply cubic_inv_fail; [|apply (fk_inv_0 F FK)]. cbn. ring.
Qed.
End Field.

Definition cubic_emb (a : K) : K * K * K := (a, o0 F, o0 F).
Definition cubic_u : K * K * K := (o0 F, o1 F, o0 F).
Lemma cubic_u_cube : omul C cubic_u (omul C cubic_u cubic_u) = cubic_emb nr.
Proof. cbn. unfold cubic_emb. rewrite !Hmnr. f_equal; [f_equal|]; ring. Qed.
Lemma cubic_basis x : let '(a, b, c) := x in
  x = oadd C (cubic_emb a) (oadd C (omul C (cubic_emb b) cubic_u) (omul C (cubic_emb c) (omul C cubic_u cubic_u))).
Proof. destruct x as [[a b] c]. cbn. rewrite !Hmnr. f_equal; [f_equal|]; ring. Qed.
Lemma cubic_emb_mul a b : cubic_emb (a * b) = omul C (cubic_emb a) (cubic_emb b).
Proof. cbn. unfold cubic_emb. rewrite !Hmnr. f_equal; [f_equal|]; ring. Qed.
Lemma cubic_emb_add a b : cubic_emb (a + b) = oadd C (cubic_emb a) (cubic_emb b).
Proof. cbn. unfold cubic_emb. f_equal; [f_equal|]; ring. Qed.
Lemma cubic_scale_spec s x : cubic_scale (omul F) s x = omul C (cubic_emb s) x.
Proof. destruct x as [[a b] c]. cbn. rewrite !Hmnr. f_equal; [f_equal|]; ring. Qed.
End Cubic.

(** ** The towers: mul_by_non_residue is multiplication by the generator below. *)
Section Towers.
Context {K : Type} (F : Fops K) (R : ring_ok F).
Add Ring Krt : (rk_ring F R).

Lemma fp2_ring nr : ring_ok (fp2_ops F nr).
Proof. now apply (quad_ring F (omul F nr) nr). Qed.
Lemma fp3_ring nr : ring_ok (fp3_ops F nr).
Proof. now apply (cubic_ring F (omul F nr) nr). Qed.

Lemma fp4_mnr_spec nr x : fp4_mnr F nr x = omul (fp2_ops F nr) (quad_u F) x.
Proof. destruct x as [a b]. cbn. f_equal; ring. Qed.
Lemma rot_mnr_spec nr x : rot_mnr F nr x = omul (fp3_ops F nr) (cubic_u F) x.
Proof. destruct x as [[a b] c]. cbn. f_equal; [f_equal|]; ring. Qed.

Lemma fp4_ring nr : ring_ok (fp4_ops F nr nr).
Proof. apply (quad_ring _ _ (quad_u F)); [apply fp2_ring|apply fp4_mnr_spec]. Qed.
Lemma fp6_2over3_ring nr : ring_ok (fp6_2over3_ops F nr nr).
Proof. apply (quad_ring _ _ (cubic_u F)); [apply fp3_ring|apply rot_mnr_spec]. Qed.
End Towers.

Section Towers2.
Context {K : Type} (F : Fops K) (R : ring_ok F).
Lemma fp6_3over2_ring nr2 nr6 : ring_ok (fp6_3over2_ops F nr2 nr6).
Proof. apply fp3_ring. now apply fp2_ring. Qed.
Lemma fp12_ring nr2 nr6 : ring_ok (fp12_ops F nr2 nr6 nr6).
Proof. exact (fp6_2over3_ring (fp2_ops F nr2) (fp2_ring F R nr2) nr6). Qed.
End Towers2.

(** ** Fields *)
Section Fields.
Context {K : Type} (F : Fops K) (FK : field_ok F).
Let R := fk_ring F FK.
Add Ring Krf : (rk_ring F (fk_ring F FK)).
Add Field Kff : (fk_field F FK).

Lemma fp2_field nr : (forall y, omul F y y <> nr) -> field_ok (fp2_ops F nr).
Proof. now apply quad_field. Qed.
Lemma fp3_field nr : (forall y, omul F y (omul F y y) <> nr) -> field_ok (fp3_ops F nr).
Proof. now apply cubic_field. Qed.

(** u is a non-square of Fp2 when -nr is a non-square of Fp. *)
Lemma fp4_nonsquare nr : (forall y, omul F y y <> oopp F nr) ->
  forall y, omul (fp2_ops F nr) y y <> quad_u F.
Proof.
  intros N [a b] H. cbn in H. unfold quad_u in H. injection H as H1 H2.
  assert (Nb : b <> o0 F).
  { intros ->. apply (fk_1_neq_0 F FK). rewrite <- H2. ring. }
  apply (N (tdiv F a b)). apply (fk_mul_cancel F FK _ _ (omul F b b)); [now apply (fk_mul_neq_0 F FK)|].
  transitivity (omul F a a); [field; exact Nb|].
  apply (rk_sub_0 F R). rewrite <- H1. ring.
Qed.
Lemma fp4_field nr : (forall y, omul F y y <> nr) -> (forall y, omul F y y <> oopp F nr) ->
  field_ok (fp4_ops F nr nr).
Proof.
  intros N1 N2. apply (quad_field _ _ (quad_u F)).
  - apply fp2_ring. exact R.
  - apply fp4_mnr_spec. exact R.
  - now apply fp2_field.
  - now apply fp4_nonsquare.
Qed.

(** X is a non-square of Fp3 when nr is a non-square of Fp. *)
Lemma fp6_nonsquare nr : (forall y, omul F y y <> nr) ->
  forall y, omul (fp3_ops F nr) y y <> cubic_u F.
Proof.
  intros N y H. apply (N (cubic_norm F nr y)).
  rewrite <- (cubic_norm_mul F (omul F nr) nr R (fun _ => eq_refl)).
  fold (fp3_ops F nr). rewrite H. cbn. ring.
Qed.
Lemma fp6_2over3_field nr : (forall y, omul F y y <> nr) -> (forall y, omul F y (omul F y y) <> nr) ->
  field_ok (fp6_2over3_ops F nr nr).
Proof.
  intros N1 N2. apply (quad_field _ _ (cubic_u F)).
  - apply fp3_ring. exact R.
  - apply rot_mnr_spec. exact R.
  - now apply fp3_field.
  - now apply fp6_nonsquare.
Qed.
End Fields.

Section Fields2.
Context {K : Type} (F : Fops K) (FK : field_ok F).
Lemma fp6_3over2_field nr2 nr6 : (forall y, omul F y y <> nr2) ->
  (forall y, omul (fp2_ops F nr2) y (omul (fp2_ops F nr2) y y) <> nr6) ->
  field_ok (fp6_3over2_ops F nr2 nr6).
Proof. intros N1 N2. apply fp3_field; auto. now apply fp2_field. Qed.
Lemma fp12_field nr2 nr6 : (forall y, omul F y y <> nr2) ->
  (forall y, omul (fp2_ops F nr2) y y <> nr6) ->
  (forall y, omul (fp2_ops F nr2) y (omul (fp2_ops F nr2) y y) <> nr6) ->
  field_ok (fp12_ops F nr2 nr6 nr6).
Proof.
  intros N1 N2 N3. apply (fp6_2over3_field (fp2_ops F nr2) (fp2_field F FK nr2 N1) nr6); auto.
Qed.
End Fields2.

(** ** Sparse multiplications *)
Section Sparse.
Context {K : Type} (F : Fops K) (R : ring_ok F).
Add Ring Krs : (rk_ring F R).

Lemma fp4_mul_by_023_spec nr2 nr4 x y : snd (fst y) = o0 F ->
  fp4_mul_by_023 F nr2 nr4 x y = Ok (omul (fp4_ops F nr2 nr4) x y).
Proof.
  destruct x as [[a0 a1] [b0 b1]], y as [[A0 A1] [B0 B1]]. cbn [fst snd]. intros ->.
  unfold fp4_mul_by_023. cbn [fst snd]. rewrite (rk_eqb_refl F R). cbn [assert_then].
  f_equal. cbn. f_equal; f_equal; ring.
Qed.
Lemma fp4_mul_by_023_fail nr2 nr4 x y : snd (fst y) <> o0 F -> fp4_mul_by_023 F nr2 nr4 x y = AssertFail.
Proof.
  destruct x as [a b], y as [A B]. cbn [fst snd]. intros N. unfold fp4_mul_by_023.
  apply (rk_eqb_neq F R) in N. now rewrite N.
Qed.
Lemma fp6_mul_by_2345_spec nr x a b c d : 
  fp6_mul_by_2345 F nr nr x ((o0 F, o0 F, a), (b, c, d)) =
  Ok (omul (fp6_2over3_ops F nr nr) x ((o0 F, o0 F, a), (b, c, d))).
Proof.
  destruct x as [[[a0 a1] a2] [[b0 b1] b2]]. unfold fp6_mul_by_2345. rewrite !(rk_eqb_refl F R).
  cbn [assert_then]. f_equal. cbn. f_equal; (f_equal; [f_equal|]; ring).
Qed.
Lemma fp6_mul_by_2345_fail nr3 nr6 x y : fst (fst (fst y)) <> o0 F \/ snd (fst (fst y)) <> o0 F ->
  fp6_mul_by_2345 F nr3 nr6 x y = AssertFail.
Proof.
  destruct x as [[[a0 a1] a2] b], y as [[[A0 A1] A2] B]. cbn [fst snd]. intros N. unfold fp6_mul_by_2345.
  destruct N as [N|N]; apply (rk_eqb_neq F R) in N; rewrite N; [reflexivity|].
  now destruct (oeqb F A0 (o0 F)).
Qed.

(** F is Fp2 here: Fp12 is built over it in the same way as Fp6_2over3 over Fp. *)
Lemma fp12_mul_by_045_spec nr x ell_0 ell_VW ell_VV :
  fp12_mul_by_045 F nr x ell_0 ell_VW ell_VV =
  omul (quad_ops (fp3_ops F nr) (rot_mnr F nr)) x ((ell_VW, o0 F, o0 F), (o0 F, ell_0, ell_VV)).
Proof.
  destruct x as [[[a0 a1] a2] [[b0 b1] b2]]. cbn. f_equal; (f_equal; [f_equal|]; ring).
Qed.
Lemma fp12_mul_by_024_spec nr x ell_0 ell_VW ell_VV :
  fp12_mul_by_024 F nr x ell_0 ell_VW ell_VV =
  omul (quad_ops (fp3_ops F nr) (rot_mnr F nr)) x ((ell_0, o0 F, ell_VV), (o0 F, ell_VW, o0 F)).
Proof.
  destruct x as [[[a0 a1] a2] [[b0 b1] b2]]. cbn. f_equal; (f_equal; [f_equal|]; ring).
Qed.
End Sparse.
