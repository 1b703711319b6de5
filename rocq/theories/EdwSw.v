(** Twisted Edwards curves as short Weierstrass curves: the birational map, its
    compatibility with the group laws, and the chords and tangents behind the
    conics of the edwards pairing. *)
From Coq Require Import ZArith List Bool Ring Field Lia.
From Verif Require Import Result Algebra FieldOps CurveSpec CurveGroup CurveModel CurveProofs CurveEdwards CurveEdwOps EdwSpec MillerSpec MillerProofs.
Import ListNotations.

Section Sw.
Context {K : Type} (F : Fops K) (a d : K).
Local Notation "0" := (o0 F).
Local Notation "1" := (o1 F).
Local Notation "x + y" := (oadd F x y).
Local Notation "x - y" := (osub F x y).
Local Notation "x * y" := (omul F x y).
Local Notation "- x" := (oopp F x).
Local Notation "2" := (1 + 1).
Local Notation "3" := (2 + 1).
(** y^2 = x^3 + te_swa x + te_swb *)
Definition te_swa : K := - (3 * 3 * 3 * (a * a + d * d + 2 * (2 * 3 + 1) * (a * d))).
Definition te_swb : K := - (2 * 3 * 3 * 3 * (a + d) * (a * a + d * d - 2 * (2 * 2 * 2 * 2 + 1) * (a * d))).
(** The coordinates of the Montgomery form. *)
Definition te_u (y : K) : K := tdiv F (1 + y) (1 - y).
Definition te_v (x y : K) : K := tdiv F (1 + y) (x * (1 - y)).
Definition te_X (y : K) : K := 3 * 3 * (a - d) * te_u y + 2 * 3 * (a + d).
Definition te_Y (x y : K) : K := 2 * 3 * 3 * 3 * (a - d) * te_v x y.
Definition te_sw (P : K * K) : apt K := let '(x, y) := P in if oeqb F y 1 then Inf else Aff (te_X y) (te_Y x y).

Hypothesis FK : field_ok F.
Hypothesis N2 : 2 <> 0.
Hypothesis N3 : 3 <> 0.
Hypothesis Na : a <> 0.
Hypothesis Nd : d <> 0.
Hypothesis Nad : a - d <> 0.
Let R : ring_ok F := fk_ring F FK.
Add Field ESfield : (fk_field F FK).
Notation te_on := (te_on F a d).
Notation add := (te_add F a d).
Notation opp := (te_opp F).
Notation zero := (te_zero F).

Lemma te_disc : sw_disc F te_swa te_swb <> 0.
Proof.
  assert (H : sw_disc F te_swa te_swb = - (2 * 2 * (3 * 3 * 3) * (3 * 3 * 3) * (3 * 3 * 3) * (2 * 2 * (3 * 3 * 3)) * (a * d) * ((a - d) * (a - d)) * ((a - d) * (a - d)))).
  { unfold sw_disc, te_swa, te_swb. cbn [npow]. ring. }
  rewrite H. intros Z. assert (Z' : 2 * 2 * (3 * 3 * 3) * (3 * 3 * 3) * (3 * 3 * 3) * (2 * 2 * (3 * 3 * 3)) * (a * d) * ((a - d) * (a - d)) * ((a - d) * (a - d)) = 0).
  { transitivity (- (- (2 * 2 * (3 * 3 * 3) * (3 * 3 * 3) * (3 * 3 * 3) * (2 * 2 * (3 * 3 * 3)) * (a * d) * ((a - d) * (a - d)) * ((a - d) * (a - d))))); [ring|]. rewrite Z. ring. }
  revert Z'. repeat apply (fk_mul_neq_0 F FK); auto.
Qed.

Lemma sub_ne x y : x <> y -> x - y <> 0.
Proof. intros N Z. apply N. now apply (rk_sub_0 F R). Qed.
(** A point of the curve with x <> 0 has y <> 1, -1. *)
Lemma te_y1 x y : te_on (x, y) -> x <> 0 -> 1 - y <> 0 /\ 1 + y <> 0.
Proof.
  intros O Nx. apply (te_eqn F FK) in O.
  assert (H : (1 - y) * (1 + y) = x * x * (a - d * (y * y))).
  { apply (proj1 (rk_sub_0 F R _ _)). transitivity (- (a * x * x + y * y - 1 - d * x * x * y * y)); [ring|]. rewrite O. ring. }
  assert (Hy : y * y = 1 -> False).
  { intros E. assert (Z : x * x * (a - d) = 0).
    { transitivity (x * x * (a - d * (y * y))); [rewrite E; ring|]. rewrite <- H. transitivity (1 - y * y); [ring|]. rewrite E. ring. }
    revert Z. repeat apply (fk_mul_neq_0 F FK); auto. }
  split; intros Z; apply Hy.
  - assert (E : y = 1) by (symmetry; now apply (rk_sub_0 F R)). rewrite E. ring.
  - assert (E : y = - (1)) by (transitivity (1 + y - 1); [ring|]; rewrite Z; ring). rewrite E. ring.
Qed.
Lemma te_sw_aff x y : te_on (x, y) -> x <> 0 -> te_sw (x, y) = Aff (te_X y) (te_Y x y).
Proof.
  intros O Nx. destruct (te_y1 x y O Nx) as [N _]. cbn [te_sw].
  rewrite (proj2 (rk_eqb_neq F R y 1)); [reflexivity|]. intros ->. apply N. ring.
Qed.
Lemma te_sw_zero : te_sw zero = Inf.
Proof. cbn [te_sw te_zero]. now rewrite (rk_eqb_refl F R). Qed.
(** d from the equation of one point; a and d from two. *)
Lemma te_d x y : te_on (x, y) -> x <> 0 -> y <> 0 -> d = tdiv F (a * x * x + y * y - 1) (x * x * y * y).
Proof.
  intros O Nx Ny. apply (te_eqn F FK) in O. symmetry. apply (tdiv_eq F FK); [repeat apply (fk_mul_neq_0 F FK); auto|].
  apply (proj1 (rk_sub_0 F R _ _)). rewrite <- O. ring.
Qed.
Lemma te_sw_on x y : te_on (x, y) -> x <> 0 -> y <> 0 -> sw_on F te_swa te_swb (Aff (te_X y) (te_Y x y)).
Proof.
  intros O Nx Ny. destruct (te_y1 x y O Nx) as [M1 _]. pose proof (te_d x y O Nx Ny) as Ed.
  cbn [sw_on]. unfold te_swa, te_swb, te_X, te_Y, te_u, te_v. clear O Nad Nd. subst d. field. auto.
Qed.
(** *** Doubling *)
Definition dbl_l (x y : K) : K := 2 * 3 * tdiv F (1 + 2 * y - a * (x * x)) (2 * (x * y)).
Lemma te_Y_ne x y : te_on (x, y) -> x <> 0 -> te_Y x y + te_Y x y <> 0.
Proof.
  intros O Nx. destruct (te_y1 x y O Nx) as [M1 M2].
  replace (te_Y x y + te_Y x y) with (2 * (2 * 3 * 3 * 3 * (a - d) * te_v x y)) by (unfold te_Y; ring).
  assert (H : te_v x y * (x * (1 - y)) = 1 + y) by (unfold te_v; field; auto).
  assert (Nv : te_v x y <> 0) by (intros Z; apply M2; rewrite <- H, Z; ring).
  generalize dependent (te_v x y). intros v _ Nv. repeat apply (fk_mul_neq_0 F FK); auto.
Qed.
Lemma te_dbl_slope x y : te_on (x, y) -> x <> 0 -> y <> 0 ->
  dbl_l x y * (te_Y x y + te_Y x y) = te_X y * te_X y + te_X y * te_X y + te_X y * te_X y + te_swa.
Proof.
  intros O Nx Ny. destruct (te_y1 x y O Nx) as [M1 _]. pose proof (te_d x y O Nx Ny) as Ed.
  unfold dbl_l, te_swa, te_X, te_Y, te_u, te_v. clear O Nad Nd. subst d. field. auto.
Qed.
Definition dbl_x (x y : K) : K := tdiv F (2 * (x * y)) (a * (x * x) + y * y).
Definition dbl_y (x y : K) : K := tdiv F (y * y - a * (x * x)) (2 - a * (x * x) - y * y).
Lemma te_dbl_third x y : te_on (x, y) -> x <> 0 -> y <> 0 ->
  a * (x * x) + y * y <> 0 -> 2 - a * (x * x) - y * y <> 0 ->
  1 - dbl_y x y <> 0 /\
  third F (dbl_l x y) (te_X y) (te_Y x y) (te_X y) = Aff (te_X (dbl_y x y)) (te_Y (dbl_x x y) (dbl_y x y)).
Proof.
  intros O Nx Ny Ni Nk. destruct (te_y1 x y O Nx) as [M1 M2]. pose proof (te_d x y O Nx Ny) as Ed.
  assert (M : 1 - dbl_y x y <> 0).
  { intros Z. assert (H : (1 - dbl_y x y) * (2 - a * (x * x) - y * y) = 2 * ((1 - y) * (1 + y))) by (unfold dbl_y; field; auto).
    rewrite Z in H. assert (Z' : 2 * ((1 - y) * (1 + y)) = 0) by (rewrite <- H; ring). revert Z'. repeat apply (fk_mul_neq_0 F FK); auto. }
  split; [exact M|].
  assert (U3 : te_u (dbl_y x y) = tdiv F (1 - a * (x * x)) ((1 - y) * (1 + y))).
  { unfold te_u. apply (tdiv_cross F FK); auto; [now apply (fk_mul_neq_0 F FK)|]. unfold dbl_y. field. auto. }
  assert (V3 : te_v (dbl_x x y) (dbl_y x y) = tdiv F ((1 - a * (x * x)) * (a * (x * x) + y * y)) (2 * (x * y) * ((1 - y) * (1 + y)))).
  { transitivity (tdiv F (te_u (dbl_y x y)) (dbl_x x y)).
    - unfold te_v, te_u. assert (Nx3 : dbl_x x y <> 0).
      { intros Z. assert (H : dbl_x x y * (a * (x * x) + y * y) = 2 * (x * y)) by (unfold dbl_x; field; auto).
        rewrite Z in H. assert (Z' : 2 * (x * y) = 0) by (rewrite <- H; ring). revert Z'. repeat apply (fk_mul_neq_0 F FK); auto. }
      field. auto.
    - rewrite U3. unfold dbl_x. field. repeat split; auto. }
  assert (XE : te_X (dbl_y x y) = 3 * 3 * (a - d) * tdiv F (1 - a * (x * x)) ((1 - y) * (1 + y)) + 2 * 3 * (a + d)) by (unfold te_X; now rewrite U3).
  assert (YE : te_Y (dbl_x x y) (dbl_y x y) = 2 * 3 * 3 * 3 * (a - d) * tdiv F ((1 - a * (x * x)) * (a * (x * x) + y * y)) (2 * (x * y) * ((1 - y) * (1 + y))))
    by (unfold te_Y; now rewrite V3).
  rewrite XE, YE. unfold third, te_Y, dbl_l, te_X, te_u, te_v. clear O Nad Nd U3 V3 XE YE M Nk. subst d.
  f_equal; field; repeat split; auto.
Qed.
(** *** Addition *)
Definition add_l (x1 y1 x2 y2 : K) : K := 2 * 3 * tdiv F (te_v x2 y2 - te_v x1 y1) (te_u y2 - te_u y1).
Lemma te_u_sub y1 y2 : 1 - y1 <> 0 -> 1 - y2 <> 0 -> te_u y2 - te_u y1 = tdiv F (2 * (y2 - y1)) ((1 - y1) * (1 - y2)).
Proof. intros M1 M2. unfold te_u. field. auto. Qed.
Lemma te_u_ne y1 y2 : 1 - y1 <> 0 -> 1 - y2 <> 0 -> y1 <> y2 -> te_u y2 - te_u y1 <> 0.
Proof.
  intros M1 M2 N Z. apply sub_ne in N.
  assert (H : (te_u y2 - te_u y1) * ((1 - y1) * (1 - y2)) = - (2 * (y1 - y2))) by (unfold te_u; field; auto).
  rewrite Z in H. assert (Z' : 2 * (y1 - y2) = 0) by (transitivity (- - (2 * (y1 - y2))); [ring|]; rewrite <- H; ring).
  revert Z'. now apply (fk_mul_neq_0 F FK).
Qed.
Lemma te_X_ne y1 y2 : 1 - y1 <> 0 -> 1 - y2 <> 0 -> te_X y1 <> te_X y2 <-> y1 <> y2.
Proof.
  intros M1 M2. split; [congruence|]. intros N E. pose proof (te_u_ne y1 y2 M1 M2 N) as U.
  assert (Z : 3 * 3 * (a - d) * (te_u y2 - te_u y1) = 0) by (transitivity (te_X y2 - te_X y1); [unfold te_X; ring|]; rewrite E; ring).
  generalize dependent (te_u y2 - te_u y1). intros v Nv. repeat apply (fk_mul_neq_0 F FK); auto.
Qed.
Lemma te_add_slope x1 y1 x2 y2 : 1 - y1 <> 0 -> 1 - y2 <> 0 -> y1 <> y2 ->
  add_l x1 y1 x2 y2 * (te_X y2 - te_X y1) = te_Y x2 y2 - te_Y x1 y1.
Proof.
  intros M1 M2 N. pose proof (te_u_ne y1 y2 M1 M2 N) as U.
  unfold add_l, te_X, te_Y. generalize dependent (te_u y2). intros u2. generalize (te_u y1), (te_v x1 y1), (te_v x2 y2). intros u1 v1 v2 U.
  field. exact U.
Qed.
(** The dual addition formulas. *)
Lemma te_dual_y x1 y1 x2 y2 : te_on (x1, y1) -> te_on (x2, y2) ->
  (x1 * y1 - x2 * y2) * (1 - d * ((x1 * x2) * (y1 * y2))) = (y1 * y2 - a * (x1 * x2)) * (x1 * y2 - y1 * x2).
Proof.
  intros O1 O2. apply (te_eqn F FK) in O1, O2. apply (proj1 (rk_sub_0 F R _ _)).
  transitivity ((x2 * y2) * (a * x1 * x1 + y1 * y1 - 1 - d * x1 * x1 * y1 * y1) - (x1 * y1) * (a * x2 * x2 + y2 * y2 - 1 - d * x2 * x2 * y2 * y2)); [ring|].
  rewrite O1, O2. ring.
Qed.
Definition sum_x (x1 y1 x2 y2 : K) : K := tdiv F (x1 * y1 + x2 * y2) (y1 * y2 + a * (x1 * x2)).
Definition sum_y (x1 y1 x2 y2 : K) : K := tdiv F (x1 * y1 - x2 * y2) (x1 * y2 - y1 * x2).
Lemma te_a2 x1 y1 x2 y2 : te_on (x1, y1) -> te_on (x2, y2) -> x1 <> 0 -> x2 <> 0 -> (y2 - y1) * (y2 + y1) <> 0 ->
  d = tdiv F ((1 - y1 * y1) * (x2 * x2) - (1 - y2 * y2) * (x1 * x1)) (x1 * x1 * (x2 * x2) * ((y2 - y1) * (y2 + y1))) /\
  a = tdiv F ((1 - y1 * y1) * (x2 * x2) * (y2 * y2) - (1 - y2 * y2) * (x1 * x1) * (y1 * y1)) (x1 * x1 * (x2 * x2) * ((y2 - y1) * (y2 + y1))).
Proof.
  intros O1 O2 Nx1 Nx2 Ny. apply (te_eqn F FK) in O1, O2.
  assert (ND : x1 * x1 * (x2 * x2) * ((y2 - y1) * (y2 + y1)) <> 0) by (repeat apply (fk_mul_neq_0 F FK); auto; intros Z; apply Ny; rewrite Z; ring).
  split; symmetry; apply (tdiv_eq F FK); auto; apply (proj1 (rk_sub_0 F R _ _)).
  - transitivity (x1 * x1 * (a * x2 * x2 + y2 * y2 - 1 - d * x2 * x2 * y2 * y2) - x2 * x2 * (a * x1 * x1 + y1 * y1 - 1 - d * x1 * x1 * y1 * y1)); [ring|].
    rewrite O1, O2. ring.
  - transitivity (x1 * x1 * (y1 * y1) * (a * x2 * x2 + y2 * y2 - 1 - d * x2 * x2 * y2 * y2) - x2 * x2 * (y2 * y2) * (a * x1 * x1 + y1 * y1 - 1 - d * x1 * x1 * y1 * y1)); [ring|].
    rewrite O1, O2. ring.
Qed.
Lemma te_add_third x1 y1 x2 y2 : te_on (x1, y1) -> te_on (x2, y2) -> x1 <> 0 -> x2 <> 0 ->
  y1 <> y2 -> y2 + y1 <> 0 -> x1 + x2 <> 0 -> x1 * y1 + x2 * y2 <> 0 -> y1 * y2 + a * (x1 * x2) <> 0 -> x1 * y2 - y1 * x2 <> 0 ->
  1 - sum_y x1 y1 x2 y2 <> 0 /\
  third F (add_l x1 y1 x2 y2) (te_X y1) (te_Y x1 y1) (te_X y2) = Aff (te_X (sum_y x1 y1 x2 y2)) (te_Y (sum_x x1 y1 x2 y2) (sum_y x1 y1 x2 y2)).
Proof.
  intros O1 O2 Nx1 Nx2 Ny Ny' Nx Ns Nc Nf. destruct (te_y1 x1 y1 O1 Nx1) as [M1 _]. destruct (te_y1 x2 y2 O2 Nx2) as [M2 _].
  assert (Nyy : y2 - y1 <> 0) by (apply sub_ne; congruence).
  assert (M : 1 - sum_y x1 y1 x2 y2 <> 0).
  { intros Z. assert (H : (1 - sum_y x1 y1 x2 y2) * (x1 * y2 - y1 * x2) = (x1 + x2) * (y2 - y1)) by (unfold sum_y; field; auto).
    rewrite Z in H. assert (Z' : (x1 + x2) * (y2 - y1) = 0) by (rewrite <- H; ring). revert Z'. now apply (fk_mul_neq_0 F FK). }
  split; [exact M|].
  assert (U3 : te_u (sum_y x1 y1 x2 y2) = tdiv F ((x1 - x2) * (y1 + y2)) ((x1 + x2) * (y2 - y1))).
  { unfold te_u. apply (tdiv_cross F FK); auto; [now apply (fk_mul_neq_0 F FK)|]. unfold sum_y. field. auto. }
  assert (V3 : te_v (sum_x x1 y1 x2 y2) (sum_y x1 y1 x2 y2) =
    tdiv F ((x1 - x2) * (y1 + y2) * (y1 * y2 + a * (x1 * x2))) ((x1 + x2) * (y2 - y1) * (x1 * y1 + x2 * y2))).
  { transitivity (tdiv F (te_u (sum_y x1 y1 x2 y2)) (sum_x x1 y1 x2 y2)).
    - unfold te_v, te_u. assert (Nx3 : sum_x x1 y1 x2 y2 <> 0).
      { intros Z. assert (H : sum_x x1 y1 x2 y2 * (y1 * y2 + a * (x1 * x2)) = x1 * y1 + x2 * y2) by (unfold sum_x; field; auto).
        apply Ns. rewrite <- H, Z. ring. }
      field. auto.
    - rewrite U3. unfold sum_x. field. repeat split; auto. }
  assert (XE : te_X (sum_y x1 y1 x2 y2) = 3 * 3 * (a - d) * tdiv F ((x1 - x2) * (y1 + y2)) ((x1 + x2) * (y2 - y1)) + 2 * 3 * (a + d)) by (unfold te_X; now rewrite U3).
  assert (YE : te_Y (sum_x x1 y1 x2 y2) (sum_y x1 y1 x2 y2) = 2 * 3 * 3 * 3 * (a - d) *
    tdiv F ((x1 - x2) * (y1 + y2) * (y1 * y2 + a * (x1 * x2))) ((x1 + x2) * (y2 - y1) * (x1 * y1 + x2 * y2))) by (unfold te_Y; now rewrite V3).
  rewrite XE, YE. unfold third, te_Y, add_l, te_X, te_v. rewrite (te_u_sub y1 y2 M1 M2). unfold te_u.
  destruct (te_a2 x1 y1 x2 y2 O1 O2 Nx1 Nx2) as [Ed Ea]; [now apply (fk_mul_neq_0 F FK)|].
  clear O1 O2 Nad Nd Na U3 V3 XE YE M Nc. generalize dependent d. generalize dependent a. intros a' Ea d' Ed. subst a' d'.
  f_equal; field; repeat split; auto.
Qed.

(** *** The map on a group of points that the addition formulas serve *)
Record te_good (S : K * K -> Prop) : Prop := {
  tg_zero : S zero;
  tg_on : forall P, S P -> te_on P;
  tg_xy : forall P, S P -> P = zero \/ (fst P <> 0 /\ snd P <> 0);
  tg_den : forall x1 y1 x2 y2, S (x1, y1) -> S (x2, y2) -> 1 + d * ((x1 * x2) * (y1 * y2)) <> 0 /\ 1 - d * ((x1 * x2) * (y1 * y2)) <> 0;
  tg_add : forall P Q, S P -> S Q -> S (add P Q);
  tg_opp : forall P, S P -> S (opp P)
}.
Variable S : K * K -> Prop.
Hypothesis HS : te_good S.
Lemma opp_0 x : - x = 0 -> x = 0.
Proof. intros H. transitivity (- - x); [ring|]. rewrite H. ring. Qed.
Lemma good_x x y : S (x, y) -> x = 0 -> y = 1.
Proof. intros H Z. destruct (tg_xy S HS _ H) as [E|[N _]]; [now injection E|]. now cbn in N. Qed.
Lemma good_ne x y : S (x, y) -> x <> 0 -> y <> 0.
Proof. intros H N. destruct (tg_xy S HS _ H) as [E|[_ N']]; [|exact N']. injection E as E _. contradiction. Qed.
Lemma tdiv_0 x y : y <> 0 -> tdiv F x y = 0 -> x = 0.
Proof. intros N H. transitivity (tdiv F x y * y); [field; auto|]. rewrite H. ring. Qed.
Lemma tdiv_1' x y : y <> 0 -> tdiv F x y = 1 -> x = y.
Proof. intros N H. transitivity (tdiv F x y * y); [field; auto|]. rewrite H. ring. Qed.
Lemma tdiv_z y : y <> 0 -> tdiv F 0 y = 0.
Proof. intros N. field. auto. Qed.
Lemma good_sum x1 y1 x2 y2 : S (x1, y1) -> S (x2, y2) -> x1 * y2 + y1 * x2 = 0 ->
  y1 * y2 - a * (x1 * x2) = 1 - d * ((x1 * x2) * (y1 * y2)).
Proof.
  intros H1 H2 Z. pose proof (tg_add S HS _ _ H1 H2) as H. destruct (tg_den S HS _ _ _ _ H1 H2) as [Dp Dm].
  unfold te_add in H. cbv zeta in H. apply (good_x _ _) in H; [|rewrite Z; now apply tdiv_z]. now apply tdiv_1'.
Qed.
(** (x, y) and (x, -y) differ by a point of order two. *)
Lemma no_neg x y : S (x, y) -> S (x, - y) -> False.
Proof.
  intros H1 H2. pose proof (good_sum _ _ _ _ H1 H2 ltac:(ring)) as E. pose proof (tg_on S HS _ H1) as O. cbn in O.
  destruct (tg_den S HS _ _ _ _ H1 H2) as [_ N]. destruct (tg_den S HS _ _ _ _ H1 H1) as [N1 _].
  assert (Z : 2 * (1 + d * (x * x * (y * y))) = 0).
  { transitivity ((1 + d * (x * x * (y * y))) + (1 - d * (x * x * (y * - y)))); [ring|]. rewrite <- E, <- O. ring. }
  revert Z. now apply (fk_mul_neq_0 F FK).
Qed.
Lemma te_same_y x1 x2 y : te_on (x1, y) -> te_on (x2, y) -> x1 <> 0 -> x1 = x2 \/ x1 = - x2.
Proof.
  intros O1 O2 N. destruct (te_y1 x1 y O1 N) as [M1 M2]. apply (te_eqn F FK) in O1, O2. apply (fk_sqr_eq F FK).
  assert (NE : a - d * (y * y) <> 0).
  { intros Z. assert (Z' : (1 - y) * (1 + y) = 0).
    { transitivity (x1 * x1 * (a - d * (y * y)) - (a * x1 * x1 + y * y - 1 - d * x1 * x1 * y * y)); [ring|]. rewrite Z, O1. ring. }
    revert Z'. now apply (fk_mul_neq_0 F FK). }
  apply (fk_mul_cancel F FK _ _ _ NE). apply (proj1 (rk_sub_0 F R _ _)).
  transitivity ((a * x1 * x1 + y * y - 1 - d * x1 * x1 * y * y) - (a * x2 * x2 + y * y - 1 - d * x2 * x2 * y * y)); [ring|]. rewrite O1, O2. ring.
Qed.
Lemma te_same_x x y1 y2 : te_on (x, y1) -> te_on (x, y2) -> x <> 0 -> y1 = y2 \/ y1 = - y2.
Proof.
  intros O1 O2 N. apply (te_eqn F FK) in O1, O2. apply (fk_sqr_eq F FK).
  assert (NE : 1 - d * (x * x) <> 0).
  { intros Z. assert (Z' : x * x * (a - d) = 0).
    { transitivity ((1 - d * (x * x)) * (1 - y1 * y1) + (a * x * x + y1 * y1 - 1 - d * x * x * y1 * y1)); [ring|]. rewrite Z, O1. ring. }
    revert Z'. repeat apply (fk_mul_neq_0 F FK); auto. }
  apply (fk_mul_cancel F FK _ _ _ NE). apply (proj1 (rk_sub_0 F R _ _)).
  transitivity ((a * x * x + y1 * y1 - 1 - d * x * x * y1 * y1) - (a * x * x + y2 * y2 - 1 - d * x * x * y2 * y2)); [ring|]. rewrite O1, O2. ring.
Qed.
Lemma good_neg_y x1 x2 y : S (x1, y) -> S (x2, - y) -> x1 <> 0 -> False.
Proof.
  intros H1 H2 N. pose proof (tg_on S HS _ H1) as O1. pose proof (tg_on S HS _ H2) as O2.
  assert (O2' : te_on (x2, y)) by (cbn in O2 |- *; transitivity (a * (x2 * x2) + - y * - y); [ring|]; rewrite O2; ring).
  destruct (te_same_y x1 x2 y O1 O2' N) as [E|E]; subst x1.
  - exact (no_neg _ _ H1 H2).
  - pose proof (tg_opp S HS _ H2) as H3. cbn [te_opp] in H3. exact (no_neg _ _ H1 H3).
Qed.
Lemma good_cancel x1 y1 x2 y2 : S (x1, y1) -> S (x2, y2) -> x1 <> 0 -> x2 <> 0 -> x1 * y2 = y1 * x2 -> y1 = y2.
Proof.
  intros H1 H2 N1 N2' E. pose proof (tg_opp S HS _ H2) as H3. cbn [te_opp] in H3.
  pose proof (good_sum _ _ _ _ H1 H3) as G. rewrite E in G at 1. specialize (G ltac:(ring)).
  pose proof (tg_on S HS _ H1) as O1. pose proof (tg_on S HS _ H2) as O2.
  pose proof (good_ne _ _ H1 N1) as Y1. pose proof (good_ne _ _ H2 N2') as Y2.
  apply (te_eqn F FK) in O1, O2. destruct (rk_dec F R y1 y2) as [|NE]; [assumption|exfalso].
  assert (C0 : x1 * y2 - y1 * x2 = 0) by (rewrite E; ring).
  assert (G0 : y1 * y2 - a * (x1 * - x2) - (1 - d * (x1 * - x2 * (y1 * y2))) = 0) by (rewrite G; ring).
  assert (W1 : (y2 - y1) * (1 - d * (x1 * x1 * (y1 * y2))) = 0).
  { transitivity (y1 * (y1 * y2 - a * (x1 * - x2) - (1 - d * (x1 * - x2 * (y1 * y2)))) - y2 * (a * x1 * x1 + y1 * y1 - 1 - d * x1 * x1 * y1 * y1)
      + (a * x1 - d * x1 * (y1 * y2)) * (x1 * y2 - y1 * x2)); [ring|]. rewrite C0, G0, O1. ring. }
  assert (W2 : (y2 - y1) * (1 - d * (x2 * x2 * (y1 * y2))) = 0).
  { transitivity (- (y2 * (y1 * y2 - a * (x1 * - x2) - (1 - d * (x1 * - x2 * (y1 * y2)))) - y1 * (a * x2 * x2 + y2 * y2 - 1 - d * x2 * x2 * y2 * y2)
      - (a * x2 - d * x2 * (y1 * y2)) * (x1 * y2 - y1 * x2))); [ring|]. rewrite C0, G0, O2. ring. }
  assert (Sq : x1 * x1 = x2 * x2).
  { apply (fk_mul_cancel F FK _ _ ((y2 - y1) * (d * (y1 * y2)))).
    - repeat apply (fk_mul_neq_0 F FK); auto. apply sub_ne. congruence.
    - apply (proj1 (rk_sub_0 F R _ _)). transitivity ((y2 - y1) * (1 - d * (x2 * x2 * (y1 * y2))) - (y2 - y1) * (1 - d * (x1 * x1 * (y1 * y2)))); [ring|].
      rewrite W1, W2. ring. }
  apply (fk_sqr_eq F FK) in Sq. destruct Sq as [Sq|Sq]; subst x1.
  - apply NE. symmetry. apply (fk_mul_cancel F FK _ _ x2 N2'). rewrite <- E. ring.
  - assert (Ey : y2 = - y1) by (apply (fk_mul_cancel F FK _ _ x2 N2'); transitivity (- (- x2 * y2)); [ring|]; rewrite E; ring).
    subst y2. exact (good_neg_y _ _ _ H1 H2 N1).
Qed.
Lemma te_dbl_eq x y : te_on (x, y) -> add (x, y) (x, y) = (dbl_x x y, dbl_y x y).
Proof.
  intros O. cbn in O. unfold te_add, dbl_x, dbl_y. cbv zeta. rewrite <- O. f_equal.
  - f_equal. ring.
  - f_equal. transitivity (2 - (1 + d * (x * x * (y * y)))); [ring|]. rewrite <- O. ring.
Qed.
Lemma te_sum_eq x1 y1 x2 y2 : S (x1, y1) -> S (x2, y2) -> y1 * y2 + a * (x1 * x2) <> 0 -> x1 * y2 - y1 * x2 <> 0 ->
  add (x1, y1) (x2, y2) = (sum_x x1 y1 x2 y2, sum_y x1 y1 x2 y2).
Proof.
  intros H1 H2 Nc Nf. destruct (tg_den S HS _ _ _ _ H1 H2) as [Dp Dm]. pose proof (tg_on S HS _ H1) as O1. pose proof (tg_on S HS _ H2) as O2.
  unfold te_add, sum_x, sum_y. cbv zeta. f_equal; apply (tdiv_cross F FK); auto.
  - rewrite (te_dual_x F FK a d _ _ _ _ O1 O2). reflexivity.
  - rewrite (te_dual_y _ _ _ _ O1 O2). reflexivity.
Qed.
(** The denominators met by the steps of the pairing. *)
Lemma good_dbl x y : S (x, y) -> a * (x * x) + y * y <> 0 /\ 2 - a * (x * x) - y * y <> 0.
Proof.
  intros H. destruct (tg_den S HS _ _ _ _ H H) as [Dp Dm]. pose proof (tg_on S HS _ H) as O. cbn in O. split.
  - now rewrite O.
  - replace (2 - a * (x * x) - y * y) with (1 - d * (x * x * (y * y))); [exact Dm|].
    transitivity (2 - (1 + d * (x * x * (y * y)))); [ring|]. rewrite <- O. ring.
Qed.
Lemma good_add x1 y1 x2 y2 : S (x1, y1) -> S (x2, y2) -> x1 <> 0 -> x2 <> 0 -> y1 <> y2 ->
  y2 + y1 <> 0 /\ x1 + x2 <> 0 /\ x1 * y1 + x2 * y2 <> 0 /\ y1 * y2 + a * (x1 * x2) <> 0 /\ x1 * y2 - y1 * x2 <> 0.
Proof.
  intros H1 H2 N1 N2' Ny. pose proof (tg_opp S HS _ H2) as H3. cbn [te_opp] in H3.
  pose proof (tg_on S HS _ H1) as O1. pose proof (tg_on S HS _ H2) as O2.
  assert (C1 : y2 + y1 <> 0).
  { intros Z. assert (E : y2 = - y1) by (transitivity (y2 + y1 - y1); [ring|]; rewrite Z; ring). subst y2. exact (good_neg_y _ _ _ H1 H2 N1). }
  assert (C4 : y1 * y2 + a * (x1 * x2) <> 0).
  { intros Z. pose proof (tg_add S HS _ _ H1 H3) as H. destruct (tg_den S HS _ _ _ _ H1 H3) as [Dp Dm].
    unfold te_add in H. cbv zeta in H. set (X := tdiv F (x1 * y2 + y1 * - x2) _) in H.
    replace (y1 * y2 - a * (x1 * - x2)) with 0 in H by (rewrite <- Z; ring). rewrite (tdiv_z _ Dm) in H.
    destruct (tg_xy S HS _ H) as [E|[_ N]]; [|now apply N]. injection E as _ E. apply (fk_1_neq_0 F FK). now symmetry. }
  assert (N3' : - x2 <> 0) by (intros Z; apply N2'; now apply opp_0).
  split; [exact C1|]. split; [|split; [|split; [exact C4|]]].
  - intros Z. assert (E : x2 = - x1) by (transitivity (x1 + x2 - x1); [ring|]; rewrite Z; ring). subst x2.
    assert (O2' : te_on (x1, y2)) by (apply (te_on_opp F FK) in O2; cbn [te_opp] in O2; replace (- - x1) with x1 in O2 by ring; exact O2).
    destruct (te_same_x _ _ _ O1 O2' N1) as [E|E]; [contradiction|]. apply C1. rewrite E. ring.
  - intros Z. pose proof (te_dual_x F FK a d _ _ _ _ O1 O2) as DX. rewrite Z in DX.
    assert (Z' : (x1 * y2 + y1 * x2) * (y1 * y2 + a * (x1 * x2)) = 0) by (rewrite <- DX; ring).
    apply (fk_mul_0 F FK) in Z'. destruct Z' as [Z'|Z']; [|contradiction].
    apply Ny. apply (good_cancel _ _ _ _ H1 H3 N1 N3'). apply (proj1 (rk_sub_0 F R _ _)). rewrite <- Z'. ring.
  - intros Z. apply Ny. apply (good_cancel _ _ _ _ H1 H2 N1 N2'). now apply (rk_sub_0 F R).
Qed.
Theorem te_sw_hom P Q : S P -> S Q -> te_sw (add P Q) = sw_add F te_swa (te_sw P) (te_sw Q).
Proof.
  intros HP HQ. pose proof (tg_on S HS _ HP) as O1. pose proof (tg_on S HS _ HQ) as O2.
  destruct (tg_xy S HS _ HP) as [->|[N1 _]]; [rewrite (te_add_0_l F FK), te_sw_zero; reflexivity|].
  destruct (tg_xy S HS _ HQ) as [->|[N2' _]]; [rewrite (te_add_0_r F FK), te_sw_zero; now destruct (te_sw P)|].
  destruct P as [x1 y1], Q as [x2 y2]. cbn [fst] in N1, N2'.
  rewrite (te_sw_aff x1 y1 O1 N1), (te_sw_aff x2 y2 O2 N2'). destruct (te_y1 _ _ O1 N1) as [M1 _]. destruct (te_y1 _ _ O2 N2') as [M2 _].
  destruct (rk_dec F R y1 y2) as [E|N].
  - subst y2. destruct (te_same_y x1 x2 y1 O1 O2 N1) as [E|E]; subst x1.
    + pose proof (good_ne _ _ HP N1) as Ny. destruct (good_dbl _ _ HP) as [Ni Nk]. rewrite (te_dbl_eq _ _ O1).
      destruct (te_dbl_third x2 y1 O1 N1 Ny Ni Nk) as [M3 E3].
      destruct (dbl_slope F FK te_swa _ _ _ (te_Y_ne _ _ O1 N1) (te_dbl_slope _ _ O1 N1 Ny)) as [-> _]. rewrite E3. cbn [te_sw].
      rewrite (proj2 (rk_eqb_neq F R (dbl_y x2 y1) 1)); [reflexivity|]. intros Z. apply M3. rewrite Z. ring.
    + destruct (tg_den S HS _ _ _ _ HQ HQ) as [Dp Dm].
      rewrite (te_add_comm F FK). change (- x2, y1) with (opp (x2, y1)). rewrite (te_add_opp F FK a d _ _ O2 Dp Dm), te_sw_zero.
      unfold sw_add. rewrite (rk_eqb_refl F R). cbn [andb].
      replace (te_Y (- x2) y1) with (- te_Y x2 y1) by (unfold te_Y, te_v; field; auto). now rewrite (rk_eqb_refl F R).
  - destruct (good_add _ _ _ _ HP HQ N1 N2' N) as (C1 & C2 & C3 & C4 & C5). rewrite (te_sum_eq _ _ _ _ HP HQ C4 C5).
    destruct (te_add_third _ _ _ _ O1 O2 N1 N2' N C1 C2 C3 C4 C5) as [M3 E3].
    destruct (add_slope F FK te_swa _ (te_Y x1 y1) _ (te_Y x2 y2) _ (proj2 (te_X_ne y1 y2 M1 M2) N) (te_add_slope x1 y1 x2 y2 M1 M2 N)) as [-> _].
    rewrite E3. cbn [te_sw].
    rewrite (proj2 (rk_eqb_neq F R (sum_y x1 y1 x2 y2) 1)); [reflexivity|]. intros Z. apply M3. rewrite Z. ring.
Qed.
Notation te_mult := (te_mult F a d).
Lemma te_mult_good n P : S P -> S (te_mult n P).
Proof. intros H. induction n as [n IH|n IH|]; cbn [te_mult]; auto using (tg_add S HS). Qed.
Theorem te_sw_mult n P : S P -> te_sw (te_mult n P) = mult F te_swa n (te_sw P).
Proof.
  intros H. induction n as [n IH|n IH|]; cbn [te_mult mult]; auto.
  - rewrite !te_sw_hom, IH; auto using te_mult_good, (tg_add S HS).
  - rewrite te_sw_hom, IH; auto using te_mult_good.
Qed.
End Sw.
