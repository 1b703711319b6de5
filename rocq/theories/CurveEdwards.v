(** Twisted Edwards curves: the group law, and its computation in inverted
    Edwards coordinates (edwards G1 and G2). *)
From Coq Require Import ZArith List Bool Ring Field Eqdep_dec Lia.
From Verif Require Import Result Algebra FieldOps AlgorithmsModel AlgorithmsProofs AlgorithmsField GroupOps
  CurveSpec CurveModel CurveProofs.
Import ListNotations.

Section Te.
Context {K : Type} (F : Fops K).
Hypothesis FK : field_ok F.
Variables a d : K.
Let R : ring_ok F := fk_ring F FK.
Add Ring TEring : (rk_ring F (fk_ring F FK)).
Local Notation "0" := (o0 F).
Local Notation "1" := (o1 F).
Local Notation "x + y" := (oadd F x y).
Local Notation "x - y" := (osub F x y).
Local Notation "x * y" := (omul F x y).
Local Notation "- x" := (oopp F x).
Local Notation te_on := (te_on F a d).
Local Notation add := (te_add F a d).
Local Notation opp := (te_opp F).
Local Notation zero := (te_zero F).
(** d x1 x2 y1 y2, the quantity in the denominators. *)
Local Notation tt x1 y1 x2 y2 := (d * ((x1 * x2) * (y1 * y2))).

Lemma te_zero_on : te_on zero.
Proof. cbn. ring. Qed.
Lemma te_on_opp P : te_on P -> te_on (opp P).
Proof. destruct P as [x y]. cbn. intros E. replace (- x * - x) with (x * x) by ring. exact E. Qed.

Lemma te_eqn x y : te_on (x, y) -> a * x * x + y * y - 1 - d * x * x * y * y = 0.
Proof.
  cbn. intros E. transitivity ((a * (x * x) + y * y) - (1 + d * ((x * x) * (y * y)))); [ring|]. rewrite E. ring.
Qed.

Lemma tdiv_cross n1 d1 n2 d2 : d1 <> 0 -> d2 <> 0 -> n1 * d2 = n2 * d1 -> tdiv F n1 d1 = tdiv F n2 d2.
Proof.
  intros N1 N2 E. apply (tdiv_eq F FK _ _ _ N1). apply (fk_mul_cancel F FK _ _ d2 N2).
  rewrite E. transitivity (tdiv F n2 d2 * d2 * d1); [|ring]. now rewrite tdiv_mul.
Qed.

Lemma te_on_add x1 y1 x2 y2 : te_on (x1, y1) -> te_on (x2, y2) ->
  1 + tt x1 y1 x2 y2 <> 0 -> 1 - tt x1 y1 x2 y2 <> 0 -> te_on (add (x1, y1) (x2, y2)).
Proof.
  intros O1 O2 Np Nm. apply te_eqn in O1, O2.
  set (e1 := a * x1 * x1 + y1 * y1 - 1 - d * x1 * x1 * y1 * y1) in O1.
  set (e2 := a * x2 * x2 + y2 * y2 - 1 - d * x2 * x2 * y2 * y2) in O2.
  unfold te_add. set (t := tt x1 y1 x2 y2) in *.
  set (X := x1 * y2 + y1 * x2). set (Y := y1 * y2 - a * (x1 * x2)).
  set (x := tdiv F X (1 + t)). set (y := tdiv F Y (1 - t)).
  assert (HX : X = x * (1 + t)) by (unfold x; now rewrite tdiv_mul).
  assert (HY : Y = y * (1 - t)) by (unfold y; now rewrite tdiv_mul).
  cbn. set (D := (1 + t) * (1 + t) * ((1 - t) * (1 - t))).
  assert (ND : D <> 0) by (unfold D; repeat apply fk_mul_neq_0; auto).
  apply (fk_mul_cancel F FK _ _ D ND).
  transitivity (a * (X * X) * ((1 - t) * (1 - t)) + Y * Y * ((1 + t) * (1 + t))).
  { rewrite HX, HY. unfold D. ring. }
  transitivity (D + d * ((X * X) * (Y * Y))).
  2:{ rewrite HX, HY. unfold D. ring. }
  apply (proj1 (rk_sub_0 F R _ _)).
  transitivity ((d * d * d * x1 * x1 * x2 * x2 * x2 * x2 * y1 * y1 * y2 * y2 * y2 * y2 + a * d * d * x1 * x1 * x2 * x2 * x2 * x2 * y2 * y2 * y2 * y2 + d * d * x2 * x2 * x2 * x2 * y1 * y1 * y2 * y2 * y2 * y2 - a * a * d * x1 * x1 * x2 * x2 * x2 * x2 * y2 * y2 - a * d * x2 * x2 * x2 * x2 * y1 * y1 * y2 * y2 - a * d * x1 * x1 * x2 * x2 * y2 * y2 * y2 * y2 + (1 + 1) * a * d * x2 * x2 * x2 * x2 * y2 * y2 * y2 * y2 - d * d * x2 * x2 * x2 * x2 * y2 * y2 * y2 * y2 - d * x2 * x2 * y1 * y1 * y2 * y2 * y2 * y2 - (1 + 1) * a * a * x2 * x2 * x2 * x2 * y2 * y2 - (1 + 1) * a * x2 * x2 * y2 * y2 * y2 * y2 + a * a * x2 * x2 * x2 * x2 + (1 + 1 + 1 + 1) * a * x2 * x2 * y2 * y2 - (1 + 1) * d * x2 * x2 * y2 * y2 + y2 * y2 * y2 * y2) * e1 + (a * a * d * x1 * x1 * x1 * x1 * x2 * x2 * y2 * y2 + d * x2 * x2 * y1 * y1 * y1 * y1 * y2 * y2 + (1 + 1) * a * a * x1 * x1 * x2 * x2 * y2 * y2 - (1 + 1) * a * d * x1 * x1 * x2 * x2 * y2 * y2 + (1 + 1) * a * x2 * x2 * y1 * y1 * y2 * y2 - (1 + 1) * d * x2 * x2 * y1 * y1 * y2 * y2 - a * a * x1 * x1 * x2 * x2 - a * x2 * x2 * y1 * y1 - a * x1 * x1 * y2 * y2 - (1 + 1) * a * x2 * x2 * y2 * y2 + d * x2 * x2 * y2 * y2 - y1 * y1 * y2 * y2 + a * x2 * x2 + y2 * y2 + 1) * e2).
  - unfold X, Y, D, t, e1, e2. ring.
  - rewrite O1, O2. ring.
Qed.

Lemma te_add_comm P Q : add P Q = add Q P.
Proof.
  destruct P as [x1 y1], Q as [x2 y2]. unfold te_add.
  replace (tt x1 y1 x2 y2) with (tt x2 y2 x1 y1) by ring.
  f_equal; f_equal; ring.
Qed.
Lemma tdiv_1 x : tdiv F x 1 = x.
Proof. apply (tdiv_eq F FK); [apply (fk_1_neq_0 F FK)|ring]. Qed.
Lemma te_add_0_l P : add zero P = P.
Proof.
  destruct P as [x y]. unfold te_add, te_zero.
  replace (1 + tt 0 1 x y) with 1 by ring. replace (1 - tt 0 1 x y) with 1 by ring.
  rewrite !tdiv_1. f_equal; ring.
Qed.
Lemma te_add_0_r P : add P zero = P.
Proof. rewrite te_add_comm. apply te_add_0_l. Qed.

Lemma te_add_opp x y : te_on (x, y) -> 1 + tt x y x y <> 0 -> 1 - tt x y x y <> 0 ->
  add (x, y) (opp (x, y)) = zero.
Proof.
  intros O Np Nm. cbn [te_opp]. unfold te_add, te_zero.
  f_equal; apply (tdiv_eq F FK).
  - intros E. apply Nm. rewrite <- E. ring.
  - ring.
  - intros E. apply Np. rewrite <- E. ring.
  - cbn in O. transitivity (a * (x * x) + y * y); [ring|]. rewrite O. ring.
Qed.

Lemma te_add_assoc x1 y1 x2 y2 x3 y3 :
  te_on (x1, y1) -> te_on (x2, y2) -> te_on (x3, y3) ->
  1 + tt x1 y1 x2 y2 <> 0 -> 1 - tt x1 y1 x2 y2 <> 0 ->
  1 + tt x2 y2 x3 y3 <> 0 -> 1 - tt x2 y2 x3 y3 <> 0 ->
  (let '(x, y) := add (x1, y1) (x2, y2) in 1 + tt x y x3 y3 <> 0 /\ 1 - tt x y x3 y3 <> 0) ->
  (let '(x, y) := add (x2, y2) (x3, y3) in 1 + tt x1 y1 x y <> 0 /\ 1 - tt x1 y1 x y <> 0) ->
  add (add (x1, y1) (x2, y2)) (x3, y3) = add (x1, y1) (add (x2, y2) (x3, y3)).
Proof.
  intros O1 O2 O3 Np Nm Mp Mm. apply te_eqn in O1, O2, O3.
  set (e1 := a * x1 * x1 + y1 * y1 - 1 - d * x1 * x1 * y1 * y1) in O1.
  set (e2 := a * x2 * x2 + y2 * y2 - 1 - d * x2 * x2 * y2 * y2) in O2.
  set (e3 := a * x3 * x3 + y3 * y3 - 1 - d * x3 * x3 * y3 * y3) in O3.
  unfold te_add at 1 2 4 6. set (t := tt x1 y1 x2 y2) in *. set (s := tt x2 y2 x3 y3) in *.
  set (X := x1 * y2 + y1 * x2). set (Y := y1 * y2 - a * (x1 * x2)).
  set (V := x2 * y3 + y2 * x3). set (W := y2 * y3 - a * (x2 * x3)).
  set (x := tdiv F X (1 + t)). set (y := tdiv F Y (1 - t)).
  set (v := tdiv F V (1 + s)). set (w := tdiv F W (1 - s)).
  assert (HX : X = x * (1 + t)) by (unfold x; now rewrite tdiv_mul).
  assert (HY : Y = y * (1 - t)) by (unfold y; now rewrite tdiv_mul).
  assert (HV : V = v * (1 + s)) by (unfold v; now rewrite tdiv_mul).
  assert (HW : W = w * (1 - s)) by (unfold w; now rewrite tdiv_mul).
  intros [Pp Pm] [Qp Qm]. unfold te_add.
  set (M := (1 + t) * (1 - t) * ((1 + s) * (1 - s))).
  assert (NM : M <> 0) by (unfold M; repeat apply fk_mul_neq_0; auto).
  f_equal; apply tdiv_cross; auto; apply (fk_mul_cancel F FK _ _ M NM);
    apply (proj1 (rk_sub_0 F R _ _)).
  - transitivity ((X * (1 - t) * y3 + Y * (1 + t) * x3) * ((1 - s) * (1 + s) + d * x1 * y1 * V * W)
       - (x1 * W * (1 + s) + y1 * V * (1 - s)) * ((1 - t) * (1 + t) + d * X * Y * x3 * y3)).
    { rewrite HX, HY, HV, HW. unfold M. ring. }
    transitivity ((a * d * d * x1 * x2 * x2 * x2 * x2 * x3 * x3 * y2 * y2 * y2 * y3 + d * d * x2 * x2 * x2 * x3 * x3 * y1 * y2 * y2 * y2 * y2 * y3 + d * d * x2 * x2 * x2 * x2 * x3 * y1 * y2 * y2 * y2 * y3 * y3 - d * d * x1 * x2 * x2 * x2 * x3 * y2 * y2 * y2 * y2 * y3 * y3 - a * a * d * x1 * x2 * x2 * x2 * x3 * x3 * x3 * y2 * y2 - a * a * d * x1 * x2 * x2 * x2 * x2 * x3 * x3 * y2 * y3 + a * d * x2 * x2 * x3 * x3 * x3 * y1 * y2 * y2 * y2 - a * d * x2 * x2 * x2 * x2 * x3 * y1 * y2 * y3 * y3 - d * x2 * x3 * x3 * y1 * y2 * y2 * y2 * y2 * y3 + d * x1 * x2 * x3 * y2 * y2 * y2 * y2 * y3 * y3 + d * x2 * x2 * x2 * y1 * y2 * y2 * y3 * y3 * y3 + d * x1 * x2 * x2 * y2 * y2 * y2 * y3 * y3 * y3 + a * d * x1 * x2 * x2 * x2 * x3 * y2 * y2 - d * x2 * x2 * x3 * y1 * y2 * y2 * y2 - d * x2 * x2 * x2 * y1 * y2 * y2 * y3 - d * x1 * x2 * x2 * y2 * y2 * y2 * y3) * e1 + (- (a * d * d * x1 * x1 * x2 * x2 * x3 * x3 * x3 * y1 * y2 * y3 * y3) + d * d * x1 * x2 * x3 * x3 * x3 * y1 * y1 * y2 * y2 * y3 * y3 - d * d * x1 * x2 * x2 * x3 * x3 * y1 * y1 * y2 * y3 * y3 * y3 - d * d * x1 * x1 * x2 * x3 * x3 * y1 * y2 * y2 * y3 * y3 * y3 + a * a * d * x1 * x1 * x1 * x2 * x2 * x3 * x3 * y2 * y3 + a * a * d * x1 * x1 * x1 * x2 * x3 * x3 * x3 * y3 * y3 + a * d * x1 * x2 * x2 * x3 * x3 * y1 * y1 * y2 * y3 + a * d * x1 * x1 * x2 * x3 * x3 * y1 * y2 * y2 * y3 + a * d * x1 * x2 * x3 * x3 * x3 * y1 * y1 * y3 * y3 + a * d * x1 * x1 * x2 * x2 * x3 * y1 * y2 * y3 * y3 - a * d * x1 * x1 * x3 * x3 * x3 * y1 * y2 * y3 * y3 - a * d * x1 * x1 * x1 * x2 * x3 * y2 * y2 * y3 * y3 - a * d * x1 * x1 * x2 * x3 * x3 * y1 * y3 * y3 * y3 - a * d * x1 * x1 * x1 * x3 * x3 * y2 * y3 * y3 * y3 - a * a * a * x1 * x1 * x1 * x2 * x3 * x3 * x3 + d * x2 * x3 * x3 * y1 * y1 * y1 * y2 * y2 * y3 + d * x2 * x2 * x3 * y1 * y1 * y1 * y2 * y3 * y3 - d * x3 * x3 * x3 * y1 * y1 * y1 * y2 * y3 * y3 - d * x1 * x2 * x3 * y1 * y1 * y2 * y2 * y3 * y3 - d * x2 * x3 * x3 * y1 * y1 * y1 * y3 * y3 * y3 - d * x1 * x3 * x3 * y1 * y1 * y2 * y3 * y3 * y3 - a * a * x1 * x2 * x3 * x3 * x3 * y1 * y1 + a * a * x1 * x1 * x3 * x3 * x3 * y1 * y2 + a * a * x1 * x1 * x2 * x3 * x3 * y1 * y3 + a * a * x1 * x1 * x1 * x3 * x3 * y2 * y3 - a * d * x1 * x2 * x2 * x3 * x3 * y2 * y3 - a * a * x1 * x1 * x1 * x2 * x3 * y3 * y3 - a * d * x1 * x2 * x3 * x3 * x3 * y3 * y3 + a * x3 * x3 * x3 * y1 * y1 * y1 * y2 + a * x2 * x3 * x3 * y1 * y1 * y1 * y3 + a * x1 * x3 * x3 * y1 * y1 * y2 * y3 - d * x2 * x3 * x3 * y1 * y2 * y2 * y3 - a * x1 * x2 * x3 * y1 * y1 * y3 * y3 + a * x1 * x1 * x3 * y1 * y2 * y3 * y3 - d * x2 * x2 * x3 * y1 * y2 * y3 * y3 + d * x3 * x3 * x3 * y1 * y2 * y3 * y3 + d * x1 * x2 * x3 * y2 * y2 * y3 * y3 + a * x1 * x1 * x2 * y1 * y3 * y3 * y3 + d * x2 * x3 * x3 * y1 * y3 * y3 * y3 + a * x1 * x1 * x1 * y2 * y3 * y3 * y3 + d * x1 * x3 * x3 * y2 * y3 * y3 * y3 + a * a * x1 * x1 * x1 * x2 * x3 + a * a * x1 * x2 * x3 * x3 * x3 + x3 * y1 * y1 * y1 * y2 * y3 * y3 + x2 * y1 * y1 * y1 * y3 * y3 * y3 + x1 * y1 * y1 * y2 * y3 * y3 * y3 + a * x1 * x2 * x3 * y1 * y1 - a * x1 * x1 * x3 * y1 * y2 - a * x3 * x3 * x3 * y1 * y2 - a * x1 * x1 * x2 * y1 * y3 - a * x2 * x3 * x3 * y1 * y3 - a * x1 * x1 * x1 * y2 * y3 - a * x1 * x3 * x3 * y2 * y3 + a * x1 * x2 * x3 * y3 * y3 - x3 * y1 * y1 * y1 * y2 - x2 * y1 * y1 * y1 * y3 - x1 * y1 * y1 * y2 * y3 - x3 * y1 * y2 * y3 * y3 - x2 * y1 * y3 * y3 * y3 - x1 * y2 * y3 * y3 * y3 - a * x1 * x2 * x3 + x3 * y1 * y2 + x2 * y1 * y3 + x1 * y2 * y3) * e2 + (a * a * a * x1 * x1 * x1 * x2 * x2 * x2 * x3 + a * a * x1 * x2 * x2 * x2 * x3 * y1 * y1 - a * a * x1 * x1 * x2 * x2 * x3 * y1 * y2 + a * d * x1 * x1 * x2 * x2 * x3 * y1 * y2 + a * a * x1 * x1 * x1 * x2 * x3 * y2 * y2 - a * a * x1 * x1 * x2 * x2 * x2 * y1 * y3 - a * a * x1 * x1 * x1 * x2 * x2 * y2 * y3 - a * x2 * x2 * x3 * y1 * y1 * y1 * y2 + a * x1 * x2 * x3 * y1 * y1 * y2 * y2 - d * x1 * x2 * x3 * y1 * y1 * y2 * y2 - a * x1 * x1 * x3 * y1 * y2 * y2 * y2 - a * x2 * x2 * x2 * y1 * y1 * y1 * y3 - a * x1 * x2 * x2 * y1 * y1 * y2 * y3 + d * x1 * x2 * x2 * y1 * y1 * y2 * y3 - a * x1 * x1 * x2 * y1 * y2 * y2 * y3 + d * x1 * x1 * x2 * y1 * y2 * y2 * y3 - a * x1 * x1 * x1 * y2 * y2 * y2 * y3 - a * a * x1 * x1 * x1 * x2 * x3 - a * a * x1 * x2 * x2 * x2 * x3 - x3 * y1 * y1 * y1 * y2 * y2 * y2 - x2 * y1 * y1 * y1 * y2 * y2 * y3 - x1 * y1 * y1 * y2 * y2 * y2 * y3 - a * x1 * x2 * x3 * y1 * y1 + a * x1 * x1 * x3 * y1 * y2 + a * x2 * x2 * x3 * y1 * y2 - a * x1 * x2 * x3 * y2 * y2 + a * x1 * x1 * x2 * y1 * y3 + a * x2 * x2 * x2 * y1 * y3 + a * x1 * x1 * x1 * y2 * y3 + a * x1 * x2 * x2 * y2 * y3 + x3 * y1 * y1 * y1 * y2 + x3 * y1 * y2 * y2 * y2 + x2 * y1 * y1 * y1 * y3 + x1 * y1 * y1 * y2 * y3 + x2 * y1 * y2 * y2 * y3 + x1 * y2 * y2 * y2 * y3 + a * x1 * x2 * x3 - x3 * y1 * y2 - x2 * y1 * y3 - x1 * y2 * y3) * e3).
    + unfold X, Y, V, W, t, s, e1, e2, e3. ring.
    + rewrite O1, O2, O3. ring.
  - transitivity ((Y * (1 + t) * y3 - a * X * (1 - t) * x3) * ((1 - s) * (1 + s) - d * x1 * y1 * V * W)
       - (y1 * W * (1 + s) - a * x1 * V * (1 - s)) * ((1 - t) * (1 + t) - d * X * Y * x3 * y3)).
    { rewrite HX, HY, HV, HW. unfold M. ring. }
    transitivity ((a * d * d * x2 * x2 * x2 * x2 * x3 * x3 * y1 * y2 * y2 * y2 * y3 - a * d * d * x1 * x2 * x2 * x2 * x3 * x3 * y2 * y2 * y2 * y2 * y3 - a * d * d * x1 * x2 * x2 * x2 * x2 * x3 * y2 * y2 * y2 * y3 * y3 - d * d * x2 * x2 * x2 * x3 * y1 * y2 * y2 * y2 * y2 * y3 * y3 - a * a * d * x2 * x2 * x2 * x3 * x3 * x3 * y1 * y2 * y2 - a * a * d * x1 * x2 * x2 * x3 * x3 * x3 * y2 * y2 * y2 - a * a * d * x2 * x2 * x2 * x2 * x3 * x3 * y1 * y2 * y3 + a * a * d * x1 * x2 * x2 * x2 * x2 * x3 * y2 * y3 * y3 + a * d * x1 * x2 * x3 * x3 * y2 * y2 * y2 * y2 * y3 - a * d * x1 * x2 * x2 * x2 * y2 * y2 * y3 * y3 * y3 + d * x2 * x3 * y1 * y2 * y2 * y2 * y2 * y3 * y3 + d * x2 * x2 * y1 * y2 * y2 * y2 * y3 * y3 * y3 + a * d * x2 * x2 * x2 * x3 * y1 * y2 * y2 + a * d * x1 * x2 * x2 * x3 * y2 * y2 * y2 + a * d * x1 * x2 * x2 * x2 * y2 * y2 * y3 - d * x2 * x2 * y1 * y2 * y2 * y2 * y3) * e1 + (a * d * d * x1 * x2 * x2 * x3 * x3 * x3 * y1 * y1 * y2 * y3 * y3 + a * d * d * x1 * x1 * x2 * x3 * x3 * x3 * y1 * y2 * y2 * y3 * y3 - a * d * d * x1 * x1 * x2 * x2 * x3 * x3 * y1 * y2 * y3 * y3 * y3 + d * d * x1 * x2 * x3 * x3 * y1 * y1 * y2 * y2 * y3 * y3 * y3 + a * a * d * x1 * x1 * x2 * x2 * x3 * x3 * y1 * y2 * y3 - a * a * d * x1 * x1 * x1 * x2 * x3 * x3 * y2 * y2 * y3 + a * a * d * x1 * x1 * x2 * x3 * x3 * x3 * y1 * y3 * y3 - a * a * d * x1 * x1 * x1 * x2 * x2 * x3 * y2 * y3 * y3 + a * a * d * x1 * x1 * x1 * x3 * x3 * x3 * y2 * y3 * y3 + a * a * d * x1 * x1 * x1 * x2 * x3 * x3 * y3 * y3 * y3 + a * d * x2 * x2 * x3 * x3 * y1 * y1 * y1 * y2 * y3 - a * d * x1 * x2 * x3 * x3 * y1 * y1 * y2 * y2 * y3 + a * d * x2 * x3 * x3 * x3 * y1 * y1 * y1 * y3 * y3 - a * d * x1 * x2 * x2 * x3 * y1 * y1 * y2 * y3 * y3 + a * d * x1 * x3 * x3 * x3 * y1 * y1 * y2 * y3 * y3 - a * d * x1 * x1 * x2 * x3 * y1 * y2 * y2 * y3 * y3 + a * d * x1 * x2 * x3 * x3 * y1 * y1 * y3 * y3 * y3 - a * d * x1 * x1 * x3 * x3 * y1 * y2 * y3 * y3 * y3 - a * a * a * x1 * x1 * x2 * x3 * x3 * x3 * y1 - a * a * a * x1 * x1 * x1 * x3 * x3 * x3 * y2 - a * a * a * x1 * x1 * x1 * x2 * x3 * x3 * y3 - d * x2 * x3 * y1 * y1 * y1 * y2 * y2 * y3 * y3 - d * x3 * x3 * y1 * y1 * y1 * y2 * y3 * y3 * y3 - a * a * x2 * x3 * x3 * x3 * y1 * y1 * y1 - a * a * x1 * x3 * x3 * x3 * y1 * y1 * y2 - a * a * x1 * x2 * x3 * x3 * y1 * y1 * y3 + a * a * x1 * x1 * x3 * x3 * y1 * y2 * y3 - a * d * x2 * x2 * x3 * x3 * y1 * y2 * y3 + a * d * x1 * x2 * x3 * x3 * y2 * y2 * y3 - a * a * x1 * x1 * x2 * x3 * y1 * y3 * y3 - a * d * x2 * x3 * x3 * x3 * y1 * y3 * y3 - a * a * x1 * x1 * x1 * x3 * y2 * y3 * y3 + a * d * x1 * x2 * x2 * x3 * y2 * y3 * y3 - a * d * x1 * x3 * x3 * x3 * y2 * y3 * y3 - a * a * x1 * x1 * x1 * x2 * y3 * y3 * y3 - a * d * x1 * x2 * x3 * x3 * y3 * y3 * y3 + a * x3 * x3 * y1 * y1 * y1 * y2 * y3 - a * x2 * x3 * y1 * y1 * y1 * y3 * y3 - a * x1 * x3 * y1 * y1 * y2 * y3 * y3 + d * x2 * x3 * y1 * y2 * y2 * y3 * y3 - a * x1 * x2 * y1 * y1 * y3 * y3 * y3 + a * x1 * x1 * y1 * y2 * y3 * y3 * y3 + d * x3 * x3 * y1 * y2 * y3 * y3 * y3 + a * a * x1 * x1 * x2 * x3 * y1 + a * a * x2 * x3 * x3 * x3 * y1 + a * a * x1 * x1 * x1 * x3 * y2 + a * a * x1 * x3 * x3 * x3 * y2 + a * a * x1 * x1 * x1 * x2 * y3 + a * a * x1 * x2 * x3 * x3 * y3 + y1 * y1 * y1 * y2 * y3 * y3 * y3 + a * x2 * x3 * y1 * y1 * y1 + a * x1 * x3 * y1 * y1 * y2 + a * x1 * x2 * y1 * y1 * y3 - a * x1 * x1 * y1 * y2 * y3 - a * x3 * x3 * y1 * y2 * y3 + a * x2 * x3 * y1 * y3 * y3 + a * x1 * x3 * y2 * y3 * y3 + a * x1 * x2 * y3 * y3 * y3 - y1 * y1 * y1 * y2 * y3 - y1 * y2 * y3 * y3 * y3 - a * x2 * x3 * y1 - a * x1 * x3 * y2 - a * x1 * x2 * y3 + y1 * y2 * y3) * e2 + (a * a * a * x1 * x1 * x2 * x2 * x2 * x3 * y1 + a * a * a * x1 * x1 * x1 * x2 * x2 * x3 * y2 + a * a * a * x1 * x1 * x1 * x2 * x2 * x2 * y3 + a * a * x2 * x2 * x2 * x3 * y1 * y1 * y1 + a * a * x1 * x2 * x2 * x3 * y1 * y1 * y2 - a * d * x1 * x2 * x2 * x3 * y1 * y1 * y2 + a * a * x1 * x1 * x2 * x3 * y1 * y2 * y2 - a * d * x1 * x1 * x2 * x3 * y1 * y2 * y2 + a * a * x1 * x1 * x1 * x3 * y2 * y2 * y2 + a * a * x1 * x2 * x2 * x2 * y1 * y1 * y3 - a * a * x1 * x1 * x2 * x2 * y1 * y2 * y3 + a * d * x1 * x1 * x2 * x2 * y1 * y2 * y3 + a * a * x1 * x1 * x1 * x2 * y2 * y2 * y3 + a * x2 * x3 * y1 * y1 * y1 * y2 * y2 + a * x1 * x3 * y1 * y1 * y2 * y2 * y2 - a * x2 * x2 * y1 * y1 * y1 * y2 * y3 + a * x1 * x2 * y1 * y1 * y2 * y2 * y3 - d * x1 * x2 * y1 * y1 * y2 * y2 * y3 - a * x1 * x1 * y1 * y2 * y2 * y2 * y3 - a * a * x1 * x1 * x2 * x3 * y1 - a * a * x2 * x2 * x2 * x3 * y1 - a * a * x1 * x1 * x1 * x3 * y2 - a * a * x1 * x2 * x2 * x3 * y2 - a * a * x1 * x1 * x1 * x2 * y3 - a * a * x1 * x2 * x2 * x2 * y3 - y1 * y1 * y1 * y2 * y2 * y2 * y3 - a * x2 * x3 * y1 * y1 * y1 - a * x1 * x3 * y1 * y1 * y2 - a * x2 * x3 * y1 * y2 * y2 - a * x1 * x3 * y2 * y2 * y2 - a * x1 * x2 * y1 * y1 * y3 + a * x1 * x1 * y1 * y2 * y3 + a * x2 * x2 * y1 * y2 * y3 - a * x1 * x2 * y2 * y2 * y3 + y1 * y1 * y1 * y2 * y3 + y1 * y2 * y2 * y2 * y3 + a * x2 * x3 * y1 + a * x1 * x3 * y2 + a * x1 * x2 * y3 - y1 * y2 * y3) * e3).
    + unfold X, Y, V, W, t, s, e1, e2, e3. ring.
    + rewrite O1, O2, O3. ring.
Qed.

(** Complete curves: a a non-zero square, d not a square. *)
Section Complete.
Variable al : K.
Hypothesis HA : a = al * al.
Hypothesis NA : al <> 0.
Hypothesis ND : forall r, r * r <> d.
Hypothesis H2 : 1 + 1 <> 0.

Lemma te_complete x1 y1 x2 y2 : te_on (x1, y1) -> te_on (x2, y2) ->
  tt x1 y1 x2 y2 * tt x1 y1 x2 y2 <> 1.
Proof.
  intros O1 O2. set (t := tt x1 y1 x2 y2). intros T. cbn in O1, O2.
  assert (NT : t <> 0).
  { intros E. apply (fk_1_neq_0 F FK). rewrite <- T, E. ring. }
  assert (E : forall e, (e = 1 \/ e = oopp F (o1 F)) ->
     (al * x1 + e * t * y1) * (al * x1 + e * t * y1) = d * ((x1 * y1) * (x1 * y1)) * ((al * x2 + e * y2) * (al * x2 + e * y2))).
  { intros e He. assert (E2 : e * e = 1) by (destruct He; subst; ring).
    transitivity ((a * (x1 * x1) + y1 * y1) + (1 + 1) * al * e * t * x1 * y1 + ((e * e) * (t * t) - 1) * (y1 * y1)).
    { rewrite HA. ring. }
    transitivity (d * ((x1 * y1) * (x1 * y1)) * (a * (x2 * x2) + y2 * y2) + (1 + 1) * al * e * t * x1 * y1 + d * ((x1 * y1) * (x1 * y1)) * (e * e - 1) * (y2 * y2)).
    2:{ unfold t. rewrite HA. ring. }
    rewrite E2, T, O1, O2.
    transitivity (1 + d * ((x1 * x1) * (y1 * y1)) + (1 + 1) * al * e * t * x1 * y1); [ring|].
    transitivity (d * ((x1 * x1) * (y1 * y1)) + t * t + (1 + 1) * al * e * t * x1 * y1).
    - rewrite T. ring.
    - unfold t. ring. }
  assert (S : forall e, (e = 1 \/ e = oopp F (o1 F)) -> al * x2 + e * y2 = 0).
  { intros e He. destruct (rk_dec F R (al * x2 + e * y2) 0) as [|N]; auto. exfalso.
    set (q := (x1 * y1) * (al * x2 + e * y2)).
    assert (NQ : q <> 0).
    { unfold q. intros Q. apply fk_mul_0 in Q; auto. destruct Q as [Q|Q]; [|contradiction].
      apply NT. unfold t. transitivity (d * (x1 * y1) * (x2 * y2)); [ring|]. rewrite Q. ring. }
    apply (ND (tdiv F (al * x1 + e * t * y1) q)).
    apply (fk_mul_cancel F FK _ _ (q * q)); [now apply fk_mul_neq_0|].
    transitivity ((tdiv F (al * x1 + e * t * y1) q * q) * (tdiv F (al * x1 + e * t * y1) q * q)); [ring|].
    rewrite tdiv_mul by auto. rewrite (E e He). unfold q. ring. }
  pose proof (S 1 (or_introl eq_refl)) as S1. pose proof (S (oopp F (o1 F)) (or_intror eq_refl)) as S2.
  assert (Z : (1 + 1) * al * x2 = 0).
  { transitivity ((al * x2 + 1 * y2) + (al * x2 + oopp F (o1 F) * y2)); [ring|]. rewrite S1, S2. ring. }
  apply fk_mul_0 in Z; auto. destruct Z as [Z|Z].
  - apply fk_mul_0 in Z; tauto.
  - apply NT. unfold t. rewrite Z. ring.
Qed.
Lemma te_complete_p x1 y1 x2 y2 : te_on (x1, y1) -> te_on (x2, y2) -> 1 + tt x1 y1 x2 y2 <> 0.
Proof.
  intros O1 O2 E. apply (te_complete _ _ _ _ O1 O2).
  replace (tt x1 y1 x2 y2) with ((1 + tt x1 y1 x2 y2) - 1) by ring. rewrite E. ring.
Qed.
Lemma te_complete_m x1 y1 x2 y2 : te_on (x1, y1) -> te_on (x2, y2) -> 1 - tt x1 y1 x2 y2 <> 0.
Proof.
  intros O1 O2 E. apply (te_complete _ _ _ _ O1 O2).
  replace (tt x1 y1 x2 y2) with (1 - (1 - tt x1 y1 x2 y2)) by ring. rewrite E. ring.
Qed.
Lemma te_on_add_c P Q : te_on P -> te_on Q -> te_on (add P Q).
Proof.
  destruct P as [x1 y1], Q as [x2 y2]. intros O1 O2.
  apply te_on_add; auto using te_complete_p, te_complete_m.
Qed.
Lemma te_assoc_c P Q S : te_on P -> te_on Q -> te_on S -> add (add P Q) S = add P (add Q S).
Proof.
  intros O1 O2 O3. pose proof (te_on_add_c P Q O1 O2) as OL. pose proof (te_on_add_c Q S O2 O3) as OR.
  destruct P as [x1 y1], Q as [x2 y2], S as [x3 y3].
  apply te_add_assoc; auto using te_complete_p, te_complete_m.
  - destruct (add (x1, y1) (x2, y2)) as [x y]. auto using te_complete_p, te_complete_m.
  - destruct (add (x2, y2) (x3, y3)) as [x y]. auto using te_complete_p, te_complete_m.
Qed.
Lemma te_opp_c P : te_on P -> add P (opp P) = zero.
Proof. destruct P as [x y]. intros O. apply te_add_opp; auto using te_complete_p, te_complete_m. Qed.

(** The group of points. *)
Definition te_onb (P : K * K) : bool :=
  let '(x, y) := P in oeqb F (a * (x * x) + y * y) (1 + d * ((x * x) * (y * y))).
Lemma te_onb_iff P : te_onb P = true <-> te_on P.
Proof. destruct P. cbn. apply (rk_eqb F R). Qed.
Definition te_pt : Type := { P : K * K | te_onb P = true }.
Lemma te_pt_eq (P Q : te_pt) : proj1_sig P = proj1_sig Q -> P = Q.
Proof. destruct P as [p Hp], Q as [q Hq]. cbn. intros ->. f_equal. apply UIP_dec. apply bool_dec. Qed.
Lemma te_pt_on (P : te_pt) : te_on (proj1_sig P).
Proof. apply te_onb_iff. exact (proj2_sig P). Qed.
Definition tp_zero : te_pt := exist _ zero (proj2 (te_onb_iff zero) te_zero_on).
Definition tp_mk (P : K * K) : te_pt :=
  match bool_dec (te_onb P) true with left e => exist _ P e | right _ => tp_zero end.
Definition tp_add (P Q : te_pt) : te_pt := tp_mk (add (proj1_sig P) (proj1_sig Q)).
Definition tp_opp (P : te_pt) : te_pt := tp_mk (opp (proj1_sig P)).
Lemma tp_mk_val P : te_on P -> proj1_sig (tp_mk P) = P.
Proof.
  intros O. unfold tp_mk. destruct (bool_dec (te_onb P) true) as [e|n]; auto.
  exfalso. apply n. now apply te_onb_iff.
Qed.
Lemma tp_add_val P Q : proj1_sig (tp_add P Q) = add (proj1_sig P) (proj1_sig Q).
Proof. apply tp_mk_val. apply te_on_add_c; apply te_pt_on. Qed.
Lemma tp_opp_val P : proj1_sig (tp_opp P) = opp (proj1_sig P).
Proof. apply tp_mk_val. apply te_on_opp. apply te_pt_on. Qed.
Theorem tp_group : agroup tp_zero tp_add tp_opp.
Proof.
  constructor.
  - constructor; intros; apply te_pt_eq.
    + rewrite tp_add_val. apply te_add_0_l.
    + rewrite tp_add_val. apply te_add_0_r.
    + rewrite !tp_add_val. symmetry. apply te_assoc_c; apply te_pt_on.
  - intros. apply te_pt_eq. rewrite !tp_add_val. apply te_add_comm.
  - intros. apply te_pt_eq. rewrite !tp_add_val, tp_opp_val. apply te_opp_c, te_pt_on.
Qed.

(** Points of odd order other than O have no zero coordinate. *)
Definition odd_torsion (r : nat) (P : te_pt) : Prop := npow tp_zero tp_add P r = tp_zero.

Lemma tp_two_torsion r P : Nat.odd r = true -> odd_torsion r P -> tp_add P P = tp_zero -> P = tp_zero.
Proof.
  intros Od T D. pose proof (ag_monoid _ _ _ tp_group) as M.
  unfold odd_torsion in T. apply Nat.odd_spec in Od. destruct Od as [m ->].
  rewrite npow_add, npow_mul, npow_1, npow_2, D, npow_one in T by exact M.
  now rewrite (ml_1_l _ _ M) in T.
Qed.
Lemma odd_torsion_add r P Q : odd_torsion r P -> odd_torsion r Q -> odd_torsion r (tp_add P Q).
Proof.
  unfold odd_torsion. intros HP HQ. pose proof (ag_monoid _ _ _ tp_group) as M.
  rewrite npow_mul_distr; [|exact M|apply (ag_comm _ _ _ tp_group)].
  rewrite HP, HQ. apply (ml_1_l _ _ M).
Qed.
Lemma odd_torsion_zero r : odd_torsion r tp_zero.
Proof. apply npow_one. apply (ag_monoid _ _ _ tp_group). Qed.
Lemma odd_torsion_opp r P : odd_torsion r P -> odd_torsion r (tp_opp P).
Proof.
  intros H. pose proof (ag_monoid _ _ _ tp_group) as M.
  assert (E : odd_torsion r (tp_add P (tp_opp P))) by (rewrite (ag_opp _ _ _ tp_group); apply odd_torsion_zero).
  unfold odd_torsion in *. rewrite npow_mul_distr in E; [|exact M|apply (ag_comm _ _ _ tp_group)].
  rewrite H, (ml_1_l _ _ M) in E. exact E.
Qed.
Lemma odd_torsion_x r P : Nat.odd r = true -> odd_torsion r P -> fst (proj1_sig P) = 0 -> P = tp_zero.
Proof.
  intros Od T E. apply (tp_two_torsion r); auto. apply te_pt_eq. rewrite tp_add_val.
  pose proof (te_pt_on P) as O. destruct (proj1_sig P) as [x y]. cbn in E. subst x. cbn in O.
  cbn [proj1_sig tp_zero]. unfold te_add, te_zero.
  replace (1 + tt 0 y 0 y) with 1 by ring. replace (1 - tt 0 y 0 y) with 1 by ring. rewrite !tdiv_1.
  f_equal; [ring|]. transitivity (a * (0 * 0) + y * y); [ring|]. rewrite O. ring.
Qed.
Lemma odd_torsion_y r P : Nat.odd r = true -> odd_torsion r P -> snd (proj1_sig P) <> 0.
Proof.
  intros Od T E.
  assert (D : tp_add P P = tp_zero).
  { apply (tp_two_torsion r); auto using odd_torsion_add. apply te_pt_eq. rewrite !tp_add_val.
    pose proof (te_pt_on P) as O. destruct (proj1_sig P) as [x y]. cbn in E. subst y. cbn in O.
    cbn [proj1_sig tp_zero]. unfold te_add, te_zero.
    replace (1 + tt x 0 x 0) with 1 by ring. replace (1 - tt x 0 x 0) with 1 by ring. rewrite !tdiv_1.
    assert (A : a * (x * x) = 1) by (transitivity (a * (x * x) + 0 * 0); [ring|]; rewrite O; ring).
    replace (x * 0 + 0 * x) with 0 by ring. replace (0 * 0 - a * (x * x)) with (oopp F (o1 F)) by (rewrite A; ring).
    replace (1 + tt 0 (oopp F (o1 F)) 0 (oopp F (o1 F))) with 1 by ring. replace (1 - tt 0 (oopp F (o1 F)) 0 (oopp F (o1 F))) with 1 by ring. rewrite !tdiv_1.
    f_equal; ring. }
  apply (tp_two_torsion r P Od T) in D. subst P. cbn in E. now apply (fk_1_neq_0 F FK).
Qed.
(** The difference of two points of odd order has no zero y coordinate, which
    is what the dual addition formula needs. *)
Lemma odd_torsion_dual r P Q : Nat.odd r = true -> odd_torsion r P -> odd_torsion r Q ->
  let '(x1, y1) := proj1_sig P in let '(x2, y2) := proj1_sig Q in y1 * y2 + a * (x1 * x2) <> 0.
Proof.
  intros Od TP TQ.
  pose proof (odd_torsion_y r (tp_add P (tp_opp Q)) Od (odd_torsion_add r _ _ TP (odd_torsion_opp r _ TQ))) as Y.
  rewrite tp_add_val, tp_opp_val in Y.
  pose proof (te_pt_on P) as O1. pose proof (te_pt_on Q) as O2. apply te_on_opp in O2.
  destruct (proj1_sig P) as [x1 y1], (proj1_sig Q) as [x2 y2].
  pose proof (te_complete_m _ _ _ _ O1 O2) as N.
  intros E. apply Y. cbn [te_opp te_add snd].
  apply (tdiv_eq F FK); auto.
  transitivity (y1 * y2 + a * (x1 * x2)); [ring|]. rewrite E. ring.
Qed.
End Complete.

(** The dual addition formula for x. *)
Lemma te_dual_x x1 y1 x2 y2 : te_on (x1, y1) -> te_on (x2, y2) ->
  (x1 * y1 + x2 * y2) * (1 + tt x1 y1 x2 y2) = (x1 * y2 + y1 * x2) * (y1 * y2 + a * (x1 * x2)).
Proof.
  intros O1 O2. apply te_eqn in O1, O2.
  set (e1 := a * x1 * x1 + y1 * y1 - 1 - d * x1 * x1 * y1 * y1) in O1.
  set (e2 := a * x2 * x2 + y2 * y2 - 1 - d * x2 * x2 * y2 * y2) in O2.
  apply (proj1 (rk_sub_0 F R _ _)).
  transitivity ((- (x2 * y2)) * e1 + (- (x1 * y1)) * e2).
  - unfold e1, e2. ring.
  - rewrite O1, O2. ring.
Qed.
End Te.
