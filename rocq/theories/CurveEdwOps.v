(** Inverted Edwards coordinates (edwards G1 and G2) compute the twisted
    Edwards addition law. *)
From Coq Require Import ZArith List Bool Ring Field Lia.
From Verif Require Import Result Algebra FieldOps AlgorithmsModel AlgorithmsProofs AlgorithmsField GroupOps
  CurveSpec CurveModel CurveProofs CurveEdwards.
Import ListNotations.

Section EdwOps.
Context {K : Type} (F : Fops K).
Hypothesis FK : field_ok F.
Variables a d : K.
Variables mul_a mul_d : K -> K.
Hypothesis MA : forall x, mul_a x = omul F a x.
Hypothesis MD : forall x, mul_d x = omul F d x.
Let R : ring_ok F := fk_ring F FK.
Add Ring EOring : (rk_ring F (fk_ring F FK)).
Local Notation "0" := (o0 F).
Local Notation "1" := (o1 F).
Local Notation "x + y" := (oadd F x y).
Local Notation "x - y" := (osub F x y).
Local Notation "x * y" := (omul F x y).
Local Notation "- x" := (oopp F x).
Local Notation den := (edw_den F).
Local Notation ok := (edw_ok F a d).
Local Notation te_on := (te_on F a d).
Local Notation add := (te_add F a d).
Local Notation tt x1 y1 x2 y2 := (d * ((x1 * x2) * (y1 * y2))).

Lemma edw_den_at x y X Y Z : X <> 0 -> Y <> 0 -> Z = x * X -> Z = y * Y -> den (X, Y, Z) = (x, y).
Proof.
  intros NX NY EX EY. cbn. rewrite (proj2 (rk_eqb_neq F R Y 0) NY). cbn.
  now rewrite (tdiv_eq F FK Z X x), (tdiv_eq F FK Z Y y).
Qed.
Lemma edw_den_zero X Y Z : Y = 0 -> Z = 0 -> den (X, Y, Z) = te_zero F.
Proof. intros -> ->. cbn. now rewrite (rk_eqb_refl F R). Qed.
Lemma edw_is_zero_at X Y Z : edw_is_zero F (X, Y, Z) = true <-> Y = 0 /\ Z = 0.
Proof. cbn. rewrite andb_true_iff, !(eqb0 F FK). tauto. Qed.
Lemma edw_is_zero_not X Y Z : Y <> 0 -> edw_is_zero F (X, Y, Z) = false.
Proof. intros N. cbn. now rewrite (proj2 (rk_eqb_neq F R Y 0) N). Qed.

(** A point other than O is c (y, x, x y). *)
Lemma edw_cases p : ok p ->
  (edw_is_zero F p = true /\ den p = te_zero F) \/
  (edw_is_zero F p = false /\ exists x y c, x <> 0 /\ y <> 0 /\ c <> 0 /\ te_on (x, y) /\ den p = (x, y) /\
     p = (y * c, x * c, x * y * c)).
Proof.
  destruct p as [[X Y] Z]. intros [(NX & EY & EZ)|(NX & NY & NZ & O)].
  - left. split; [now apply edw_is_zero_at|now apply edw_den_zero].
  - right. split; [now apply edw_is_zero_not|].
    exists (tdiv F Z X), (tdiv F Z Y), (tdiv F Y (tdiv F Z X)).
    set (x := tdiv F Z X). set (y := tdiv F Z Y).
    assert (EX : Z = x * X) by (unfold x; now rewrite tdiv_mul).
    assert (EY : Z = y * Y) by (unfold y; now rewrite tdiv_mul).
    assert (Nx : x <> 0) by (intros E; apply NZ; rewrite EX, E; ring).
    assert (Ny : y <> 0) by (intros E; apply NZ; rewrite EY, E; ring).
    assert (D : den (X, Y, Z) = (x, y)) by now apply edw_den_at.
    rewrite D in O. set (c := tdiv F Y x).
    assert (EC : Y = x * c) by (unfold c; transitivity (tdiv F Y x * x); [now rewrite tdiv_mul|ring]).
    assert (Nc : c <> 0) by (intros E; apply NY; rewrite EC, E; ring).
    repeat split; auto.
    assert (EZ : Z = x * y * c) by (rewrite EY, EC; ring).
    assert (E1 : X = y * c).
    { apply (fk_mul_cancel F FK _ _ x Nx). transitivity (x * X); [ring|]. rewrite <- EX, EZ. ring. }
    rewrite <- E1, <- EC, <- EZ. reflexivity.
Qed.
Lemma edw_ok_mk x y c : x <> 0 -> y <> 0 -> c <> 0 -> te_on (x, y) ->
  ok (y * c, x * c, x * y * c) /\ den (y * c, x * c, x * y * c) = (x, y).
Proof.
  intros Nx Ny Nc O.
  assert (D : den (y * c, x * c, x * y * c) = (x, y)).
  { apply edw_den_at; try (now apply fk_mul_neq_0); ring. }
  split; auto. right. rewrite D. repeat split; auto; repeat apply fk_mul_neq_0; auto.
Qed.

Lemma edw_zero_ok : ok (edw_zero F) /\ den (edw_zero F) = te_zero F.
Proof.
  unfold edw_zero, edw_of_affine. split.
  - left. repeat split; auto; [apply (fk_1_neq_0 F FK)|ring].
  - apply edw_den_zero; auto. ring.
Qed.
Lemma edw_of_affine_ok x y : x <> 0 -> y <> 0 -> te_on (x, y) ->
  ok (edw_of_affine F x y) /\ den (edw_of_affine F x y) = (x, y).
Proof.
  intros Nx Ny O. unfold edw_of_affine.
  pose proof (edw_ok_mk x y 1 Nx Ny (fk_1_neq_0 F FK) O) as H.
  replace (y * 1) with y in H by ring. replace (x * 1) with x in H by ring.
  replace (x * y * 1) with (x * y) in H by ring. exact H.
Qed.

(** Every addition formula produces a multiple of this triple. *)
Lemma edw_result k x1 y1 x2 y2 : k <> 0 -> te_on (x1, y1) -> te_on (x2, y2) ->
  1 + tt x1 y1 x2 y2 <> 0 -> 1 - tt x1 y1 x2 y2 <> 0 ->
  (let S := add (x1, y1) (x2, y2) in S = te_zero F \/ (fst S <> 0 /\ snd S <> 0)) ->
  let t := tt x1 y1 x2 y2 in
  let Xn := x1 * y2 + y1 * x2 in let Yn := y1 * y2 - a * (x1 * x2) in
  let p := (k * ((1 + t) * Yn), k * ((1 - t) * Xn), k * (Xn * Yn)) in
  ok p /\ den p = add (x1, y1) (x2, y2).
Proof.
  intros Nk O1 O2 Np Nm HS t Xn Yn. cbv zeta in HS.
  pose proof (te_on_add F FK a d _ _ _ _ O1 O2 Np Nm) as OS.
  unfold te_add in HS, OS |- *. fold t Xn Yn in HS, OS |- *. fold t in Np, Nm.
  set (x := tdiv F Xn (1 + t)) in *. set (y := tdiv F Yn (1 - t)) in *.
  assert (EX : Xn = x * (1 + t)) by (unfold x; now rewrite tdiv_mul).
  assert (EY : Yn = y * (1 - t)) by (unfold y; now rewrite tdiv_mul).
  destruct HS as [E|[Nx Ny]].
  - unfold te_zero in E. injection E as Ex Ey.
    assert (E1 : Xn = 0) by (rewrite EX, Ex; ring).
    assert (E2 : Yn = 1 - t) by (rewrite EY, Ey; ring).
    rewrite E1, E2, Ex, Ey. split.
    + left. split; [|split; ring]. repeat apply fk_mul_neq_0; auto.
    + apply edw_den_zero; ring.
  - cbn [fst snd] in Nx, Ny.
    pose proof (edw_ok_mk x y (k * ((1 + t) * (1 - t))) Nx Ny) as H.
    assert (Nc : k * ((1 + t) * (1 - t)) <> 0) by (repeat apply fk_mul_neq_0; auto).
    specialize (H Nc OS). cbv zeta. rewrite EX, EY.
    replace (k * ((1 + t) * (y * (1 - t)))) with (y * (k * ((1 + t) * (1 - t)))) by ring.
    replace (k * ((1 - t) * (x * (1 + t)))) with (x * (k * ((1 + t) * (1 - t)))) by ring.
    replace (k * (x * (1 + t) * (y * (1 - t)))) with (x * y * (k * ((1 + t) * (1 - t)))) by ring.
    exact H.
Qed.

Lemma trip (A B C A' B' C' : K) : A = A' -> B = B' -> C = C' -> (A, B, C) = (A', B', C').
Proof. now intros -> -> ->. Qed.

Lemma edw_add_member_form x1 y1 c1 x2 y2 c2 :
  let t := tt x1 y1 x2 y2 in
  let Xn := x1 * y2 + y1 * x2 in let Yn := y1 * y2 - a * (x1 * x2) in
  let k := x1 * x2 * y1 * y2 * (c1 * c2) * (c1 * c2) * (c1 * c2) in
  edw_add_member F mul_a mul_d (y1 * c1, x1 * c1, x1 * y1 * c1) (y2 * c2, x2 * c2, x2 * y2 * c2)
  = (k * ((1 + t) * Yn), k * ((1 - t) * Xn), k * (Xn * Yn)).
Proof.
  cbv zeta. unfold edw_add_member. rewrite !MD, !MA, !(rk_sqr F R). apply trip; ring.
Qed.
Lemma edw_mixed_form x1 y1 c1 x2 y2 c2 : x2 * y2 * c2 = 1 ->
  let t := tt x1 y1 x2 y2 in
  let Xn := x1 * y2 + y1 * x2 in let Yn := y1 * y2 - a * (x1 * x2) in
  let k := x1 * x2 * y1 * y2 * (c1 * c2) * (c1 * c2) * (c1 * c2) in
  edw_is_zero F (y1 * c1, x1 * c1, x1 * y1 * c1) = false ->
  edw_is_zero F (y2 * c2, x2 * c2, x2 * y2 * c2) = false ->
  edw_mixed_add F mul_a mul_d (y1 * c1, x1 * c1, x1 * y1 * c1) (y2 * c2, x2 * c2, x2 * y2 * c2)
  = (k * ((1 + t) * Yn), k * ((1 - t) * Xn), k * (Xn * Yn)).
Proof.
  cbv zeta. intros S Z1 Z2. unfold edw_mixed_add. rewrite Z1, Z2.
  rewrite !MD, !MA, !(rk_sqr F R).
  replace (x1 * y1 * c1) with (x1 * y1 * c1 * (x2 * y2 * c2)) by (rewrite S; ring).
  apply trip; ring.
Qed.
Lemma edw_dbl_form x y c : te_on (x, y) -> edw_is_zero F (y * c, x * c, x * y * c) = false ->
  let t := tt x y x y in
  let Xn := x * y + y * x in let Yn := y * y - a * (x * x) in
  let k := c * c * (c * c) in
  edw_dbl F mul_a mul_d (y * c, x * c, x * y * c)
  = (k * ((1 + t) * Yn), k * ((1 - t) * Xn), k * (Xn * Yn)).
Proof.
  cbv zeta. intros O Z. unfold edw_dbl. rewrite Z, !MD, !MA, !(rk_sqr F R). cbn in O.
  assert (C : y * c * (y * c) + a * (x * c * (x * c)) = c * c * (1 + d * ((x * x) * (y * y)))).
  { rewrite <- O. ring. }
  rewrite C. apply trip; ring.
Qed.
Lemma edw_g1_dbl_eq p : a = 1 -> edw_g1_dbl F mul_d p = edw_dbl F mul_a mul_d p.
Proof.
  intros A1. destruct p as [[X Y] Z]. unfold edw_g1_dbl, edw_dbl. rewrite !MA, !MD, !(rk_sqr F R), A1.
  destruct (edw_is_zero F (X, Y, Z)); auto. apply trip; ring.
Qed.

(** When the sum of two points is one the coordinates can hold. *)
Definition edw_fits (P Q : K * K) : Prop :=
  (let '(x1, y1) := P in let '(x2, y2) := Q in 1 + tt x1 y1 x2 y2 <> 0 /\ 1 - tt x1 y1 x2 y2 <> 0) /\
  (add P Q = te_zero F \/ (fst (add P Q) <> 0 /\ snd (add P Q) <> 0)).

Theorem edw_add_den p q : ok p -> ok q -> edw_fits (den p) (den q) ->
  ok (edw_add F mul_a mul_d p q) /\ den (edw_add F mul_a mul_d p q) = add (den p) (den q).
Proof.
  intros OP OQ HF. unfold edw_add.
  destruct (edw_cases p OP) as [[Z1 D1]|(Z1 & x1 & y1 & c1 & Nx1 & Ny1 & Nc1 & O1 & D1 & E1)]; rewrite Z1.
  - rewrite D1, (te_add_0_l F FK). auto.
  - destruct (edw_cases q OQ) as [[Z2 D2]|(Z2 & x2 & y2 & c2 & Nx2 & Ny2 & Nc2 & O2 & D2 & E2)]; rewrite Z2.
    + rewrite D2, (te_add_0_r F FK). auto.
    + rewrite D1, D2 in HF |- *. destruct HF as [[Np Nm] HS]. rewrite E1, E2, edw_add_member_form.
      apply edw_result; auto. repeat apply fk_mul_neq_0; auto.
Qed.
Theorem edw_add_member_den p q : ok p -> ok q -> edw_is_zero F p = false -> edw_is_zero F q = false ->
  edw_fits (den p) (den q) ->
  ok (edw_add_member F mul_a mul_d p q) /\ den (edw_add_member F mul_a mul_d p q) = add (den p) (den q).
Proof.
  intros OP OQ Z1 Z2 HF. pose proof (edw_add_den p q OP OQ HF) as H. unfold edw_add in H. now rewrite Z1, Z2 in H.
Qed.
Theorem edw_mixed_add_den p q : ok p -> ok q -> edw_is_special F q = true -> edw_fits (den p) (den q) ->
  ok (edw_mixed_add F mul_a mul_d p q) /\ den (edw_mixed_add F mul_a mul_d p q) = add (den p) (den q).
Proof.
  intros OP OQ SP HF.
  destruct (edw_cases p OP) as [[Z1 D1]|(Z1 & x1 & y1 & c1 & Nx1 & Ny1 & Nc1 & O1 & D1 & E1)].
  - destruct p as [[X1 Y1] W1], q as [[X2 Y2] W2]. unfold edw_mixed_add.
    rewrite Z1, D1, (te_add_0_l F FK). auto.
  - destruct (edw_cases q OQ) as [[Z2 D2]|(Z2 & x2 & y2 & c2 & Nx2 & Ny2 & Nc2 & O2 & D2 & E2)].
    + destruct p as [[X1 Y1] W1], q as [[X2 Y2] W2]. unfold edw_mixed_add.
      rewrite Z1, Z2, D2, (te_add_0_r F FK). auto.
    + rewrite D1, D2 in HF |- *. destruct HF as [[Np Nm] HS]. rewrite E1, E2 in *.
      assert (S1 : x2 * y2 * c2 = 1).
      { unfold edw_is_special in SP. rewrite Z2 in SP. cbn [orb] in SP. now apply (rk_eqb F R) in SP. }
      rewrite edw_mixed_form by auto.
      apply edw_result; auto. repeat apply fk_mul_neq_0; auto.
Qed.
Theorem edw_dbl_den p : ok p -> edw_fits (den p) (den p) ->
  ok (edw_dbl F mul_a mul_d p) /\ den (edw_dbl F mul_a mul_d p) = add (den p) (den p).
Proof.
  intros OP HF.
  destruct (edw_cases p OP) as [[Z1 D1]|(Z1 & x1 & y1 & c1 & Nx1 & Ny1 & Nc1 & O1 & D1 & E1)].
  - destruct p as [[X1 Y1] W1]. unfold edw_dbl. rewrite Z1, D1, (te_add_0_l F FK). split; auto.
  - rewrite D1 in HF |- *. destruct HF as [[Np Nm] HS]. rewrite E1 in *. rewrite edw_dbl_form by auto.
    apply edw_result; auto. repeat apply fk_mul_neq_0; auto.
Qed.
Theorem edw_opp_den p : ok p -> ok (edw_opp F p) /\ den (edw_opp F p) = te_opp F (den p).
Proof.
  intros OP.
  destruct (edw_cases p OP) as [[Z1 D1]|(Z1 & x1 & y1 & c1 & Nx1 & Ny1 & Nc1 & O1 & D1 & E1)].
  - rewrite D1. destruct p as [[X Y] Z]. apply edw_is_zero_at in Z1. destruct Z1 as [-> ->].
    destruct OP as [(NX & _)|(_ & N & _)]; [|now contradiction N].
    cbn [edw_opp]. split.
    + left. repeat split; auto. intros E. apply NX. transitivity (- - X); [ring|]. rewrite E. ring.
    + rewrite edw_den_zero by auto. unfold te_zero, te_opp. f_equal. ring.
  - rewrite D1, E1. cbn [edw_opp te_opp].
    assert (N : - x1 <> 0) by (intros E; apply Nx1; transitivity (- - x1); [ring|]; rewrite E; ring).
    assert (N' : - c1 <> 0) by (intros E; apply Nc1; transitivity (- - c1); [ring|]; rewrite E; ring).
    pose proof (edw_ok_mk (- x1) y1 (- c1) N Ny1 N' (te_on_opp F FK a d _ O1)) as H.
    replace (y1 * - c1) with (- (y1 * c1)) in H by ring.
    replace (- x1 * - c1) with (x1 * c1) in H by ring.
    replace (- x1 * y1 * - c1) with (x1 * y1 * c1) in H by ring. exact H.
Qed.
Theorem edw_sub_den p q : ok p -> ok q -> edw_fits (den p) (te_opp F (den q)) ->
  ok (edw_sub F mul_a mul_d p q) /\ den (edw_sub F mul_a mul_d p q) = add (den p) (te_opp F (den q)).
Proof.
  intros OP OQ HF. destruct (edw_opp_den q OQ) as [O D]. unfold edw_sub. rewrite <- D in HF |- *.
  now apply edw_add_den.
Qed.
Theorem edw_is_zero_spec p : ok p -> edw_is_zero F p = true <-> den p = te_zero F.
Proof.
  intros OP. destruct (edw_cases p OP) as [[Z1 D1]|(Z1 & x1 & y1 & c1 & Nx1 & Ny1 & Nc1 & O1 & D1 & E1)]; rewrite Z1, D1.
  - tauto.
  - split; [discriminate|]. unfold te_zero. intros E. injection E as Ex Ey. contradiction.
Qed.
Theorem edw_eqb_den p q : ok p -> ok q -> edw_eqb F p q = true <-> den p = den q.
Proof.
  intros OP OQ. unfold edw_eqb.
  destruct (edw_cases p OP) as [[Z1 D1]|(Z1 & x1 & y1 & c1 & Nx1 & Ny1 & Nc1 & O1 & D1 & E1)].
  - pose proof (edw_is_zero_spec q OQ) as S. destruct p as [[X1 Y1] W1], q as [[X2 Y2] W2].
    rewrite Z1, D1, S. split; congruence.
  - destruct (edw_cases q OQ) as [[Z2 D2]|(Z2 & x2 & y2 & c2 & Nx2 & Ny2 & Nc2 & O2 & D2 & E2)].
    + destruct p as [[X1 Y1] W1], q as [[X2 Y2] W2]. rewrite Z1, Z2, D1, D2.
      split; [discriminate|]. intros E. injection E as Ex Ey. contradiction.
    + rewrite D1, D2. rewrite E1, E2 in *. rewrite Z1, Z2.
      assert (N1 : y1 * c1 * (y2 * c2) <> 0) by (repeat apply fk_mul_neq_0; auto).
      assert (N2 : x1 * c1 * (x2 * c2) <> 0) by (repeat apply fk_mul_neq_0; auto).
      destruct (rk_eqb_spec F R (y1 * c1 * (x2 * y2 * c2)) (y2 * c2 * (x1 * y1 * c1))) as [e1|n1]; cbn [negb].
      * destruct (rk_eqb_spec F R (x1 * c1 * (x2 * y2 * c2)) (x2 * c2 * (x1 * y1 * c1))) as [e2|n2]; cbn [negb].
        -- split; auto. intros _.
           assert (x1 = x2).
           { apply (fk_mul_cancel F FK _ _ _ N1).
             transitivity (y2 * c2 * (x1 * y1 * c1)); [ring|]. rewrite <- e1. ring. }
           assert (y1 = y2).
           { apply (fk_mul_cancel F FK _ _ _ N2).
             transitivity (x2 * c2 * (x1 * y1 * c1)); [ring|]. rewrite <- e2. ring. }
           congruence.
        -- split; [discriminate|]. intros E. injection E as -> ->. exfalso. apply n2. ring.
      * split; [discriminate|]. intros E. injection E as -> ->. exfalso. apply n1. ring.
Qed.

(** Dividing by Z. *)
Theorem edw_to_special_spec p : ok p -> exists q, edw_to_special F p = Ok q /\ ok q /\ den q = den p /\
  edw_is_special F q = true.
Proof.
  intros OP. unfold edw_to_special, edw_is_special.
  destruct (edw_cases p OP) as [[Z1 D1]|(Z1 & x1 & y1 & c1 & Nx1 & Ny1 & Nc1 & O1 & D1 & E1)].
  - destruct p as [[X Y] Z]. pose proof Z1 as Z1'. apply edw_is_zero_at in Z1. destruct Z1 as [EY EZ].
    rewrite (proj2 (eqb0 F FK Z) EZ). exists (X, Y, Z). rewrite Z1'. auto.
  - rewrite D1. subst p.
    assert (NZ : x1 * y1 * c1 <> 0) by (repeat apply fk_mul_neq_0; auto).
    rewrite (proj2 (rk_eqb_neq F R _ 0) NZ).
    destruct (tinv_spec F FK _ NZ) as [-> I]. cbn [bind]. set (i := tinv F (x1 * y1 * c1)) in *.
    assert (Ni : c1 * i <> 0).
    { intros E. apply (fk_1_neq_0 F FK). rewrite <- I. transitivity (x1 * y1 * (c1 * i)); [ring|]. rewrite E. ring. }
    destruct (edw_ok_mk x1 y1 (c1 * i) Nx1 Ny1 Ni O1) as [O D].
    replace (y1 * (c1 * i)) with (y1 * c1 * i) in O, D by ring. replace (x1 * (c1 * i)) with (x1 * c1 * i) in O, D by ring.
    replace (x1 * y1 * (c1 * i)) with 1 in O, D by (rewrite <- I; ring).
    exists (y1 * c1 * i, x1 * c1 * i, 1). split; [reflexivity|]. split; [exact O|]. split; [exact D|].
    rewrite (rk_eqb_refl F R). apply orb_true_r.
Qed.
(** [to_affine_coordinates] returns the affine coordinates with a 1. *)
Theorem edw_to_affine_spec p : ok p -> edw_to_affine F p = Ok (fst (den p), snd (den p), 1).
Proof.
  intros OP. unfold edw_to_affine.
  destruct (edw_cases p OP) as [[Z1 D1]|(Z1 & x1 & y1 & c1 & Nx1 & Ny1 & Nc1 & O1 & D1 & E1)].
  - rewrite D1. destruct p as [[X Y] Z]. rewrite Z1. reflexivity.
  - rewrite D1. subst p. rewrite Z1. cbn [fst snd].
    assert (NZ : y1 * c1 * (x1 * c1) <> 0) by (repeat apply fk_mul_neq_0; auto).
    destruct (tinv_spec F FK _ NZ) as [-> I]. cbn [bind]. set (i := tinv F (y1 * c1 * (x1 * c1))) in *.
    f_equal. apply trip; auto.
    + transitivity (x1 * (i * (y1 * c1 * (x1 * c1)))); [ring|]. rewrite I. ring.
    + transitivity (y1 * (i * (y1 * c1 * (x1 * c1)))); [ring|]. rewrite I. ring.
Qed.

Theorem edw_well_formed_spec p : edw_is_well_formed F mul_a mul_d p = true <->
  ok p \/ (let '(X, Y, Z) := p in
    (X = 0 /\ Z = 0) \/ (X = 0 /\ Z <> 0 /\ a * (Y * Y) = d * (Z * Z)) \/ (Y = 0 /\ Z <> 0 /\ X * X = d * (Z * Z))).
Proof.
  destruct p as [[X Y] Z]. unfold edw_is_well_formed.
  destruct (edw_is_zero F (X, Y, Z)) eqn:EZ.
  - apply edw_is_zero_at in EZ. destruct EZ as [-> ->]. split; auto. intros _.
    destruct (rk_dec F R X 0) as [->|N]; [right; left; auto|left; left; auto].
  - assert (NYZ : ~ (Y = 0 /\ Z = 0)).
    { intros H. apply edw_is_zero_at with (X := X) in H. congruence. }
    rewrite !(rk_sqr F R), MA, MD, (rk_eqb F R). split.
    + intros E. destruct (rk_dec F R Z 0) as [->|NZ].
      * right. left. split; auto.
        assert (P : X * X * (Y * Y) = 0) by (rewrite <- E; ring).
        destruct (rk_dec F R X 0) as [|NX]; auto. exfalso.
        apply fk_mul_0 in P; auto. destruct P as [P|P]; apply fk_mul_0 in P; auto; tauto.
      * destruct (rk_dec F R X 0) as [->|NX].
        -- right. right. left. repeat split; auto.
           assert (P : (Z * Z) * (a * (Y * Y) - d * (Z * Z)) = 0).
           { transitivity (Z * Z * (a * (Y * Y) + 0 * 0 - d * (Z * Z))); [ring|]. rewrite E. ring. }
           apply fk_mul_0 in P; auto. destruct P as [P|P]; [apply fk_mul_0 in P; tauto|].
           now apply (proj1 (rk_sub_0 F R _ _)) in P.
        -- destruct (rk_dec F R Y 0) as [->|NY].
           ++ right. right. right. repeat split; auto.
              assert (P : (Z * Z) * (X * X - d * (Z * Z)) = 0).
              { transitivity (Z * Z * (a * (0 * 0) + X * X - d * (Z * Z))); [ring|]. rewrite E. ring. }
              apply fk_mul_0 in P; auto. destruct P as [P|P]; [apply fk_mul_0 in P; tauto|].
              now apply (proj1 (rk_sub_0 F R _ _)) in P.
           ++ left. right. repeat split; auto.
              set (x := tdiv F Z X). set (y := tdiv F Z Y).
              assert (EX : Z = x * X) by (unfold x; now rewrite tdiv_mul).
              assert (EY : Z = y * Y) by (unfold y; now rewrite tdiv_mul).
              rewrite (edw_den_at x y X Y Z NX NY EX EY). cbn.
              apply (fk_mul_cancel F FK _ _ (X * X * (Y * Y))); [repeat apply fk_mul_neq_0; auto|].
              transitivity ((x * X) * (x * X) * (a * (Y * Y)) + (y * Y) * (y * Y) * (X * X)); [ring|].
              rewrite <- EX, <- EY.
              transitivity (Z * Z * (a * (Y * Y) + X * X - d * (Z * Z)) + d * ((Z * Z) * (Z * Z))); [ring|].
              rewrite E. rewrite EX at 1 2. rewrite EY at 1 2. ring.
    + intros [H|H].
      * destruct (edw_cases _ H) as [[Z1 D1]|(Z1 & x1 & y1 & c1 & Nx1 & Ny1 & Nc1 & O1 & D1 & E1)]; [congruence|].
        injection E1 as -> -> ->. cbn in O1.
        transitivity ((x1 * y1 * c1) * (x1 * y1 * c1) * (c1 * c1) * ((a * (x1 * x1) + y1 * y1) - d * ((x1 * x1) * (y1 * y1)))); [ring|].
        rewrite O1. ring.
      * destruct H as [(-> & ->)|[(-> & NZ & E)|(-> & NZ & E)]].
        -- ring.
        -- rewrite E. ring.
        -- transitivity (Z * Z * (X * X - d * (Z * Z))); [ring|]. rewrite E. ring.
Qed.

Theorem edw_batch_spec vec : Forall ok vec -> Forall (fun p => edw_is_zero F p = false) vec ->
  exists vec', edw_batch_to_special F vec = Ok vec' /\ Forall2 (fun p q => edw_to_special F p = Ok q) vec vec'.
Proof.
  intros HO H.
  assert (NZ : Forall (fun p => snd p <> 0) vec).
  { apply Forall_forall. intros p Hp. rewrite Forall_forall in HO, H.
    specialize (HO p Hp). specialize (H p Hp).
    destruct (edw_cases _ HO) as [[Z1 D1]|(Z1 & x1 & y1 & c1 & Nx1 & Ny1 & Nc1 & O1 & D1 & E1)]; [congruence|].
    subst p. cbn. repeat apply fk_mul_neq_0; auto. }
  destruct (batch_Z F FK vec NZ) as (zs & E & I).
  unfold edw_batch_to_special. rewrite E. cbn [bind]. eexists. split; [reflexivity|].
  apply (batch_map F _ _ _ _ I). clear -NZ FK. apply Forall_forall. intros [[X Y] Z] Hp.
  rewrite Forall_forall in NZ. specialize (NZ _ Hp). cbn in NZ |- *.
  rewrite (proj2 (rk_eqb_neq F (fk_ring F FK) Z 0) NZ). destruct (tinv_spec F FK Z NZ) as [-> _]. reflexivity.
Qed.
End EdwOps.
