(** Property theorems about curve points: C34-C39, C43, C46.
    The specification (affine points, group laws, what a coordinate triple
    denotes) is in CurveSpec.v. *)
From Coq Require Import ZArith List Bool Arith.
From Verif Require Import Result Limbs LimbsProofs StreamModel Algebra NumTheory FieldOps AlgorithmsModel AlgorithmsField GroupOps
  FpModel FpSpec FpField ParamsModel ParamsProofs FpInst ZmInst ExtModel ExtSpec ExtFrob ExtExtra
  CurveSpec CurveGroup CurveModel CurveProofs CurveEdwards CurveEdwOps CurveEdwGroup
  CurveIoModel CurveIoProofs CurveExtra.
Import ListNotations.

(** ** C34: Jacobian coordinates (alt_bn128, bls12_381) *)
Theorem C34_add {K} (F : Fops K) (FK : field_ok F) b : oadd F (o1 F) (o1 F) <> o0 F ->
  sw_disc F (o0 F) b <> o0 F ->
  forall p q, jac_ok F b p -> jac_ok F b q ->
  jac_ok F b (jac_add F p q) /\ jac_den F (jac_add F p q) = sw_add F (o0 F) (jac_den F p) (jac_den F q).
Proof. intros H2 HD p q OP OQ. split; [exact (jac_ok_add F FK b H2 HD p q OP OQ)|exact (jac_add_den F FK b H2 HD p q OP OQ)]. Qed.
Print Assumptions C34_add.

Theorem C34_dbl {K} (F : Fops K) (FK : field_ok F) b : oadd F (o1 F) (o1 F) <> o0 F ->
  sw_disc F (o0 F) b <> o0 F ->
  forall p, jac_ok F b p ->
  jac_ok F b (jac_dbl F p) /\ jac_den F (jac_dbl F p) = sw_add F (o0 F) (jac_den F p) (jac_den F p).
Proof. intros H2 HD p OP. split; [exact (jac_ok_dbl F FK b H2 HD p OP)|exact (jac_dbl_den F FK b H2 HD p OP)]. Qed.
Print Assumptions C34_dbl.

Theorem C34_mixed_add {K} (F : Fops K) (FK : field_ok F) b : oadd F (o1 F) (o1 F) <> o0 F ->
  sw_disc F (o0 F) b <> o0 F ->
  forall p q, jac_ok F b p -> jac_ok F b q -> jac_is_special F q = true ->
  jac_ok F b (jac_mixed_add F p q) /\ jac_den F (jac_mixed_add F p q) = sw_add F (o0 F) (jac_den F p) (jac_den F q).
Proof.
  intros H2 HD p q OP OQ S.
  split; [exact (jac_ok_mixed F FK b H2 HD p q OP OQ S)|exact (jac_mixed_add_den F FK b H2 HD p q OP OQ S)].
Qed.
Print Assumptions C34_mixed_add.

Theorem C34_opp {K} (F : Fops K) (FK : field_ok F) b p : jac_ok F b p ->
  jac_ok F b (jac_opp F p) /\ jac_den F (jac_opp F p) = sw_opp F (jac_den F p).
Proof. intros OP. split; [exact (jac_ok_opp F FK b p OP)|exact (jac_opp_den F FK p)]. Qed.
Print Assumptions C34_opp.

Theorem C34_sub {K} (F : Fops K) (FK : field_ok F) b : oadd F (o1 F) (o1 F) <> o0 F ->
  sw_disc F (o0 F) b <> o0 F ->
  forall p q, jac_ok F b p -> jac_ok F b q ->
  jac_ok F b (jac_sub F p q) /\
  jac_den F (jac_sub F p q) = sw_add F (o0 F) (jac_den F p) (sw_opp F (jac_den F q)).
Proof. intros H2 HD p q OP OQ. split; [exact (jac_ok_sub F FK b H2 HD p q OP OQ)|exact (jac_sub_den F FK b H2 HD p q OP OQ)]. Qed.
Print Assumptions C34_sub.

(** y^2 = x^3 + 1 modulo 13, representatives with Z = 2 and Z = 5. *)
Example C34_hypotheses_met : field_ok F13 /\ oadd F13 (o1 F13) (o1 F13) <> o0 F13 /\
  sw_disc F13 (o0 F13) (f13 1) <> o0 F13 /\
  jac_ok F13 (f13 1) jp /\ jac_ok F13 (f13 1) jq /\
  apt_z (jac_den F13 jp) = Some (0, 1)%Z /\ apt_z (jac_den F13 jq) = Some (2, 3)%Z /\
  apt_z (jac_den F13 (jac_add F13 jp jq)) = Some (12, 0)%Z.
Proof.
  destruct jac13_den as (D1 & D2 & D3 & _).
  exact (conj F13_field (conj F13_two (conj jac13_disc (conj (proj1 jac13_ok) (conj (proj2 jac13_ok) (conj D1 (conj D2 D3))))))).
Qed.

(** ** C35: homogeneous coordinates (mnt4, mnt6) *)
Theorem C35_add {K} (F : Fops K) (FK : field_ok F) a b mul_a : (forall x, mul_a x = omul F a x) ->
  oadd F (o1 F) (o1 F) <> o0 F -> sw_disc F a b <> o0 F -> forall p q, prj_ok F a b p -> prj_ok F a b q ->
  prj_ok F a b (prj_add F mul_a p q) /\
  prj_den F (prj_add F mul_a p q) = sw_add F a (prj_den F p) (prj_den F q).
Proof. intros MA H2 HD p q. exact (prj_add_den F FK a b mul_a MA H2 HD p q). Qed.
Print Assumptions C35_add.

Theorem C35_add_member {K} (F : Fops K) (FK : field_ok F) a b mul_a : (forall x, mul_a x = omul F a x) ->
  oadd F (o1 F) (o1 F) <> o0 F -> sw_disc F a b <> o0 F -> forall p q, prj_ok F a b p -> prj_ok F a b q ->
  prj_ok F a b (prj_add_member F mul_a p q) /\
  prj_den F (prj_add_member F mul_a p q) = sw_add F a (prj_den F p) (prj_den F q).
Proof. intros MA H2 HD p q. exact (prj_add_member_den F FK a b mul_a MA H2 HD p q). Qed.
Print Assumptions C35_add_member.

Theorem C35_dbl {K} (F : Fops K) (FK : field_ok F) a b mul_a : (forall x, mul_a x = omul F a x) ->
  oadd F (o1 F) (o1 F) <> o0 F -> sw_disc F a b <> o0 F -> forall p, prj_ok F a b p ->
  prj_ok F a b (prj_dbl F mul_a p) /\ prj_den F (prj_dbl F mul_a p) = sw_add F a (prj_den F p) (prj_den F p).
Proof. intros MA H2 HD p. exact (prj_dbl_den F FK a b mul_a MA H2 HD p). Qed.
Print Assumptions C35_dbl.

Theorem C35_mixed_add {K} (F : Fops K) (FK : field_ok F) a b mul_a : (forall x, mul_a x = omul F a x) ->
  oadd F (o1 F) (o1 F) <> o0 F -> sw_disc F a b <> o0 F -> forall p q, prj_ok F a b p -> prj_ok F a b q -> prj_is_special F q = true ->
  prj_ok F a b (prj_mixed_add F mul_a p q) /\
  prj_den F (prj_mixed_add F mul_a p q) = sw_add F a (prj_den F p) (prj_den F q).
Proof. intros MA H2 HD p q. exact (prj_mixed_add_den F FK a b mul_a MA H2 HD p q). Qed.
Print Assumptions C35_mixed_add.

Theorem C35_opp {K} (F : Fops K) (FK : field_ok F) a b p : prj_ok F a b p ->
  prj_ok F a b (prj_opp F p) /\ prj_den F (prj_opp F p) = sw_opp F (prj_den F p).
Proof. exact (prj_opp_den F FK a b p). Qed.
Print Assumptions C35_opp.

Theorem C35_sub {K} (F : Fops K) (FK : field_ok F) a b mul_a : (forall x, mul_a x = omul F a x) ->
  oadd F (o1 F) (o1 F) <> o0 F -> sw_disc F a b <> o0 F -> forall p q, prj_ok F a b p -> prj_ok F a b q ->
  prj_ok F a b (prj_sub F mul_a p q) /\
  prj_den F (prj_sub F mul_a p q) = sw_add F a (prj_den F p) (sw_opp F (prj_den F q)).
Proof. intros MA H2 HD p q. exact (prj_sub_den F FK a b mul_a MA H2 HD p q). Qed.
Print Assumptions C35_sub.

Example C35_hypotheses_met : (forall x, mul1 x = omul F13 (f13 1) x) /\ sw_disc F13 (f13 1) (f13 1) <> o0 F13 /\
  prj_ok F13 (f13 1) (f13 1) pp /\ prj_ok F13 (f13 1) (f13 1) pq /\
  apt_z (prj_den F13 pp) = Some (0, 1)%Z /\ apt_z (prj_den F13 pq) = Some (1, 4)%Z /\
  apt_z (prj_den F13 (prj_add F13 mul1 pp pq)) = Some (8, 1)%Z.
Proof.
  destruct prj13_den as (D1 & D2 & D3 & _).
  exact (conj (fun x => eq_refl) (conj prj13_disc (conj (proj1 prj13_ok) (conj (proj2 prj13_ok) (conj D1 (conj D2 D3)))))).
Qed.

(** ** C36: inverted Edwards coordinates *)
(** Whenever the denominators of the addition law do not vanish and the sum is
    O or has no zero coordinate. *)
Theorem C36_add_partial {K} (F : Fops K) (FK : field_ok F) a d mul_a mul_d :
  (forall x, mul_a x = omul F a x) -> (forall x, mul_d x = omul F d x) ->
  forall p q, edw_ok F a d p -> edw_ok F a d q -> edw_fits F a d (edw_den F p) (edw_den F q) ->
  edw_ok F a d (edw_add F mul_a mul_d p q) /\
  edw_den F (edw_add F mul_a mul_d p q) = te_add F a d (edw_den F p) (edw_den F q).
Proof. intros MA MD p q. exact (edw_add_den F FK a d mul_a mul_d MA MD p q). Qed.
Print Assumptions C36_add_partial.

Theorem C36_mixed_add_partial {K} (F : Fops K) (FK : field_ok F) a d mul_a mul_d :
  (forall x, mul_a x = omul F a x) -> (forall x, mul_d x = omul F d x) ->
  forall p q, edw_ok F a d p -> edw_ok F a d q -> edw_is_special F q = true ->
  edw_fits F a d (edw_den F p) (edw_den F q) ->
  edw_ok F a d (edw_mixed_add F mul_a mul_d p q) /\
  edw_den F (edw_mixed_add F mul_a mul_d p q) = te_add F a d (edw_den F p) (edw_den F q).
Proof. intros MA MD p q. exact (edw_mixed_add_den F FK a d mul_a mul_d MA MD p q). Qed.
Print Assumptions C36_mixed_add_partial.

Theorem C36_dbl_partial {K} (F : Fops K) (FK : field_ok F) a d mul_a mul_d :
  (forall x, mul_a x = omul F a x) -> (forall x, mul_d x = omul F d x) ->
  forall p, edw_ok F a d p -> edw_fits F a d (edw_den F p) (edw_den F p) ->
  edw_ok F a d (edw_dbl F mul_a mul_d p) /\
  edw_den F (edw_dbl F mul_a mul_d p) = te_add F a d (edw_den F p) (edw_den F p).
Proof. intros MA MD p. exact (edw_dbl_den F FK a d mul_a mul_d MA MD p). Qed.
Print Assumptions C36_dbl_partial.

Theorem C36_opp {K} (F : Fops K) (FK : field_ok F) a d p : edw_ok F a d p ->
  edw_ok F a d (edw_opp F p) /\ edw_den F (edw_opp F p) = te_opp F (edw_den F p).
Proof. exact (edw_opp_den F FK a d p). Qed.
Print Assumptions C36_opp.

(** On the points of odd order (the subgroup the library uses) all operations
    are those of the group, without side conditions: a square and d a
    non-square as for G1... *)
Theorem C36_odd_order {K} (F : Fops K) (FK : field_ok F) a d (H2 : oadd F (o1 F) (o1 F) <> o0 F) r
  (Or : Nat.odd r = true) al (HA : a = omul F al al) (NA : al <> o0 F) (ND : forall s, omul F s s <> d) mul_a mul_d :
  (forall x, mul_a x = omul F a x) -> (forall x, mul_d x = omul F d x) ->
  gops_ok (edw_gops F mul_a mul_d) (edw_okr F FK a d r) (edw_dent F FK a d)
    (tp_zero F FK a d) (tp_add F FK a d) (tp_opp F FK a d).
Proof. exact (edw_sq_gops_ok F FK a d H2 r Or al HA NA ND mul_a mul_d). Qed.
Print Assumptions C36_odd_order.
(** ... and a a non-square, d a square as for G2 (the group law is that of the
    isomorphic curve with a and d exchanged, under (x, y) -> (x, 1/y)). *)
Theorem C36_odd_order_twist {K} (F : Fops K) (FK : field_ok F) a d (H2 : oadd F (o1 F) (o1 F) <> o0 F) r
  (Or : Nat.odd r = true) be (HD : d = omul F be be) (NB : be <> o0 F) (NA : forall s, omul F s s <> a) mul_a mul_d :
  (forall x, mul_a x = omul F a x) -> (forall x, mul_d x = omul F d x) ->
  gops_ok (edw_gops F mul_a mul_d) (edw_okr2 F FK a d r) (edw_dent2 F FK a d)
    (tp_zero F FK d a) (tp_add F FK d a) (tp_opp F FK d a).
Proof. exact (edw_sqd_gops_ok F FK a d H2 r Or be HD NB NA mul_a mul_d). Qed.
Print Assumptions C36_odd_order_twist.

(** Not so for all operands with non-zero coordinates: the sum of (x, y) and
    (x, -y) is (0, -1), and the code returns O. *)
Theorem C36_refuted : exists (K : Type) (F : Fops K) (a d al : K) (p q : K * K * K),
  field_ok F /\ oadd F (o1 F) (o1 F) <> o0 F /\ a = omul F al al /\ al <> o0 F /\ (forall s, omul F s s <> d) /\
  edw_ok F a d p /\ edw_ok F a d q /\
  te_add F a d (edw_den F p) (edw_den F q) <> te_zero F /\
  edw_is_zero F (edw_add F (omul F a) (omul F d) p q) = true.
Proof. exact edw_add_refuted. Qed.
Print Assumptions C36_refuted.

Theorem C36_order_two_lost {K} (F : Fops K) (FK : field_ok F) a d mul_a mul_d :
  (forall x, mul_a x = omul F a x) -> (forall x, mul_d x = omul F d x) ->
  forall X Y Z, edw_ok F a d (X, Y, Z) -> Y <> o0 F ->
  let p := (X, Y, Z) in let q := (oopp F X, Y, oopp F Z) in
  let '(x, y) := edw_den F p in
  oadd F (o1 F) (omul F d (omul F (omul F x x) (omul F y y))) <> o0 F ->
  edw_ok F a d q /\ edw_den F q = (x, oopp F y) /\
  te_add F a d (edw_den F p) (edw_den F q) = (o0 F, oopp F (o1 F)) /\
  edw_is_zero F (edw_add F mul_a mul_d p q) = true.
Proof. intros MA MD X Y Z. exact (edw_order_two_lost F FK a d mul_a mul_d MA MD X Y Z). Qed.
Print Assumptions C36_order_two_lost.

(** x^2 + y^2 = 1 + 7 x^2 y^2 modulo 13, points of order five. *)
Example C36_hypotheses_met : edw_okr F13 F13_field a13 d13 5 ep /\ edw_okr F13 F13_field a13 d13 5 eq13 /\
  edw_fits F13 a13 d13 (edw_den F13 ep) (edw_den F13 eq13) /\
  te_z (edw_den F13 ep) = (2, 9)%Z /\ te_z (edw_den F13 eq13) = (6, 8)%Z /\
  (forall s, omul F13 s s <> d13).
Proof.
  destruct edw13_den as (D1 & D2 & _).
  exact (conj (proj1 edw13_torsion) (conj (proj2 edw13_torsion) (conj edw13_fits (conj D1 (conj D2 d13_nonsquare))))).
Qed.

(** ** C37: equality and normal forms *)
Theorem C37_jacobian_eq {K} (F : Fops K) (FK : field_ok F) p q :
  jac_eqb F p q = true <-> jac_den F p = jac_den F q.
Proof. exact (jac_eqb_den F FK p q). Qed.
Print Assumptions C37_jacobian_eq.
Theorem C37_jacobian_is_zero {K} (F : Fops K) (p : K * K * K) : jac_is_zero F p = true <-> jac_den F p = Inf.
Proof. exact (jac_is_zero_spec F p). Qed.
Print Assumptions C37_jacobian_is_zero.
(** to_affine_coordinates = to_special. *)
Theorem C37_jacobian_normal_form {K} (F : Fops K) (FK : field_ok F) p :
  exists q, jac_to_affine F p = Ok q /\ jac_to_special F p = Ok q /\ jac_den F q = jac_den F p /\
    (q = jac_zero F \/ exists x y, q = (x, y, o1 F)) /\ jac_is_special F q = true.
Proof.
  destruct (jac_to_affine_spec F FK p) as (q & E & D & S).
  exact (ex_intro _ q (conj E (conj E (conj D S)))).
Qed.
Print Assumptions C37_jacobian_normal_form.

Theorem C37_projective_eq {K} (F : Fops K) (FK : field_ok F) a b p q : prj_ok F a b p -> prj_ok F a b q ->
  prj_eqb F p q = true <-> prj_den F p = prj_den F q.
Proof. exact (prj_eqb_den F FK a b p q). Qed.
Print Assumptions C37_projective_eq.
Theorem C37_projective_is_zero {K} (F : Fops K) (FK : field_ok F) a b p : prj_ok F a b p ->
  prj_is_zero F p = true <-> prj_den F p = Inf.
Proof. exact (prj_is_zero_spec F FK a b p). Qed.
Print Assumptions C37_projective_is_zero.
Theorem C37_projective_normal_form {K} (F : Fops K) (FK : field_ok F) a b p : prj_ok F a b p ->
  exists q, prj_to_affine F p = Ok q /\ prj_to_special F p = Ok q /\ prj_ok F a b q /\ prj_den F q = prj_den F p /\
    (q = prj_zero F \/ exists x y, q = (x, y, o1 F)) /\ prj_is_special F q = true.
Proof.
  intros O. destruct (prj_to_affine_spec F FK a b p O) as (q & E & D & S).
  exact (ex_intro _ q (conj E (conj E (conj D S)))).
Qed.
Print Assumptions C37_projective_normal_form.

Theorem C37_edwards_eq {K} (F : Fops K) (FK : field_ok F) a d p q : edw_ok F a d p -> edw_ok F a d q ->
  edw_eqb F p q = true <-> edw_den F p = edw_den F q.
Proof. exact (edw_eqb_den F FK a d p q). Qed.
Print Assumptions C37_edwards_eq.
Theorem C37_edwards_is_zero {K} (F : Fops K) (FK : field_ok F) a d p : edw_ok F a d p ->
  edw_is_zero F p = true <-> edw_den F p = te_zero F.
Proof. exact (edw_is_zero_spec F FK a d p). Qed.
Print Assumptions C37_edwards_is_zero.
Theorem C37_edwards_to_special {K} (F : Fops K) (FK : field_ok F) a d p : edw_ok F a d p ->
  exists q, edw_to_special F p = Ok q /\ edw_ok F a d q /\ edw_den F q = edw_den F p /\ edw_is_special F q = true.
Proof. exact (edw_to_special_spec F FK a d p). Qed.
Print Assumptions C37_edwards_to_special.
(** to_affine_coordinates of the Edwards types stores the affine coordinates
    themselves... *)
Theorem C37_edwards_to_affine {K} (F : Fops K) (FK : field_ok F) a d p : edw_ok F a d p ->
  edw_to_affine F p = Ok (fst (edw_den F p), snd (edw_den F p), o1 F).
Proof. exact (edw_to_affine_spec F FK a d p). Qed.
Print Assumptions C37_edwards_to_affine.
(** ... so as a point of the type the object changes, and operator== says so. *)
Theorem C37_edwards_to_affine_refuted : exists (K : Type) (F : Fops K) (a d : K) (p q : K * K * K),
  field_ok F /\ edw_ok F a d p /\ edw_to_affine F p = Ok q /\ edw_is_special F q = true /\
  edw_den F q <> edw_den F p /\ edw_eqb F q p = false.
Proof. exact edw_to_affine_refuted. Qed.
Print Assumptions C37_edwards_to_affine_refuted.

(** batch_to_special_all_non_zeros applies to_special to every element. *)
Theorem C37_jacobian_batch {K} (F : Fops K) (FK : field_ok F) vec : Forall (fun p => jac_is_zero F p = false) vec ->
  exists out, jac_batch_to_special F vec = Ok out /\ Forall2 (fun p q => jac_to_special F p = Ok q) vec out.
Proof. exact (jac_batch_spec F FK vec). Qed.
Print Assumptions C37_jacobian_batch.
Theorem C37_projective_batch {K} (F : Fops K) (FK : field_ok F) a b vec : Forall (prj_ok F a b) vec ->
  Forall (fun p => prj_is_zero F p = false) vec ->
  exists out, prj_batch_to_special F vec = Ok out /\ Forall2 (fun p q => prj_to_special F p = Ok q) vec out.
Proof. exact (prj_batch_spec F FK a b vec). Qed.
Print Assumptions C37_projective_batch.
Theorem C37_edwards_batch {K} (F : Fops K) (FK : field_ok F) a d vec : Forall (edw_ok F a d) vec ->
  Forall (fun p => edw_is_zero F p = false) vec ->
  exists out, edw_batch_to_special F vec = Ok out /\ Forall2 (fun p q => edw_to_special F p = Ok q) vec out.
Proof. exact (edw_batch_spec F FK a d vec). Qed.
Print Assumptions C37_edwards_batch.

(** Two different triples for (2, 3), and one for (0, 1). *)
Example C37_example : jac_eqb F13 jq (pt13 2 3 1) = true /\ jac_eqb F13 jq jp = false /\
  Forall (fun p => jac_is_zero F13 p = false) [jp; jq].
Proof. split; [vm_compute; reflexivity|]. split; [vm_compute; reflexivity|]. repeat constructor. Qed.

(** ** C39: the group laws up to operator== *)
Theorem C39_jacobian {K} (F : Fops K) (FK : field_ok F) : oadd F (o1 F) (o1 F) <> o0 F -> forall b,
  sw_disc F (o0 F) b <> o0 F -> point_laws (jac_gops F) (jac_opp F) (jac_eqb F) (jac_ok F b).
Proof. exact (jac_laws F FK). Qed.
Print Assumptions C39_jacobian.
Theorem C39_projective {K} (F : Fops K) (FK : field_ok F) : oadd F (o1 F) (o1 F) <> o0 F -> forall a b mul_a,
  (forall x, mul_a x = omul F a x) -> sw_disc F a b <> o0 F ->
  point_laws (prj_gops F mul_a) (prj_opp F) (prj_eqb F) (prj_ok F a b).
Proof. exact (prj_laws F FK). Qed.
Print Assumptions C39_projective.
Theorem C39_edwards {K} (F : Fops K) (FK : field_ok F) : oadd F (o1 F) (o1 F) <> o0 F ->
  forall a d mul_a mul_d al r, (forall x, mul_a x = omul F a x) -> (forall x, mul_d x = omul F d x) ->
  a = omul F al al -> al <> o0 F -> (forall s, omul F s s <> d) -> Nat.odd r = true ->
  point_laws (edw_gops F mul_a mul_d) (edw_opp F) (edw_eqb F) (edw_okr F FK a d r).
Proof. exact (edw_laws F FK). Qed.
Print Assumptions C39_edwards.
Theorem C39_edwards_twist {K} (F : Fops K) (FK : field_ok F) : oadd F (o1 F) (o1 F) <> o0 F ->
  forall a d mul_a mul_d be r, (forall x, mul_a x = omul F a x) -> (forall x, mul_d x = omul F d x) ->
  d = omul F be be -> be <> o0 F -> (forall s, omul F s s <> a) -> Nat.odd r = true ->
  point_laws (edw_gops F mul_a mul_d) (edw_opp F) (edw_eqb F) (edw_okr2 F FK a d r).
Proof. exact (edw_laws2 F FK). Qed.
Print Assumptions C39_edwards_twist.
(** The specification itself is an abelian group. *)
Theorem C39_spec_group {K} (F : Fops K) (FK : field_ok F) a b : oadd F (o1 F) (o1 F) <> o0 F ->
  sw_disc F a b <> o0 F -> agroup (sp_zero F a b) (sp_add F a b) (sp_opp F a b).
Proof. exact (sp_group F FK a b). Qed.
Print Assumptions C39_spec_group.
Example C39_hypotheses_met :
  point_laws (jac_gops F13) (jac_opp F13) (jac_eqb F13) (jac_ok F13 (f13 1)) /\
  point_laws (prj_gops F13 mul1) (prj_opp F13) (prj_eqb F13) (prj_ok F13 (f13 1) (f13 1)) /\
  point_laws (edw_gops F13 mul_a13 mul_d13) (edw_opp F13) (edw_eqb F13) (edw_okr F13 F13_field a13 d13 5).
Proof.
  split; [exact (jac_laws F13 F13_field F13_two _ jac13_disc)|].
  split; [exact (prj_laws F13 F13_field F13_two _ _ mul1 (fun _ => eq_refl) prj13_disc)|].
  exact (edw_laws F13 F13_field F13_two a13 d13 mul_a13 mul_d13 (f13 1) 5 (fun _ => eq_refl) (fun _ => eq_refl)
    (proj1 a13_square) (proj2 a13_square) d13_nonsquare eq_refl).
Qed.

(** ** C43: is_well_formed *)
Theorem C43_jacobian {K} (F : Fops K) (FK : field_ok F) b p : jac_is_well_formed F b p = true <-> jac_ok F b p.
Proof. exact (jac_well_formed_spec F FK b p). Qed.
Print Assumptions C43_jacobian.
Theorem C43_projective {K} (F : Fops K) (FK : field_ok F) a b p :
  prj_is_well_formed F a b p = true <-> prj_ok F a b p.
Proof. exact (prj_well_formed_spec F FK a b p). Qed.
Print Assumptions C43_projective.
(** The Edwards check accepts some triples which represent no point. *)
Theorem C43_edwards_partial {K} (F : Fops K) (FK : field_ok F) a d mul_a mul_d :
  (forall x, mul_a x = omul F a x) -> (forall x, mul_d x = omul F d x) -> forall p,
  edw_is_well_formed F mul_a mul_d p = true <->
  edw_ok F a d p \/ (let '(X, Y, Z) := p in
    (X = o0 F /\ Z = o0 F) \/
    (X = o0 F /\ Z <> o0 F /\ omul F a (omul F Y Y) = omul F d (omul F Z Z)) \/
    (Y = o0 F /\ Z <> o0 F /\ omul F X X = omul F d (omul F Z Z))).
Proof. intros MA MD p. exact (edw_well_formed_spec F FK a d mul_a mul_d MA MD p). Qed.
Print Assumptions C43_edwards_partial.
Theorem C43_edwards_refuted {K} (F : Fops K) (FK : field_ok F) a d mul_a mul_d Y :
  (forall x, mul_a x = omul F a x) -> (forall x, mul_d x = omul F d x) ->
  edw_is_well_formed F mul_a mul_d (o0 F, Y, o0 F) = true /\ ~ edw_ok F a d (o0 F, Y, o0 F).
Proof. exact (edw_well_formed_refuted F FK a d mul_a mul_d Y). Qed.
Print Assumptions C43_edwards_refuted.
Example C43_example : jac_is_well_formed F13 (f13 1) jq = true /\ jac_is_well_formed F13 (f13 1) (pt13 2 4 1) = false /\
  prj_is_well_formed F13 (f13 1) (f13 1) pq = true /\ prj_is_well_formed F13 (f13 1) (f13 1) (pt13 1 5 1) = false /\
  edw_is_well_formed F13 mul_a13 mul_d13 ep = true /\ edw_is_well_formed F13 mul_a13 mul_d13 (pt13 1 2 3) = false.
Proof. vm_compute. auto 10. Qed.

(** ** C38: point streams *)
(** G1 over any prime field: every point, both formats, compressed or not. *)
Theorem C38_jacobian_g1 C (CO : field_consts_ok C) bin mont comp debug fuel b p :
  let F := fp_ops (fc_P C) (fco_ok C CO) (fco_inv C CO) in
  let cd := fp_codec (fc_P C) bin mont in
  (fc_s C < 2 ^ 31)%Z -> (fc_s C < Z.of_nat fuel)%Z -> jac_ok F b p ->
  exists w q, sw_write cd bin comp (jac_to_affine F) (jac_is_zero F) p = Ok w /\ jac_den F q = jac_den F p /\
    forall rest, (comp = true \/ after bin rest) ->
      sw_read F cd bin comp (fp_sqrt C CO debug fuel) (jac_rhs F b) (jac_zero F) (w ++ rest) = Ok (q, rest).
Proof. exact (jac_g1_io C CO bin mont comp debug fuel b p). Qed.
Print Assumptions C38_jacobian_g1.
Theorem C38_projective_g1 C (CO : field_consts_ok C) bin mont comp debug fuel a b p :
  let F := fp_ops (fc_P C) (fco_ok C CO) (fco_inv C CO) in
  let cd := fp_codec (fc_P C) bin mont in
  (fc_s C < 2 ^ 31)%Z -> (fc_s C < Z.of_nat fuel)%Z -> prj_ok F a b p ->
  exists w q, sw_write cd bin comp (prj_to_affine F) (prj_is_zero F) p = Ok w /\
    prj_ok F a b q /\ prj_den F q = prj_den F p /\
    forall rest, (comp = true \/ after bin rest) ->
      sw_read F cd bin comp (fp_sqrt C CO debug fuel) (prj_rhs F a b) (prj_zero F) (w ++ rest) = Ok (q, rest).
Proof. exact (prj_g1_io C CO bin mont comp debug fuel a b p). Qed.
Print Assumptions C38_projective_g1.
Theorem C38_edwards_g1 C (CO : field_consts_ok C) bin mont comp debug fuel mixed a d mul_a mul_d p :
  let F := fp_ops (fc_P C) (fco_ok C CO) (fco_inv C CO) in
  let cd := fp_codec (fc_P C) bin mont in
  (forall x, mul_a x = omul F a x) -> (forall x, mul_d x = omul F d x) -> a <> d ->
  (fc_s C < 2 ^ 31)%Z -> (fc_s C < Z.of_nat fuel)%Z -> edw_ok F a d p ->
  exists w q, edw_write F cd bin comp p = Ok w /\ edw_ok F a d q /\ edw_den F q = edw_den F p /\
    forall rest, (comp = true \/ after bin rest) ->
      edw_read F cd bin comp (fp_sqrt C CO debug fuel) mul_a mul_d mixed (w ++ rest) = Ok (q, rest).
Proof. exact (edw_g1_io C CO bin mont comp debug fuel mixed a d mul_a mul_d p). Qed.
Print Assumptions C38_edwards_g1.

(** Any coordinate field (G2 included): every point whose y is told from -y by
    the stored bit and whose square root is found. *)
Theorem C38_jacobian_any_partial {K} (F : Fops K) (FK : field_ok F) cd bin comp (CO : codec_ok bin cd) sqrt b p :
  jac_ok F b p -> (forall x y, jac_den F p = Aff x y -> comp = true -> recoverable F cd sqrt y) ->
  exists w q, sw_write cd bin comp (jac_to_affine F) (jac_is_zero F) p = Ok w /\
    jac_to_affine F p = Ok q /\ jac_den F q = jac_den F p /\
    forall rest, (comp = true \/ after bin rest) ->
      sw_read F cd bin comp sqrt (jac_rhs F b) (jac_zero F) (w ++ rest) = Ok (q, rest).
Proof. exact (jac_roundtrip F FK cd bin comp CO sqrt b p). Qed.
Print Assumptions C38_jacobian_any_partial.
Theorem C38_projective_any_partial {K} (F : Fops K) (FK : field_ok F) cd bin comp (CO : codec_ok bin cd) sqrt a b p :
  prj_ok F a b p -> (forall x y, prj_den F p = Aff x y -> comp = true -> recoverable F cd sqrt y) ->
  exists w q, sw_write cd bin comp (prj_to_affine F) (prj_is_zero F) p = Ok w /\
    prj_to_affine F p = Ok q /\ prj_ok F a b q /\ prj_den F q = prj_den F p /\
    forall rest, (comp = true \/ after bin rest) ->
      sw_read F cd bin comp sqrt (prj_rhs F a b) (prj_zero F) (w ++ rest) = Ok (q, rest).
Proof. exact (prj_roundtrip F FK cd bin comp CO sqrt a b p). Qed.
Print Assumptions C38_projective_any_partial.
Theorem C38_edwards_any_partial {K} (F : Fops K) (FK : field_ok F) cd bin comp (CO : codec_ok bin cd) sqrt a d
  mul_a mul_d (MA : forall x, mul_a x = omul F a x) (MD : forall x, mul_d x = omul F d x) (NAD : a <> d) mixed p :
  edw_ok F a d p -> (comp = true -> recoverable F cd sqrt (snd (edw_den F p))) ->
  exists w q, edw_write F cd bin comp p = Ok w /\ edw_ok F a d q /\ edw_den F q = edw_den F p /\
    forall rest, (comp = true \/ after bin rest) ->
      edw_read F cd bin comp sqrt mul_a mul_d mixed (w ++ rest) = Ok (q, rest).
Proof. exact (edw_roundtrip F FK cd bin comp CO sqrt a d mul_a mul_d MA MD NAD mixed p). Qed.
Print Assumptions C38_edwards_any_partial.
(** G2 over Fp2 and Fp3: y = 0 or a non-zero first component. *)
Theorem C38_fp2_recoverable C (CO : field_consts_ok C) bin mont nr S q debug fuel y :
  let F := fp_ops (fc_P C) (fco_ok C CO) (fco_inv C CO) in
  field_ok (fp2_ops F nr) -> char_not_2 (fp2_ops F nr) ->
  sqrt_ok (fp2_ops F nr) S q -> order_divides (fp2_ops F nr) q -> (sq_s S < Z.of_nat fuel)%Z ->
  y = o0 (fp2_ops F nr) \/ fst y <> o0 F ->
  codec_ok bin (fp2_codec bin (fp_codec (fc_P C) bin mont)) /\
  recoverable (fp2_ops F nr) (fp2_codec bin (fp_codec (fc_P C) bin mont)) (field_sqrt (fp2_ops F nr) S debug fuel) y.
Proof.
  intros F FK C2 SO OD Hf HY.
  exact (conj (fp2_codec_ok bin _ (fp_codec_ok _ bin mont (fco_ok C CO)))
    (fp2_recoverable C CO bin mont nr S q debug fuel y FK C2 SO OD Hf HY)).
Qed.
Print Assumptions C38_fp2_recoverable.
Theorem C38_fp3_recoverable C (CO : field_consts_ok C) bin mont nr S q debug fuel y :
  let F := fp_ops (fc_P C) (fco_ok C CO) (fco_inv C CO) in
  field_ok (fp3_ops F nr) -> char_not_2 (fp3_ops F nr) ->
  sqrt_ok (fp3_ops F nr) S q -> order_divides (fp3_ops F nr) q -> (sq_s S < Z.of_nat fuel)%Z ->
  y = o0 (fp3_ops F nr) \/ fst (fst y) <> o0 F ->
  codec_ok bin (fp3_codec bin (fp_codec (fc_P C) bin mont)) /\
  recoverable (fp3_ops F nr) (fp3_codec bin (fp_codec (fc_P C) bin mont)) (field_sqrt (fp3_ops F nr) S debug fuel) y.
Proof.
  intros F FK C2 SO OD Hf HY.
  exact (conj (fp3_codec_ok bin _ (fp_codec_ok _ bin mont (fco_ok C CO)))
    (fp3_recoverable C CO bin mont nr S q debug fuel y FK C2 SO OD Hf HY)).
Qed.
Print Assumptions C38_fp3_recoverable.
(** Otherwise compression loses the point: P and -P with y = (0, y1) give the
    same bytes. *)
Theorem C38_g2_ambiguous C (CO : field_consts_ok C) bin mont nr p x y1 :
  let F := fp_ops (fc_P C) (fco_ok C CO) (fco_inv C CO) in
  let F2 := fp2_ops F nr in let cd := fp2_codec bin (fp_codec (fc_P C) bin mont) in
  field_ok F2 -> char_not_2 F2 -> jac_den F2 p = Aff x (o0 F, y1) -> y1 <> o0 F ->
  sw_write cd bin true (jac_to_affine F2) (jac_is_zero F2) (jac_opp F2 p) =
  sw_write cd bin true (jac_to_affine F2) (jac_is_zero F2) p /\
  jac_den F2 (jac_opp F2 p) <> jac_den F2 p.
Proof. exact (jac_g2_ambiguous C CO bin mont nr p x y1). Qed.
Print Assumptions C38_g2_ambiguous.
(** A compressed encoding whose x is not on the curve is not rejected: the
    square root loops forever (or asserts in DEBUG builds). *)
Theorem C38_off_curve C (CO : field_consts_ok C) bin mont debug fuel b x w c rest :
  let F := fp_ops (fc_P C) (fco_ok C CO) (fco_inv C CO) in
  let cd := fp_codec (fc_P C) bin mont in
  (fc_s C < 2 ^ 31)%Z -> cd_wr cd x = Ok w -> (forall y, omul F y y <> jac_rhs F b x) ->
  sw_read F cd bin true (fp_sqrt C CO debug fuel) (jac_rhs F b) (jac_zero F)
    (ch_0 :: output_separator bin ++ w ++ output_separator bin ++ c :: rest)
  = if debug then AssertFail else OutOfFuel.
Proof. exact (jac_g1_off_curve C CO bin mont debug fuel b x w c rest). Qed.
Print Assumptions C38_off_curve.
Example C38_hypotheses_met : field_consts_ok toy_C /\ (fc_s toy_C < 2 ^ 31)%Z /\ (fc_s toy_C < Z.of_nat 17)%Z /\
  exists b p, let F := fp_ops (fc_P toy_C) (fco_ok _ toy_C_ok) (fco_inv _ toy_C_ok) in
    jac_ok F b p /\ jac_is_zero F p = false.
Proof. exact toy_point. Qed.

(** ** C46: multiplication by the twist coefficients *)
Theorem C46_mnt4 {K} (F : Fops K) (R : ring_ok F) nr a b e :
  mnt4_mul_by_a F a nr e = omul (fp2_ops F nr) (mnt4_twist_a F a nr) e /\
  mnt4_mul_by_b F b nr e = omul (fp2_ops F nr) (mnt4_twist_b F b nr) e.
Proof. exact (conj (mnt4_mul_by_a_ok F R nr a e) (mnt4_mul_by_b_ok F R nr b e)). Qed.
Print Assumptions C46_mnt4.
Theorem C46_mnt6 {K} (F : Fops K) (R : ring_ok F) nr a b e :
  mnt6_mul_by_a F a nr e = omul (fp3_ops F nr) (mnt6_twist_a F a) e /\
  mnt6_mul_by_b F b nr e = omul (fp3_ops F nr) (mnt6_twist_b F b nr) e.
Proof. exact (conj (mnt6_mul_by_a_ok F R nr a e) (mnt6_mul_by_b_ok F R nr b e)). Qed.
Print Assumptions C46_mnt6.
Theorem C46_edwards {K} (F : Fops K) (R : ring_ok F) nr d e :
  edwards_mul_by_a F (o1 F) nr e = omul (fp3_ops F nr) (edwards_twist_a F (o1 F)) e /\
  edwards_mul_by_d F d nr e = omul (fp3_ops F nr) (edwards_twist_d F d) e.
Proof. exact (conj (edwards_mul_by_a_ok F R nr e) (edwards_mul_by_d_ok F R nr d e)). Qed.
Print Assumptions C46_edwards.
(** The Edwards member ignores the coefficient in two places and so depends on
    edwards_coeff_a = 1. *)
Theorem C46_edwards_only_one {K} (F : Fops K) (R : ring_ok F) nr a :
  (forall e, edwards_mul_by_a F a nr e = omul (fp3_ops F nr) (edwards_twist_a F a) e) <-> a = o1 F.
Proof. exact (edwards_mul_by_a_only F R nr a). Qed.
Print Assumptions C46_edwards_only_one.
(** alt_bn128 and bls12_381: wrong for every twist coefficient outside the base
    field, as b/(9+u) and b(1+u) are (the member is not called by the library). *)
Theorem C46_bn_refuted {K} (F : Fops K) (R : ring_ok F) nr b tb : snd tb <> o0 F ->
  bn_mul_by_b F b nr (o1 (fp2_ops F nr)) <> omul (fp2_ops F nr) tb (o1 (fp2_ops F nr)).
Proof. exact (bn_mul_by_b_wrong F R nr b tb). Qed.
Print Assumptions C46_bn_refuted.
Example C46_example : ring_ok F13 /\ snd xi <> o0 F13.
Proof. split; [exact F13_ring|]. apply (neq_fast _ F13_ring). vm_compute. reflexivity. Qed.
