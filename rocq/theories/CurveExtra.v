(** Consequences for the curve groups, witnesses and small examples. *)
From Coq Require Import ZArith Znumtheory List Bool Lia Arith Ring.
From Verif Require Import Result Limbs LimbsProofs StreamModel FpModel FpSpec FpField ParamsModel ParamsProofs FpInst Algebra NumTheory Certs FieldOps BigintModel AlgorithmsModel AlgorithmsProofs
  AlgorithmsField GroupOps GroupProofs WnafModel WnafProofs ZmInst ExtModel ExtSpec ExtProofs ExtFrob ExtExtra
  CurveSpec CurveGroup CurveModel CurveProofs CurveEdwards CurveEdwOps CurveEdwGroup CurveIoModel CurveIoProofs.
Import ListNotations.

(** ** Group laws up to operator== *)
Section Laws.
Context {T G : Type} (O : gops T) (gopp : T -> T) (eqb : T -> T -> bool) (ok : T -> Prop) (den : T -> G)
  (z : G) (add : G -> G -> G) (opp : G -> G).
Hypothesis GO : gops_ok O ok den z add opp.
Hypothesis EQ : forall p q, ok p -> ok q -> eqb p q = true <-> den p = den q.
Hypothesis OP : forall p, ok p -> ok (gopp p) /\ den (gopp p) = opp (den p).

(** [p + q], [-p], [G::zero()] and [==] form an abelian group, and scalar
    multiplication (curve_utils.tcc) is linear in both arguments. *)
Record point_laws : Prop := {
  pl_closed : forall p q, ok p -> ok q -> ok (g_add O p q);
  pl_refl : forall p, ok p -> eqb p p = true;
  pl_sym : forall p q, ok p -> ok q -> eqb p q = eqb q p;
  pl_trans : forall p q s, ok p -> ok q -> ok s -> eqb p q = true -> eqb q s = true -> eqb p s = true;
  pl_congr : forall p p' q q', ok p -> ok p' -> ok q -> ok q' -> eqb p p' = true -> eqb q q' = true ->
    eqb (g_add O p q) (g_add O p' q') = true;
  pl_assoc : forall p q s, ok p -> ok q -> ok s ->
    eqb (g_add O (g_add O p q) s) (g_add O p (g_add O q s)) = true;
  pl_comm : forall p q, ok p -> ok q -> eqb (g_add O p q) (g_add O q p) = true;
  pl_zero : forall p, ok p -> eqb (g_add O p (g_zero O)) p = true;
  pl_opp : forall p, ok p -> ok (gopp p) /\ eqb (g_add O p (gopp p)) (g_zero O) = true;
  pl_smul_add : forall k p q, limbs k -> ok p -> ok q ->
    eqb (scalar_mul O (g_add O p q) k) (g_add O (scalar_mul O p k) (scalar_mul O q k)) = true;
  pl_smul_scalar : forall k k' k'' p, limbs k -> limbs k' -> limbs k'' -> (val k + val k' = val k'')%Z -> ok p ->
    eqb (scalar_mul O p k'') (g_add O (scalar_mul O p k) (scalar_mul O p k')) = true;
  pl_smul_mul : forall k k' k'' p, limbs k -> limbs k' -> limbs k'' -> (val k * val k' = val k'')%Z -> ok p ->
    eqb (scalar_mul O p k'') (scalar_mul O (scalar_mul O p k') k) = true
}.

Lemma point_laws_hold : point_laws.
Proof.
  pose proof (go_group _ _ _ _ _ _ GO) as AG.
  assert (A : forall p q, ok p -> ok q -> ok (g_add O p q)) by (intros; now apply (go_add _ _ _ _ _ _ GO)).
  assert (D : forall p q, ok p -> ok q -> den (g_add O p q) = add (den p) (den q)) by (intros; now apply (go_add _ _ _ _ _ _ GO)).
  assert (SM : forall k p, limbs k -> ok p -> ok (scalar_mul O p k)) by (intros; now apply (scalar_mul_spec O ok den z add opp GO)).
  assert (SD : forall k p, limbs k -> ok p -> den (scalar_mul O p k) = gmul z add opp (val k) (den p))
    by (intros; now apply (scalar_mul_spec O ok den z add opp GO)).
  destruct (go_zero _ _ _ _ _ _ GO) as [Z0 D0].
  constructor.
  - exact A.
  - intros p H. now apply EQ.
  - intros p q Hp Hq. apply eq_true_iff_eq. rewrite !EQ by auto. split; congruence.
  - intros p q s Hp Hq Hs. rewrite !EQ by auto. congruence.
  - intros p p' q q' H1 H2 H3 H4. rewrite !EQ by auto. rewrite !D by auto. congruence.
  - intros p q s Hp Hq Hs. apply EQ; auto. rewrite !D by auto. symmetry. apply (ml_assoc _ _ (ag_monoid _ _ _ AG)).
  - intros p q Hp Hq. apply EQ; auto. rewrite !D by auto. apply (ag_comm _ _ _ AG).
  - intros p Hp. apply EQ; auto. rewrite D, D0 by auto. apply (ml_1_r _ _ (ag_monoid _ _ _ AG)).
  - intros p Hp. destruct (OP p Hp) as [H1 H2]. split; auto. apply EQ; auto. rewrite D, D0, H2 by auto. apply (ag_opp _ _ _ AG).
  - intros k p q Hk Hp Hq. apply EQ; auto. rewrite D, !SD, D by auto. now apply gmul_distr.
  - intros k k' k'' p Hk Hk' Hk'' E Hp. apply EQ; auto. rewrite D, !SD by auto. rewrite <- E. now apply gmul_add.
  - intros k k' k'' p Hk Hk' Hk'' E Hp. apply EQ; auto. rewrite !SD by auto. rewrite <- E. now apply gmul_mul.
Qed.
End Laws.

Section Curves.
Context {K : Type} (F : Fops K) (FK : field_ok F).
Hypothesis H2 : oadd F (o1 F) (o1 F) <> o0 F.

Lemma sp_dent_eq a b (P Q : sw_pt F a b) : P = Q <-> proj1_sig P = proj1_sig Q.
Proof. split; [now intros ->|apply sw_pt_eq]. Qed.

Theorem jac_laws b : sw_disc F (o0 F) b <> o0 F ->
  point_laws (jac_gops F) (jac_opp F) (jac_eqb F) (jac_ok F b).
Proof.
  intros HD. apply (point_laws_hold _ _ _ _ _ _ _ _ (jac_gops_ok F FK b H2 HD)).
  - intros p q Op Oq. rewrite (jac_eqb_den F FK p q), sp_dent_eq, !jac_dent_val by auto. reflexivity.
  - intros p Op. split; [now apply jac_ok_opp|]. apply sw_pt_eq.
    rewrite (sp_opp_val F FK), !jac_dent_val by (auto; now apply jac_ok_opp). now apply jac_opp_den.
Qed.
Theorem prj_laws a b mul_a : (forall x, mul_a x = omul F a x) -> sw_disc F a b <> o0 F ->
  point_laws (prj_gops F mul_a) (prj_opp F) (prj_eqb F) (prj_ok F a b).
Proof.
  intros MA HD. apply (point_laws_hold _ _ _ _ _ _ _ _ (prj_gops_ok F FK a b mul_a MA H2 HD)).
  - intros p q Op Oq. rewrite (prj_eqb_den F FK a b p q Op Oq), sp_dent_eq, !(prj_dent_val F FK) by auto. reflexivity.
  - intros p Op. destruct (prj_opp_den F FK a b p Op) as [O1 D1]. split; auto. apply sw_pt_eq.
    rewrite (sp_opp_val F FK), !(prj_dent_val F FK) by auto. exact D1.
Qed.
Theorem edw_laws a d mul_a mul_d al r : (forall x, mul_a x = omul F a x) -> (forall x, mul_d x = omul F d x) ->
  a = omul F al al -> al <> o0 F -> (forall s, omul F s s <> d) -> Nat.odd r = true ->
  point_laws (edw_gops F mul_a mul_d) (edw_opp F) (edw_eqb F) (edw_okr F FK a d r).
Proof.
  intros MA MD HA NA ND Or.
  pose proof (edw_sq_gops_ok F FK a d H2 r Or al HA NA ND mul_a mul_d MA MD) as GO.
  apply (point_laws_hold _ _ _ _ _ _ _ _ GO).
  - intros p q [Op Tp] [Oq Tq]. rewrite (edw_eqb_den F FK a d p q Op Oq).
    split.
    + intros E. apply te_pt_eq. now rewrite !edw_dent_val.
    + intros E. rewrite <- (edw_dent_val F FK a d p Op), <- (edw_dent_val F FK a d q Oq). now rewrite E.
  - intros p Hp. destruct (edw_sq_conditions F FK a d H2 r Or al HA NA ND) as (_ & _ & _ & _ & C & _).
    destruct Hp as [Op Tp]. destruct (edw_opp_den F FK a d p Op) as [O1 D1]. now apply C.
Qed.
Theorem edw_laws2 a d mul_a mul_d be r : (forall x, mul_a x = omul F a x) -> (forall x, mul_d x = omul F d x) ->
  d = omul F be be -> be <> o0 F -> (forall s, omul F s s <> a) -> Nat.odd r = true ->
  point_laws (edw_gops F mul_a mul_d) (edw_opp F) (edw_eqb F) (edw_okr2 F FK a d r).
Proof.
  intros MA MD HA NA ND Or.
  pose proof (edw_sqd_gops_ok F FK a d H2 r Or be HA NA ND mul_a mul_d MA MD) as GO.
  apply (point_laws_hold _ _ _ _ _ _ _ _ GO).
  - intros p q [Op Tp] [Oq Tq]. rewrite (edw_eqb_den F FK a d p q Op Oq).
    split.
    + intros E. apply te_pt_eq. rewrite !edw_dent2_val by auto. now rewrite E.
    + intros E. apply (f_equal (@proj1_sig _ _)) in E. rewrite !edw_dent2_val in E by auto.
      pose proof (edw_ok_y F FK a d p Op) as N1. pose proof (edw_ok_y F FK a d q Oq) as N2.
      destruct (edw_den F p) as [x1 y1], (edw_den F q) as [x2 y2]. cbn [snd te_dual] in *.
      injection E as E1 E2. f_equal; auto.
      destruct (tinv_spec F FK y1 N1) as [_ I1]. destruct (tinv_spec F FK y2 N2) as [_ I2].
      assert (NI : tinv F y2 <> o0 F).
      { intros Z. apply (fk_1_neq_0 F FK). rewrite <- I2, Z. apply (rk_mul_0_l F (fk_ring F FK)). }
      apply (fk_mul_cancel F FK _ _ (tinv F y2) NI).
      rewrite (rk_mul_comm F (fk_ring F FK) y2), I2. rewrite <- E2.
      rewrite (rk_mul_comm F (fk_ring F FK) y1). exact I1.
  - intros p Hp. destruct (edw_sqd_conditions F FK a d H2 r Or be HA NA ND) as (_ & _ & _ & _ & C & _).
    destruct Hp as [Op Tp]. destruct (edw_opp_den F FK a d p Op) as [O1 D1]. now apply C.
Qed.

(** ** Edwards: what the coordinates cannot hold *)
Section Lost.
Variables a d : K.
Variables mul_a mul_d : K -> K.
Hypothesis MA : forall x, mul_a x = omul F a x.
Hypothesis MD : forall x, mul_d x = omul F d x.
Add Ring CXring : (rk_ring F (fk_ring F FK)).
(** (x, y) + (x, -y) = (0, -1), a point of order two, but [is_zero()] accepts
    what operator+ returns.  [(-X, Y, -Z)] represents (x, -y). *)
Theorem edw_order_two_lost X Y Z : edw_ok F a d (X, Y, Z) -> Y <> o0 F ->
  let p := (X, Y, Z) in let q := (oopp F X, Y, oopp F Z) in
  let '(x, y) := edw_den F p in
  oadd F (o1 F) (omul F d (omul F (omul F x x) (omul F y y))) <> o0 F ->
  edw_ok F a d q /\ edw_den F q = (x, oopp F y) /\
  te_add F a d (edw_den F p) (edw_den F q) = (o0 F, oopp F (o1 F)) /\
  edw_is_zero F (edw_add F mul_a mul_d p q) = true.
Proof.
  intros OK NY p q. pose proof OK as OK'. unfold p.
  destruct (edw_cases F FK a d (X, Y, Z) OK) as [[Z0 _]|(Z1 & x & y & c & Nx & Ny & Nc & On & D & E)].
  { exfalso. cbn in Z0. apply andb_prop in Z0. destruct Z0 as [Z0 _]. apply (rk_eqb F (fk_ring F FK)) in Z0. auto. }
  rewrite D. intros ND. injection E as EX EY EZ.
  assert (On' : te_on F a d (x, oopp F y)).
  { cbn [te_on] in On |- *. transitivity (oadd F (omul F a (omul F x x)) (omul F y y)); [ring|]. rewrite On. ring. }
  assert (Nm : oopp F y <> o0 F).
  { intros H. apply Ny. transitivity (oopp F (oopp F y)); [ring|]. rewrite H. ring. }
  assert (Q : q = (omul F (oopp F y) c, omul F x c, omul F (omul F x (oopp F y)) c)).
  { unfold q. rewrite EX, EY, EZ. repeat apply f_equal2; ring. }
  destruct (edw_ok_mk F FK a d x (oopp F y) c Nx Nm Nc On') as [OQ DQ].
  rewrite <- Q in OQ, DQ. split; [exact OQ|]. split; [exact DQ|]. rewrite DQ. split.
  - cbn [te_add]. f_equal.
    + destruct (rk_dec F (fk_ring F FK) (oadd F (o1 F) (omul F d (omul F (omul F x x) (omul F y (oopp F y))))) (o0 F)) as [H|H].
      * unfold tdiv. replace (oadd F (omul F x (oopp F y)) (omul F y x)) with (o0 F) by ring. ring.
      * apply (tdiv_eq F FK); auto. ring.
    + apply (tdiv_eq F FK).
      * intros H. apply ND. rewrite <- H. ring.
      * cbn [te_on] in On. transitivity (oopp F (oadd F (omul F a (omul F x x)) (omul F y y))); [ring|]. rewrite On. ring.
  - unfold edw_add. rewrite Z1.
    assert (ZQ : edw_is_zero F q = false).
    { unfold q. apply (edw_is_zero_not F FK). exact NY. }
    rewrite ZQ. rewrite EX, EY, EZ, Q, (edw_add_member_form F FK a d mul_a mul_d MA MD).
    apply (edw_is_zero_at F FK). split; ring.
Qed.
End Lost.
End Curves.

(** ** Which points survive compression *)
Section Recover.
Open Scope Z_scope.
Variable C : field_consts.
Hypothesis CO : field_consts_ok C.
Notation P := (fc_P C).
Notation F := (fp_ops (fc_P C) (fco_ok C CO) (fco_inv C CO)).

(** In a prime field: all. *)
Lemma fp_recoverable bin mont debug fuel y : fc_s C < 2 ^ 31 -> fc_s C < Z.of_nat fuel ->
  recoverable F (fp_codec P bin mont) (fp_sqrt C CO debug fuel) y.
Proof.
  intros Hs Hf. split.
  - apply (fp_lsb_opp P (fco_ok C CO) (fco_inv C CO)). apply (fco_odd C CO).
  - now apply prime_sqrt_square.
Qed.
(** In a quadratic or cubic extension: zero and those whose first component
    does not vanish. *)
Lemma fp2_recoverable bin mont nr S q debug fuel y : field_ok (fp2_ops F nr) -> char_not_2 (fp2_ops F nr) ->
  sqrt_ok (fp2_ops F nr) S q -> order_divides (fp2_ops F nr) q -> sq_s S < Z.of_nat fuel ->
  y = o0 (fp2_ops F nr) \/ fst y <> o0 F ->
  recoverable (fp2_ops F nr) (fp2_codec bin (fp_codec P bin mont)) (field_sqrt (fp2_ops F nr) S debug fuel) y.
Proof.
  intros FK C2 SO OD Hf HY. split.
  - intros N. destruct y as [y0 y1]. destruct HY as [HY|HY]; [congruence|].
    exact (fp_lsb_opp P (fco_ok C CO) (fco_inv C CO) bin mont y0 (fco_odd C CO) HY).
  - now apply (field_sqrt_square _ _ q).
Qed.
Lemma fp3_recoverable bin mont nr S q debug fuel y : field_ok (fp3_ops F nr) -> char_not_2 (fp3_ops F nr) ->
  sqrt_ok (fp3_ops F nr) S q -> order_divides (fp3_ops F nr) q -> sq_s S < Z.of_nat fuel ->
  y = o0 (fp3_ops F nr) \/ fst (fst y) <> o0 F ->
  recoverable (fp3_ops F nr) (fp3_codec bin (fp_codec P bin mont)) (field_sqrt (fp3_ops F nr) S debug fuel) y.
Proof.
  intros FK C2 SO OD Hf HY. split.
  - intros N. destruct y as [[y0 y1] y2]. destruct HY as [HY|HY]; [congruence|].
    exact (fp_lsb_opp P (fco_ok C CO) (fco_inv C CO) bin mont y0 (fco_odd C CO) HY).
  - now apply (field_sqrt_square _ _ q).
Qed.
(** The bit kept for y = (0, y1) is the one kept for -y. *)
Lemma fp2_lsb_lost bin mont nr y1 :
  cd_lsb (fp2_codec bin (fp_codec P bin mont)) (oopp (fp2_ops F nr) (o0 F, y1)) =
  cd_lsb (fp2_codec bin (fp_codec P bin mont)) (o0 F, y1).
Proof.
  change (cd_lsb (fp_codec P bin mont) (oopp F (o0 F)) = cd_lsb (fp_codec P bin mont) (o0 F)).
  replace (oopp F (o0 F)) with (o0 F); [reflexivity|].
  apply (toZ_inj P (fco_ok C CO)). cbn [oopp o0 fp_ops]. rewrite (toZ_opp P (fco_ok C CO)), (toZ_zero P (fco_ok C CO)).
  reflexivity.
Qed.
End Recover.

(** ** Small curves over the field of 13 elements *)
Lemma F13_field : field_ok F13.
Proof. exact (pb_field _ _ F13_base). Qed.
Lemma F13_two : oadd F13 (o1 F13) (o1 F13) <> o0 F13.
Proof. apply (neq_fast _ F13_ring). vm_compute. reflexivity. Qed.
Definition pt13 (X Y Z : Z) : Zm 13 * Zm 13 * Zm 13 := (f13 X, f13 Y, f13 Z).
Definition apt_z (P : apt (Zm 13)) : option (Z * Z) :=
  match P with Inf => None | Aff x y => Some (zval 13 x, zval 13 y) end.
Definition te_z (P : Zm 13 * Zm 13) : Z * Z := (zval 13 (fst P), zval 13 (snd P)).

(** y^2 = x^3 + 1, Jacobian: (0, 1) with Z = 2 and (2, 3) with Z = 5. *)
Definition jp : Zm 13 * Zm 13 * Zm 13 := pt13 0 8 2.
Definition jq : Zm 13 * Zm 13 * Zm 13 := pt13 11 11 5.
Lemma jac13_disc : sw_disc F13 (o0 F13) (f13 1) <> o0 F13.
Proof. apply (neq_fast _ F13_ring). vm_compute. reflexivity. Qed.
Lemma jac13_ok : jac_ok F13 (f13 1) jp /\ jac_ok F13 (f13 1) jq.
Proof. split; apply (jac_well_formed_spec F13 F13_field (f13 1)); vm_compute; reflexivity. Qed.
Lemma jac13_den : apt_z (jac_den F13 jp) = Some (0, 1)%Z /\ apt_z (jac_den F13 jq) = Some (2, 3)%Z /\
  apt_z (jac_den F13 (jac_add F13 jp jq)) = Some (12, 0)%Z /\
  apt_z (jac_den F13 (jac_dbl F13 jq)) = Some (0, 1)%Z /\
  apt_z (jac_den F13 (jac_add F13 jq (jac_opp F13 jq))) = None.
Proof. vm_compute. auto. Qed.

(** y^2 = x^3 + x + 1, homogeneous: (0, 1) with Z = 2 and (1, 4) with Z = 5. *)
Definition pp : Zm 13 * Zm 13 * Zm 13 := pt13 0 2 2.
Definition pq : Zm 13 * Zm 13 * Zm 13 := pt13 5 20 5.
Definition mul1 (x : Zm 13) : Zm 13 := omul F13 (f13 1) x.
Lemma prj13_disc : sw_disc F13 (f13 1) (f13 1) <> o0 F13.
Proof. apply (neq_fast _ F13_ring). vm_compute. reflexivity. Qed.
Lemma prj13_ok : prj_ok F13 (f13 1) (f13 1) pp /\ prj_ok F13 (f13 1) (f13 1) pq.
Proof. split; apply (prj_well_formed_spec F13 F13_field (f13 1) (f13 1)); vm_compute; reflexivity. Qed.
Lemma prj13_den : apt_z (prj_den F13 pp) = Some (0, 1)%Z /\ apt_z (prj_den F13 pq) = Some (1, 4)%Z /\
  apt_z (prj_den F13 (prj_add F13 mul1 pp pq)) = Some (8, 1)%Z /\
  apt_z (prj_den F13 (prj_add F13 mul1 pq (prj_opp F13 pq))) = None.
Proof. vm_compute. auto. Qed.

(** x^2 + y^2 = 1 + 7 x^2 y^2: twenty points; (2, 9) and (6, 8) have order five. *)
Definition a13 : Zm 13 := f13 1.
Definition d13 : Zm 13 := f13 7.
Definition mul_a13 (x : Zm 13) : Zm 13 := omul F13 a13 x.
Definition mul_d13 (x : Zm 13) : Zm 13 := omul F13 d13 x.
Definition ep : Zm 13 * Zm 13 * Zm 13 := pt13 18 4 36.
Definition eq13 : Zm 13 * Zm 13 * Zm 13 := pt13 24 18 144.
Definition er : Zm 13 * Zm 13 * Zm 13 := pt13 (-18) 4 (-36).
Lemma a13_square : a13 = omul F13 (f13 1) (f13 1) /\ f13 1 <> o0 F13.
Proof. split; [apply (eq_fast _ F13_ring)|apply (neq_fast _ F13_ring)]; vm_compute; reflexivity. Qed.
Lemma d13_nonsquare s : omul F13 s s <> d13.
Proof.
  intros E. apply (f_equal (zval 13)) in E. cbn [omul zm_ops] in E. unfold zmul in E.
  rewrite zval_mk in E. change (zval 13 d13) with 7%Z in E.
  pose proof (zval_range 13 gt_13 s) as B.
  assert (H : forallb (fun z => negb ((z * z) mod 13 =? 7)%Z) (map Z.of_nat (seq 0 13)) = true) by (vm_compute; reflexivity).
  rewrite forallb_forall in H. specialize (H (zval 13 s)). rewrite E in H. discriminate H.
  rewrite <- (Z2Nat.id (zval 13 s)) by lia. apply in_map. apply in_seq. lia.
Qed.
Lemma edw13_ok : edw_ok F13 a13 d13 ep /\ edw_ok F13 a13 d13 eq13 /\ edw_ok F13 a13 d13 er.
Proof.
  assert (H : forall X Y Z, oeqb F13 X (o0 F13) = false -> oeqb F13 Y (o0 F13) = false -> oeqb F13 Z (o0 F13) = false ->
    (let '(x, y) := edw_den F13 (X, Y, Z) in
     oeqb F13 (oadd F13 (omul F13 a13 (omul F13 x x)) (omul F13 y y))
      (oadd F13 (o1 F13) (omul F13 d13 (omul F13 (omul F13 x x) (omul F13 y y))))) = true ->
    edw_ok F13 a13 d13 (X, Y, Z)).
  { intros X Y Z H1 H2 H3 H4. right. repeat split; try (now apply (neq_fast _ F13_ring)).
    destruct (edw_den F13 (X, Y, Z)) as [x y]. now apply (eq_fast _ F13_ring). }
  repeat split; apply H; vm_compute; reflexivity.
Qed.
Lemma edw13_den : te_z (edw_den F13 ep) = (2, 9)%Z /\ te_z (edw_den F13 eq13) = (6, 8)%Z /\
  te_z (edw_den F13 er) = (2, 4)%Z /\
  te_z (te_add F13 a13 d13 (edw_den F13 ep) (edw_den F13 er)) = (0, 12)%Z /\
  edw_is_zero F13 (edw_add F13 mul_a13 mul_d13 ep er) = true.
Proof. vm_compute. auto 10. Qed.
Lemma edw13_fits : edw_fits F13 a13 d13 (edw_den F13 ep) (edw_den F13 eq13).
Proof.
  split.
  - split; apply (neq_fast _ F13_ring); vm_compute; reflexivity.
  - right. split; apply (neq_fast _ F13_ring); vm_compute; reflexivity.
Qed.
Lemma te_z_inj P Q : te_z P = te_z Q -> P = Q.
Proof.
  destruct P as [x y], Q as [x' y']. unfold te_z. cbn [fst snd]. intros E. injection E as E1 E2.
  apply zval_inj in E1, E2. congruence.
Qed.
Lemma edw13_torsion : edw_okr F13 F13_field a13 d13 5 ep /\ edw_okr F13 F13_field a13 d13 5 eq13.
Proof.
  destruct edw13_ok as (O1 & O2 & _). unfold edw_okr, odd_torsion, edw_dent. cbn [npow].
  split; (split; [assumption|]); apply te_pt_eq; rewrite !(tp_add_val F13 F13_field a13 d13 (f13 1) (proj1 a13_square) (proj2 a13_square)
    d13_nonsquare F13_two); (rewrite tp_mk_val by now apply (edw_ok_on F13 F13_field));
    apply te_z_inj; vm_compute; reflexivity.
Qed.

(** Witnesses against the unrestricted Edwards statements. *)
Lemma edw_add_refuted : exists (K : Type) (F : Fops K) (a d al : K) (p q : K * K * K),
  field_ok F /\ oadd F (o1 F) (o1 F) <> o0 F /\ a = omul F al al /\ al <> o0 F /\ (forall s, omul F s s <> d) /\
  edw_ok F a d p /\ edw_ok F a d q /\
  te_add F a d (edw_den F p) (edw_den F q) <> te_zero F /\
  edw_is_zero F (edw_add F (omul F a) (omul F d) p q) = true.
Proof.
  exists (Zm 13), F13, a13, d13, (f13 1), ep, er.
  split; [exact F13_field|]. split; [exact F13_two|]. split; [apply a13_square|]. split; [apply a13_square|].
  split; [exact d13_nonsquare|]. split; [apply edw13_ok|]. split; [apply edw13_ok|]. split.
  - intros E. apply (f_equal te_z) in E. vm_compute in E. discriminate E.
  - vm_compute. reflexivity.
Qed.
(** to_affine_coordinates stores the plain affine coordinates (x, y, 1), which
    the other members read as inverted coordinates of (1/x, 1/y). *)
Lemma edw_to_affine_refuted : exists (K : Type) (F : Fops K) (a d : K) (p q : K * K * K),
  field_ok F /\ edw_ok F a d p /\ edw_to_affine F p = Ok q /\ edw_is_special F q = true /\
  edw_den F q <> edw_den F p /\ edw_eqb F q p = false.
Proof.
  exists (Zm 13), F13, a13, d13, ep, (fst (edw_den F13 ep), snd (edw_den F13 ep), o1 F13).
  split; [exact F13_field|]. split; [apply edw13_ok|].
  split; [apply (edw_to_affine_spec F13 F13_field a13 d13); apply edw13_ok|].
  split; [vm_compute; reflexivity|]. split.
  - intros E. apply (f_equal te_z) in E. vm_compute in E. discriminate E.
  - vm_compute. reflexivity.
Qed.
(** is_well_formed accepts (0, Y, 0), which represents no point, whatever the
    curve. *)
Lemma edw_well_formed_refuted {K} (F : Fops K) (FK : field_ok F) a d mul_a mul_d Y :
  (forall x, mul_a x = omul F a x) -> (forall x, mul_d x = omul F d x) ->
  edw_is_well_formed F mul_a mul_d (o0 F, Y, o0 F) = true /\ ~ edw_ok F a d (o0 F, Y, o0 F).
Proof.
  intros MA MD. split.
  - apply (edw_well_formed_spec F FK a d mul_a mul_d MA MD). right. auto.
  - cbn. tauto.
Qed.

(** ** Twist multiplications *)
Section Twist.
Context {K : Type} (F : Fops K) (R : ring_ok F) (nr : K).
Add Ring CTring : (rk_ring F R).
Lemma sqr_mul x : osqr F x = omul F x x.
Proof. apply (rk_sqr F R). Qed.
Ltac comp := cbn; rewrite ?sqr_mul; repeat apply f_equal2; ring.
Lemma mnt4_mul_by_a_ok a e : mnt4_mul_by_a F a nr e = omul (fp2_ops F nr) (mnt4_twist_a F a nr) e.
Proof. destruct e as [c0 c1]. comp. Qed.
Lemma mnt4_mul_by_b_ok b e : mnt4_mul_by_b F b nr e = omul (fp2_ops F nr) (mnt4_twist_b F b nr) e.
Proof. destruct e as [c0 c1]. comp. Qed.
Lemma mnt6_mul_by_a_ok a e : mnt6_mul_by_a F a nr e = omul (fp3_ops F nr) (mnt6_twist_a F a) e.
Proof. destruct e as [[c0 c1] c2]. comp. Qed.
Lemma mnt6_mul_by_b_ok b e : mnt6_mul_by_b F b nr e = omul (fp3_ops F nr) (mnt6_twist_b F b nr) e.
Proof. destruct e as [[c0 c1] c2]. comp. Qed.
Lemma edwards_mul_by_a_ok e : edwards_mul_by_a F (o1 F) nr e = omul (fp3_ops F nr) (edwards_twist_a F (o1 F)) e.
Proof. destruct e as [[c0 c1] c2]. comp. Qed.
(** Right for the coefficient 1 alone. *)
Lemma edwards_mul_by_a_only a :
  (forall e, edwards_mul_by_a F a nr e = omul (fp3_ops F nr) (edwards_twist_a F a) e) <-> a = o1 F.
Proof.
  split; [intros H | intros -> e; apply edwards_mul_by_a_ok].
  specialize (H (o1 F, o0 F, o0 F)). cbn in H. injection H as _ E _.
  match type of E with _ = ?v => transitivity v; [ring|]; rewrite <- E; ring end.
Qed.
Lemma edwards_mul_by_d_ok d e : edwards_mul_by_d F d nr e = omul (fp3_ops F nr) (edwards_twist_d F d) e.
Proof. destruct e as [[c0 c1] c2]. comp. Qed.
(** alt_bn128 and bls12_381: the twist coefficient has a non-zero second
    component, so multiplication by it is not component-wise scaling. *)
Lemma bn_mul_by_b_wrong b tb : snd tb <> o0 F ->
  bn_mul_by_b F b nr (o1 (fp2_ops F nr)) <> omul (fp2_ops F nr) tb (o1 (fp2_ops F nr)).
Proof.
  destruct tb as [t0 t1]. cbn. intros N E. injection E as _ E. apply N.
  match type of E with ?u = ?v => transitivity v; [ring|]; rewrite <- E; ring end.
Qed.
End Twist.

(** ** Point streams of G1 *)
Section G1Io.
Open Scope Z_scope.
Variable C : field_consts.
Hypothesis CO : field_consts_ok C.
Notation F := (fp_ops (fc_P C) (fco_ok C CO) (fco_inv C CO)).
Notation cd := (fp_codec (fc_P C)).
Variables (bin mont comp debug : bool) (fuel : nat).

Lemma jac_g1_io b p : fc_s C < 2 ^ 31 -> fc_s C < Z.of_nat fuel -> jac_ok F b p ->
  exists w q, sw_write (cd bin mont) bin comp (jac_to_affine F) (jac_is_zero F) p = Ok w /\ jac_den F q = jac_den F p /\
    forall rest, (comp = true \/ after bin rest) ->
      sw_read F (cd bin mont) bin comp (fp_sqrt C CO debug fuel) (jac_rhs F b) (jac_zero F) (w ++ rest) = Ok (q, rest).
Proof.
  intros Hs Hf O. destruct (jac_roundtrip F (prime_field_ok C CO) (cd bin mont) bin comp
    (fp_codec_ok _ bin mont (fco_ok C CO)) (fp_sqrt C CO debug fuel) b p O) as (w & q & E & _ & D & H).
  { intros. now apply fp_recoverable. }
  exists w, q. auto.
Qed.
Lemma prj_g1_io a b p : fc_s C < 2 ^ 31 -> fc_s C < Z.of_nat fuel -> prj_ok F a b p ->
  exists w q, sw_write (cd bin mont) bin comp (prj_to_affine F) (prj_is_zero F) p = Ok w /\
    prj_ok F a b q /\ prj_den F q = prj_den F p /\
    forall rest, (comp = true \/ after bin rest) ->
      sw_read F (cd bin mont) bin comp (fp_sqrt C CO debug fuel) (prj_rhs F a b) (prj_zero F) (w ++ rest) = Ok (q, rest).
Proof.
  intros Hs Hf O. destruct (prj_roundtrip F (prime_field_ok C CO) (cd bin mont) bin comp
    (fp_codec_ok _ bin mont (fco_ok C CO)) (fp_sqrt C CO debug fuel) a b p O) as (w & q & E & _ & O' & D & H).
  { intros. now apply fp_recoverable. }
  exists w, q. auto.
Qed.
Lemma edw_g1_io mixed a d mul_a mul_d p : (forall x, mul_a x = omul F a x) -> (forall x, mul_d x = omul F d x) -> a <> d ->
  fc_s C < 2 ^ 31 -> fc_s C < Z.of_nat fuel -> edw_ok F a d p ->
  exists w q, edw_write F (cd bin mont) bin comp p = Ok w /\ edw_ok F a d q /\ edw_den F q = edw_den F p /\
    forall rest, (comp = true \/ after bin rest) ->
      edw_read F (cd bin mont) bin comp (fp_sqrt C CO debug fuel) mul_a mul_d mixed (w ++ rest) = Ok (q, rest).
Proof.
  intros MA MD NAD Hs Hf O. apply (edw_roundtrip F (prime_field_ok C CO) (cd bin mont) bin comp
    (fp_codec_ok _ bin mont (fco_ok C CO)) (fp_sqrt C CO debug fuel) a d mul_a mul_d MA MD NAD mixed p O).
  intros. now apply fp_recoverable.
Qed.
Lemma jac_g1_off_curve b x w c rest : fc_s C < 2 ^ 31 -> cd_wr (cd bin mont) x = Ok w ->
  (forall y, omul F y y <> jac_rhs F b x) ->
  sw_read F (cd bin mont) bin true (fp_sqrt C CO debug fuel) (jac_rhs F b) (jac_zero F)
    (ch_0 :: output_separator bin ++ w ++ output_separator bin ++ c :: rest)
  = if debug then AssertFail else OutOfFuel.
Proof.
  intros Hs E Hn.
  rewrite (sw_read_off_curve F (cd bin mont) bin true (fp_codec_ok _ bin mont (fco_ok C CO)) (fp_sqrt C CO debug fuel)
    (jac_rhs F b) (jac_zero F) x w c rest E eq_refl).
  unfold pick_root. rewrite (prime_sqrt_nonsquare C CO debug fuel _ Hs Hn). now destruct debug.
Qed.
Lemma jac_g2_ambiguous nr p x y1 : let F2 := fp2_ops F nr in
  field_ok F2 -> char_not_2 F2 -> jac_den F2 p = Aff x (o0 F, y1) -> y1 <> o0 F ->
  sw_write (fp2_codec bin (cd bin mont)) bin true (jac_to_affine F2) (jac_is_zero F2) (jac_opp F2 p) =
  sw_write (fp2_codec bin (cd bin mont)) bin true (jac_to_affine F2) (jac_is_zero F2) p /\
  jac_den F2 (jac_opp F2 p) <> jac_den F2 p.
Proof.
  intros F2 FK C2 D N.
  apply (jac_write_opp F2 FK (fp2_codec bin (cd bin mont)) bin (fun y => Ok y) p x (o0 F, y1)); auto.
  - intros E. apply N. exact (f_equal snd E).
  - apply fp2_lsb_lost.
Qed.
End G1Io.

Section Unit.
Context {K : Type} (F : Fops K) (FK : field_ok F).
Add Ring CUring : (rk_ring F (fk_ring F FK)).
Lemma unit_point : jac_ok F (o1 F) (o0 F, o1 F, o1 F) /\ jac_is_zero F (o0 F, o1 F, o1 F) = false.
Proof.
  assert (Z1 : oeqb F (o1 F) (o0 F) = false) by (apply (rk_eqb_neq F (fk_ring F FK)); apply (fk_1_neq_0 F FK)).
  split; [|exact Z1].
  apply (jac_well_formed_spec F FK). unfold jac_is_well_formed, jac_is_zero. rewrite Z1.
  apply (rk_eqb F (fk_ring F FK)). rewrite !(rk_sqr F (fk_ring F FK)). ring.
Qed.
End Unit.
Lemma toy_point : field_consts_ok toy_C /\ (fc_s toy_C < 2 ^ 31)%Z /\ (fc_s toy_C < Z.of_nat 17)%Z /\
  exists b p, let F := fp_ops (fc_P toy_C) (fco_ok _ toy_C_ok) (fco_inv _ toy_C_ok) in
    jac_ok F b p /\ jac_is_zero F p = false.
Proof.
  split; [exact toy_C_ok|]. split; [reflexivity|]. split; [reflexivity|].
  set (F := fp_ops (fc_P toy_C) (fco_ok _ toy_C_ok) (fco_inv _ toy_C_ok)).
  exists (o1 F), (o0 F, o1 F, o1 F). exact (unit_point _ (prime_field_ok toy_C toy_C_ok)).
Qed.
