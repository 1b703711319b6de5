(** The coordinate formulas of the curve types compute the group law. *)
From Coq Require Import ZArith List Bool Ring Field.
From Verif Require Import Result Algebra FieldOps AlgorithmsModel AlgorithmsProofs AlgorithmsField GroupOps
  CurveSpec CurveGroup CurveModel.
Import ListNotations.

Section Common.
Context {K : Type} (F : Fops K).
Hypothesis FK : field_ok F.
Let R : ring_ok F := fk_ring F FK.
Add Ring CPring : (rk_ring F (fk_ring F FK)).
Local Notation "x * y" := (omul F x y).

Lemma tdiv_mul x y : y <> o0 F -> tdiv F x y * y = x.
Proof.
  intros N. unfold tdiv. destruct (tinv_spec F FK y N) as [_ I].
  transitivity (x * (tinv F y * y)); [ring|]. rewrite I. ring.
Qed.
Lemma tdiv_eq x y z : y <> o0 F -> x = z * y -> tdiv F x y = z.
Proof.
  intros N ->. apply (fk_mul_cancel F FK _ _ y N). now apply tdiv_mul.
Qed.
Lemma eqb0 x : oeqb F x (o0 F) = true <-> x = o0 F.
Proof. apply (rk_eqb F R). Qed.

(** Batch inversion of the Z coordinates. *)
Lemma batch_Z (vec : list (K * K * K)) : Forall (fun p => snd p <> o0 F) vec ->
  exists zs, batch_inv_Z F vec = Ok zs /\ Forall2 (fun p zi => zi = tinv F (snd p)) vec zs.
Proof.
  intros H. destruct (field_batch_invert F (map snd vec) FK) as (zs & E & I).
  { clear -H. induction H; cbn; constructor; auto. }
  exists zs. split; [exact E|]. clear E. revert zs I.
  induction H as [|p vec N H IH]; cbn; intros zs I; inversion I; subst; constructor.
  - apply (fk_mul_cancel F FK _ _ _ N). destruct (tinv_spec F FK _ N) as [_ ->].
    rewrite <- H2. ring.
  - now apply IH.
Qed.
Lemma batch_map (step : K * K * K * K -> K * K * K) (sp : K * K * K -> result (K * K * K)) vec zs :
  Forall2 (fun p zi => zi = tinv F (snd p)) vec zs ->
  Forall (fun p => sp p = Ok (step (p, tinv F (snd p)))) vec ->
  Forall2 (fun p q => sp p = Ok q) vec (map step (combine vec zs)).
Proof.
  intros I H. induction I; cbn; constructor; inversion H; subst; auto.
Qed.
End Common.

Section Jac.
Context {K : Type} (F : Fops K).
Hypothesis FK : field_ok F.
Variable b : K.
Hypothesis H2 : oadd F (o1 F) (o1 F) <> o0 F.
Hypothesis HD : sw_disc F (o0 F) b <> o0 F.
Let R : ring_ok F := fk_ring F FK.
Add Ring CJring : (rk_ring F (fk_ring F FK)).
Local Notation "0" := (o0 F).
Local Notation "1" := (o1 F).
Local Notation "x + y" := (oadd F x y).
Local Notation "x - y" := (osub F x y).
Local Notation "x * y" := (omul F x y).
Local Notation "- x" := (oopp F x).
Local Notation den := (jac_den F).
Local Notation ok := (jac_ok F b).

Lemma jac_repr X Y Z : Z <> 0 -> exists x y, X = x * (Z * Z) /\ Y = y * (Z * Z * Z) /\ den (X, Y, Z) = Aff x y.
Proof.
  intros N. assert (N2 : Z * Z <> 0) by now apply fk_mul_neq_0.
  assert (N3 : Z * Z * Z <> 0) by now apply fk_mul_neq_0.
  exists (tdiv F X (Z * Z)), (tdiv F Y (Z * Z * Z)). rewrite !tdiv_mul by auto.
  repeat split; auto. cbn. apply (rk_eqb_neq F R) in N. now rewrite N.
Qed.
Lemma jac_den_at x y X Y Z : Z <> 0 -> X = x * (Z * Z) -> Y = y * (Z * Z * Z) -> den (X, Y, Z) = Aff x y.
Proof.
  intros N HX HY. cbn. rewrite (proj2 (rk_eqb_neq F R Z 0) N).
  rewrite (tdiv_eq F FK X (Z * Z) x), (tdiv_eq F FK Y (Z * Z * Z) y); auto using fk_mul_neq_0.
Qed.
Lemma jac_den_0 X Y : den (X, Y, 0) = Inf.
Proof. cbn. now rewrite (rk_eqb_refl F R). Qed.
Lemma jac_den_zero X Y Z : Z = 0 -> den (X, Y, Z) = Inf.
Proof. intros ->. apply jac_den_0. Qed.

Lemma jac_is_zero_spec p : jac_is_zero F p = true <-> den p = Inf.
Proof.
  destruct p as [[X Y] Z]. cbn. destruct (oeqb F Z 0); split; auto; discriminate.
Qed.
Lemma jac_cases p : jac_is_zero F p = true /\ den p = Inf \/
  jac_is_zero F p = false /\ exists x y Z, Z <> 0 /\ p = (x * (Z * Z), y * (Z * Z * Z), Z) /\ den p = Aff x y.
Proof.
  destruct p as [[X Y] Z]. destruct (rk_dec F R Z 0) as [E|N].
  - left. split; [cbn; now apply eqb0|now apply jac_den_zero].
  - right. split; [cbn; now apply (rk_eqb_neq F R)|].
    destruct (jac_repr X Y Z N) as (x & y & -> & -> & D). exists x, y, Z. auto.
Qed.

Ltac sq := rewrite ?(rk_sqr F R).

Lemma z3_neq_0 z : z <> 0 -> z + z <> 0.
Proof. intros N E. apply N. now apply (dbl_0 F FK H2). Qed.

Theorem jac_dbl_den p : ok p -> den (jac_dbl F p) = sw_add F 0 (den p) (den p).
Proof.
  intros OK. unfold jac_ok in OK. destruct (jac_cases p) as [[Z D]|[Z (x & y & z & N & E & D)]]; rewrite D in *.
  - unfold jac_dbl. destruct p as [[X Y] Z']. rewrite Z. exact D.
  - subst p. unfold jac_dbl. rewrite Z. sq.
    destruct (line_cases F FK 0 b (Aff x y) (Aff x y) OK OK)
      as [?|[?|[E|(x1 & y1 & x2 & y2 & l & E1 & E2 & L)]]]; try discriminate.
    + injection E as E. apply (opp_self F FK H2) in E. subst y.
      rewrite jac_den_zero by ring.
      cbn. rewrite (rk_eqb_refl F R). destruct (rk_eqb_spec F R 0 (- 0)) as [|E]; auto.
      exfalso. apply E. ring.
    + injection E1 as <- <-. injection E2 as <- <-.
      rewrite (line_add F FK 0 b H2 HD _ _ _ _ _ L).
      assert (Y : y <> 0).
      { intros ->. destruct L as (_ & A & _). apply (smooth F FK 0 b HD x 0 OK eq_refl).
        rewrite A at 1. ring. }
      destruct L as (_ & A & _).
      assert (E3 : x * x + x * x + x * x = l * (y + y)).
      { transitivity (l * (y + y) - 0); [|ring]. rewrite A at 1. ring. }
      set (Z3 := y * (z * z * z) * z + y * (z * z * z) * z).
      assert (NZ : Z3 <> 0).
      { apply z3_neq_0. repeat apply fk_mul_neq_0; auto. }
      assert (EE : x * (z * z) * (x * (z * z)) + x * (z * z) * (x * (z * z)) + x * (z * z) * (x * (z * z)) = l * Z3).
      { transitivity ((x * x + x * x + x * x) * (z * z * z * z)); [ring|]. rewrite E3. unfold Z3. ring. }
      rewrite EE. apply jac_den_at; auto; unfold Z3; ring.
Qed.

Theorem jac_add_den p q : ok p -> ok q -> den (jac_add F p q) = sw_add F 0 (den p) (den q).
Proof.
  intros OP OQ.
  destruct (jac_cases p) as [[ZP DP]|[ZP (x1 & y1 & z1 & N1 & EP & DP)]].
  { unfold jac_add. destruct p as [[X1 Y1] Z1], q as [[X2 Y2] Z2]. rewrite ZP, DP. reflexivity. }
  destruct (jac_cases q) as [[ZQ DQ]|[ZQ (x2 & y2 & z2 & N2 & EQ & DQ)]].
  { unfold jac_add. destruct p as [[X1 Y1] Z1], q as [[X2 Y2] Z2]. rewrite ZP, ZQ, DQ. now rewrite (sw_add_O_r F 0). }
  pose proof (jac_dbl_den p OP) as DB. unfold jac_ok in OP, OQ. rewrite DP in *. rewrite DQ in *.
  subst p q. unfold jac_add. rewrite ZP, ZQ. sq.
  assert (NZ : z1 * z2 <> 0) by now apply fk_mul_neq_0.
  set (zz := z1 * z2) in *.
  assert (U : forall u v, u * (z1 * z1) * (z2 * z2) = v * (z2 * z2) * (z1 * z1) -> u = v).
  { intros u v E. apply (fk_mul_cancel F FK _ _ (zz * zz)); [now apply fk_mul_neq_0|].
    unfold zz. transitivity (u * (z1 * z1) * (z2 * z2)); [ring|]. rewrite E. ring. }
  assert (S : forall u v, u * (z1 * z1 * z1) * (z2 * (z2 * z2)) = v * (z2 * z2 * z2) * (z1 * (z1 * z1)) -> u = v).
  { intros u v E. apply (fk_mul_cancel F FK _ _ (zz * zz * zz)); [repeat apply fk_mul_neq_0; auto|].
    unfold zz. transitivity (u * (z1 * z1 * z1) * (z2 * (z2 * z2))); [ring|]. rewrite E. ring. }
  destruct (rk_eqb_spec F R (x1 * (z1 * z1) * (z2 * z2)) (x2 * (z2 * z2) * (z1 * z1))) as [EU|EU];
  destruct (rk_eqb_spec F R (y1 * (z1 * z1 * z1) * (z2 * (z2 * z2))) (y2 * (z2 * z2 * z2) * (z1 * (z1 * z1)))) as [ES|ES]; cbn [andb].
  - apply U in EU. apply S in ES. subst x2 y2. exact DB.
  - apply U in EU. subst x2.
    assert (E : y1 = - y2).
    { cbn in OP, OQ. destruct (fk_sqr_eq F FK y1 y2) as [->|]; auto; [congruence|].
      exfalso. apply ES. ring. }
    subst y1. rewrite jac_den_zero by ring.
    cbn. now rewrite !(rk_eqb_refl F R).
  - destruct (line_exists F FK 0 b x1 y1 x2 y2 OP OQ) as (l & L).
    { intros ->. exfalso. apply EU. ring. }
    rewrite (line_add F FK 0 b H2 HD _ _ _ _ _ L). destruct L as (L & _). subst y2.
    assert (NH : x2 - x1 <> 0).
    { intros E. apply (proj1 (rk_sub_0 F R _ _)) in E. subst x2. apply EU. ring. }
    apply jac_den_at; [|ring|ring].
    assert (Q : (zz + zz) * (zz * zz * (x2 - x1)) <> 0).
    { repeat apply fk_mul_neq_0; auto. now apply z3_neq_0. }
    intros E. apply Q. rewrite <- E. unfold zz. ring.
  - destruct (line_exists F FK 0 b x1 y1 x2 y2 OP OQ) as (l & L).
    { intros ->. exfalso. apply EU. ring. }
    rewrite (line_add F FK 0 b H2 HD _ _ _ _ _ L). destruct L as (L & _). subst y2.
    assert (NH : x2 - x1 <> 0).
    { intros E. apply (proj1 (rk_sub_0 F R _ _)) in E. subst x2. apply EU. ring. }
    apply jac_den_at; [|ring|ring].
    assert (Q : (zz + zz) * (zz * zz * (x2 - x1)) <> 0).
    { repeat apply fk_mul_neq_0; auto. now apply z3_neq_0. }
    intros E. apply Q. rewrite <- E. unfold zz. ring.
Qed.

(** mixed_add: the other operand is special. *)
Theorem jac_mixed_add_den p q : ok p -> ok q -> jac_is_special F q = true ->
  den (jac_mixed_add F p q) = sw_add F 0 (den p) (den q).
Proof.
  intros OP OQ SP.
  destruct (jac_cases p) as [[ZP DP]|[ZP (x1 & y1 & z1 & N1 & EP & DP)]].
  { unfold jac_mixed_add. destruct p as [[X1 Y1] Z1], q as [[X2 Y2] Z2]. rewrite ZP, DP. reflexivity. }
  destruct q as [[x2 y2] z2].
  destruct (jac_cases (x2, y2, z2)) as [[ZQ DQ]|[ZQ _]].
  { unfold jac_mixed_add. destruct p as [[X1 Y1] Z1]. rewrite ZP, ZQ, DQ. now rewrite (sw_add_O_r F 0). }
  assert (z2 = 1).
  { unfold jac_is_special in SP. rewrite ZQ in SP. now apply (rk_eqb F R) in SP. }
  subst z2. assert (DQ : den (x2, y2, 1) = Aff x2 y2).
  { apply jac_den_at; [apply (fk_1_neq_0 F FK)|ring|ring]. }
  pose proof (jac_dbl_den p OP) as DB. unfold jac_ok in OP, OQ. rewrite DP in *. rewrite DQ in *.
  subst p. unfold jac_mixed_add. rewrite ZP, ZQ. sq.
  assert (N2 : z1 * z1 <> 0) by now apply fk_mul_neq_0.
  assert (N3 : z1 * z1 * z1 <> 0) by now apply fk_mul_neq_0.
  destruct (rk_eqb_spec F R (x1 * (z1 * z1)) (x2 * (z1 * z1))) as [EU|EU].
  - apply (fk_mul_cancel F FK _ _ _ N2) in EU. subst x2.
    destruct (rk_eqb_spec F R (y1 * (z1 * z1 * z1)) (y2 * (z1 * (z1 * z1)))) as [ES|ES]; cbn [andb].
    + replace (z1 * (z1 * z1)) with (z1 * z1 * z1) in ES by ring.
      apply (fk_mul_cancel F FK _ _ _ N3) in ES. subst y2. exact DB.
    + assert (E : y1 = - y2).
      { cbn in OP, OQ. destruct (fk_sqr_eq F FK y1 y2) as [->|]; auto; [congruence|].
        exfalso. apply ES. ring. }
      subst y1. rewrite jac_den_zero by ring.
      cbn. now rewrite !(rk_eqb_refl F R).
  - cbn [andb]. destruct (line_exists F FK 0 b x1 y1 x2 y2 OP OQ) as (l & L).
    { intros ->. now exfalso. }
    rewrite (line_add F FK 0 b H2 HD _ _ _ _ _ L). destruct L as (L & _). subst y2.
    assert (NH : x2 - x1 <> 0).
    { intros E. apply (proj1 (rk_sub_0 F R _ _)) in E. now subst x2. }
    apply jac_den_at; [|ring|ring].
    assert (Q : (z1 + z1) * (z1 * z1 * (x2 - x1)) <> 0).
    { repeat apply fk_mul_neq_0; auto. now apply z3_neq_0. }
    intros E. apply Q. rewrite <- E. ring.
Qed.

Theorem jac_opp_den p : den (jac_opp F p) = sw_opp F (den p).
Proof.
  destruct (jac_cases p) as [[Z D]|[Z (x & y & z & N & E & D)]]; rewrite D.
  - destruct p as [[X Y] Z']. cbn in Z |- *. now rewrite Z.
  - subst p. cbn [jac_opp sw_opp]. apply jac_den_at; auto. ring.
Qed.
Lemma jac_ok_opp p : ok p -> ok (jac_opp F p).
Proof. unfold jac_ok. rewrite jac_opp_den. apply (sw_on_opp F FK). Qed.
Lemma jac_ok_add p q : ok p -> ok q -> ok (jac_add F p q).
Proof. intros OP OQ. unfold jac_ok. rewrite jac_add_den; auto. now apply (sw_on_add F FK 0 b). Qed.
Lemma jac_ok_dbl p : ok p -> ok (jac_dbl F p).
Proof. intros OP. unfold jac_ok. rewrite jac_dbl_den; auto. now apply (sw_on_add F FK 0 b). Qed.
Lemma jac_ok_mixed p q : ok p -> ok q -> jac_is_special F q = true -> ok (jac_mixed_add F p q).
Proof. intros OP OQ S. unfold jac_ok. rewrite jac_mixed_add_den; auto. now apply (sw_on_add F FK 0 b). Qed.
Theorem jac_sub_den p q : ok p -> ok q -> den (jac_sub F p q) = sw_add F 0 (den p) (sw_opp F (den q)).
Proof. intros OP OQ. unfold jac_sub. rewrite jac_add_den, jac_opp_den; auto. now apply jac_ok_opp. Qed.
Lemma jac_ok_sub p q : ok p -> ok q -> ok (jac_sub F p q).
Proof. intros OP OQ. apply jac_ok_add; auto. now apply jac_ok_opp. Qed.

(** Equality, normal forms and the curve check: no hypothesis on the points. *)
Theorem jac_eqb_den p q : jac_eqb F p q = true <-> den p = den q.
Proof.
  destruct (jac_cases p) as [[ZP DP]|[ZP (x1 & y1 & z1 & N1 & EP & DP)]];
  destruct (jac_cases q) as [[ZQ DQ]|[ZQ (x2 & y2 & z2 & N2 & EQ & DQ)]]; rewrite DP, DQ;
  unfold jac_eqb.
  - destruct p as [[X1 Y1] Z1], q as [[X2 Y2] Z2]. rewrite ZP, ZQ. tauto.
  - destruct p as [[X1 Y1] Z1], q as [[X2 Y2] Z2]. rewrite ZP, ZQ. split; discriminate.
  - destruct p as [[X1 Y1] Z1], q as [[X2 Y2] Z2]. rewrite ZP, ZQ. split; discriminate.
  - subst p q. rewrite ZP, ZQ. sq. rewrite negb_involutive.
    assert (NZ : z1 * z2 <> 0) by now apply fk_mul_neq_0.
    destruct (rk_eqb_spec F R (x1 * (z1 * z1) * (z2 * z2)) (x2 * (z2 * z2) * (z1 * z1))) as [EU|EU]; cbn [negb].
    + assert (x1 = x2).
      { apply (fk_mul_cancel F FK _ _ (z1 * z2 * (z1 * z2))); [now apply fk_mul_neq_0|].
        transitivity (x1 * (z1 * z1) * (z2 * z2)); [ring|]. rewrite EU. ring. }
      subst x2. rewrite (rk_eqb F R). split.
      * intros E. f_equal. apply (fk_mul_cancel F FK _ _ (z1 * z2 * (z1 * z2) * (z1 * z2))); [repeat apply fk_mul_neq_0; auto|].
        transitivity (y1 * (z1 * z1 * z1) * (z2 * (z2 * z2))); [ring|]. rewrite E. ring.
      * intros E. injection E as ->. ring.
    + split; [discriminate|]. intros E. injection E as -> ->. exfalso. apply EU. ring.
Qed.

Theorem jac_to_affine_spec p : exists q, jac_to_affine F p = Ok q /\ den q = den p /\
  (q = (0, 1, 0) \/ exists x y, q = (x, y, 1)) /\ jac_is_special F q = true.
Proof.
  destruct (jac_cases p) as [[Z D]|[Z (x & y & z & N & E & D)]]; rewrite D; unfold jac_to_affine.
  - destruct p as [[X Y] Z']. rewrite Z. exists (0, 1, 0). repeat split; auto.
    + apply jac_den_0.
    + cbn. now rewrite (rk_eqb_refl F R).
  - subst p. rewrite Z. destruct (tinv_spec F FK z N) as [-> I]. cbn [bind].
    eexists; repeat split.
    + sq. set (i := tinv F z) in *. apply jac_den_at; [apply (fk_1_neq_0 F FK)| |].
      * transitivity (x * ((i * z) * (i * z))); [ring|]. rewrite I. ring.
      * transitivity (y * ((i * z) * (i * z) * (i * z))); [ring|]. rewrite I. ring.
    + right. eauto.
    + cbn. now rewrite (rk_eqb_refl F R), orb_true_r.
Qed.

Theorem jac_well_formed_spec p : jac_is_well_formed F b p = true <-> ok p.
Proof.
  unfold jac_ok. destruct (jac_cases p) as [[Z D]|[Z (x & y & z & N & E & D)]]; rewrite D;
  unfold jac_is_well_formed.
  - destruct p as [[X Y] Z']. rewrite Z. cbn. tauto.
  - subst p. rewrite Z. sq. rewrite (rk_eqb F R). cbn [sw_on].
    assert (N6 : z * z * z * (z * z * z) <> 0) by (repeat apply fk_mul_neq_0; auto).
    split.
    + intros E. apply (fk_mul_cancel F FK _ _ _ N6).
      transitivity (y * (z * z * z) * (y * (z * z * z))); [ring|]. rewrite E. ring.
    + intros E. transitivity (y * y * (z * z * z * (z * z * z))); [ring|]. rewrite E. ring.
Qed.

Theorem jac_batch_spec vec : Forall (fun p => jac_is_zero F p = false) vec ->
  exists out, jac_batch_to_special F vec = Ok out /\
    Forall2 (fun p q => jac_to_special F p = Ok q) vec out.
Proof.
  intros H. destruct (batch_Z F FK vec) as (zs & E & I).
  { clear -H FK. induction H as [|[[X Y] Z] vec N H IH]; constructor; auto. cbn in N |- *.
    now apply (rk_eqb_neq F (fk_ring F FK)) in N. }
  unfold jac_batch_to_special. rewrite E. cbn [bind]. eexists. split; [reflexivity|].
  apply (batch_map F _ _ _ _ I). clear -H FK.
  induction H as [|[[X Y] Z] vec N H IH]; constructor; auto.
  unfold jac_to_special, jac_to_affine. rewrite N. cbn in N. apply (rk_eqb_neq F (fk_ring F FK)) in N.
  destruct (tinv_spec F FK Z N) as [-> _]. cbn [bind snd jac_batch_step]. do 3 f_equal; ring.
Qed.

(** alt_bn128 and bls12_381 points denote elements of the curve group. *)
Definition jac_dent (p : K * K * K) : sw_pt F 0 b := sp_mk F 0 b (den p).
Lemma jac_dent_val p : ok p -> proj1_sig (jac_dent p) = den p.
Proof. apply (sp_mk_val F FK). Qed.

Theorem jac_gops_ok : gops_ok (jac_gops F) ok jac_dent (sp_zero F 0 b) (sp_add F 0 b) (sp_opp F 0 b).
Proof.
  assert (O0 : ok (jac_zero F)) by (unfold jac_ok, jac_zero; rewrite jac_den_0; exact I).
  assert (D0 : jac_dent (jac_zero F) = sp_zero F 0 b).
  { apply sw_pt_eq. rewrite jac_dent_val by auto. apply jac_den_0. }
  assert (PE : forall (u v : sw_pt F 0 b), proj1_sig u = proj1_sig v -> u = v) by apply (sw_pt_eq F 0 b).
  constructor; cbn [g_default g_zero g_add g_sub g_mixed_add g_dbl g_is_zero g_is_special g_to_special g_batch_special jac_gops].
  - now apply sp_group.
  - now split.
  - now split.
  - intros p q OP OQ. split; [now apply jac_ok_add|]. apply PE.
    rewrite (sp_add_val F FK 0 b H2 HD), !jac_dent_val, jac_add_den; auto using jac_ok_add.
  - intros p q OP OQ. split; [now apply jac_ok_sub|]. apply PE.
    rewrite (sp_add_val F FK 0 b H2 HD), (sp_opp_val F FK 0 b), !jac_dent_val, jac_sub_den; auto using jac_ok_sub.
  - intros p q OP OQ S. split; [now apply jac_ok_mixed|]. apply PE.
    rewrite (sp_add_val F FK 0 b H2 HD), !jac_dent_val, jac_mixed_add_den; auto using jac_ok_mixed.
  - intros p OP. split; [now apply jac_ok_dbl|]. apply PE.
    rewrite (sp_add_val F FK 0 b H2 HD), !jac_dent_val, jac_dbl_den; auto using jac_ok_dbl.
  - intros p OP. rewrite jac_is_zero_spec. split.
    + intros D. apply PE. rewrite jac_dent_val by auto. exact D.
    + intros D. rewrite <- (jac_dent_val p OP), D. reflexivity.
  - intros p OP. destruct (jac_to_affine_spec p) as (q & E & D & _ & S). exists q.
    assert (OQ : ok q) by (unfold jac_ok; rewrite D; exact OP).
    repeat split; auto. apply PE. now rewrite !jac_dent_val.
  - intros l _ H. now apply jac_batch_spec.
Qed.
End Jac.

(** * mnt4, mnt6 *)
Section Prj.
Context {K : Type} (F : Fops K).
Hypothesis FK : field_ok F.
Variables a b : K.
Variable mul_a : K -> K.
Hypothesis MA : forall x, mul_a x = omul F a x.
Hypothesis H2 : oadd F (o1 F) (o1 F) <> o0 F.
Hypothesis HD : sw_disc F a b <> o0 F.
Let R : ring_ok F := fk_ring F FK.
Add Ring CPJring : (rk_ring F (fk_ring F FK)).
Local Notation "0" := (o0 F).
Local Notation "1" := (o1 F).
Local Notation "x + y" := (oadd F x y).
Local Notation "x - y" := (osub F x y).
Local Notation "x * y" := (omul F x y).
Local Notation "- x" := (oopp F x).
Local Notation den := (prj_den F).
Local Notation ok := (prj_ok F a b).

Lemma prj_den_at x y X Y Z : Z <> 0 -> X = x * Z -> Y = y * Z -> den (X, Y, Z) = Aff x y.
Proof.
  intros N HX HY. cbn. rewrite (proj2 (rk_eqb_neq F R Z 0) N).
  rewrite (tdiv_eq F FK X Z x), (tdiv_eq F FK Y Z y); auto.
Qed.
Lemma prj_den_0 X Y : den (X, Y, 0) = Inf.
Proof. cbn. now rewrite (rk_eqb_refl F R). Qed.
Lemma prj_den_zero X Y Z : Z = 0 -> den (X, Y, Z) = Inf.
Proof. intros ->. apply prj_den_0. Qed.
(** A triple built by the formulas. *)
Lemma prj_inf X Y Z : X = 0 -> Z = 0 -> ok (X, Y, Z) /\ den (X, Y, Z) = Inf.
Proof. intros -> ->. rewrite prj_den_0. repeat split; auto. rewrite prj_den_0. exact I. Qed.
Lemma prj_aff x y X Y Z : Z <> 0 -> X = x * Z -> Y = y * Z -> sw_on F a b (Aff x y) ->
  ok (X, Y, Z) /\ den (X, Y, Z) = Aff x y.
Proof.
  intros N HX HY O. pose proof (prj_den_at x y X Y Z N HX HY) as D. rewrite D. repeat split; auto.
  - now rewrite D.
  - intros E. contradiction.
Qed.

Lemma prj_cases p : ok p -> prj_is_zero F p = true /\ den p = Inf \/
  prj_is_zero F p = false /\ exists x y Z, Z <> 0 /\ p = (x * Z, y * Z, Z) /\ den p = Aff x y /\ sw_on F a b (Aff x y).
Proof.
  destruct p as [[X Y] Z]. intros [O W]. destruct (rk_dec F R Z 0) as [E|N].
  - left. split; [|now apply prj_den_zero]. cbn. rewrite (W E), E. now rewrite (rk_eqb_refl F R).
  - right. split.
    + cbn. rewrite (proj2 (rk_eqb_neq F R Z 0) N). apply andb_false_r.
    + exists (tdiv F X Z), (tdiv F Y Z), Z. rewrite !tdiv_mul by auto. repeat split; auto.
      * cbn. now rewrite (proj2 (rk_eqb_neq F R Z 0) N).
      * cbn in O. rewrite (proj2 (rk_eqb_neq F R Z 0) N) in O. exact O.
Qed.

Ltac sq := rewrite ?(rk_sqr F R).

Lemma prj_dbl_core_den x y z : z <> 0 -> sw_on F a b (Aff x y) ->
  ok (prj_dbl_core F mul_a (x * z, y * z, z)) /\
  den (prj_dbl_core F mul_a (x * z, y * z, z)) = sw_add F a (Aff x y) (Aff x y).
Proof.
  intros N O. unfold prj_dbl_core. rewrite MA. sq.
  destruct (line_cases F FK a b (Aff x y) (Aff x y) O O)
    as [?|[?|[E|(x1 & y1 & x2 & y2 & l & E1 & E2 & L)]]]; try discriminate.
  - injection E as E. apply (opp_self F FK H2) in E. subst y.
    replace (sw_add F a (Aff x 0) (Aff x 0)) with (@Inf K).
    2:{ cbn. rewrite (rk_eqb_refl F R). destruct (rk_eqb_spec F R 0 (- 0)) as [|E]; auto.
        exfalso. apply E. ring. }
    apply prj_inf; ring.
  - injection E1 as <- <-. injection E2 as <- <-.
    pose proof (sw_on_add F FK a b H2 HD _ _ O O) as OS.
    rewrite (line_add F FK a b H2 HD _ _ _ _ _ L) in *.
    assert (Y : y <> 0).
    { intros ->. destruct L as (_ & A & _). apply (smooth F FK a b HD x 0 O eq_refl).
      rewrite A. ring. }
    destruct L as (_ & A & _).
    set (s := y * z * z + y * z * z).
    assert (NS : s <> 0).
    { unfold s. intros E. apply (dbl_0 F FK H2) in E. revert E. repeat apply fk_mul_neq_0; auto. }
    assert (W : a * (z * z) + (x * z * (x * z) + x * z * (x * z) + x * z * (x * z)) = l * s).
    { rewrite A. unfold s. ring. }
    rewrite W. apply prj_aff; auto.
    + repeat apply fk_mul_neq_0; auto.
    + unfold s. ring.
    + unfold s. ring.
Qed.

Theorem prj_dbl_den p : ok p -> ok (prj_dbl F mul_a p) /\ den (prj_dbl F mul_a p) = sw_add F a (den p) (den p).
Proof.
  intros OP. destruct (prj_cases p OP) as [[Z D]|[Z (x & y & z & N & E & D & O)]]; rewrite D; unfold prj_dbl; rewrite Z.
  - split; auto.
  - subst p. now apply prj_dbl_core_den.
Qed.

(** The chord case, shared by operator+, add and mixed_add. *)
Lemma prj_chord x1 y1 z1 x2 y2 z2 X3 Y3 Z3 : z1 <> 0 -> z2 <> 0 ->
  sw_on F a b (Aff x1 y1) -> sw_on F a b (Aff x2 y2) -> ~ (x1 = x2 /\ y1 = y2) ->
  (let zz := z1 * z2 in let u := (y2 - y1) * zz in let v := (x2 - x1) * zz in
   let A := u * u * zz - v * v * v - v * v * (x1 * zz) - v * v * (x1 * zz) in
   X3 = v * A /\ Y3 = u * (v * v * (x1 * zz) - A) - v * v * v * (y1 * zz) /\ Z3 = v * v * v * zz) ->
  ok (X3, Y3, Z3) /\ den (X3, Y3, Z3) = sw_add F a (Aff x1 y1) (Aff x2 y2).
Proof.
  intros N1 N2 O1 O2 ND. cbv zeta. assert (NZ : z1 * z2 <> 0) by now apply fk_mul_neq_0.
  set (zz := z1 * z2) in *. intros (HX & HY & HZ).
  destruct (rk_dec F R x1 x2) as [E|E].
  - subst x2. assert (E : y1 = - y2).
    { cbn in O1, O2. destruct (fk_sqr_eq F FK y1 y2) as [->|]; auto; [congruence|].
      exfalso. now apply ND. }
    replace (sw_add F a (Aff x1 y1) (Aff x1 y2)) with (@Inf K).
    2:{ rewrite E. cbn. now rewrite !(rk_eqb_refl F R). }
    apply prj_inf; [rewrite HX|rewrite HZ]; ring.
  - destruct (line_exists F FK a b x1 y1 x2 y2 O1 O2) as (l & L); [intros; contradiction|].
    pose proof (sw_on_add F FK a b H2 HD _ _ O1 O2) as OS.
    rewrite (line_add F FK a b H2 HD _ _ _ _ _ L) in *. destruct L as (L & _). subst y2.
    assert (NH : x2 - x1 <> 0).
    { intros D. apply (proj1 (rk_sub_0 F R _ _)) in D. now subst x2. }
    apply prj_aff; auto.
    + rewrite HZ. repeat apply fk_mul_neq_0; auto.
    + rewrite HX, HZ. ring.
    + rewrite HY, HZ. ring.
Qed.

Lemma cross_eq z1 z2 u v : z1 <> 0 -> z2 <> 0 -> u * z1 * z2 = z1 * (v * z2) -> u = v.
Proof.
  intros N1 N2 E. apply (fk_mul_cancel F FK _ _ (z1 * z2)); [now apply fk_mul_neq_0|].
  transitivity (u * z1 * z2); [ring|]. rewrite E. ring.
Qed.

Theorem prj_add_den p q : ok p -> ok q ->
  ok (prj_add F mul_a p q) /\ den (prj_add F mul_a p q) = sw_add F a (den p) (den q).
Proof.
  intros OP OQ.
  destruct (prj_cases p OP) as [[ZP DP]|[ZP (x1 & y1 & z1 & N1 & EP & DP & O1)]].
  { unfold prj_add. destruct p as [[X1 Y1] Z1], q as [[X2 Y2] Z2]. rewrite ZP, DP. now split. }
  destruct (prj_cases q OQ) as [[ZQ DQ]|[ZQ (x2 & y2 & z2 & N2 & EQ & DQ & O2)]].
  { unfold prj_add. destruct p as [[X1 Y1] Z1], q as [[X2 Y2] Z2]. rewrite ZP, ZQ, DQ. split; auto.
    now rewrite (sw_add_O_r F a). }
  rewrite DP, DQ. subst p q. unfold prj_add. rewrite ZP, ZQ. sq.
  destruct (rk_eqb_spec F R (x1 * z1 * z2) (z1 * (x2 * z2))) as [EU|EU];
  destruct (rk_eqb_spec F R (y1 * z1 * z2) (z1 * (y2 * z2))) as [ES|ES]; cbn [andb].
  - apply cross_eq in EU; auto. apply cross_eq in ES; auto. subst x2 y2. now apply prj_dbl_core_den.
  - apply (prj_chord x1 y1 z1 x2 y2 z2); auto.
    + intros [_ E]. apply ES. rewrite E. ring.
    + cbv zeta. split; [ring|split; ring].
  - apply (prj_chord x1 y1 z1 x2 y2 z2); auto.
    + intros [E _]. apply EU. rewrite E. ring.
    + cbv zeta. split; [ring|split; ring].
  - apply (prj_chord x1 y1 z1 x2 y2 z2); auto.
    + intros [E _]. apply EU. rewrite E. ring.
    + cbv zeta. split; [ring|split; ring].
Qed.

(** Equality on curve points. *)
Theorem prj_eqb_den p q : ok p -> ok q -> prj_eqb F p q = true <-> den p = den q.
Proof.
  intros OP OQ.
  destruct (prj_cases p OP) as [[ZP DP]|[ZP (x1 & y1 & z1 & N1 & EP & DP & O1)]];
  destruct (prj_cases q OQ) as [[ZQ DQ]|[ZQ (x2 & y2 & z2 & N2 & EQ & DQ & O2)]]; rewrite DP, DQ; unfold prj_eqb.
  - destruct p as [[X1 Y1] Z1], q as [[X2 Y2] Z2]. rewrite ZP, ZQ. tauto.
  - destruct p as [[X1 Y1] Z1], q as [[X2 Y2] Z2]. rewrite ZP, ZQ. split; discriminate.
  - destruct p as [[X1 Y1] Z1], q as [[X2 Y2] Z2]. rewrite ZP, ZQ. split; discriminate.
  - subst p q. rewrite ZP, ZQ.
    destruct (rk_eqb_spec F R (x1 * z1 * z2) (x2 * z2 * z1)) as [EU|EU]; cbn [negb].
    + assert (x1 = x2) by (apply (cross_eq z1 z2); auto; rewrite EU; ring). subst x2.
      destruct (rk_eqb_spec F R (y1 * z1 * z2) (y2 * z2 * z1)) as [ES|ES]; cbn [negb].
      * assert (y1 = y2) by (apply (cross_eq z1 z2); auto; rewrite ES; ring). subst y2. tauto.
      * split; [discriminate|]. intros E. injection E as ->. exfalso. apply ES. ring.
    + split; [discriminate|]. intros E. injection E as -> ->. exfalso. apply EU. ring.
Qed.

Theorem prj_add_member_den p q : ok p -> ok q ->
  ok (prj_add_member F mul_a p q) /\ den (prj_add_member F mul_a p q) = sw_add F a (den p) (den q).
Proof.
  intros OP OQ. pose proof (prj_eqb_den p q OP OQ) as EB. pose proof (prj_dbl_den p OP) as DB.
  destruct (prj_cases p OP) as [[ZP DP]|[ZP (x1 & y1 & z1 & N1 & EP & DP & O1)]].
  { unfold prj_add_member. destruct p as [[X1 Y1] Z1], q as [[X2 Y2] Z2]. rewrite ZP, DP. now split. }
  destruct (prj_cases q OQ) as [[ZQ DQ]|[ZQ (x2 & y2 & z2 & N2 & EQ & DQ & O2)]].
  { unfold prj_add_member. destruct p as [[X1 Y1] Z1], q as [[X2 Y2] Z2]. rewrite ZP, ZQ, DQ. split; auto.
    now rewrite (sw_add_O_r F a). }
  rewrite DP, DQ in *. subst p q. unfold prj_add_member. rewrite ZP, ZQ.
  destruct (prj_eqb F (x1 * z1, y1 * z1, z1) (x2 * z2, y2 * z2, z2)).
  - pose proof (proj1 EB eq_refl) as E. injection E as <- <-. exact DB.
  - sq. apply (prj_chord x1 y1 z1 x2 y2 z2); auto.
    + intros [-> ->]. pose proof (proj2 EB eq_refl). discriminate.
    + cbv zeta. split; [ring|split; ring].
Qed.

Theorem prj_mixed_add_den p q : ok p -> ok q -> prj_is_special F q = true ->
  ok (prj_mixed_add F mul_a p q) /\ den (prj_mixed_add F mul_a p q) = sw_add F a (den p) (den q).
Proof.
  intros OP OQ SP. pose proof (prj_dbl_den p OP) as DB.
  destruct (prj_cases p OP) as [[ZP DP]|[ZP (x1 & y1 & z1 & N1 & EP & DP & O1)]].
  { unfold prj_mixed_add. destruct p as [[X1 Y1] Z1], q as [[X2 Y2] Z2]. rewrite ZP, DP. now split. }
  destruct (prj_cases q OQ) as [[ZQ DQ]|[ZQ (x2 & y2 & z2 & N2 & EQ & DQ & O2)]].
  { unfold prj_mixed_add. destruct p as [[X1 Y1] Z1], q as [[X2 Y2] Z2]. rewrite ZP, ZQ, DQ. split; auto.
    now rewrite (sw_add_O_r F a). }
  rewrite DP, DQ in *. subst p q.
  assert (z2 = 1).
  { unfold prj_is_special in SP. rewrite ZQ in SP. now apply (rk_eqb F R) in SP. }
  subst z2. unfold prj_mixed_add. rewrite ZP, ZQ. sq.
  assert (C : forall u v, u * z1 = z1 * (v * 1) -> u = v).
  { intros u v E. apply (fk_mul_cancel F FK _ _ z1 N1). rewrite E. ring. }
  destruct (rk_eqb_spec F R (x1 * z1) (z1 * (x2 * 1))) as [EU|EU];
  destruct (rk_eqb_spec F R (y1 * z1) (z1 * (y2 * 1))) as [ES|ES]; cbn [andb].
  - apply C in EU, ES. subst x2 y2. exact DB.
  - apply (prj_chord x1 y1 z1 x2 y2 1); auto.
    + intros [_ E]. apply ES. rewrite E. ring.
    + cbv zeta. split; [ring|split; ring].
  - apply (prj_chord x1 y1 z1 x2 y2 1); auto.
    + intros [E _]. apply EU. rewrite E. ring.
    + cbv zeta. split; [ring|split; ring].
  - apply (prj_chord x1 y1 z1 x2 y2 1); auto.
    + intros [E _]. apply EU. rewrite E. ring.
    + cbv zeta. split; [ring|split; ring].
Qed.

Theorem prj_opp_den p : ok p -> ok (prj_opp F p) /\ den (prj_opp F p) = sw_opp F (den p).
Proof.
  intros OP. destruct (prj_cases p OP) as [[Z D]|[Z (x & y & z & N & E & D & O)]]; rewrite D.
  - destruct p as [[X Y] Z']. cbn in Z. apply andb_prop in Z. destruct Z as [ZX ZZ].
    apply (rk_eqb F R) in ZX, ZZ. subst. cbn [prj_opp sw_opp]. now apply prj_inf.
  - subst p. cbn [prj_opp sw_opp]. apply prj_aff; auto; [ring|].
    apply (sw_on_opp F FK a b (Aff x y) O).
Qed.
Theorem prj_sub_den p q : ok p -> ok q ->
  ok (prj_sub F mul_a p q) /\ den (prj_sub F mul_a p q) = sw_add F a (den p) (sw_opp F (den q)).
Proof.
  intros OP OQ. destruct (prj_opp_den q OQ) as [OQ' <-]. now apply prj_add_den.
Qed.

Theorem prj_is_zero_spec p : ok p -> prj_is_zero F p = true <-> den p = Inf.
Proof.
  intros OP. destruct (prj_cases p OP) as [[Z D]|[Z (x & y & z & N & E & D & O)]]; rewrite Z, D; split; auto; discriminate.
Qed.

Theorem prj_to_affine_spec p : ok p -> exists q, prj_to_affine F p = Ok q /\ ok q /\ den q = den p /\
  (q = (0, 1, 0) \/ exists x y, q = (x, y, 1)) /\ prj_is_special F q = true.
Proof.
  intros OP. destruct (prj_cases p OP) as [[Z D]|[Z (x & y & z & N & E & D & O)]]; rewrite D; unfold prj_to_affine.
  - destruct p as [[X Y] Z']. rewrite Z. exists (0, 1, 0). destruct (prj_inf 0 1 0 eq_refl eq_refl) as [O1 D1].
    repeat split; auto; try apply O1. cbn. now rewrite (rk_eqb_refl F R).
  - subst p. rewrite Z. destruct (tinv_spec F FK z N) as [-> I]. cbn [bind].
    set (i := tinv F z) in *.
    destruct (prj_aff x y (x * z * i) (y * z * i) 1) as [O1 D1]; auto.
    + apply (fk_1_neq_0 F FK).
    + transitivity (x * (i * z)); [ring|]. rewrite I. ring.
    + transitivity (y * (i * z)); [ring|]. rewrite I. ring.
    + exists (x * z * i, y * z * i, 1). repeat split; auto; try apply O1.
      * right. eauto.
      * cbn. now rewrite (rk_eqb_refl F R), orb_true_r.
Qed.

Theorem prj_well_formed_spec p : prj_is_well_formed F a b p = true <-> ok p.
Proof.
  destruct p as [[X Y] Z]. unfold prj_is_well_formed. destruct (prj_is_zero F (X, Y, Z)) eqn:E.
  - cbn in E. apply andb_prop in E. destruct E as [EX EZ]. apply (rk_eqb F R) in EX, EZ. subst.
    split; auto. intros _. now apply prj_inf.
  - sq. rewrite (rk_eqb F R). unfold prj_ok. destruct (rk_dec F R Z 0) as [->|N].
    + rewrite prj_den_0. split.
      * intros H. exfalso.
        assert (X * (X * X) = 0).
        { transitivity (X * (X * X + a * (0 * 0))); [ring|]. rewrite <- H. ring. }
        assert (X = 0).
        { apply fk_mul_0 in H0; auto. destruct H0 as [|H0]; auto. apply fk_mul_0 in H0; tauto. }
        subst X. cbn in E. rewrite (rk_eqb_refl F R) in E. discriminate.
      * intros [_ W]. rewrite (W eq_refl). ring.
    + rewrite (prj_den_at (tdiv F X Z) (tdiv F Y Z)) by (rewrite ?tdiv_mul; auto).
      assert (HX : X = tdiv F X Z * Z) by (now rewrite tdiv_mul).
      assert (HY : Y = tdiv F Y Z * Z) by (now rewrite tdiv_mul).
      set (x := tdiv F X Z) in *. set (y := tdiv F Y Z) in *. clearbody x y. subst X Y. cbn [sw_on].
      assert (N3 : Z * Z * Z <> 0) by (repeat apply fk_mul_neq_0; auto).
      split.
      * intros H. split; [|intros; contradiction]. apply (fk_mul_cancel F FK _ _ _ N3).
        transitivity (Z * (y * Z * (y * Z) - b * (Z * Z)) + b * (Z * Z * Z)); [ring|]. rewrite H. ring.
      * intros [H _]. transitivity (y * y * (Z * Z * Z) - b * (Z * Z * Z)); [ring|]. rewrite H. ring.
Qed.

Theorem prj_batch_spec vec : Forall ok vec -> Forall (fun p => prj_is_zero F p = false) vec ->
  exists out, prj_batch_to_special F vec = Ok out /\
    Forall2 (fun p q => prj_to_special F p = Ok q) vec out.
Proof.
  intros HO H. assert (HZ : Forall (fun p => snd p <> 0) vec).
  { revert HO. induction H as [|[[X Y] Z] vec N H IH]; intros HO; inversion HO; subst; constructor; auto.
    intros E. cbn in E. subst Z. destruct H3 as [_ W]. rewrite (W eq_refl) in N. cbn in N.
    rewrite (rk_eqb_refl F R) in N. discriminate. }
  destruct (batch_Z F FK vec HZ) as (zs & E & I).
  unfold prj_batch_to_special. rewrite E. cbn [bind]. eexists. split; [reflexivity|].
  apply (batch_map F _ _ _ _ I). clear -H HZ FK. revert HZ.
  induction H as [|[[X Y] Z] vec N H IH]; intros HZ; inversion HZ; subst; constructor; auto.
  unfold prj_to_special, prj_to_affine. rewrite N.
  destruct (tinv_spec F FK Z H2) as [-> _]. reflexivity.
Qed.

Definition prj_dent (p : K * K * K) : sw_pt F a b := sp_mk F a b (den p).
Lemma prj_dent_val p : ok p -> proj1_sig (prj_dent p) = den p.
Proof. intros [O _]. now apply (sp_mk_val F FK). Qed.

Theorem prj_gops_ok : gops_ok (prj_gops F mul_a) ok prj_dent (sp_zero F a b) (sp_add F a b) (sp_opp F a b).
Proof.
  assert (O0 : ok (prj_zero F)) by now apply prj_inf.
  assert (PE : forall (u v : sw_pt F a b), proj1_sig u = proj1_sig v -> u = v) by apply (sw_pt_eq F a b).
  assert (D0 : prj_dent (prj_zero F) = sp_zero F a b).
  { apply PE. rewrite prj_dent_val by auto. apply prj_den_0. }
  constructor; cbn [g_default g_zero g_add g_sub g_mixed_add g_dbl g_is_zero g_is_special g_to_special g_batch_special prj_gops].
  - now apply sp_group.
  - now split.
  - now split.
  - intros p q OP OQ. destruct (prj_add_den p q OP OQ) as [O D]. split; auto. apply PE.
    rewrite (sp_add_val F FK a b H2 HD), !prj_dent_val; auto.
  - intros p q OP OQ. destruct (prj_sub_den p q OP OQ) as [O D]. split; auto. apply PE.
    rewrite (sp_add_val F FK a b H2 HD), (sp_opp_val F FK a b), !prj_dent_val; auto.
  - intros p q OP OQ S. destruct (prj_mixed_add_den p q OP OQ S) as [O D]. split; auto. apply PE.
    rewrite (sp_add_val F FK a b H2 HD), !prj_dent_val; auto.
  - intros p OP. destruct (prj_dbl_den p OP) as [O D]. split; auto. apply PE.
    rewrite (sp_add_val F FK a b H2 HD), !prj_dent_val; auto.
  - intros p OP. rewrite prj_is_zero_spec by auto. split.
    + intros D. apply PE. rewrite prj_dent_val by auto. exact D.
    + intros D. rewrite <- (prj_dent_val p OP), D. reflexivity.
  - intros p OP. destruct (prj_to_affine_spec p OP) as (q & E & OQ & D & _ & S). exists q.
    repeat split; auto; try apply OQ. apply PE. now rewrite !prj_dent_val.
  - intros l HO H. now apply prj_batch_spec.
Qed.
End Prj.
