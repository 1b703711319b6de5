(** The bn128 wrappers compute the group law, given that the ate-pairing
    library does what its interface says. *)
From Coq Require Import ZArith List Bool Lia Ring.
From Verif Require Import Result Limbs LimbsProofs BigintModel BigintProofs UtilsModel StreamModel StreamProofs SerializationModel SerializationProofs
  Algebra FieldOps AlgorithmsModel AlgorithmsProofs AlgorithmsField GroupOps CurveSpec CurveGroup CurveModel CurveProofs
  CurveIoModel CurveIoProofs PrecompIoModel PrecompIoProofs ExtModel ExtSpec ExtProofs ExtFrob ExtInst Bn128Model.
Import ListNotations.
Open Scope Z_scope.

(** ** Square roots *)
Section Sqrt.
Context {K : Type} (F : Fops K) (FK : field_ok F) (S : sqrt_params K).
Let R : ring_ok F := fk_ring F FK.
Let M : monoid_laws (o1 F) (omul F) := rk_monoid F R.
Notation pow := (npow (o1 F) (omul F)).
Notation p2 k := (2 ^ k)%nat.

Lemma order_small fuel b k : pow b (p2 k) = o1 F -> Z.of_nat k < 2 ^ 31 ->
  sqrt_order (o1 F) (osqr F) (oeqb F) fuel b 0 = OutOfFuel \/
  exists m, (m <= k)%nat /\ sqrt_order (o1 F) (osqr F) (oeqb F) fuel b 0 = Ok (Z.of_nat m).
Proof.
  intros Hb Hk.
  destruct (order_exists (o1 F) (omul F) (oeqb F) M (rk_eqb F R) b k Hb) as (m & Hm & Em & Hlt).
  destruct (Nat.lt_ge_cases m fuel) as [L|L]; [right|left].
  - exists m. split; auto.
    pose proof (sqrt_order_spec (o1 F) (omul F) (osqr F) (oeqb F) M (rk_sqr F R) (rk_eqb F R) b m Hlt Em
      ltac:(lia) 0 fuel ltac:(lia) ltac:(lia)) as G.
    change (p2 0) with 1%nat in G. rewrite npow_1 in G by auto. exact G.
  - pose proof (sqrt_order_fuel (o1 F) (omul F) (osqr F) (oeqb F) M (rk_sqr F R) (rk_eqb F R) b m Hlt
      ltac:(lia) fuel 0 ltac:(lia)) as G.
    change (p2 0) with 1%nat in G. rewrite npow_1 in G by auto. exact G.
Qed.

(** On the elements which Tonelli-Shanks meets, the loop of bn128 is that of
    algorithms.tcc. *)
Lemma bn_loop_eq k : Z.of_nat k < 2 ^ 31 -> forall fuel v z b x, (v <= k)%nat ->
  pow z (p2 k) = o1 F -> pow b (p2 k) = o1 F ->
  bn_sqrt_loop F fuel (Z.of_nat v) z b x =
  sqrt_loop (o1 F) (omul F) (osqr F) (oeqb F) fuel (Z.of_nat v) z b x.
Proof.
  intros Hk. induction fuel as [|f IH]; intros v z b x Hv Hz Hb; [reflexivity|].
  cbn [bn_sqrt_loop sqrt_loop]. destruct (oeqb F b (o1 F)); [reflexivity|].
  destruct (order_small (Datatypes.S f) b k Hb Hk) as [E|(m & Hm & E)]; rewrite E; [reflexivity|].
  cbn [bind]. cbv zeta.
  assert (D : forall d, - 2 ^ 31 <= d < 2 ^ 31 -> to_int32 (wrap64 d) = d).
  { intros d Hd. unfold to_int32, wrap64. rewrite <- (Znumtheory.Zmod_div_mod (2 ^ 32) B)
      by (try reflexivity; now exists (2 ^ 32)). destruct (Z.ltb_spec (d mod 2 ^ 32) (2 ^ 31)) as [L|L].
    - destruct (Z.neg_nonneg_cases d) as [N|N]; [|now rewrite Z.mod_small in * by lia].
      rewrite <- (Z.mod_add d 1), Z.mod_small in L by lia. lia.
    - destruct (Z.neg_nonneg_cases d) as [N|N]; [|rewrite Z.mod_small in L by lia; lia].
      rewrite <- (Z.mod_add d 1), Z.mod_small by lia. lia. }
  rewrite !D by lia. replace (Z.of_nat v - Z.of_nat m =? - 2 ^ 31) with false by (symmetry; apply Z.eqb_neq; lia).
  rewrite (rk_sqr F R). set (w := sqr_times (osqr F) (Z.to_nat (Z.of_nat v - Z.of_nat m - 1)) z).
  assert (Hw : pow w (p2 k) = o1 F).
  { unfold w. rewrite (sqr_times_spec (o1 F) (omul F) (osqr F)); auto using rk_sqr.
    rewrite <- npow_mul, Nat.mul_comm, npow_mul, Hz by auto. now apply npow_one. }
  assert (Hw2 : pow (omul F w w) (p2 k) = o1 F).
  { rewrite npow_mul_distr, Hw; auto using rk_mul_comm. apply (ml_1_l _ _ M). }
  apply IH; auto. rewrite npow_mul_distr, Hw2, Hb; auto using rk_mul_comm. apply (ml_1_l _ _ M).
Qed.

Let w0 a := power_bigint (o1 F) (omul F) a (sq_tm1 S).
Lemma bn_b_pow q a : sqrt_ok F S q ->
  omul F (omul F a (w0 a)) (w0 a) = pow a (Z.to_nat (val (sq_t S))).
Proof.
  intros [Hs Lt Ltm Ht Hq Hn Hz]. pose proof (val_nonneg _ Ltm) as N. unfold w0.
  rewrite power_bigint_spec by auto. rewrite Ht.
  rewrite <- (ml_assoc _ _ M), <- npow_double by auto.
  replace (Z.to_nat (2 * val (sq_tm1 S) + 1)) with (Datatypes.S (2 * Z.to_nat (val (sq_tm1 S)))) by lia.
  reflexivity.
Qed.

(** Away from zero, the square root of bn128 is [tonelli_shanks_sqrt]. *)
Theorem bn_sqrt_nonzero q debug fuel a : sqrt_ok F S q -> order_divides F q -> a <> o0 F ->
  bn_sqrt F S debug fuel a = field_sqrt F S debug fuel a.
Proof.
  intros SO OD Na. pose proof (bn_b_pow q a SO) as Eb. destruct SO as [Hs Lt Ltm Ht Hq Hn Hz].
  unfold bn_sqrt, field_sqrt, tonelli_shanks_sqrt.
  replace (negb (sq_s S =? 0)) with true by (symmetry; apply negb_true_iff, Z.eqb_neq; lia).
  assert (Hodd : bigint_is_even (sq_t S) = false).
  { rewrite bigint_is_even_spec, Ht by auto. rewrite Z.even_add, Z.even_mul. reflexivity. }
  rewrite Hodd, (proj2 (rk_eqb_neq F R _ _) Hn), (proj2 (rk_eqb_neq F R _ _) Na).
  cbn [negb assert_then]. cbv zeta. fold (w0 a).
  destruct (_ || _); [cbn [assert_then]|reflexivity].
  set (k := Z.to_nat (sq_s S)). assert (Ek : Z.of_nat k = sq_s S) by (unfold k; lia).
  rewrite <- Ek. apply (bn_loop_eq k); try lia.
  - assert (Hz' : pow (sq_nqr_to_t S) (p2 (k - 1)) = oopp F (o1 F)).
    { rewrite <- Hz, Z2Nat.inj_pow by lia. change (Z.to_nat 2) with 2%nat. do 2 f_equal. unfold k. lia. }
    replace k with (Datatypes.S (k - 1)) by lia. rewrite pow_sq, Hz' by auto. now apply rk_m1_sqr.
  - rewrite Eb, <- npow_mul by auto. transitivity (pow a (Z.to_nat (q - 1))); [f_equal|exact (OD a Na)].
    pose proof (val_nonneg _ Lt). rewrite Hq, Z2Nat.inj_mul by (auto; apply Z.pow_nonneg; lia).
    rewrite Z2Nat.inj_pow by lia. change (Z.to_nat 2) with 2%nat. fold k. lia.
Qed.

Theorem bn_sqrt_square q debug fuel y : char_not_2 F -> sqrt_ok F S q -> order_divides F q ->
  sq_s S < Z.of_nat fuel -> y <> o0 F ->
  exists r, bn_sqrt F S debug fuel (omul F y y) = Ok r /\ (r = y \/ r = oopp F y).
Proof.
  intros C2 SO OD Hf Ny. rewrite (bn_sqrt_nonzero q); auto.
  - now apply (field_sqrt_square F S q).
  - now apply (fk_mul_neq_0 F FK).
Qed.
Theorem bn_sqrt_nonsquare q debug fuel a : char_not_2 F -> sqrt_ok F S q -> order_divides F q ->
  (forall y, omul F y y <> a) ->
  bn_sqrt F S debug fuel a = if debug then AssertFail else OutOfFuel.
Proof.
  intros C2 SO OD Hn. rewrite (bn_sqrt_nonzero q); auto.
  - now apply (field_sqrt_nonsquare F S q).
  - intros ->. apply (Hn (o0 F)). apply (rk_mul_0_l F R).
Qed.

(** Zero is a square, but the loop does not end on it. *)
Lemma order_zero fuel m : sqrt_order (o1 F) (osqr F) (oeqb F) fuel (o0 F) m = OutOfFuel.
Proof.
  revert m. induction fuel as [|f IH]; intros m; [reflexivity|]. cbn [sqrt_order].
  rewrite (proj2 (rk_eqb_neq F R (o0 F) (o1 F))) by (intros E; now apply (fk_1_neq_0 F FK)).
  rewrite (rk_sqr F R), (rk_mul_0_l F R). apply IH.
Qed.
Theorem bn_sqrt_zero debug fuel :
  bn_sqrt F S debug fuel (o0 F) = if debug then AssertFail else OutOfFuel.
Proof.
  assert (N : oeqb F (o0 F) (o1 F) = false).
  { apply (rk_eqb_neq F R). intros E. now apply (fk_1_neq_0 F FK). }
  assert (Z0 : forall n, sqr_times (osqr F) n (o0 F) = o0 F).
  { induction n as [|n IH]; cbn; auto. now rewrite (rk_sqr F R), (rk_mul_0_l F R). }
  unfold bn_sqrt. cbv zeta. rewrite !(rk_mul_0_l F R), Z0, N.
  destruct debug; cbn [negb orb assert_then]; [reflexivity|].
  destruct fuel as [|f]; [reflexivity|]. cbn [bn_sqrt_loop]. rewrite N, order_zero. reflexivity.
Qed.
End Sqrt.

(** ** Points *)
Section Points.
Context {K : Type} (F : Fops K).
Hypothesis FK : field_ok F.
Let R : ring_ok F := fk_ring F FK.
Add Ring BNring : (rk_ring F (fk_ring F FK)).

(** Without the oracles: the members agree with the Jacobian formulas of the
    other curves. *)
Lemma bn_is_zero_jac p : bn_is_zero F p = jac_is_zero F p.
Proof. now destruct p as [[X Y] Z]. Qed.
Lemma bn_to_affine_jac p : bn_to_affine F p = jac_to_affine F p.
Proof.
  destruct p as [[X Y] Z]. unfold bn_to_affine, jac_to_affine. rewrite bn_is_zero_jac.
  destruct (jac_is_zero F (X, Y, Z)); [reflexivity|]. destruct (oinv F Z); cbn [bind]; auto.
  cbv zeta. now rewrite (rk_mul_comm F R a).
Qed.
Lemma bn_eqb_jac p q : bn_eqb F p q = jac_eqb F p q.
Proof.
  destruct p as [[X1 Y1] Z1], q as [[X2 Y2] Z2]. unfold bn_eqb, jac_eqb. rewrite !bn_is_zero_jac.
  destruct (jac_is_zero F (X1, Y1, Z1)); [reflexivity|]. destruct (jac_is_zero F (X2, Y2, Z2)); [reflexivity|].
  cbv zeta. rewrite negb_involutive.
  replace (omul F (osqr F Z2) X1) with (omul F X1 (osqr F Z2)) by ring.
  replace (omul F (osqr F Z1) X2) with (omul F X2 (osqr F Z1)) by ring.
  destruct (oeqb F (omul F X1 (osqr F Z2)) (omul F X2 (osqr F Z1))); cbn [negb]; [|reflexivity].
  f_equal; ring.
Qed.
Lemma bn_well_formed_jac b p : bn_is_well_formed F b p = jac_is_well_formed F b p.
Proof.
  destruct p as [[X Y] Z]. unfold bn_is_well_formed, jac_is_well_formed. rewrite bn_is_zero_jac.
  destruct (jac_is_zero F (X, Y, Z)); [reflexivity|]. cbv zeta.
  replace (omul F (osqr F Z) Z) with (omul F Z (osqr F Z)) by ring.
  replace (omul F (osqr F X) X) with (omul F X (osqr F X)) by ring. reflexivity.
Qed.
Lemma bn_opp_jac p : bn_opp F p = jac_opp F p.
Proof. now destruct p as [[X Y] Z]. Qed.
Lemma bn_is_special_jac p : bn_is_special F p = jac_is_special F p.
Proof. now destruct p as [[X Y] Z]. Qed.
Lemma bn_batch_jac vec : bn_batch_to_special F vec = jac_batch_to_special F vec.
Proof.
  unfold bn_batch_to_special, jac_batch_to_special. destruct (batch_inv_Z F vec); cbn [bind]; auto.
  f_equal. apply map_ext. intros [[[X Y] Z] Zi]. cbn [bn_batch_step jac_batch_step]. cbv zeta. now rewrite (rk_mul_comm F R Zi).
Qed.

Variable b : K.
Hypothesis H2 : oadd F (o1 F) (o1 F) <> o0 F.
Hypothesis HD : sw_disc F (o0 F) b <> o0 F.
Local Notation den := (jac_den F).
Local Notation ok := (jac_ok F b).
Variable ec_add : pt K -> pt K -> pt K.
Variable ec_dbl : pt K -> pt K.
(** What is asked of ate-pairing: ECDouble doubles, ECAdd adds two different
    points neither of which is O. *)
Hypothesis DBL : forall p, ok p -> den (ec_dbl p) = sw_add F (o0 F) (den p) (den p).
Hypothesis ADD : forall p q, ok p -> ok q -> den p <> Inf -> den q <> Inf -> den p <> den q ->
  den (ec_add p q) = sw_add F (o0 F) (den p) (den q).

Theorem bn_dbl_den p : ok p -> den (bn_dbl ec_dbl p) = sw_add F (o0 F) (den p) (den p).
Proof. apply DBL. Qed.
Theorem bn_add_den p q : ok p -> ok q -> den (bn_add F ec_add ec_dbl p q) = sw_add F (o0 F) (den p) (den q).
Proof.
  intros OP OQ. unfold bn_add. rewrite !bn_is_zero_jac, bn_eqb_jac.
  destruct (jac_is_zero F p) eqn:ZP.
  { apply (jac_is_zero_spec F) in ZP. rewrite ZP. reflexivity. }
  destruct (jac_is_zero F q) eqn:ZQ.
  { apply (jac_is_zero_spec F) in ZQ. rewrite ZQ. now destruct (den p). }
  destruct (jac_eqb F p q) eqn:E.
  - apply (jac_eqb_den F FK) in E. rewrite <- E. now apply bn_dbl_den.
  - apply ADD; auto.
    + intros D. apply (jac_is_zero_spec F) in D. congruence.
    + intros D. apply (jac_is_zero_spec F) in D. congruence.
    + intros D. apply (jac_eqb_den F FK) in D. congruence.
Qed.
Theorem bn_opp_den p : den (bn_opp F p) = sw_opp F (den p).
Proof. rewrite bn_opp_jac. now apply jac_opp_den. Qed.
Lemma bn_ok_opp p : ok p -> ok (bn_opp F p).
Proof. rewrite bn_opp_jac. now apply jac_ok_opp. Qed.
Theorem bn_sub_den p q : ok p -> ok q ->
  den (bn_sub F ec_add ec_dbl p q) = sw_add F (o0 F) (den p) (sw_opp F (den q)).
Proof. intros OP OQ. unfold bn_sub. rewrite bn_add_den, bn_opp_den; auto using bn_ok_opp. Qed.

(** Outside the doubling case the mixed addition is that of alt_bn128. *)
Theorem bn_mixed_add_den p q : ok p -> ok q -> bn_is_special F q = true ->
  den (bn_mixed_add F ec_dbl p q) = sw_add F (o0 F) (den p) (den q).
Proof.
  intros OP OQ S. rewrite bn_is_special_jac in S. pose proof (jac_mixed_add_den F FK b H2 HD p q OP OQ S) as J.
  destruct p as [[X1 Y1] Z1] eqn:EP, q as [[X2 Y2] Z2] eqn:EQ. rewrite <- EP, <- EQ in *.
  assert (E : bn_mixed_add F ec_dbl p q = jac_mixed_add F p q \/
    bn_mixed_add F ec_dbl p q = ec_dbl p /\ jac_mixed_add F p q = jac_dbl F p).
  { rewrite EP, EQ. unfold bn_mixed_add, jac_mixed_add. rewrite !bn_is_zero_jac.
    destruct (jac_is_zero F (X1, Y1, Z1)); [now left|]. destruct (jac_is_zero F (X2, Y2, Z2)); [now left|].
    cbv zeta. destruct (_ && _); [now right|left]. repeat (f_equal; try ring). }
  destruct E as [-> | [-> E]]; [exact J|]. rewrite DBL, <- J, E by auto. symmetry. now apply (jac_dbl_den F FK b).
Qed.

Lemma bn_ok_add p q : ok p -> ok q -> ok (bn_add F ec_add ec_dbl p q).
Proof. intros OP OQ. unfold jac_ok. rewrite bn_add_den; auto. now apply (sw_on_add F FK (o0 F) b). Qed.
Lemma bn_ok_sub p q : ok p -> ok q -> ok (bn_sub F ec_add ec_dbl p q).
Proof. intros OP OQ. apply bn_ok_add; auto. now apply bn_ok_opp. Qed.
Lemma bn_ok_dbl p : ok p -> ok (bn_dbl ec_dbl p).
Proof. intros OP. unfold jac_ok. rewrite bn_dbl_den; auto. now apply (sw_on_add F FK (o0 F) b). Qed.
Lemma bn_ok_mixed p q : ok p -> ok q -> bn_is_special F q = true -> ok (bn_mixed_add F ec_dbl p q).
Proof. intros OP OQ S. unfold jac_ok. rewrite bn_mixed_add_den; auto. now apply (sw_on_add F FK (o0 F) b). Qed.

Theorem bn_eqb_den p q : bn_eqb F p q = true <-> den p = den q.
Proof. rewrite bn_eqb_jac. now apply jac_eqb_den. Qed.
Theorem bn_is_zero_den p : bn_is_zero F p = true <-> den p = Inf.
Proof. rewrite bn_is_zero_jac. now apply jac_is_zero_spec. Qed.
Theorem bn_well_formed_spec p : bn_is_well_formed F b p = true <-> ok p.
Proof. rewrite bn_well_formed_jac. now apply jac_well_formed_spec. Qed.
Theorem bn_to_affine_spec p : exists q, bn_to_affine F p = Ok q /\ den q = den p /\
  (q = (o0 F, o1 F, o0 F) \/ exists x y, q = (x, y, o1 F)) /\ bn_is_special F q = true.
Proof. rewrite bn_to_affine_jac. setoid_rewrite bn_is_special_jac. now apply jac_to_affine_spec. Qed.
Lemma bn_zero_den : den (bn_zero F) = Inf.
Proof. apply (jac_den_0 F FK). Qed.

Local Notation dent := (jac_dent F b).
Theorem bn_gops_ok : gops_ok (bn_gops F ec_add ec_dbl) ok dent (sp_zero F (o0 F) b) (sp_add F (o0 F) b) (sp_opp F (o0 F) b).
Proof.
  assert (O0 : ok (bn_zero F)) by (unfold jac_ok; rewrite bn_zero_den; exact I).
  assert (PE : forall (u v : sw_pt F (o0 F) b), proj1_sig u = proj1_sig v -> u = v) by apply (sw_pt_eq F (o0 F) b).
  assert (DV : forall p, ok p -> proj1_sig (dent p) = den p) by (intros; now apply jac_dent_val).
  assert (D0 : dent (bn_zero F) = sp_zero F (o0 F) b).
  { apply PE. rewrite DV by auto. apply bn_zero_den. }
  constructor; cbn [g_default g_zero g_add g_sub g_mixed_add g_dbl g_is_zero g_is_special g_to_special g_batch_special bn_gops].
  - now apply sp_group.
  - now split.
  - now split.
  - intros p q OP OQ. split; [now apply bn_ok_add|]. apply PE.
    rewrite (sp_add_val F FK (o0 F) b H2 HD), !DV, bn_add_den; auto using bn_ok_add.
  - intros p q OP OQ. split; [now apply bn_ok_sub|]. apply PE.
    rewrite (sp_add_val F FK (o0 F) b H2 HD), (sp_opp_val F FK (o0 F) b), !DV, bn_sub_den; auto using bn_ok_sub.
  - intros p q OP OQ S. split; [now apply bn_ok_mixed|]. apply PE.
    rewrite (sp_add_val F FK (o0 F) b H2 HD), !DV, bn_mixed_add_den; auto using bn_ok_mixed.
  - intros p OP. split; [now apply bn_ok_dbl|]. apply PE.
    rewrite (sp_add_val F FK (o0 F) b H2 HD), !DV, bn_dbl_den; auto using bn_ok_dbl.
  - intros p OP. rewrite bn_is_zero_den. split.
    + intros D. apply PE. rewrite DV by auto. exact D.
    + intros D. rewrite <- (DV p OP), D. reflexivity.
  - intros p OP. destruct (bn_to_affine_spec p) as (q & E & D & _ & S). exists q.
    assert (OQ : ok q) by (unfold jac_ok; rewrite D; exact OP).
    repeat split; auto. apply PE. now rewrite !DV.
  - intros l _ H. rewrite bn_batch_jac.
    destruct (jac_batch_spec F FK l) as (out & E & Q).
    { eapply Forall_impl; [|exact H]. intros p. cbn. now rewrite bn_is_zero_jac. }
    exists out. split; [exact E|]. clear E H. induction Q as [|p q l out P Q IH]; constructor; auto.
    unfold bn_to_special. now rewrite bn_to_affine_jac.
Qed.
Theorem bn_batch_zero vec : In (o0 F) (map snd vec) -> bn_batch_to_special F vec = AssertFail.
Proof.
  intros H. unfold bn_batch_to_special, batch_inv_Z. now rewrite field_batch_invert_zero.
Qed.
End Points.

(** ** Streams *)
Section Io.
Context {K : Type} (F : Fops K).
Hypothesis FK : field_ok F.
Let R : ring_ok F := fk_ring F FK.
Add Ring BIring : (rk_ring F (fk_ring F FK)).
Variable C : codec K.
Variables bin comp : bool.
Hypothesis CO : codec_ok bin C.
Variable sqrt : K -> result K.
Variable b : K.

(** What is read back: the affine form of the point, O as (1, 1, 0). *)
Definition bn_normal (p q : pt K) : Prop :=
  (jac_den F p = Inf /\ q = bn_zero F) \/
  exists x y, jac_den F p = Aff x y /\ q = (x, y, o1 F).
Lemma bn_normal_den p q : bn_normal p q -> jac_den F q = jac_den F p /\ bn_is_special F q = true.
Proof.
  intros [[D ->]|(x & y & D & ->)]; rewrite D.
  - split; [apply (jac_den_0 F FK)|]. unfold bn_is_special, bn_is_zero. cbn [snd bn_zero].
    now rewrite (rk_eqb_refl F R).
  - split; [|unfold bn_is_special; cbn [snd]; rewrite (rk_eqb_refl F R); apply orb_true_r].
    apply (jac_den_at F FK); [apply (fk_1_neq_0 F FK)|ring|ring].
Qed.

Lemma bn_affine p : exists X Y Z, bn_to_affine F p = Ok (X, Y, Z) /\
  ((jac_den F p = Inf /\ bn_is_zero F (X, Y, Z) = true) \/
   (jac_den F p = Aff X Y /\ Z = o1 F /\ bn_is_zero F (X, Y, Z) = false)).
Proof.
  destruct (bn_to_affine_spec F FK p) as (q & E & D & [->|(x & y & ->)] & _).
  - exists (o0 F), (o1 F), (o0 F). split; [exact E|]. left. split.
    + rewrite <- D. apply (jac_den_0 F FK).
    + cbn. apply (rk_eqb_refl F R).
  - exists x, y, (o1 F). split; [exact E|]. right. split; [|split; auto].
    + rewrite <- D. apply (jac_den_at F FK); [apply (fk_1_neq_0 F FK)|ring|ring].
    + cbn. apply (rk_eqb_neq F R). apply (fk_1_neq_0 F FK).
Qed.

Theorem bn_roundtrip p : jac_ok F b p ->
  (forall x y, jac_den F p = Aff x y -> comp = true -> recoverable F C sqrt y) ->
  exists w q, bn_write F C bin comp p = Ok w /\ bn_normal p q /\
    forall rest, (comp = true \/ after bin rest) ->
      bn_read F C bin comp sqrt b (w ++ rest) = Ok (q, rest).
Proof.
  intros O HY. destruct (bn_affine p) as (X & Y & Z & E & HA).
  unfold bn_write. rewrite E. cbn [bind].
  destruct (co_rt _ _ CO X) as (wx & Ex & Rx). rewrite Ex. cbn [bind].
  pose (f := if bn_is_zero F (X, Y, Z) then ch_0 + 1 else ch_0). fold f.
  pose (q := if bn_is_zero F (X, Y, Z) then bn_zero F else (X, Y, o1 F)).
  assert (Ff : (f =? ch_0) = negb (bn_is_zero F (X, Y, Z))) by (unfold f; destruct (bn_is_zero F (X, Y, Z)); reflexivity).
  assert (NQ : bn_normal p q).
  { unfold q. destruct HA as [[D Z0]|(D & _ & Z0)]; rewrite Z0; [now left|right; eauto]. }
  unfold bn_read. destruct comp.
  - destruct (cd_lsb C Y) as [l| | | | |] eqn:El; try (destruct (co_bit _ _ CO Y); congruence).
    cbn [bind]. eexists. exists q. split; [reflexivity|]. split; [exact NQ|]. intros rest _.
    rewrite <- !app_assoc. cbn [app read_char bind]. rewrite consume_sep. cbn [bind].
    rewrite (at_start bin _ _ _ Rx _ (sep_after bin _)). cbn [bind]. rewrite consume_sep. cbn [bind].
    assert (L01 : l = 0 \/ l = 1) by (destruct (co_bit _ _ CO Y) as [H|H]; rewrite H in El; injection El; auto).
    assert (Bc : bit_char l = dec l) by (destruct L01 as [-> | ->]; reflexivity).
    rewrite Bc.
    assert (HC : read_char (dec l ++ rest) = Ok (ch_0 + l, rest)) by (destruct L01 as [-> | ->]; reflexivity).
    rewrite HC. cbn [bind]. rewrite Ff. unfold q.
    destruct HA as [[D Z0]|(D & _ & Z0)]; rewrite Z0; cbn [negb]; [reflexivity|].
    destruct (pick_root_ok F FK C bin CO sqrt Y l rest (HY X Y D eq_refl) El) as [_ PR].
    cbv zeta. rewrite (rk_sqr F R). unfold jac_ok in O. rewrite D in O. cbn [sw_on] in O.
    replace (oadd F (omul F (omul F X X) X) b) with (omul F Y Y) by (rewrite O; ring).
    rewrite PR. reflexivity.
  - destruct (co_rt _ _ CO Y) as (wy & Ey & Ry). rewrite Ey. cbn [bind].
    eexists. exists q. split; [reflexivity|]. split; [exact NQ|].
    intros rest [|HR]; [discriminate|].
    rewrite <- !app_assoc. cbn [app read_char bind]. rewrite consume_sep. cbn [bind].
    rewrite (at_start bin _ _ _ Rx _ (sep_after bin _)). cbn [bind]. rewrite consume_sep. cbn [bind].
    rewrite (at_start bin _ _ _ Ry _ HR). cbn [bind]. rewrite Ff. unfold q.
    destruct (bn_is_zero F (X, Y, Z)); reflexivity.
Qed.

(** A compressed x coordinate with no point above it: the outcome is that of
    the square root. *)
Theorem bn_read_off_curve x w c rest : cd_wr C x = Ok w -> comp = true ->
  bn_read F C bin comp sqrt b (ch_0 :: output_separator bin ++ w ++ output_separator bin ++ c :: rest)
  = (tY <- pick_root F C sqrt (oadd F (omul F (omul F x x) x) b) (y_lsb c) ;; Ok ((x, tY, o1 F), rest))%result.
Proof.
  intros E ->. unfold bn_read. cbn [read_char bind]. rewrite consume_sep. cbn [bind].
  destruct (co_rt _ _ CO x) as (w' & E' & Rx). assert (w' = w) by congruence. subst w'.
  rewrite (at_start bin _ _ _ Rx _ (sep_after bin _)). cbn [bind]. rewrite consume_sep. cbn [bind read_char].
  cbv zeta. rewrite (rk_sqr F R). reflexivity.
Qed.

(** Two different points with the same bytes. *)
Theorem bn_write_opp p x y : jac_den F p = Aff x y -> y <> o0 F -> oadd F (o1 F) (o1 F) <> o0 F ->
  cd_lsb C (oopp F y) = cd_lsb C y ->
  bn_write F C bin true (bn_opp F p) = bn_write F C bin true p /\
  jac_den F (bn_opp F p) <> jac_den F p.
Proof.
  intros D NY N2 HL.
  assert (DO : jac_den F (bn_opp F p) = Aff x (oopp F y)) by (rewrite bn_opp_den, D by auto; reflexivity).
  split.
  - destruct (bn_affine p) as (X & Y & Z & E & [[H _]|(H & -> & Z0)]); [congruence|].
    destruct (bn_affine (bn_opp F p)) as (X' & Y' & Z' & E' & [[H' _]|(H' & -> & Z0')]); [congruence|].
    rewrite D in H. rewrite DO in H'. injection H as <- <-. injection H' as <- <-.
    unfold bn_write. rewrite E, E'. cbn [bind]. rewrite Z0, Z0', HL. reflexivity.
  - rewrite DO, D. intros H. injection H as H. apply NY.
    apply (fk_mul_cancel F FK _ _ (oadd F (o1 F) (o1 F)) N2).
    transitivity (oadd F y y); [ring|]. rewrite <- H at 1. ring.
Qed.

(** Vectors. *)
Theorem bn_vector_roundtrip vec : Forall (jac_ok F b) vec -> Z.of_nat (length vec) < 2 ^ 64 ->
  (forall p x y, In p vec -> jac_den F p = Aff x y -> comp = true -> recoverable F C sqrt y) ->
  exists w out, bn_write_vector F C bin comp vec = Ok w /\ Forall2 bn_normal vec out /\
    forall rest, bn_read_vector F C bin comp sqrt b (w ++ rest) = Ok (out, rest).
Proof.
  intros HO HL HY.
  assert (H : exists ws out, write_all bin (bn_write F C bin comp) vec = Ok ws /\ Forall2 bn_normal vec out /\
    forall rest, read_many (read_elt bin (bn_read F C bin comp sqrt b)) (length vec) (ws ++ rest) = Ok (out, rest)).
  { clear HL. induction vec as [|p vec IH].
    - exists [], []. repeat split; constructor.
    - inversion HO as [|? ? O HO' E]; subst. destruct IH as (ws & out & E1 & N1 & R1); auto.
      { intros; apply (HY p0 x y); auto; now right. }
      destruct (bn_roundtrip p O) as (w & q & E0 & N0 & R0).
      { intros x y. apply (HY p x y). now left. }
      cbn [write_all]. rewrite E0, E1. cbn [bind]. eexists. exists (q :: out). split; [reflexivity|].
      split; [now constructor|]. intros rest. cbn [length read_many]. unfold read_elt at 1.
      rewrite <- !app_assoc, R0 by (right; apply nl_after). cbn [bind]. rewrite consume_nl. cbn [bind].
      rewrite R1. reflexivity. }
  destruct H as (ws & out & E1 & N1 & R1). unfold bn_write_vector, write_sized. rewrite E1. cbn [bind].
  eexists. exists out. split; [reflexivity|]. split; [exact N1|]. intros rest.
  unfold bn_read_vector, read_sized, read_vector. rewrite <- !app_assoc.
  rewrite read_size by (unfold B; lia). cbn [bind app consume_newline read_char]. rewrite Nat2Z.id. apply R1.
Qed.
End Io.

Section Fp2.
Context {K : Type} (bin : bool) (C : codec K).
Hypothesis CO : codec_ok bin C.
Lemma bn_fp2_codec_ok : codec_ok bin (bn_fp2_codec bin C).
Proof.
  split.
  - intros [c0 c1]. destruct (co_rt _ _ CO c0) as (w0 & E0 & R0). destruct (co_rt _ _ CO c1) as (w1 & E1 & R1).
    cbn [cd_wr cd_rd bn_fp2_codec fst snd]. rewrite E0, E1. cbn [bind]. eexists. split; [reflexivity|].
    intros ws rest HB HA. rewrite <- !app_assoc, R0; auto using sep_after. cbn [bind].
    rewrite consume_sep. cbn [bind]. rewrite (at_start bin _ _ _ R1) by auto. reflexivity.
  - intros x. apply (co_bit _ _ CO).
Qed.
End Fp2.

(** ** GT *)
Lemma bn_gt_eqb_spec {K} (F : Fops (K * K)) (R : ring_ok F) x y : bn_gt_eqb F x y = true <-> x = y.
Proof. unfold bn_gt_eqb. destruct (rk_eqb_spec F R x y); split; congruence. Qed.
Lemma bn_gt_unitary {K} (F : Fops K) q (PB : prime_base F q) nr2 m nr6 x : (q = 1 + 6 * m)%nat ->
  nonresidue F q 2 nr2 -> nonresidue (fp2_ops F nr2) (q ^ 2) 2 nr6 -> nonresidue (fp2_ops F nr2) (q ^ 2) 3 nr6 ->
  cyclotomic12 (fp12_ops F nr2 nr6 nr6) q x ->
  bn_gt_mul (fp12_ops F nr2 nr6 nr6) x (bn_gt_unitary_inverse (oopp (fp6_3over2_ops F nr2 nr6)) x) = o1 (fp12_ops F nr2 nr6 nr6).
Proof.
  intros Hm N N2 N3 Cx. pose proof (fp12_cyc_unitary F q PB nr2 m Hm N nr6 N2 N3 x Cx) as U.
  destruct x as [a b]. exact U.
Qed.
Lemma bn_batch_spec {K} (F : Fops K) (FK : field_ok F) vec : Forall (fun p => bn_is_zero F p = false) vec ->
  exists out, bn_batch_to_special F vec = Ok out /\ Forall2 (fun p q => bn_to_special F p = Ok q) vec out.
Proof.
  intros H. destruct (jac_batch_spec F FK vec) as (out & E & R).
  { apply Forall_forall. intros p I. rewrite <- bn_is_zero_jac. exact (proj1 (Forall_forall _ _) H p I). }
  exists out. rewrite bn_batch_jac by exact FK. split; [exact E|]. clear E H. induction R; constructor; auto.
  unfold bn_to_special. rewrite bn_to_affine_jac by exact FK. assumption.
Qed.
