(** The alt_bn128 and bls12_381 pairings with the shipped constants are the
    textbook pairings (C51). *)
From Coq Require Import ZArith List Bool Lia Znumtheory Ring.
From Verif Require Import Mul63 FpField.
From Verif Require Import Result Algebra Limbs LimbsProofs FieldOps FpModel FpSpec FpInst ParamsModel ParamsProofs ParamsA ParamsB ParamsC ParamsD ExtModel ExtSpec ExtFrob ExtProofs ExtInst
  CurveSpec CurveGroup CurveModel CurveProofs Hom TowerModel TowerSpec TowerProofs TowerShipped FinalExpSpec FinalExpModel FinalExpProofs
  PairingModel PairingSpec PairingProofs PairingShipped NeutralProofs MillerSpec MillerProofs MillerTwelve MillerRegular MillerOrder.
Import ListNotations.
Open Scope Z_scope.

Section Abs.
Context {T : Type} (G : Fops T) (R : ring_ok G).
Add Ring MSAring : (rk_ring G R).
Lemma abs2 a b u w : omul G (omul G a (omul G u u)) (omul G b (omul G w w)) = omul G (omul G a b) (omul G (omul G u w) (omul G u w)).
Proof. ring. Qed.
Lemma abs3 a b u w : omul G (omul G a (omul G (omul G u u) u)) (omul G b (omul G (omul G w w) w)) = omul G (omul G a b) (omul G (omul G (omul G u w) (omul G u w)) (omul G u w)).
Proof. ring. Qed.
Lemma abs2' u w : omul G (omul G u u) (omul G w w) = omul G (omul G u w) (omul G u w).
Proof. ring. Qed.
Lemma abs3' u w : omul G (omul G (omul G u u) u) (omul G (omul G w w) w) = omul G (omul G (omul G u w) (omul G u w)) (omul G u w).
Proof. ring. Qed.
End Abs.

(** ** The constants of mul_by_q *)
Section Q.
Context {K : Type} (F : Fops K) (q : nat).
Hypothesis PB : prime_base F q.
Variables (nr2 : K) (m : nat).
Hypothesis Hm : (q = 1 + 6 * m)%nat.
Hypothesis N : nonresidue F q 2 nr2.
Notation F2 := (fp2_ops F nr2).
Variable nr6 : K * K.
Hypothesis N2 : nonresidue F2 (q ^ 2) 2 nr6.
Hypothesis N3 : nonresidue F2 (q ^ 2) 3 nr6.
Notation F12 := (fp12_ops F nr2 nr6 nr6).
Let GK : field_ok F2 := two_field F q PB nr2 m Hm N.
Let TK : field_ok F12 := fp12_is_field F q PB nr2 m Hm N nr6 N2 N3.
Let M := rk_monoid F12 (fk_ring F12 TK).
Notation emb := (emb12 F2).
Notation w := (w12 F2).
Add Ring MSWring : (rk_ring F12 (fk_ring F12 (fp12_is_field F q PB nr2 m Hm N nr6 N2 N3))).
Lemma w_q : fpow F12 w q = omul F12 w (emb (fpow F2 nr6 m)).
Proof.
  rewrite Hm. rewrite (npow_add _ _ M), (npow_1 _ _ M). f_equal.
  rewrite (npow_mul _ _ M). rewrite <- (emb_pow F q PB nr2 m Hm N nr6 nr6 m). f_equal.
  rewrite <- (W6 F q PB nr2 m Hm N nr6). cbn [npow]. ring.
Qed.
Lemma qX_D qX : qX = fpow F2 nr6 (2 * m) -> omul F12 (emb qX) (omul F12 w w) = fpow F12 (omul F12 w w) q.
Proof.
  intros ->. rewrite (npow_mul_distr _ _ M (rk_mul_comm F12 (fk_ring F12 TK))), w_q.
  rewrite (npow_double _ _ (rk_monoid F2 (fk_ring F2 GK))), (emb_mul12 F q PB nr2 m Hm N nr6). ring.
Qed.
Lemma qY_D qY : qY = fpow F2 nr6 (3 * m) -> omul F12 (emb qY) (omul F12 (omul F12 w w) w) = fpow F12 (omul F12 (omul F12 w w) w) q.
Proof.
  intros ->. pose proof (rk_mul_comm F12 (fk_ring F12 TK)) as CM. rewrite !(npow_mul_distr _ _ M CM), w_q.
  replace (3 * m)%nat with (m + 2 * m)%nat by lia.
  rewrite (npow_add _ _ (rk_monoid F2 (fk_ring F2 GK))), (npow_double _ _ (rk_monoid F2 (fk_ring F2 GK))), !(emb_mul12 F q PB nr2 m Hm N nr6). ring.
Qed.
Notation u := (tinv F12 w).
Lemma u_w : omul F12 u w = o1 F12.
Proof. apply (tinv_spec F12 TK). exact (w12_0 F2 GK nr6). Qed.
Lemma inv_uniq a b c : omul F12 a c = o1 F12 -> omul F12 b c = o1 F12 -> a = b.
Proof.
  intros E1 E2. transitivity (omul F12 a (omul F12 b c)); [rewrite E2; ring|].
  transitivity (omul F12 b (omul F12 a c)); [ring|]. rewrite E1. ring.
Qed.
Lemma qX_M qX : omul F2 qX (fpow F2 nr6 (2 * m)) = o1 F2 -> omul F12 (emb qX) (omul F12 u u) = fpow F12 (omul F12 u u) q.
Proof.
  intros E. pose proof (rk_mul_comm F12 (fk_ring F12 TK)) as CM.
  apply (inv_uniq _ _ (fpow F12 (omul F12 w w) q)).
  - rewrite <- (qX_D _ eq_refl).
    rewrite (abs2 F12 (fk_ring F12 TK)).
    rewrite <- (emb_mul12 F q PB nr2 m Hm N nr6), E, u_w. change (emb (o1 F2)) with (o1 F12). ring.
  - rewrite <- (npow_mul_distr _ _ M CM). rewrite (abs2' F12 (fk_ring F12 TK)).
    rewrite u_w. transitivity (fpow F12 (o1 F12) q); [f_equal; ring|]. apply (npow_one _ _ M).
Qed.
Lemma qY_M qY : omul F2 qY (fpow F2 nr6 (3 * m)) = o1 F2 -> omul F12 (emb qY) (omul F12 (omul F12 u u) u) = fpow F12 (omul F12 (omul F12 u u) u) q.
Proof.
  intros E. pose proof (rk_mul_comm F12 (fk_ring F12 TK)) as CM.
  apply (inv_uniq _ _ (fpow F12 (omul F12 (omul F12 w w) w) q)).
  - rewrite <- (qY_D _ eq_refl).
    rewrite (abs3 F12 (fk_ring F12 TK)).
    rewrite <- (emb_mul12 F q PB nr2 m Hm N nr6), E, u_w. change (emb (o1 F2)) with (o1 F12). ring.
  - rewrite <- (npow_mul_distr _ _ M CM). rewrite (abs3' F12 (fk_ring F12 TK)).
    rewrite u_w. transitivity (fpow F12 (o1 F12) q); [f_equal; ring|]. apply (npow_one _ _ M).
Qed.
End Q.

Section JacFrob.
Context {E : Type} (G : Fops E) (GK : field_ok G) (q : nat).
Hypothesis Hq : (0 < q)%nat.
Let M := rk_monoid G (fk_ring G GK).
Add Field MSGfield : (fk_field G GK).
Lemma jac_frob qX qY X Y Z : jac_den G (omul G qX (fpow G X q), omul G qY (fpow G Y q), fpow G Z q) =
  match jac_den G (X, Y, Z) with Inf => Inf | Aff x y => Aff (omul G qX (fpow G x q)) (omul G qY (fpow G y q)) end.
Proof.
  unfold jac_den. assert (PN : forall x, fpow G x q = o0 G <-> x = o0 G).
  { intros x. split.
    - clear Hq. induction q as [|k IH]; cbn [npow]; intros E0; [exfalso; now apply (fk_1_neq_0 G GK)|].
      apply (fk_mul_0 G GK) in E0. tauto.
    - intros ->. apply (npow_zero _ _ _ _ _ _ (rk_ring G (fk_ring G GK))). exact Hq. }
  pose proof (rk_mul_comm G (fk_ring G GK)) as CM.
  destruct (rk_dec G (fk_ring G GK) Z (o0 G)) as [EZ|NZ].
  - rewrite (proj2 (rk_eqb G (fk_ring G GK) _ _) EZ), (proj2 (rk_eqb G (fk_ring G GK) _ _) (proj2 (PN Z) EZ)). reflexivity.
  - rewrite (proj2 (rk_eqb_neq G (fk_ring G GK) _ _) NZ).
    assert (NZq : fpow G Z q <> o0 G) by (intros E0; apply NZ; now apply PN).
    rewrite (proj2 (rk_eqb_neq G (fk_ring G GK) _ _) NZq).
    assert (N2 : omul G (fpow G Z q) (fpow G Z q) <> o0 G) by now apply (fk_mul_neq_0 G GK).
    assert (N2' : omul G Z Z <> o0 G) by now apply (fk_mul_neq_0 G GK).
    assert (N3' : omul G (omul G Z Z) Z <> o0 G) by now apply (fk_mul_neq_0 G GK).
    f_equal; apply (tdiv_eq G GK); auto; try (now apply (fk_mul_neq_0 G GK)).
    + rewrite <- !(npow_mul_distr _ _ M CM) || idtac.
      transitivity (omul G qX (omul G (fpow G (tdiv G X (omul G Z Z)) q) (fpow G (omul G Z Z) q))).
      * rewrite <- (npow_mul_distr _ _ M CM), (tdiv_mul G GK) by exact N2'. reflexivity.
      * rewrite (npow_mul_distr _ _ M CM Z Z). ring.
    + transitivity (omul G qY (omul G (fpow G (tdiv G Y (omul G (omul G Z Z) Z)) q) (fpow G (omul G (omul G Z Z) Z) q))).
      * rewrite <- (npow_mul_distr _ _ M CM), (tdiv_mul G GK) by exact N3'. reflexivity.
      * rewrite (npow_mul_distr _ _ M CM (omul G Z Z) Z), (npow_mul_distr _ _ M CM Z Z). ring.
Qed.
End JacFrob.

(** ** The shipped constants *)
Definition mill_check (D : twelve_consts) : bool :=
  let p := fc_p (bt_Fq D) in
  let r := fc_p (bt_Fr D) in
  let G2 := fp2_ops (zq p) (bt_nr2 D) in
  let c := nth 1 (bt_c12 D) (0, 0) in
  let c2 := omul G2 c c in
  let c3 := omul G2 c c2 in
  let r2 := rng2 (rngZ p) in
  ctx_check p && rngZ p (bt_nr2 D) && r2 c && r2 (bt_qX D) && r2 (bt_qY D) && rngZ p (bt_b D) &&
  eqZ2 (bt_twist D) (bt_nr6 D) && negb (bt_b D =? 0) && small_check (cn (bt_Fq D)) (bt_loop D) && (1 <=? bt_loop D) && (bt_loop D <? r) && (3 <? r) &&
  (if bt_twist_b_inv D then oeqb G2 (bt_qX D) c2 && oeqb G2 (bt_qY D) c3
   else oeqb G2 (omul G2 (bt_qX D) c2) (o1 G2) && oeqb G2 (omul G2 (bt_qY D) c3) (o1 G2)).

Section Shipped.
Context {K : Type} (F : Fops K) (e : Z -> K) (h : K -> Z) (D : twelve_consts).
Let p := fc_p (bt_Fq D).
Let r := fc_p (bt_Fr D).
Let n := cn (bt_Fq D).
Let q := cq (bt_Fq D).
Hypothesis PB : prime_base F q.
Hypothesis T : twelve_ok F e D.
Hypothesis H1 : ctx_check p = true -> hom F (zq p) h e (rngZ p).
Hypothesis Ck : mill_check D = true.
Notation F2 := (twF2 F e D).
Notation F12 := (twF12 F e D).
Definition tw_u := if bt_twist_b_inv D then w12 F2 else tinv F12 (w12 F2).
Definition tw_n := Z.to_pos (bt_loop D).

Lemma c_pow m : (q = 1 + 6 * m)%nat -> map2 e (nth 1 (bt_c12 D) (0, 0)) = fpow F2 (map2 e (bt_nr6 D)) m.
Proof.
  intros Em. destruct (to_t12 F e D T) as [Hl Ht]. specialize (Ht 1%nat ltac:(lia)).
  rewrite map_length in Hl. rewrite (nth_indep _ _ (map2 e (0, 0))) in Ht by (rewrite map_length, Hl; lia).
  rewrite map_nth in Ht. rewrite Ht. f_equal. change (twq D) with q. rewrite Nat.pow_1_r, Nat.mul_1_l, Em.
  replace (1 + 6 * m - 1)%nat with (m * 6)%nat by lia. apply Nat.div_mul. lia.
Qed.
Record mill_facts (m : nat) : Prop := {
  mf_tw : bt_twist D = bt_nr6 D;
  mf_b : tw_b e D <> o0 F;
  mf_tb : tw_twist_b F e D <> o0 F2;
  mf_lc : val (limbs_of n (bt_loop D)) = Z.pos tw_n;
  mf_n : Z.pos tw_n < r;
  mf_nv : Z.pos tw_n = bt_loop D;
  mf_r3 : 3 < r;
  mf_qX : omul F12 (emb12 F2 (map2 e (bt_qX D))) (omul F12 tw_u tw_u) = fpow F12 (omul F12 tw_u tw_u) q;
  mf_qY : omul F12 (emb12 F2 (map2 e (bt_qY D))) (omul F12 (omul F12 tw_u tw_u) tw_u) = fpow F12 (omul F12 (omul F12 tw_u tw_u) tw_u) q
}.
Lemma mill_check_ok m : (q = 1 + 6 * m)%nat -> mill_facts m.
Proof.
  intros Em. pose proof Ck as Hk. unfold mill_check in Hk. cbv zeta in Hk. rewrite !andb_true_iff in Hk.
  destruct Hk as [[[[[[[[[[[[K1 K2] K3] K4] K5] K6] K7] K8] K9] K10] K11] K12] K13].
  specialize (H1 K1). fold p in K1, K2, K3, K4, K5, K6, K13. fold r in K11, K12. fold n in K9.
  apply Z.leb_le in K10. apply Z.ltb_lt in K11, K12. apply eqZ2_eq in K7.
  destruct T as [_ A2 A3 A4 A5 A6 A7 A8 A9 _ _ _ _ _ _ _ _ _ _]. change (twq D) with q in *.
  pose proof (pb_field F q PB) as FK. pose proof (fk_ring F FK) as R.
  assert (FK2 : field_ok F2) by exact (two_field F q PB _ m Em A2).
  assert (Nb : tw_b e D <> o0 F).
  { apply (neq_by F (zq p) h e _ H1). unfold tw_b. rewrite (hm_lift H1 K6), (hm_0 _ _ _ _ _ H1). now apply negb_true_iff. }
  assert (Ntw : map2 e (bt_twist D) <> o0 F2) by (rewrite K7; apply A4).
  constructor; auto.
  - unfold tw_twist_b. rewrite (scale_spec F q PB (e (bt_nr2 D))). apply (fk_mul_neq_0 F2 FK2).
    + intros E. apply Nb. now injection E.
    + destruct (bt_twist_b_inv D); auto. intros E. pose proof (proj2 (tinv_spec F2 FK2 _ Ntw)) as I.
      rewrite E, (rk_mul_0_l F2 (fk_ring F2 FK2)) in I. now apply (fk_1_neq_0 F2 FK2).
  - unfold tw_n. rewrite Z2Pos.id by lia. now apply small_check_ok.
  - unfold tw_n. rewrite Z2Pos.id by lia. exact K11.
  - unfold tw_n. now rewrite Z2Pos.id by lia.
  - pose proof (hom_fp2 F (zq p) h e (rngZ p) H1 (bt_nr2 D) K2) as H2.
    pose proof (c_pow m Em) as Ec. pose proof (rk_monoid F2 (fk_ring F2 FK2)) as M2.
    set (c := nth 1 (bt_c12 D) (0, 0)) in *.
    unfold tw_u, twF12. rewrite A8. destruct (bt_twist_b_inv D); rewrite andb_true_iff in K13; destruct K13 as [KX KY].
    + apply (qX_D F q PB _ m Em A2 _ A4 A5). rewrite (npow_double _ _ M2), <- Ec.
      apply (eq_by F2 _ (map2 h) (map2 e) _ H2). now rewrite (hm_mul _ _ _ _ _ H2), (hm_lift H2 K3), (hm_lift H2 K4).
    + apply (qX_M F q PB _ m Em A2 _ A4 A5). rewrite (npow_double _ _ M2), <- Ec.
      apply (eq_by F2 _ (map2 h) (map2 e) _ H2). now rewrite !(hm_mul _ _ _ _ _ H2), (hm_1 _ _ _ _ _ H2), (hm_lift H2 K3), (hm_lift H2 K4).
  - pose proof (hom_fp2 F (zq p) h e (rngZ p) H1 (bt_nr2 D) K2) as H2.
    pose proof (c_pow m Em) as Ec. pose proof (rk_monoid F2 (fk_ring F2 FK2)) as M2.
    set (c := nth 1 (bt_c12 D) (0, 0)) in *.
    assert (E3 : fpow F2 (map2 e (bt_nr6 D)) (3 * m) = omul F2 (map2 e c) (omul F2 (map2 e c) (map2 e c))).
    { replace (3 * m)%nat with (m + 2 * m)%nat by lia. now rewrite (npow_add _ _ M2), (npow_double _ _ M2), <- Ec. }
    change F2 with (fp2_ops F (e (bt_nr2 D))) in E3.
    unfold tw_u, twF12. rewrite A8. destruct (bt_twist_b_inv D); rewrite andb_true_iff in K13; destruct K13 as [KX KY].
    + apply (qY_D F q PB _ m Em A2 _ A4 A5). rewrite E3.
      apply (eq_by F2 _ (map2 h) (map2 e) _ H2). now rewrite !(hm_mul _ _ _ _ _ H2), (hm_lift H2 K3), (hm_lift H2 K5).
    + apply (qY_M F q PB _ m Em A2 _ A4 A5). rewrite E3.
      apply (eq_by F2 _ (map2 h) (map2 e) _ H2). now rewrite !(hm_mul _ _ _ _ _ H2), (hm_1 _ _ _ _ _ H2), (hm_lift H2 K3), (hm_lift H2 K5).
Qed.
End Shipped.

Lemma alt_bn128_mill : mill_check alt_bn128_tower = true. Proof. vm_compute. reflexivity. Qed.
Lemma bls12_381_mill : mill_check bls12_381_tower = true. Proof. vm_compute. reflexivity. Qed.
Lemma not_div r x : x mod r <> 0 -> ~ (r | x).
Proof. intros H [k ->]. now rewrite Z_mod_mult in H. Qed.

(** A value f of the Miller function and its image under the final
    exponentiation: c is the same for all f. *)
Section Pairings.
Context {K : Type} (F : Fops K) (e : Z -> K) (h : K -> Z) (D : twelve_consts).
Let p := fc_p (bt_Fq D).
Let r := fc_p (bt_Fr D).
Let n := cn (bt_Fq D).
Let q := cq (bt_Fq D).
Hypothesis PB : prime_base F q.
Hypothesis T : twelve_ok F e D.
Hypothesis H1 : ctx_check p = true -> hom F (zq p) h e (rngZ p).
Hypothesis Ck : mill_check D = true.
Hypothesis Pr : prime r.
Notation F2 := (twF2 F e D).
Notation F12 := (twF12 F e D).
Notation tw_u := (tw_u F e D).
Notation tw_n := (tw_n D).
(** G1 and G2 in affine coordinates. *)
Definition tw_G1 (A : apt K) : Prop := A <> Inf /\ torsion F (o0 F) (tw_b e D) r A.
Definition tw_G2 (B : apt (K * K)) : Prop :=
  B <> Inf /\ torsion F2 (o0 F2) (tw_twist_b F e D) r B /\ frob_eigen F12 (o0 F12) q (psi F12 (emb12 F2) tw_u B).
(** mul_by_q is the Frobenius. *)
Lemma tw_mul_by_q Q :
  psi F12 (emb12 F2) tw_u (jac_den F2 (bn_mul_by_q F (e (bt_nr2 D)) (map e (bt_c2 D)) (map2 e (bt_qX D)) (map2 e (bt_qY D)) Q)) =
  frob_pt F12 q (psi F12 (emb12 F2) tw_u (jac_den F2 Q)).
Proof.
  pose proof (to_m F e D T) as [m Em]. change (twq D) with q in Em.
  pose proof (mill_check_ok F e h D PB T H1 Ck m Em) as [_ _ _ _ _ _ _ QX QY]. fold q in QX, QY.
  destruct T as [_ A2 A3 A4 A5 A6 A7 A8 A9 _ _ _ _ _ _ _ _ _ _]. change (twq D) with q in *. 
  unfold twF12 in *. rewrite A8 in *. set (u := tw_u) in *.
  assert (FK2 : field_ok F2) by exact (two_field F q PB _ m Em A2). pose proof (rk_monoid F2 (fk_ring F2 FK2)) as M2.
  destruct Q as [[X Y] Z]. unfold bn_mul_by_q. rewrite !(frob2 F q PB _ m Em A2 _ A3 xH).
  rewrite (jac_frob F2 FK2 q ltac:(lia)). destruct (jac_den F2 (X, Y, Z)) as [|x y]; [reflexivity|].
  pose proof (mul_by_q_frob F q PB _ m Em A2 (map2 e (bt_nr6 D)) A4 A5 _ A3 xH u _ _ x y QX QY) as MF.
  rewrite !(frob2 F q PB _ m Em A2 _ A3 xH) in MF. exact MF.
Qed.

(** *** bls12_381 *)
Lemma tw_bls_textbook P Q xP yP x y : bt_twist_b_inv D = false ->
  jac_den F P = Aff xP yP -> jac_den F2 Q = Aff x y -> tw_G1 (Aff xP yP) -> torsion F2 (o0 F2) (tw_twist_b F e D) r (Aff x y) ->
  let f := miller_signed F12 (o0 F12) (bt_loop_neg D) tw_n (psi F12 (emb12 F2) tw_u (Aff x y)) (emb12 F2 (quad_emb F xP)) (emb12 F2 (quad_emb F yP)) in
  f <> o0 F12 /\ tw_bls_reduced_pairing F e D P Q = tw_bls_final F e D f.
Proof.
  intros Inv DP DQ [_ TP] TQ. pose proof (to_m F e D T) as [m Em]. change (twq D) with q in Em.
  pose proof (mill_check_ok F e h D PB T H1 Ck m Em) as [Etw Nb Ntb Hlc Hn _ R3 _ _].
  fold r in Hn, R3. fold n in Hlc.
  destruct T as [_ A2 A3 A4 A5 A6 A7 A8 A9 _ _ _ _ _ _ _ _ _ _]. change (twq D) with q in *.
  unfold tw_bls_reduced_pairing, tw_bls_final, MillerShipped.tw_u. rewrite Inv. unfold twF12. rewrite Etw, A8.
  exact (bls_order F q PB _ m Em A2 _ A4 A5 _ _ _ _ A3 A6 A7 A9 _ (bt_z_neg D) (limbs_of_limbs _ _) _ (bt_loop_neg D) tw_n (limbs_of_limbs _ _) Hlc
    (tw_b e D) _ r Nb Ntb Pr R3 Hn P Q xP yP x y DP TP DQ TQ).
Qed.
(** *** alt_bn128 *)
Definition bn_div_check : bool :=
  let t := sgn (bt_loop_neg D) tw_n in
  negb (p mod r =? 0) && negb ((t - p) mod r =? 0) && negb ((t + p) mod r =? 0) &&
  negb ((t + p - p * p) mod r =? 0) && negb ((t + p + p * p) mod r =? 0).
Lemma tw_alt_textbook P Q xP yP x y : bn_div_check = true -> bt_twist_b_inv D = true ->
  jac_den F P = Aff xP yP -> jac_den F2 Q = Aff x y -> tw_G1 (Aff xP yP) -> tw_G2 (Aff x y) ->
  let f := optimal_ate F12 (o0 F12) q (bt_loop_neg D) tw_n (psi F12 (emb12 F2) tw_u (Aff x y)) (emb12 F2 (quad_emb F xP)) (emb12 F2 (quad_emb F yP)) in
  f <> o0 F12 /\ tw_alt_reduced_pairing F e D P Q = tw_bn_final F e D f.
Proof.
  intros Fc Inv DP DQ [_ TP] (_ & TQ & EV). pose proof (to_m F e D T) as [m Em]. change (twq D) with q in Em.
  pose proof (mill_check_ok F e h D PB T H1 Ck m Em) as [Etw Nb Ntb Hlc Hn _ R3 QX QY].
  fold r in Hn, R3. fold n in Hlc. fold q in QX, QY.
  destruct T as [_ A2 A3 A4 A5 A6 A7 A8 A9 _ _ _ _ _ _ _ _ _ _]. change (twq D) with q in *.
  unfold tw_alt_reduced_pairing, tw_bn_final, MillerShipped.tw_u in *. rewrite Inv in *. unfold twF12 in *. rewrite Etw, A8 in *.
  unfold bn_div_check in Fc. cbv zeta in Fc. rewrite !andb_true_iff, !negb_true_iff, !Z.eqb_neq in Fc.
  destruct Fc as [[[[C1 C2] C3] C4] C5]. pose proof (TowerShipped.q_val F D PB : Z.of_nat q = p) as QV. rewrite <- QV in C1, C2, C3, C4, C5.
  exact (alt_order F q PB _ m Em A2 _ A4 A5 _ _ _ _ A3 A6 A7 A9 _ (bt_z_neg D) (limbs_of_limbs _ _) _ (bt_loop_neg D) tw_n (limbs_of_limbs _ _) Hlc
    (tw_b e D) _ r Nb Ntb Pr R3 Hn _ _ QX QY (not_div _ _ C1) (not_div _ _ C2) (not_div _ _ C3) (not_div _ _ C4) (not_div _ _ C5) P Q xP yP x y DP TP DQ TQ EV).
Qed.
(** *** The neutral element of G1 *)
Lemma tw_bls_left_exact P Q : bt_twist_b_inv D = false -> jac_is_zero F P = true -> tw_G2 (jac_den F2 Q) ->
  tw_bls_reduced_pairing F e D P Q = Ok (o1 F12).
Proof.
  intros Inv HP (NQ & TQ & _). destruct (jac_den F2 Q) as [|x y] eqn:DQ; [now elim NQ|].
  pose proof (to_m F e D T) as [m Em]. change (twq D) with q in Em.
  pose proof (mill_check_ok F e h D PB T H1 Ck m Em) as [Etw Nb Ntb Hlc Hn _ R3 _ _].
  fold r in Hn, R3. fold n in Hlc.
  destruct T as [_ A2 A3 A4 A5 A6 A7 A8 A9 _ _ _ _ _ _ _ _ _ _]. change (twq D) with q in *.
  unfold tw_bls_reduced_pairing, MillerShipped.tw_u. unfold twF12. rewrite Etw, A8.
  exact (bls_left_exact F q PB _ m Em A2 _ A4 A5 _ _ _ _ A3 A6 A7 A9 _ (bt_z_neg D) (limbs_of_limbs _ _) _ (bt_loop_neg D) tw_n (limbs_of_limbs _ _) Hlc
    _ r Ntb Pr R3 Hn P Q x y HP DQ TQ).
Qed.
Lemma tw_alt_left_exact P Q : bn_div_check = true -> bt_twist_b_inv D = true -> jac_is_zero F P = true -> tw_G2 (jac_den F2 Q) ->
  tw_alt_reduced_pairing F e D P Q = Ok (o1 F12).
Proof.
  intros Fc Inv HP (NQ & TQ & EV). destruct (jac_den F2 Q) as [|x y] eqn:DQ; [now elim NQ|].
  pose proof (to_m F e D T) as [m Em]. change (twq D) with q in Em.
  pose proof (mill_check_ok F e h D PB T H1 Ck m Em) as [Etw Nb Ntb Hlc Hn _ R3 QX QY].
  fold r in Hn, R3. fold n in Hlc. fold q in QX, QY.
  destruct T as [_ A2 A3 A4 A5 A6 A7 A8 A9 _ _ _ _ _ _ _ _ _ _]. change (twq D) with q in *.
  unfold tw_alt_reduced_pairing, MillerShipped.tw_u in *. rewrite Inv in *. unfold twF12 in *. rewrite Etw, A8 in *.
  unfold bn_div_check in Fc. cbv zeta in Fc. rewrite !andb_true_iff, !negb_true_iff, !Z.eqb_neq in Fc.
  destruct Fc as [[[[C1 C2] C3] C4] C5]. pose proof (TowerShipped.q_val F D PB : Z.of_nat q = p) as QV. rewrite <- QV in C1, C2, C3, C4, C5.
  exact (alt_left_exact F q PB _ m Em A2 _ A4 A5 _ _ _ _ A3 A6 A7 A9 _ (bt_z_neg D) (limbs_of_limbs _ _) _ (bt_loop_neg D) tw_n (limbs_of_limbs _ _) Hlc
    _ r Ntb Pr R3 Hn _ _ QX QY (not_div _ _ C1) (not_div _ _ C2) (not_div _ _ C3) (not_div _ _ C4) (not_div _ _ C5) P Q x y HP DQ TQ EV).
Qed.
End Pairings.

(** The textbook reduced pairings: c does not depend on the points. *)
Section Statements.
Context {K : Type} (F : Fops K) (e : Z -> K) (D : twelve_consts).
Let p := fc_p (bt_Fq D).
Let r := fc_p (bt_Fr D).
Let q := cq (bt_Fq D).
Notation F2 := (twF2 F e D).
Notation F12 := (twF12 F e D).
Notation up x := (emb12 F2 (quad_emb F x)).
Definition tw_optimal (A : apt (K * K)) (xP yP : K) :=
  optimal_ate F12 (o0 F12) q (bt_loop_neg D) (tw_n D) (psi F12 (emb12 F2) (tw_u F e D) A) (up xP) (up yP).
Definition tw_ate (A : apt (K * K)) (xP yP : K) :=
  miller_signed F12 (o0 F12) (bt_loop_neg D) (tw_n D) (psi F12 (emb12 F2) (tw_u F e D) A) (up xP) (up yP).
Definition textbook (ate : apt (K * K) -> K -> K -> (K * K) * (K * K) * (K * K) * ((K * K) * (K * K) * (K * K)))
    (pairing : K * K * K -> (K * K) * (K * K) * (K * K) -> result ((K * K) * (K * K) * (K * K) * ((K * K) * (K * K) * (K * K)))) : Prop :=
  exists c, 0 <= c /\ Z.gcd c r = 1 /\
  forall P Q xP yP B, jac_den F P = Aff xP yP -> jac_den F2 Q = B -> tw_G1 F e D (Aff xP yP) -> tw_G2 F e D B ->
  ate B xP yP <> o0 F12 /\
  pairing P Q = Ok (fpow F12 (ate B xP yP) (Z.to_nat (c * ((p ^ 12 - 1) / r)))).
End Statements.

Lemma alt_bn128_bn_div : bn_div_check alt_bn128_tower = true. Proof. vm_compute. reflexivity. Qed.
Theorem alt_bn128_textbook CO : let D := alt_bn128_tower in let F := cF (bt_Fq D) CO in let e := ce (bt_Fq D) CO in
  textbook F e D (tw_optimal F e D) (tw_alt_reduced_pairing F e D).
Proof.
  intros D F e. set (PB := base_prime (bt_Fq D) CO). pose proof (shipped_twelve_ok D CO (or_introl eq_refl)) as T.
  pose proof (oki_prime _ (fco_inv _ alt_bn128_Fr_ok)) as Pr.
  destruct (bn_final_ok F e D PB T alt_bn128_final_check) as (_ & _ & c & C0 & Cg & FE).
  exists c. split; [exact C0|]. split; [exact Cg|]. intros P Q xP yP B DP DQ GP GQ.
  destruct B as [|x y]; [now destruct GQ as [GQ _]|].
  destruct (tw_alt_textbook F e (toZ (fc_P (bt_Fq D))) D PB T (base_hom _ CO) alt_bn128_mill Pr P Q xP yP x y alt_bn128_bn_div eq_refl DP DQ GP GQ) as [Nf Ef].
  split; [exact Nf|]. destruct (FE _ Nf) as (v & Ev & Vv & _). rewrite Ef. rewrite Vv in Ev. exact Ev.
Qed.
Theorem bls12_381_textbook CO : let D := bls12_381_tower in let F := cF (bt_Fq D) CO in let e := ce (bt_Fq D) CO in
  textbook F e D (tw_ate F e D) (tw_bls_reduced_pairing F e D).
Proof.
  intros D F e. set (PB := base_prime (bt_Fq D) CO). pose proof (shipped_twelve_ok D CO (or_intror (or_introl eq_refl))) as T.
  pose proof (oki_prime _ (fco_inv _ bls12_381_Fr_ok)) as Pr.
  destruct (bls_final_ok F e D PB T bls12_381_final_check) as (_ & _ & c & C0 & Cg & FE).
  exists c. split; [exact C0|]. split; [exact Cg|]. intros P Q xP yP B DP DQ GP GQ.
  destruct B as [|x y]; [now destruct GQ as [GQ _]|].
  destruct (tw_bls_textbook F e (toZ (fc_P (bt_Fq D))) D PB T (base_hom _ CO) bls12_381_mill Pr P Q xP yP x y eq_refl DP DQ GP (proj1 (proj2 GQ))) as [Nf Ef].
  split; [exact Nf|]. destruct (FE _ Nf) as (v & Ev & Vv & _). rewrite Ef. rewrite Vv in Ev. exact Ev.
Qed.

(** With P = O the pairings are one for every Q in G2. *)
Theorem alt_bn128_left_one CO P Q : let D := alt_bn128_tower in let F := cF (bt_Fq D) CO in let e := ce (bt_Fq D) CO in
  jac_is_zero F P = true -> tw_G2 F e D (jac_den (twF2 F e D) Q) -> tw_alt_reduced_pairing F e D P Q = Ok (o1 (twF12 F e D)).
Proof.
  intros D F e. exact (tw_alt_left_exact F e (toZ (fc_P (bt_Fq D))) D (base_prime (bt_Fq D) CO) (shipped_twelve_ok D CO (or_introl eq_refl)) (base_hom _ CO)
    alt_bn128_mill (oki_prime _ (fco_inv _ alt_bn128_Fr_ok)) P Q alt_bn128_bn_div eq_refl).
Qed.
Theorem bls12_381_left_one CO P Q : let D := bls12_381_tower in let F := cF (bt_Fq D) CO in let e := ce (bt_Fq D) CO in
  jac_is_zero F P = true -> tw_G2 F e D (jac_den (twF2 F e D) Q) -> tw_bls_reduced_pairing F e D P Q = Ok (o1 (twF12 F e D)).
Proof.
  intros D F e. exact (tw_bls_left_exact F e (toZ (fc_P (bt_Fq D))) D (base_prime (bt_Fq D) CO) (shipped_twelve_ok D CO (or_intror (or_introl eq_refl))) (base_hom _ CO)
    bls12_381_mill (oki_prime _ (fco_inv _ bls12_381_Fr_ok)) P Q eq_refl).
Qed.
