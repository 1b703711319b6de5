(** Orders of the G1 and G2 generators of alt_bn128 and bls12_381, and mul_by_q on
    them, checked by computation. *)
From Coq Require Import ZArith List Bool Lia Znumtheory.
From Verif Require Import Mul63 FpField Result Algebra Limbs LimbsProofs FieldOps FpModel FpSpec FpInst ParamsModel ParamsProofs ExtModel ExtSpec ExtFrob ExtProofs ExtInst
  CurveSpec CurveGroup CurveModel CurveProofs Hom HomCurve Mod63 MontRing HomMont HomPairing TowerModel TowerSpec TowerProofs TowerShipped FinalExpProofs
  PairingModel MillerSpec MillerProofs MillerTwelve MillerRegular MillerOrder MillerShipped.
Open Scope Z_scope.

Definition jmul {B} (G : Fops B) (x y : B) (n : Z) : B * B * B := pmul (jac_dbl G) (jac_add G) (x, y, o1 G) (Z.to_pos n).
Definition gen_check (D : twelve_consts) : bool :=
  let p := fc_p (bt_Fq D) in
  let r := fc_p (bt_Fr D) in
  let C := mk_rctx p in
  let n := cn (bt_Fq D) in
  let G := r_ops C in
  let nr2 := mont_e C n (bt_nr2 D) in
  let x1 := mont_e C n (fst (bt_G1 D)) in
  let y1 := mont_e C n (snd (bt_G1 D)) in
  let x := map2 (mont_e C n) (fst (bt_G2 D)) in
  let y := map2 (mont_e C n) (snd (bt_G2 D)) in
  let qX := map2 (mont_e C n) (bt_qX D) in
  let qY := map2 (mont_e C n) (bt_qY D) in
  let G2 := fp2_ops G nr2 in
  (0 <? p mod r) && (0 <? r) &&
  jac_is_zero G (jmul G x1 y1 r) && jac_is_zero G2 (jmul G2 x y r) &&
  jac_eqb G2 (jmul G2 x y (p mod r)) (omul G2 qX (cnj2 G x), omul G2 qY (cnj2 G y), o1 G2).

Section Jmul.
Context {A B : Type} (F : Fops A) (G : Fops B) (h : A -> B) (lift : B -> A) (rng : B -> bool).
Hypothesis FK : field_ok F.
Hypothesis H : hom F G h lift rng.
Variable b : A.
Hypothesis two : oadd F (o1 F) (o1 F) <> o0 F.
Hypothesis HD : sw_disc F (o0 F) b <> o0 F.
Let R := fk_ring F FK.
Lemma den_aff x y : jac_den F (x, y, o1 F) = Aff x y.
Proof.
  unfold jac_den. rewrite (proj2 (rk_eqb_neq F R _ _) (fk_1_neq_0 F FK)).
  assert (E : omul F (o1 F) (o1 F) = o1 F) by apply (Rmul_1_l (rk_ring F R)).
  rewrite E, E. f_equal; apply (tdiv_eq F FK); try apply (fk_1_neq_0 F FK); rewrite (rk_mul_comm F R); symmetry; apply (Rmul_1_l (rk_ring F R)).
Qed.
Lemma jmul_den x y n : sw_on F (o0 F) b (Aff x y) -> jac_den F (jmul F x y n) = mult F (o0 F) (Z.to_pos n) (Aff x y).
Proof.
  intros O. pose proof (pmul_mult F (o0 F) (jac_ok F b) (jac_den F) (jac_dbl F) (jac_add F)) as L.
  specialize (L (fun p O => conj (jac_ok_dbl F FK b two HD p O) (jac_dbl_den F FK b two HD p O))).
  specialize (L (fun p q O1 O2 => conj (jac_ok_add F FK b two HD p q O1 O2) (jac_add_den F FK b two HD p q O1 O2))).
  unfold jmul. rewrite <- den_aff. apply L. unfold jac_ok. now rewrite den_aff.
Qed.
Lemma hom_jmul x y n : map3 h (jmul F x y n) = jmul G (h x) (h y) n.
Proof.
  unfold jmul. rewrite (pmul_map (map3 h) _ _ (jac_dbl G) (jac_add G) (hom_jac_dbl F G h lift rng H R) (hom_jac_add F G h lift rng H R)).
  f_equal. unfold map3. cbn [fst snd]. now rewrite (hm_1 _ _ _ _ _ H).
Qed.
End Jmul.

Section Gen.
Context {K : Type} (F : Fops K) (e : Z -> K) (h : K -> Z) (D : twelve_consts).
Let p := fc_p (bt_Fq D).
Let r := fc_p (bt_Fr D).
Let q := cq (bt_Fq D).
Hypothesis PB : prime_base F q.
Hypothesis T : twelve_ok F e D.
Hypothesis H1 : hom F (zq p) h e (rngZ p).
Hypothesis Ck : mill_check D = true.
Variable hM : K -> list PrimInt63.int.
Hypothesis HM : homi F (r_ops (mk_rctx p)) hM.
Hypothesis HeM : forall z, mont_e (mk_rctx p) (cn (bt_Fq D)) z = hM (e z).
Hypothesis Cg : gen_check D = true.
Notation F2 := (twF2 F e D).
Notation F12 := (twF12 F e D).
Definition gen1 : apt K := Aff (e (fst (bt_G1 D))) (e (snd (bt_G1 D))).
Definition gen2 : apt (K * K) := Aff (map2 e (fst (bt_G2 D))) (map2 e (snd (bt_G2 D))).
Lemma mult_mod {L} (G : Fops L) (GK : field_ok G) (a b : L) A :
  oadd G (o1 G) (o1 G) <> o0 G -> sw_disc G a b <> o0 G -> sw_on G a b A -> 0 < r -> 0 < p mod r -> 0 < p ->
  mult G a (Z.to_pos r) A = Inf -> mult G a (Z.to_pos (p mod r)) A = mult G a (Z.to_pos p) A.
Proof.
  intros two HD O R0 M0 P0 E. rewrite !(zmult_mult G GK a b two HD) in * by auto. rewrite !Z2Pos.id in * by lia.
  rewrite (Z.div_mod p r) at 2 by lia. rewrite (zmult_add G GK a b two HD), Z.mul_comm, <- (zmult_zmult G GK a b two HD), E.
  assert (EI : zmult G a b (p / r) Inf = Inf).
  { change Inf with (zmult G a b 0 A) at 1. now rewrite (zmult_zmult G GK a b two HD), Z.mul_0_r. }
  rewrite EI. reflexivity.
Qed.
Lemma tw_u_0 : tw_u F e D <> o0 F12.
Proof.
  pose proof (to_m F e D T) as [m Em]. change (twq D) with q in Em.
  destruct T as [_ A2 _ A4 A5 _ _ A8 _ _ _ _ _ _ _ _ _ _ _]. change (twq D) with q in *.
  unfold tw_u, twF12. rewrite A8. destruct (bt_twist_b_inv D).
  - exact (w12_0 F2 (two_field F q PB _ m Em A2) (map2 e (bt_nr6 D))).
  - exact (uM_0 F q PB _ m Em A2 _ A4 A5).
Qed.
Lemma tw_psi_mult k A : sw_on F2 (o0 F2) (tw_twist_b F e D) A ->
  psi F12 (emb12 F2) (tw_u F e D) (mult F2 (o0 F2) k A) = mult F12 (o0 F12) k (psi F12 (emb12 F2) (tw_u F e D) A).
Proof.
  intros O. pose proof (to_m F e D T) as [m Em]. change (twq D) with q in Em.
  pose proof (mill_check_ok F e h D PB T (fun _ => H1) Ck m Em) as [_ Nb Ntb _ _ _ _ _ _]. pose proof tw_u_0 as U0.
  destruct T as [_ A2 _ A4 A5 _ _ A8 _ _ _ _ _ _ _ _ _ _ _]. change (twq D) with q in *.
  revert U0. generalize (tw_u F e D). unfold twF12. rewrite A8. intros u U0.
  pose proof (two_field F q PB _ m Em A2 : field_ok F2) as FK2.
  pose proof (fp12_is_field F q PB _ m Em A2 _ A4 A5) as FK12.
  rewrite (psi_mult F2 FK2 _ FK12 (emb12 F2) u (emb12_0 F2 (map2 e (bt_nr6 D))) (emb12_add F2 FK2 (map2 e (bt_nr6 D))) (emb12_sub F2 FK2 (map2 e (bt_nr6 D)))
    (emb12_mul F2 FK2 (map2 e (bt_nr6 D))) (emb12_inj F2) U0 (o0 F2) (tw_twist_b F e D) (two_F2 F q PB (e (bt_nr2 D)) m Em A2 _ A4 A5)
    (disc_F2 F q PB (e (bt_nr2 D)) m Em A2 _ A4 A5 _ Ntb) k A O).
  f_equal. exact (tw_a_0 F q PB _ m Em A2 _ A4 A5 u).
Qed.
Theorem gen_ok : tw_G1 F e D gen1 /\ tw_G2 F e D gen2.
Proof.
  pose proof (to_m F e D T) as [m Em]. change (twq D) with q in Em.
  pose proof (mill_check_ok F e h D PB T (fun _ => H1) Ck m Em) as [_ Nb Ntb _ _ _ _ _ _].
  pose proof (tw_mul_by_q F e h D PB T (fun _ => H1) Ck) as MQ.
  destruct T as [_ A2 A3 A4 A5 A6 A7 A8 A9 _ _ _ _ _ _ O1 O2 _ _]. change (twq D) with q in *.
  pose proof (pb_field F q PB) as FK. pose proof (fk_ring F FK) as R.
  assert (FK2 : field_ok F2) by exact (two_field F q PB _ m Em A2).
  assert (FK12 : field_ok F12) by (unfold twF12; rewrite A8; exact (fp12_is_field F q PB _ m Em A2 _ A4 A5)).
  pose proof Cg as G. unfold gen_check in G. fold p r in G. cbv zeta in G.
  rewrite !(e_map2 e _ HeM), !HeM in G.
  rewrite !andb_true_iff in G. destruct G as [[[[K8 K9] K10] K11] K12].
  apply Z.ltb_lt in K8, K9.
  pose proof (hi_hom _ _ _ HM) as H1m.
  pose proof (homi_fp2 HM (e (bt_nr2 D))) as H2i. pose proof (hi_hom _ _ _ H2i) as H2.
  unfold gen1, gen2. destruct (bt_G2 D) as [x y] eqn:E2. destruct (bt_G1 D) as [x1 y1] eqn:E1. cbn [fst snd] in *.
  pose proof (two_F F q PB (e (bt_nr2 D)) m Em A2 _ A4 A5) as tF. pose proof (two_F2 F q PB (e (bt_nr2 D)) m Em A2 _ A4 A5) as tF2.
  pose proof (disc_F F q PB (e (bt_nr2 D)) m Em A2 _ A4 A5 _ Nb) as dF. pose proof (disc_F2 F q PB (e (bt_nr2 D)) m Em A2 _ A4 A5 _ Ntb) as dF2.
  split.
  - split; [discriminate|]. split; [exact O1|]. rewrite <- (jmul_den F FK (tw_b e D) tF dF _ _ _ O1).
    change (jac_den F (jmul F (e x1) (e y1) r) = Inf).
    assert (Z : jac_is_zero F (jmul F (e x1) (e y1) r) = true).
    { pose proof (hom_jmul F _ hM _ _ FK H1m (e x1) (e y1) r) as HJ.
      rewrite <- HJ in K10. destruct (jmul F (e x1) (e y1) r) as [[a b] c]. unfold jac_is_zero in *. cbn [map3 fst snd] in K10.
      rewrite (hom_eqb0 F _ hM _ _ H1m R). exact K10. }
    destruct (jmul F (e x1) (e y1) r) as [[a b] c]. unfold jac_is_zero in Z. unfold jac_den. cbv beta iota. now rewrite Z.
  - assert (TQ : mult F2 (o0 F2) (Z.to_pos r) (Aff (map2 e x) (map2 e y)) = Inf).
    { rewrite <- (jmul_den F2 FK2 (tw_twist_b F e D) tF2 dF2 _ _ _ O2).
      assert (Z : jac_is_zero F2 (jmul F2 (map2 e x) (map2 e y) r) = true).
      { pose proof (hom_jmul F2 _ (map2 hM) _ _ FK2 H2 (map2 e x) (map2 e y) r) as HJ.
        rewrite <- HJ in K11. destruct (jmul F2 (map2 e x) (map2 e y) r) as [[a b] c]. unfold jac_is_zero in *. cbn [map3 fst snd] in K11.
        rewrite (hom_eqb0 F2 _ (map2 hM) _ _ H2 (fk_ring F2 FK2)). exact K11. }
      destruct (jmul F2 (map2 e x) (map2 e y) r) as [[a b] c]. unfold jac_is_zero in Z. unfold jac_den. cbv beta iota. now rewrite Z. }
    split; [discriminate|]. split; [split; [exact O2|exact TQ]|].
    unfold frob_eigen. specialize (MQ (map2 e x, map2 e y, o1 F2)). rewrite (den_aff F2 FK2) in MQ. 
    pose proof (TowerShipped.q_val F D PB : Z.of_nat q = p) as QV. change (cq (bt_Fq D)) with q. rewrite QV. change (cq (bt_Fq D)) with q in MQ. rewrite <- MQ. clear MQ.
    assert (P0 : 0 < p) by (pose proof (pb_prime F q PB) as [P0 _]; lia).
    rewrite <- (tw_psi_mult _ _ O2). f_equal. rewrite <- (mult_mod F2 FK2 (o0 F2) _ _ tF2 dF2 O2 K9 K8 P0 TQ).
    rewrite <- (jmul_den F2 FK2 (tw_twist_b F e D) tF2 dF2 _ _ _ O2).
    symmetry. apply (jac_eqb_den F2 FK2). rewrite (hom_jac_eqb F2 _ (map2 hM) _ _ H2 (fk_ring F2 FK2)).
    rewrite (hom_jmul F2 _ (map2 hM) _ _ FK2 H2).
    rewrite <- K12. f_equal. unfold bn_mul_by_q, map3. cbn [fst snd]. rewrite !(frob2 F q PB _ m Em A2 _ A3 xH).
    change (fp2_ops F (e (bt_nr2 D))) with F2. rewrite !(hm_mul _ _ _ _ _ H2).
    assert (Cj : forall z, map2 hM (fpow F2 z q) = cnj2 (r_ops (mk_rctx p)) (map2 hM z)).
    { intros [a b]. change F2 with (fp2_ops F (e (bt_nr2 D))). rewrite (fp2_conj F q PB (e (bt_nr2 D)) (3 * m) a b) by (auto; lia).
      unfold map2, cnj2. cbn [fst snd]. now rewrite (hm_opp _ _ _ _ _ H1m). }
    rewrite (npow_one _ _ (rk_monoid F2 (fk_ring F2 FK2))), !Cj. f_equal. exact (hm_1 _ _ _ _ _ H2).
Qed.
End Gen.
