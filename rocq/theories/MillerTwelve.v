(** The alt_bn128 and bls12_381 pairings against the textbook pairing. *)
From Coq Require Import ZArith List Bool Ring Field Lia Znumtheory.
From Verif Require Import Result Algebra Limbs LimbsProofs FieldOps BigintModel AlgorithmsModel AlgorithmsProofs ExtModel ExtSpec ExtProofs ExtFrob ExtInst CurveSpec CurveGroup CurveModel
  CurveProofs FinalExpModel FinalExpProofs MillerSpec PairingModel PairingSpec PairingProofs NeutralProofs MillerProofs.
Import ListNotations.

(** ** The tower over Fp2, with Fp2 abstract *)
Section Tower.
Context {E : Type} (G : Fops E) (GK : field_ok G) (xi : E).
Let RG : ring_ok G := fk_ring G GK.
Notation F6 := (fp3_ops G xi).
Notation F12 := (quad_ops F6 (rot_mnr G xi)).
Hypothesis FK : field_ok F12.
Add Field MTGfield : (fk_field G GK).
Notation z := (o0 G).
Local Notation emb12 := (emb12 G).
Local Notation w12 := (w12 G).
Ltac coords := unfold MillerSpec.emb12, MillerSpec.w12; cbn; repeat match goal with |- (_, _) = (_, _) => apply (f_equal2 pair) end; ring.

Lemma emb12_0 : emb12 (o0 G) = o0 F12. Proof. reflexivity. Qed.
Lemma emb12_1 : emb12 (o1 G) = o1 F12. Proof. reflexivity. Qed.
Lemma emb12_add x y : emb12 (oadd G x y) = oadd F12 (emb12 x) (emb12 y). Proof. coords. Qed.
Lemma emb12_sub x y : emb12 (osub G x y) = osub F12 (emb12 x) (emb12 y). Proof. coords. Qed.
Lemma emb12_opp x : emb12 (oopp G x) = oopp F12 (emb12 x). Proof. coords. Qed.
Lemma emb12_mul x y : emb12 (omul G x y) = omul F12 (emb12 x) (emb12 y). Proof. coords. Qed.
Lemma emb12_inj x y : emb12 x = emb12 y -> x = y. Proof. intros H. now injection H. Qed.
Lemma w12_2 : omul F12 w12 w12 = ((z, o1 G, z), (z, z, z)). Proof. coords. Qed.
Lemma w12_3 : omul F12 (omul F12 w12 w12) w12 = ((z, z, z), (z, o1 G, z)). Proof. rewrite w12_2. coords. Qed.
Lemma w12_4 : omul F12 (omul F12 w12 w12) (omul F12 w12 w12) = ((z, z, o1 G), (z, z, z)). Proof. rewrite w12_2. coords. Qed.
Lemma w12_5 : omul F12 (omul F12 w12 w12) (omul F12 (omul F12 w12 w12) w12) = ((z, z, z), (z, z, o1 G)).
Proof. rewrite w12_3, w12_2. coords. Qed.
Lemma w12_6 : let w2 := omul F12 w12 w12 in omul F12 w2 (omul F12 w2 w2) = emb12 xi.
Proof. cbv zeta. rewrite w12_4, w12_2. coords. Qed.
Lemma w12_0 : w12 <> o0 F12.
Proof. intros H. injection H as H. now apply (fk_1_neq_0 G GK). Qed.

(** Operands of the two sparse products. *)
Lemma sparse_024 e0 e1 e2 : let w2 := omul F12 w12 w12 in
  ((e0, z, e2), (z, e1, z)) = oadd F12 (oadd F12 (emb12 e0) (omul F12 (emb12 e1) (omul F12 w2 w12))) (omul F12 (emb12 e2) (omul F12 w2 w2)).
Proof. cbv zeta. rewrite w12_4, w12_3. coords. Qed.
Lemma sparse_045 e0 e1 e2 : let w2 := omul F12 w12 w12 in
  ((e1, z, z), (z, e0, e2)) = oadd F12 (oadd F12 (emb12 e1) (omul F12 (emb12 e0) (omul F12 w2 w12)))
    (omul F12 (emb12 e2) (omul F12 w2 (omul F12 w2 w12))).
Proof. cbv zeta. rewrite w12_5, w12_3. coords. Qed.

(** The lines, from the slope l at the point (x, y) of the twist and a factor c. *)
Hypothesis xi_0 : xi <> z.
Add Field MTTfield : (fk_field F12 FK).
Lemma xi12_0 : emb12 xi <> o0 F12.
Proof. intros H. apply xi_0. now apply emb12_inj. Qed.
Local Notation "x * y" := (omul F12 x y).
Lemma line_D c l x y xP yP :
  ((omul G xi (omul G c (osub G (omul G l x) y)), z, omul G xP (oopp G (omul G c l))), (z, omul G yP c, z)) =
  emb12 c * (w12 * w12 * w12) *
  line_val F12 (emb12 l * w12) (emb12 x * (w12 * w12)) (emb12 y * (w12 * w12 * w12)) (emb12 xP) (emb12 yP).
Proof.
  rewrite sparse_024. unfold line_val. repeat rewrite ?emb12_mul, ?emb12_sub, ?emb12_opp. rewrite <- w12_6. cbv zeta. ring.
Qed.
Notation u := (tinv F12 w12).
Lemma line_M c l x y xP yP :
  ((omul G yP (omul G xi c), z, z), (z, omul G c (osub G (omul G l x) y), omul G xP (oopp G (omul G c l)))) =
  emb12 (omul G xi c) *
  line_val F12 (emb12 l * u) (emb12 x * (u * u)) (emb12 y * (u * u * u)) (emb12 xP) (emb12 yP).
Proof.
  rewrite sparse_045. unfold line_val. repeat rewrite ?emb12_mul, ?emb12_sub, ?emb12_opp. rewrite <- w12_6. cbv zeta.
  field. apply w12_0.
Qed.
(** Vertical lines lie in Fp6. *)
Lemma vert_D x xP : exists c, osub F12 (emb12 xP) (emb12 x * (w12 * w12)) = (c, o0 F6).
Proof. rewrite w12_2. change (o0 F6) with (z, z, z). eexists. unfold MillerSpec.emb12. cbn. apply (f_equal2 pair); [reflexivity|]. coords. Qed.
Lemma u_2 : u * u = emb12 (tinv G xi) * (w12 * w12 * (w12 * w12)).
Proof.
  assert (H : emb12 xi * emb12 (tinv G xi) = o1 F12).
  { rewrite <- emb12_mul, <- emb12_1. f_equal. field. auto. }
  replace (u * u) with ((u * u) * (emb12 xi * emb12 (tinv G xi))) by (rewrite H; ring).
  rewrite <- w12_6. cbv zeta. field. apply w12_0.
Qed.
Lemma vert_M x xP : exists c, osub F12 (emb12 xP) (emb12 x * (u * u)) = (c, o0 F6).
Proof. rewrite u_2, w12_4. change (o0 F6) with (z, z, z). eexists. unfold MillerSpec.emb12. cbn. apply (f_equal2 pair); [reflexivity|]. coords. Qed.
End Tower.

(** ** The point formulas, over an abstract field *)
Section Steps.
Context {E : Type} (G : Fops E) (GK : field_ok G).
Let RG : ring_ok G := fk_ring G GK.
Add Field MSGfield : (fk_field G GK).
Local Notation "0" := (o0 G).
Local Notation "1" := (o1 G).
Local Notation "x + y" := (oadd G x y).
Local Notation "x - y" := (osub G x y).
Local Notation "x * y" := (omul G x y).
Local Notation "- x" := (oopp G x).
Definition dbl_formula (b ti : E) (current : E * E * E) : E * E * E * (E * E * E) :=
  let '(X, Y, Z) := current in
  let A := ti * (X * Y) in
  let B := Y * Y in
  let C := Z * Z in
  let D := C + C + C in
  let EE := b * D in
  let FF := EE + EE + EE in
  let GG := ti * (B + FF) in
  let H := (Y + Z) * (Y + Z) - (B + C) in
  let E2 := EE * EE in
  ((A * (B - FF), GG * GG - (E2 + E2 + E2), B * H), (EE - B, H, X * X)).
Lemma step_dbl b ti x y z : z <> 0 -> y + y <> 0 -> ti * (1 + 1) = 1 -> sw_on G 0 b (Aff x y) ->
  exists l c x3 y3 z3, c <> 0 /\ z3 <> 0 /\ l * (y + y) = x * x + x * x + x * x + 0 /\ third G l x y x = Aff x3 y3 /\
    dbl_formula b ti (x * z, y * z, z) = ((x3 * z3, y3 * z3, z3), (c * (l * x - y), - c, x * z * (x * z))) /\
    x * z * (x * z) + x * z * (x * z) + x * z * (x * z) = - (c * l).
Proof.
  intros Hz Hy Ht Ho. cbn in Ho.
  assert (H2 : 1 + 1 <> 0) by (intros X; apply Hy; transitivity ((1 + 1) * y); [ring|rewrite X; ring]).
  assert (Hy0 : y <> 0) by (intros X; apply Hy; rewrite X; ring).
  assert (Et : ti = tdiv G 1 (1 + 1)) by (symmetry; apply (tdiv_eq G GK); auto).
  assert (Eb : b = y * y - x * x * x) by (rewrite Ho; ring). clear Ho Ht. subst ti b.
  pose (l := tdiv G (x * x + x * x + x * x) (y + y)).
  exists l, (- ((y + y) * (z * z))). unfold third. cbv zeta. do 2 eexists. exists ((y + y) * (y * y) * (z * z * (z * z))).
  split; [|split; [|split; [|split; [reflexivity|split]]]]; unfold l.
  - intros X. assert (X2 : (y + y) * (z * z) = 0) by (transitivity (- - ((y + y) * (z * z))); [ring|rewrite X; ring]).
    revert X2. repeat apply fk_mul_neq_0; auto.
  - repeat apply fk_mul_neq_0; auto.
  - field. auto.
  - unfold dbl_formula. repeat apply (f_equal2 pair); field; auto.
  - field. auto.
Qed.
Definition add_formula (base current : E * E * E) : E * E * E * (E * E * E) :=
  let '(X1, Y1, Z1) := current in
  let '(x2, y2, _) := base in
  let D := X1 - x2 * Z1 in
  let EE := Y1 - y2 * Z1 in
  let FF := D * D in
  let GG := EE * EE in
  let H := D * FF in
  let II := X1 * FF in
  let J := H + Z1 * GG - (II + II) in
  ((D * J, EE * (II - J) - H * Y1, Z1 * H), (EE * x2 - D * y2, D, EE)).
Lemma step_add x y z x2 y2 z2 : z <> 0 -> x <> x2 ->
  exists l c x3 y3 z3, c <> 0 /\ z3 <> 0 /\ l * (x2 - x) = y2 - y /\ third G l x y x2 = Aff x3 y3 /\
    add_formula (x2, y2, z2) (x * z, y * z, z) = ((x3 * z3, y3 * z3, z3), (c * (l * x - y), c, c * l)).
Proof.
  intros Hz Hx.
  assert (H : x2 - x <> 0) by (intros X; apply Hx; symmetry; now apply (rk_sub_0 G RG)).
  assert (H' : x - x2 <> 0) by (intros X; apply Hx; now apply (rk_sub_0 G RG)).
  exists (tdiv G (y2 - y) (x2 - x)), ((x - x2) * z). unfold third. cbv zeta. do 2 eexists.
  exists ((x - x2) * (x - x2) * (x - x2) * (z * z * (z * z))).
  split; [|split; [|split; [|split; [reflexivity|]]]].
  - now apply fk_mul_neq_0.
  - repeat apply fk_mul_neq_0; auto.
  - field. auto.
  - unfold add_formula. repeat apply (f_equal2 pair); field; auto.
Qed.
End Steps.

(** ** alt_bn128 and bls12_381 *)
Section Twelve.
Context {K : Type} (F : Fops K) (q : nat).
Hypothesis PB : prime_base F q.
Variables (nr2 : K) (m : nat).
Hypothesis Hm : (q = 1 + 6 * m)%nat.
Hypothesis N : nonresidue F q 2 nr2.
Notation F2 := (fp2_ops F nr2).
Variable nr6 : K * K.
Hypothesis N2 : nonresidue F2 (q ^ 2) 2 nr6.
Hypothesis N3 : nonresidue F2 (q ^ 2) 3 nr6.
Notation F12 := (fp12_ops F nr2 nr6 nr6).
Variables (t2 : list K) (t61 t62 t12 : list (K * K)).
Hypothesis T2 : frob_table F q 2 1 2 nr2 t2.
Hypothesis T61 : frob_table F2 q 3 1 6 nr6 t61.
Hypothesis T62 : frob_table F2 q 3 2 6 nr6 t62.
Hypothesis T12 : frob_table F2 q 6 1 12 nr6 t12.
Variables (zz : list Z) (z_neg : bool).
Hypothesis Lz : limbs zz.
Variables (lc : bigint) (neg : bool) (n : positive).
Hypothesis Llc : limbs lc.
Hypothesis Hlc : val lc = Z.pos n.
Variable twist_b : K * K.
Let FK : field_ok F := pb_field F q PB.
Let GK : field_ok F2 := two_field F q PB nr2 m Hm N.
Let TK : field_ok F12 := fp12_is_field F q PB nr2 m Hm N nr6 N2 N3.
Let RF := fk_ring F FK.
Let M := rk_monoid F12 (fk_ring F12 TK).
Notation emb := (emb12 F2).
Notation w := (w12 F2).
Notation "x ^^ k" := (zpow (o1 F12) (omul F12) x k) (at level 30).
Notation fe := (first_exponent q).
Add Ring MTWring : (rk_ring F12 (fk_ring F12 (fp12_is_field F q PB nr2 m Hm N nr6 N2 N3))).
Add Ring MTGring : (rk_ring F2 (fk_ring F2 (two_field F q PB nr2 m Hm N))).

(** Factors that the first part of the final exponentiation maps to 1. *)
Definition kill12 (k : (K * K) * (K * K) * (K * K) * ((K * K) * (K * K) * (K * K))) : Prop := k <> o0 F12 /\ k ^^ fe = o1 F12.
Lemma fe_nonneg : (0 <= fe)%Z. Proof. exact (first_nonneg F q PB m Hm zz z_neg). Qed.
Lemma zpow_distr x y k : (0 <= k)%Z -> omul F12 x y ^^ k = omul F12 (x ^^ k) (y ^^ k).
Proof. intros _. apply (npow_mul_distr _ _ M). apply (rk_mul_comm F12 (fk_ring F12 TK)). Qed.
Lemma kill12_kills : kills F12 kill12.
Proof.
  constructor.
  - now intros k [H _].
  - split; [apply (fk_1_neq_0 F12 TK)|]. apply (npow_one _ _ M).
  - intros k l [H1 H2] [H3 H4]. split; [now apply (fk_mul_neq_0 F12 TK)|].
    rewrite zpow_distr by apply fe_nonneg. rewrite H2, H4. ring.
  - intros k [H1 H2]. destruct (tinv_spec F12 TK k H1) as [_ I]. split.
    + intros Z. rewrite Z in I. apply (fk_1_neq_0 F12 TK). rewrite <- I. ring.
    + assert (J : omul F12 (tinv F12 k ^^ fe) (k ^^ fe) = o1 F12).
      { rewrite <- zpow_distr, I by apply fe_nonneg. apply (npow_one _ _ M). }
      rewrite H2 in J. etransitivity; [|exact J]. ring.
Qed.
Let p := Z.of_nat q.
Lemma pp k : (0 <= k)%Z -> (1 <= p ^ k)%Z. Proof. exact (p_pow_pos F q PB m Hm zz z_neg k). Qed.
Lemma six_pow c : (c, o0 (fp6_3over2_ops F nr2 nr6)) <> o0 F12 -> (c, o0 (fp6_3over2_ops F nr2 nr6)) ^^ (p ^ 6 - 1) = o1 F12.
Proof.
  intros H. apply (zpow_fix F12 TK); auto; [apply pp; lia|].
  rewrite <- (uinv_pow F q PB nr2 m Hm N nr6 N2 N3 zz z_neg). unfold quad_unitary_inverse. f_equal.
  pose proof (rk_ring _ (fp3_ring F2 (fk_ring F2 GK) nr6)) as RR. exact (ARopp_zero (Eqsth _) (Eq_ext _ _ _) (Rth_ARth (Eqsth _) (Eq_ext _ _ _) RR)).
Qed.
Lemma kill_six c : (c, o0 (fp6_3over2_ops F nr2 nr6)) <> o0 F12 -> kill12 (c, o0 (fp6_3over2_ops F nr2 nr6)).
Proof.
  intros H. split; auto. unfold first_exponent. fold p. pose proof (pp 6). pose proof (pp 2).
  rewrite (zpow_mul _ _ M), six_pow by (auto; lia). apply (npow_one _ _ M).
Qed.
Lemma kill_emb c : c <> o0 F2 -> kill12 (emb c).
Proof.
  intros H. apply kill_six. intros E. apply H. now injection E.
Qed.
Lemma W6 : omul F12 (omul F12 w w) (omul F12 (omul F12 w w) (omul F12 w w)) = emb nr6.
Proof. exact (w12_6 F2 GK nr6). Qed.
Lemma nr6_ne : nr6 <> o0 F2. Proof. apply N2. Qed.
Lemma kill_w3 : kill12 (omul F12 (omul F12 w w) w).
Proof.
  pose proof (w12_0 F2 GK nr6) as W. split; [repeat apply (fk_mul_neq_0 F12 TK); exact W|].
  set (w3 := omul F12 (omul F12 w w) w).
  assert (E : w3 ^^ 2 = emb nr6).
  { rewrite <- W6. unfold w3. change (npow (o1 F12) (omul F12) (omul F12 (omul F12 w w) w) 2 = omul F12 (omul F12 w w) (omul F12 (omul F12 w w) (omul F12 w w))).
    rewrite (npow_2 _ _ M). ring. }
  pose proof (pp 6). pose proof (pp 2).
  assert (Hh : (p ^ 2 + 1 = 2 * (18 * Z.of_nat m ^ 2 + 6 * Z.of_nat m + 1))%Z) by (unfold p; rewrite Hm; rewrite Nat2Z.inj_add, Nat2Z.inj_mul; cbn [Z.of_nat]; ring).
  unfold first_exponent. fold p. rewrite Hh, (Z.mul_comm 2), Z.mul_assoc, Z.mul_comm.
  rewrite (zpow_mul _ _ M), E by nia. rewrite (zpow_mul _ _ M) by nia. unfold MillerSpec.emb12.
  change ((o0 F2, o0 F2, o0 F2)) with (o0 (fp6_3over2_ops F nr2 nr6)).
  rewrite six_pow; [apply (npow_one _ _ M)|]. intros X. apply nr6_ne. now injection X.
Qed.
(** The final exponentiations do not see such factors. *)
Lemma upto_pow f g : upto F12 kill12 f g -> f ^^ fe = g ^^ fe.
Proof. intros (k & [_ E] & ->). rewrite zpow_distr by apply fe_nonneg. rewrite E. ring. Qed.
Lemma bn_upto f g : upto F12 kill12 f g ->
  bn_final_exponentiation F nr2 nr6 nr6 t2 t61 t62 t12 zz z_neg f = bn_final_exponentiation F nr2 nr6 nr6 t2 t61 t62 t12 zz z_neg g.
Proof.
  intros U. pose proof (upto_0 F12 TK kill12 kill12_kills f g U) as Z. destruct (rk_dec F12 (fk_ring F12 TK) g (o0 F12)) as [G|G].
  - rewrite (proj2 Z G), G. reflexivity.
  - assert (Ff : f <> o0 F12) by tauto.
    rewrite !(bn_final F q PB nr2 m Hm N nr6 N2 N3 t2 t61 t62 t12 T2 T61 T62 T12 zz z_neg Lz) by auto. now rewrite (upto_pow f g U).
Qed.
Lemma bls_upto f g : upto F12 kill12 f g ->
  bls_final_exponentiation F nr2 nr6 nr6 t2 t61 t62 t12 zz z_neg f = bls_final_exponentiation F nr2 nr6 nr6 t2 t61 t62 t12 zz z_neg g.
Proof.
  intros U. pose proof (upto_0 F12 TK kill12 kill12_kills f g U) as Z. destruct (rk_dec F12 (fk_ring F12 TK) g (o0 F12)) as [G|G].
  - rewrite (proj2 Z G), G. reflexivity.
  - assert (Ff : f <> o0 F12) by tauto.
    rewrite !(bls_final F q PB nr2 m Hm N nr6 N2 N3 t2 t61 t62 t12 T2 T61 T62 T12 zz z_neg Lz) by auto. now rewrite (upto_pow f g U).
Qed.

Notation E := (K * K)%type.
Notation eF := (quad_emb F).
Lemma scale_spec s x : quad_scale (omul F) s x = omul F2 (eF s) x.
Proof. apply (quad_scale_spec F (omul F nr2) nr2 RF (fun _ => eq_refl)). Qed.
Lemma dbl_step_eq ti cur : bn_doubling_step F nr2 twist_b ti cur = dbl_formula F2 twist_b (eF ti) cur.
Proof.
  destruct cur as [[X Y] Z]. unfold bn_doubling_step, dbl_formula. rewrite !scale_spec, !(rk_sqr F2 (fk_ring F2 GK)). reflexivity.
Qed.
Lemma add_step_eq base cur : bn_mixed_addition_step F nr2 base cur = add_formula F2 base cur.
Proof.
  destruct cur as [[X Y] Z], base as [[x2 y2] z2]. unfold bn_mixed_addition_step, add_formula.
  rewrite !(rk_sqr F2 (fk_ring F2 GK)). reflexivity.
Qed.
Lemma eF_two ti : omul F ti (Fq_two F) = o1 F -> omul F2 (eF ti) (oadd F2 (o1 F2) (o1 F2)) = o1 F2.
Proof.
  intros H. transitivity (eF (omul F ti (Fq_two F))); [|now rewrite H].
  rewrite (quad_emb_mul F (omul F nr2) nr2 RF (fun _ => eq_refl)). unfold Fq_two.
  rewrite (quad_emb_add F (omul F nr2) RF). reflexivity.
Qed.

(** One side: the isomorphism with the curve over Fp12 and the lines. *)
Section Side.
Variables (u : (E * E * E) * (E * E * E)) (dl al : E * E * E -> E * E * E) (ln : K * K -> E * E * E -> (E * E * E) * (E * E * E)).
Hypothesis u_0 : u <> o0 F12.
Notation uu := (omul F12 u u).
Notation u3 := (omul F12 (omul F12 u u) u).
Hypothesis DL : forall c l x y J xP yP, c <> o0 F2 -> oadd F2 (oadd F2 J J) J = oopp F2 (omul F2 c l) ->
  upto F12 kill12 (ln (xP, yP) (dl (omul F2 c (osub F2 (omul F2 l x) y), oopp F2 c, J)))
    (line_val F12 (omul F12 (emb l) u) (omul F12 (emb x) uu) (omul F12 (emb y) u3) (emb (eF xP)) (emb (eF yP))).
Hypothesis AL : forall c l x y xP yP, c <> o0 F2 ->
  upto F12 kill12 (ln (xP, yP) (al (omul F2 c (osub F2 (omul F2 l x) y), c, omul F2 c l)))
    (line_val F12 (omul F12 (emb l) u) (omul F12 (emb x) uu) (omul F12 (emb y) u3) (emb (eF xP)) (emb (eF yP))).
Hypothesis VT : forall x xP, exists c, osub F12 (emb xP) (omul F12 (emb x) uu) = (c, o0 (fp6_3over2_ops F nr2 nr6)).
Notation Psi := (psi F12 emb u).
Variables (ti : K) (xP yP : K).
Hypothesis Hti : omul F ti (Fq_two F) = o1 F.
Notation aT := (o0 F12).
Lemma tw_a_0 : tw_a F12 emb u (o0 F2) = o0 F12.
Proof. unfold tw_a. change (emb (o0 F2)) with (o0 F12). ring. Qed.
Definition rep12 (R : E * E * E) (S : apt ((E * E * E) * (E * E * E))) : Prop :=
  exists x y z, z <> o0 F2 /\ R = (omul F2 x z, omul F2 y z, z) /\ sw_on F2 (o0 F2) twist_b (Aff x y) /\ S = Psi (Aff x y).
Definition sdbl (R : E * E * E) : E * E * E * (E * E * E) :=
  let '(R, l) := bn_doubling_step F nr2 twist_b ti R in (R, dl l).
Definition sadd (Q R : E * E * E) : E * E * E * (E * E * E) :=
  let '(R, l) := bn_mixed_addition_step F nr2 Q R in (R, al l).

Lemma side_dbl R S : rep12 R S -> regular_dbl F12 aT S (emb (eF xP)) ->
  rep12 (fst (sdbl R)) (sw_add F12 aT S S) /\
  upto F12 kill12 (ln (xP, yP) (snd (sdbl R))) (line_at F12 aT S S (emb (eF xP)) (emb (eF yP))).
Proof.
  intros (x & y & z & Nz & -> & O & ->) [Hy _]. cbn [psi] in Hy.
  apply (u3_0 F2 F12 TK emb u (emb12_0 F2 nr6) (emb12_add F2 GK nr6) (emb12_inj F2) u_0) in Hy.
  destruct (step_dbl F2 GK twist_b (eF ti) x y z Nz Hy (eF_two ti Hti) O) as (l & c & x3 & y3 & z3 & Nc & Nz3 & Hl & H3 & Ef & Hj).
  destruct (psi_dbl F2 F12 TK emb u (emb12_0 F2 nr6) (emb12_add F2 GK nr6) (emb12_sub F2 GK nr6) (emb12_mul F2 GK nr6) (emb12_inj F2) u_0
    (o0 F2) x y l Hy Hl) as [P1 P2]. rewrite tw_a_0 in P1, P2.
  unfold sdbl. rewrite dbl_step_eq, Ef. cbn [fst snd]. split.
  - exists x3, y3, z3. rewrite <- P1, H3. repeat split; auto. rewrite <- H3. now apply (third_dbl_on F2 GK).
  - rewrite P2. now apply DL.
Qed.
(** Addition of an arbitrary point (x2, y2). *)
Lemma side_add_any R S x2 y2 z2 : (exists x y z, z <> o0 F2 /\ R = (omul F2 x z, omul F2 y z, z) /\ S = Psi (Aff x y)) ->
  regular_add F12 aT S (Psi (Aff x2 y2)) (emb (eF xP)) ->
  (exists x y z, z <> o0 F2 /\ fst (sadd (x2, y2, z2) R) = (omul F2 x z, omul F2 y z, z) /\
     sw_add F12 aT S (Psi (Aff x2 y2)) = Psi (Aff x y)) /\
  upto F12 kill12 (ln (xP, yP) (snd (sadd (x2, y2, z2) R))) (line_at F12 aT S (Psi (Aff x2 y2)) (emb (eF xP)) (emb (eF yP))).
Proof.
  intros (x & y & z & Nz & -> & ->) [Hx _]. cbn [psi] in Hx.
  assert (Nx : x <> x2) by (intros X; apply Hx; now rewrite X).
  destruct (step_add F2 GK x y z x2 y2 z2 Nz Nx) as (l & c & x3 & y3 & z3 & Nc & Nz3 & Hl & H3 & Ef).
  destruct (psi_addition F2 F12 TK emb u (emb12_sub F2 GK nr6) (emb12_mul F2 GK nr6) (emb12_inj F2) u_0
    (o0 F2) x y x2 y2 l Nx Hl) as [P1 P2]. rewrite tw_a_0 in P1, P2.
  unfold sadd. rewrite add_step_eq, Ef. cbn [fst snd]. split.
  - exists x3, y3, z3. rewrite <- P1, H3. repeat split; auto.
  - rewrite P2. now apply AL.
Qed.
Lemma side_add R S x2 y2 z2 : sw_on F2 (o0 F2) twist_b (Aff x2 y2) -> rep12 R S ->
  regular_add F12 aT S (Psi (Aff x2 y2)) (emb (eF xP)) ->
  rep12 (fst (sadd (x2, y2, z2) R)) (sw_add F12 aT S (Psi (Aff x2 y2))) /\
  upto F12 kill12 (ln (xP, yP) (snd (sadd (x2, y2, z2) R))) (line_at F12 aT S (Psi (Aff x2 y2)) (emb (eF xP)) (emb (eF yP))).
Proof.
  intros O2 (x & y & z & Nz & -> & O & ->) [Hx _]. cbn [psi] in Hx.
  assert (Nx : x <> x2) by (intros X; apply Hx; now rewrite X).
  destruct (step_add F2 GK x y z x2 y2 z2 Nz Nx) as (l & c & x3 & y3 & z3 & Nc & Nz3 & Hl & H3 & Ef).
  destruct (psi_addition F2 F12 TK emb u (emb12_sub F2 GK nr6) (emb12_mul F2 GK nr6) (emb12_inj F2) u_0
    (o0 F2) x y x2 y2 l Nx Hl) as [P1 P2]. rewrite tw_a_0 in P1, P2.
  unfold sadd. rewrite add_step_eq, Ef. cbn [fst snd]. split.
  - exists x3, y3, z3. rewrite <- P1, H3. repeat split; auto. rewrite <- H3. now apply (third_add_on F2 GK _ _ x y x2 y2).
  - rewrite P2. now apply AL.
Qed.
Lemma side_vert S : (exists x y, S = Psi (Aff x y)) -> vertical_at F12 S (emb (eF xP)) <> o0 F12 ->
  kill12 (vertical_at F12 S (emb (eF xP))).
Proof.
  intros (x & y & ->). cbn [psi vertical_at]. destruct (VT x (eF xP)) as [c ->]. apply kill_six.
Qed.

Lemma side_loop x y z2 : sw_on F2 (o0 F2) twist_b (Aff x y) -> regular F12 aT n (Psi (Aff x y)) (emb (eF xP)) ->
  exists R cs f, bit_loop lc (bn_precompute_body F nr2 twist_b dl al ti (x, y, z2)) (S (max_bits lc)) false ((x, y, o1 F2), []) = Ok (R, cs) /\
    rep12 R (mult F12 aT n (Psi (Aff x y))) /\
    upto F12 kill12 f (miller F12 aT n (Psi (Aff x y)) (emb (eF xP)) (emb (eF yP))) /\
    forall ds, mfold (one_body F12 (ln (xP, yP)) (ln (xP, yP)) (cs ++ ds)) (below (val lc)) (o1 F12, O) = Ok (f, length cs).
Proof.
  intros O Rg.
  destruct (miller_loop F12 TK aT kill12 kill12_kills rep12 sdbl (sadd (x, y, z2)) (ln (xP, yP)) (ln (xP, yP)) (Psi (Aff x y))
    (emb (eF xP)) (emb (eF yP))) with (R0 := (x, y, o1 F2)) (n := n) as (R & cs & f & E1 & E2 & E3 & E4).
  - intros; now apply side_dbl.
  - intros; now apply side_add.
  - intros R S (x' & y' & z' & _ & _ & _ & ->). apply side_vert. eauto.
  - exists x, y, (o1 F2). repeat split; auto; [apply (fk_1_neq_0 F2 GK)|]. repeat apply (f_equal2 pair); auto; ring.
  - exact Rg.
  - exists R, cs, f. split; [|split; [exact E2|split; [exact E3|]]].
    + rewrite bit_loop_skip by (auto; apply loop_bound; auto). rewrite Hlc, <- E1.
      apply mfold_ext. intros b [R0 cs0]. unfold bn_precompute_body, push_body, sdbl, sadd.
      destruct (bn_doubling_step F nr2 twist_b ti R0) as [R1 l1].
      destruct b; [|reflexivity]. destruct (bn_mixed_addition_step F nr2 (x, y, z2) R1) as [R2 l2]. reflexivity.
    + rewrite Hlc. exact E4.
Qed.
End Side.

Lemma two_ok : exists ti, oinv F (Fq_two F) = Ok ti /\ omul F ti (Fq_two F) = o1 F.
Proof.
  destruct (two_inv_ok F q PB m Hm) as [ti E]. exists ti. split; auto.
  destruct (rk_dec F RF (Fq_two F) (o0 F)) as [Z|Z].
  - rewrite Z, (fk_inv_0 F FK) in E. discriminate.
  - destruct (fk_inv F FK _ Z) as (y & E' & Hy). rewrite E in E'. injection E' as <-. now rewrite (rk_mul_comm F RF).
Qed.

Lemma g1_at P xP yP : jac_den F P = Aff xP yP -> bn_precompute_G1 F P = Ok (xP, yP).
Proof. intros D. unfold bn_precompute_G1. now rewrite (jac_to_affine_at F FK P xP yP D). Qed.

(** *** bls12_381: M-type twist *)
Notation uM := (tinv F12 w).
Lemma uM_0 : uM <> o0 F12.
Proof.
  pose proof (w12_0 F2 GK nr6) as W. destruct (tinv_spec F12 TK w W) as [_ I]. intros Z. rewrite Z in I.
  apply (fk_1_neq_0 F12 TK). rewrite <- I. ring.
Qed.
Lemma bls_DL c l x y J xP yP : c <> o0 F2 -> oadd F2 (oadd F2 J J) J = oopp F2 (omul F2 c l) ->
  upto F12 kill12 (line045 F nr2 (xP, yP) (bls_dbl_line F nr2 nr6 (omul F2 c (osub F2 (omul F2 l x) y), oopp F2 c, J)))
    (line_val F12 (omul F12 (emb l) uM) (omul F12 (emb x) (omul F12 uM uM)) (omul F12 (emb y) (omul F12 (omul F12 uM uM) uM)) (emb (eF xP)) (emb (eF yP))).
Proof.
  intros Nc HJ. unfold bls_dbl_line, line045. cbn [fst snd]. rewrite !scale_spec, HJ.
  replace (omul F2 (oopp F2 nr6) (oopp F2 c)) with (omul F2 nr6 c) by ring.
  exists (emb (omul F2 nr6 c)). split; [|exact (line_M F2 GK nr6 TK c l x y (eF xP) (eF yP))].
  apply kill_emb. apply (fk_mul_neq_0 F2 GK); auto. exact nr6_ne.
Qed.
Lemma bls_AL c l x y xP yP : c <> o0 F2 ->
  upto F12 kill12 (line045 F nr2 (xP, yP) (bls_add_line F nr2 nr6 (omul F2 c (osub F2 (omul F2 l x) y), c, omul F2 c l)))
    (line_val F12 (omul F12 (emb l) uM) (omul F12 (emb x) (omul F12 uM uM)) (omul F12 (emb y) (omul F12 (omul F12 uM uM) uM)) (emb (eF xP)) (emb (eF yP))).
Proof.
  intros Nc. unfold bls_add_line, line045. cbn [fst snd]. rewrite !scale_spec.
  exists (emb (omul F2 nr6 c)). split; [|exact (line_M F2 GK nr6 TK c l x y (eF xP) (eF yP))].
  apply kill_emb. apply (fk_mul_neq_0 F2 GK); auto. exact nr6_ne.
Qed.
Lemma bls_VT x xP : exists c, osub F12 (emb xP) (omul F12 (emb x) (omul F12 uM uM)) = (c, o0 (fp6_3over2_ops F nr2 nr6)).
Proof. exact (vert_M F2 GK nr6 TK nr6_ne x xP). Qed.

(** Sign of the loop count. *)
Lemma signed_upto u f xP yP x y :
  (forall x xP, exists c, osub F12 (emb xP) (omul F12 (emb x) (omul F12 u u)) = (c, o0 (fp6_3over2_ops F nr2 nr6))) ->
  (exists x' y', mult F12 (o0 F12) n (psi F12 emb u (Aff x y)) = psi F12 emb u (Aff x' y')) ->
  regular_signed F12 (o0 F12) neg n (psi F12 emb u (Aff x y)) (emb (eF xP)) ->
  upto F12 kill12 f (miller F12 (o0 F12) n (psi F12 emb u (Aff x y)) (emb (eF xP)) (emb (eF yP))) ->
  (exists g, (if neg then oinv F12 f else Ok f) = Ok g /\
    upto F12 kill12 g (miller_signed F12 (o0 F12) neg n (psi F12 emb u (Aff x y)) (emb (eF xP)) (emb (eF yP)))) \/
  (if neg then oinv F12 f else Ok f) = AssertFail /\
    miller_signed F12 (o0 F12) neg n (psi F12 emb u (Aff x y)) (emb (eF xP)) (emb (eF yP)) = o0 F12.
Proof.
  intros VT' (x' & y' & Em) [_ Rv] U. unfold miller_signed. destruct neg; [|left; eauto].
  specialize (Rv eq_refl). rewrite Em in *. cbn [psi vertical_at] in *. destruct (VT' x' (eF xP)) as [c Ec]. rewrite Ec in *.
  pose proof (kill_six c Rv) as Kc. set (g := miller _ _ _ _ _ _) in *.
  pose proof (upto_0 F12 TK kill12 kill12_kills f g U) as Z. destruct (rk_dec F12 (fk_ring F12 TK) g (o0 F12)) as [G|G].
  - right. rewrite (proj2 Z G). split; [apply (fk_inv_0 F12 TK)|]. rewrite G, (rk_mul_0_l F12 (fk_ring F12 TK)).
    unfold tinv. now rewrite (fk_inv_0 F12 TK).
  - left. assert (Nf : f <> o0 F12) by tauto. destruct (tinv_spec F12 TK f Nf) as [-> _]. exists (tinv F12 f). split; auto.
    apply (upto_inv F12 TK kill12 kill12_kills); [now apply (fk_mul_neq_0 F12 TK)|].
    destruct U as (k & Kk & ->). exists (omul F12 k (tinv F12 (c, o0 (fp6_3over2_ops F nr2 nr6)))). split.
    + apply (kill_mul F12 kill12 kill12_kills); auto. now apply (kill_inv F12 kill12 kill12_kills).
    + destruct (tinv_spec F12 TK _ Rv) as [_ I]. set (ci := tinv F12 (c, _)) in *. set (cc := (c, _)) in *.
      transitivity (omul F12 (omul F12 k g) (omul F12 ci cc)); [rewrite I; ring|ring].
Qed.

Theorem bls_textbook P Q xP yP x y : jac_den F P = Aff xP yP -> jac_den F2 Q = Aff x y -> sw_on F2 (o0 F2) twist_b (Aff x y) ->
  regular_signed F12 (o0 F12) neg n (psi F12 emb uM (Aff x y)) (emb (eF xP)) ->
  bls_reduced_pairing F nr2 nr6 nr6 t2 t61 t62 t12 nr6 twist_b lc neg zz z_neg P Q =
  bls_final_exponentiation F nr2 nr6 nr6 t2 t61 t62 t12 zz z_neg
    (miller_signed F12 (o0 F12) neg n (psi F12 emb uM (Aff x y)) (emb (eF xP)) (emb (eF yP))).
Proof.
  intros DP DQ O Rg. unfold bls_reduced_pairing, bls_pairing. rewrite (g1_at P xP yP DP). cbn [bind].
  unfold bls_precompute_G2. rewrite (jac_to_affine_at F2 GK Q x y DQ). cbn [bind].
  destruct two_ok as (ti & -> & Hti). cbn [bind].
  destruct (side_loop uM (bls_dbl_line F nr2 nr6) (bls_add_line F nr2 nr6) (line045 F nr2) uM_0 bls_DL bls_AL bls_VT ti xP yP Hti x y (o1 F2) O (proj1 Rg))
    as (R & cs & f & -> & ER & U & Hf). cbn [bind].
  unfold bls_miller_loop, miller_value, bls_miller_loop_idx.
  rewrite (loop_one F nr2 nr6 TK lc Llc _ (line045 F nr2) (mul_line_045 F RF nr2 nr6)).
  specialize (Hf []). rewrite app_nil_r in Hf. rewrite Hf. cbn [bind].
  assert (Em : exists x' y', mult F12 (o0 F12) n (psi F12 emb uM (Aff x y)) = psi F12 emb uM (Aff x' y')).
  { destruct ER as (x' & y' & z' & _ & _ & _ & E'). eauto. }
  destruct (signed_upto uM f xP yP x y bls_VT Em Rg U) as [(g & -> & Ug)|[-> ->]]; cbn [bind].
  - now apply bls_upto.
  - symmetry. apply (bls_zero F q PB nr2 m Hm N nr6 N2 N3).
Qed.

(** *** alt_bn128: D-type twist *)
Lemma alt_DL c l x y J xP yP : c <> o0 F2 -> oadd F2 (oadd F2 J J) J = oopp F2 (omul F2 c l) ->
  upto F12 kill12 (line024 F nr2 (xP, yP) (alt_dbl_line F nr2 nr6 (omul F2 c (osub F2 (omul F2 l x) y), oopp F2 c, J)))
    (line_val F12 (omul F12 (emb l) w) (omul F12 (emb x) (omul F12 w w)) (omul F12 (emb y) (omul F12 (omul F12 w w) w)) (emb (eF xP)) (emb (eF yP))).
Proof.
  intros Nc HJ. unfold alt_dbl_line, line024. cbn [fst snd]. rewrite !scale_spec, HJ.
  replace (oopp F2 (oopp F2 c)) with c by ring.
  exists (omul F12 (emb c) (omul F12 (omul F12 w w) w)). split; [|exact (line_D F2 GK nr6 TK c l x y (eF xP) (eF yP))].
  apply (kill_mul F12 kill12 kill12_kills); [now apply kill_emb|apply kill_w3].
Qed.
Lemma alt_AL c l x y xP yP : c <> o0 F2 ->
  upto F12 kill12 (line024 F nr2 (xP, yP) (alt_add_line F nr2 nr6 (omul F2 c (osub F2 (omul F2 l x) y), c, omul F2 c l)))
    (line_val F12 (omul F12 (emb l) w) (omul F12 (emb x) (omul F12 w w)) (omul F12 (emb y) (omul F12 (omul F12 w w) w)) (emb (eF xP)) (emb (eF yP))).
Proof.
  intros Nc. unfold alt_add_line, line024. cbn [fst snd]. rewrite !scale_spec.
  exists (omul F12 (emb c) (omul F12 (omul F12 w w) w)). split; [|exact (line_D F2 GK nr6 TK c l x y (eF xP) (eF yP))].
  apply (kill_mul F12 kill12 kill12_kills); [now apply kill_emb|apply kill_w3].
Qed.
Lemma alt_VT x xP : exists c, osub F12 (emb xP) (omul F12 (emb x) (omul F12 w w)) = (c, o0 (fp6_3over2_ops F nr2 nr6)).
Proof. exact (vert_D F2 GK nr6 x xP). Qed.
Lemma alt_w_0 : w <> o0 F12. Proof. exact (w12_0 F2 GK nr6). Qed.

Lemma emb_pow x k : fpow F12 (emb x) k = emb (fpow F2 x k).
Proof.
  induction k as [|k IH]; [reflexivity|]. cbn [npow]. rewrite IH. symmetry. exact (emb12_mul F2 GK nr6 x _).
Qed.
Lemma emb_mul12 x y : emb (omul F2 x y) = omul F12 (emb x) (emb y).
Proof. exact (emb12_mul F2 GK nr6 x y). Qed.
Lemma emb_opp12 x : emb (oopp F2 x) = oopp F12 (emb x).
Proof. exact (emb12_opp F2 GK nr6 x). Qed.
Lemma frob2 x : fp2_frobenius F t2 1 x = fpow F2 x q.
Proof.
  rewrite (fp2_frob_spec F q PB nr2 t2 1 x).
  - f_equal. change (Z.to_nat 1) with 1%nat. apply Nat.pow_1_r.
  - apply N.
  - exists (3 * m)%nat. lia.
  - lia.
  - exact T2.
Qed.
(** Multiplication by q on the twist is the Frobenius of the curve over Fp12,
    whenever the two constants are the right ones. *)
Lemma mul_by_q_frob u qX qY x y :
  omul F12 (emb qX) (omul F12 u u) = fpow F12 (omul F12 u u) q ->
  omul F12 (emb qY) (omul F12 (omul F12 u u) u) = fpow F12 (omul F12 (omul F12 u u) u) q ->
  psi F12 emb u (Aff (omul F2 qX (fp2_frobenius F t2 1 x)) (omul F2 qY (fp2_frobenius F t2 1 y))) =
  frob_pt F12 q (psi F12 emb u (Aff x y)).
Proof.
  intros HqX HqY. cbn [psi frob_pt]. rewrite !frob2. 
  rewrite (npow_mul_distr _ _ M (rk_mul_comm F12 (fk_ring F12 TK)) (emb x)), (npow_mul_distr _ _ M (rk_mul_comm F12 (fk_ring F12 TK)) (emb y)).
  rewrite <- HqX, <- HqY, !emb_mul12, !emb_pow. f_equal; ring.
Qed.
Lemma psi_opp u x y : psi F12 emb u (Aff x (oopp F2 y)) = sw_opp F12 (psi F12 emb u (Aff x y)).
Proof. cbn [psi sw_opp]. f_equal. rewrite emb_opp12. ring. Qed.

Variables qX qY : K * K.
Hypothesis HqX : omul F12 (emb qX) (omul F12 w w) = fpow F12 (omul F12 w w) q.
Hypothesis HqY : omul F12 (emb qY) (omul F12 (omul F12 w w) w) = fpow F12 (omul F12 (omul F12 w w) w) q.

Theorem alt_textbook P Q xP yP x y : jac_den F P = Aff xP yP -> jac_den F2 Q = Aff x y -> sw_on F2 (o0 F2) twist_b (Aff x y) ->
  regular_optimal F12 (o0 F12) q neg n (psi F12 emb w (Aff x y)) (emb (eF xP)) ->
  alt_reduced_pairing F nr2 nr6 nr6 t2 t61 t62 t12 nr6 twist_b qX qY lc neg zz z_neg P Q =
  bn_final_exponentiation F nr2 nr6 nr6 t2 t61 t62 t12 zz z_neg
    (optimal_ate F12 (o0 F12) q neg n (psi F12 emb w (Aff x y)) (emb (eF xP)) (emb (eF yP))).
Proof.
  intros DP DQ O (Rg & Ra1 & Ra2). unfold alt_reduced_pairing, alt_pairing. rewrite (g1_at P xP yP DP). cbn [bind].
  unfold alt_precompute_G2. rewrite (jac_to_affine_at F2 GK Q x y DQ). cbn [bind].
  destruct two_ok as (ti & -> & Hti). cbn [bind].
  destruct (side_loop w (alt_dbl_line F nr2 nr6) (alt_add_line F nr2 nr6) (line024 F nr2) alt_w_0 alt_DL alt_AL alt_VT ti xP yP Hti x y (o1 F2) O (proj1 Rg))
    as (R & cs & f & -> & ER & U & Hf). cbn [bind].
  set (S0 := psi F12 emb w (Aff x y)) in *.
  assert (F1 : fp2_frobenius F t2 1 (o1 F2) = o1 F2) by (rewrite frob2; apply (npow_one _ _ (rk_monoid F2 (fk_ring F2 GK)))).
  cbn [bn_mul_by_q snd]. rewrite !F1, (rk_eqb_refl F2 (fk_ring F2 GK)). unfold assert_then.
  pose proof (mul_by_q_frob w qX qY x y HqX HqY) as H1. set (x1 := omul F2 qX (fp2_frobenius F t2 1 x)) in *. set (y1 := omul F2 qY (fp2_frobenius F t2 1 y)) in *.
  pose proof (mul_by_q_frob w qX qY x1 y1 HqX HqY) as H2. rewrite H1 in H2. set (x2 := omul F2 qX (fp2_frobenius F t2 1 x1)) in *. set (y2 := omul F2 qY (fp2_frobenius F t2 1 y1)) in *.
  fold S0 in H1, H2.
  assert (H2' : psi F12 emb w (Aff x2 (oopp F2 y2)) = sw_opp F12 (frob_pt F12 q (frob_pt F12 q S0))) by (rewrite psi_opp; now f_equal).
  assert (Em : exists x' y', mult F12 (o0 F12) n S0 = psi F12 emb w (Aff x' y')).
  { destruct ER as (x' & y' & z' & _ & _ & _ & E'). eauto. }
  set (Rs := if neg then (fst (fst R), oopp F2 (snd (fst R)), snd R) else R).
  assert (ERs : exists x y z, z <> o0 F2 /\ Rs = (omul F2 x z, omul F2 y z, z) /\ mult_signed F12 (o0 F12) neg n S0 = psi F12 emb w (Aff x y)).
  { destruct ER as (x' & y' & z' & Nz & EE & _ & E'). unfold Rs, mult_signed. destruct neg.
    - exists x', (oopp F2 y'), z'. split; auto. rewrite EE. cbn [fst snd]. split; [repeat apply (f_equal2 pair); auto; ring|].
      rewrite psi_opp. now f_equal.
    - exists x', y', z'. auto. }
  destruct R as [[RX RY] RZ]. cbn [fst snd] in Rs. fold Rs.
  rewrite <- H2' in Ra2. rewrite <- H1 in Ra1, Ra2.
  destruct (side_add_any w (alt_add_line F nr2 nr6) (line024 F nr2) alt_w_0 alt_AL xP yP Rs _ x1 y1 (o1 F2) ERs Ra1) as [E1 U1].
  destruct (side_add_any w (alt_add_line F nr2 nr6) (line024 F nr2) alt_w_0 alt_AL xP yP _ _ x2 (oopp F2 y2) (o1 F2) E1 Ra2) as [E2 U2].
  unfold sadd in E1, U1, E2, U2.
  destruct (bn_mixed_addition_step F nr2 (x1, y1, o1 F2) Rs) as [R1 l1]. cbn [fst snd] in *.
  destruct (bn_mixed_addition_step F nr2 (x2, oopp F2 y2, o1 F2) R1) as [R2 l2]. cbn [fst snd] in *. cbn [bind].
  unfold alt_miller_loop, miller_value, alt_miller_loop_idx.
  rewrite (loop_one F nr2 nr6 TK lc Llc _ (line024 F nr2) (mul_line_024 F RF nr2 nr6)).
  rewrite Hf. cbn [bind].
  destruct (signed_upto w f xP yP x y alt_VT Em Rg U) as [(g & -> & Ug)|[-> Hz]]; cbn [bind].
  - cbn [app]. rewrite at_idx_app. cbn [bind].
    replace (S (length cs)) with (length (cs ++ [alt_add_line F nr2 nr6 l1])) by (rewrite app_length; cbn; lia).
    replace (cs ++ alt_add_line F nr2 nr6 l1 :: [alt_add_line F nr2 nr6 l2]) with ((cs ++ [alt_add_line F nr2 nr6 l1]) ++ [alt_add_line F nr2 nr6 l2])
      by (rewrite <- app_assoc; reflexivity).
    rewrite at_idx_app. cbn [bind]. rewrite !(mul_line_024 F RF nr2 nr6). apply bn_upto.
    unfold optimal_ate. fold S0. repeat apply (upto_mul F12 TK kill12 kill12_kills).
    + exact Ug.
    + rewrite <- H1. unfold line_ratio. apply (upto_div F12 TK kill12 kill12_kills); [exact U1| |].
      * unfold regular_add in Ra1. destruct (mult_signed _ _ _ _ _) eqn:?; [tauto|]. cbn [psi] in *. tauto.
      * apply (side_vert w); [exact alt_VT| |].
        -- destruct E1 as (x' & y' & z' & _ & _ & E'). eauto.
        -- unfold regular_add in Ra1. destruct (mult_signed _ _ _ _ _) eqn:?; [tauto|]. cbn [psi] in *. tauto.
    + rewrite <- H2', <- H1. unfold line_ratio. apply (upto_div F12 TK kill12 kill12_kills); [exact U2| |].
      * unfold regular_add in Ra2. destruct (sw_add F12 (o0 F12) (mult_signed _ _ _ _ _) _) eqn:?; [tauto|]. cbn [psi] in *. tauto.
      * apply (side_vert w); [exact alt_VT| |].
        -- destruct E2 as (x' & y' & z' & _ & _ & E'). eauto.
        -- unfold regular_add in Ra2. destruct (sw_add F12 (o0 F12) (mult_signed _ _ _ _ _) _) eqn:?; [tauto|]. cbn [psi] in *. tauto.
  - symmetry. unfold optimal_ate. fold S0 in Hz. rewrite Hz, !(rk_mul_0_l F12 (fk_ring F12 TK)).
    apply (bn_zero F q PB nr2 m Hm N nr6 N2 N3).
Qed.
End Twelve.
