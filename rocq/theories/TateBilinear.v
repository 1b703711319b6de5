(** The Tate pairing: f_r,P (Q) raised to a power that kills r-th powers is
    bilinear.  P runs over points of a subfield (or a twist), Q over points on
    none of the lines through them. *)
From Coq Require Import ZArith List Bool Ring Field Lia Znumtheory.
From Verif Require Import Result Algebra FieldOps CurveSpec GroupOps GroupProofs CurveGroup CurveProofs MillerSpec MillerProofs MillerRegular MillerCocycle Cochain MillerBilinear BilinearTwelve.
Import ListNotations.
Open Scope Z_scope.

Section Points.
Context {T : Type} (F : Fops T) (FK : field_ok F) (a b : T).
Lemma ratio_inf' x y : line_ratio F a Inf Inf x y = o1 F.
Proof.
  unfold line_ratio. cbn [line_at sw_add vertical_at]. apply (tdiv_eq F FK); [apply (fk_1_neq_0 F FK)|].
  symmetry. apply (Rmul_1_l (rk_ring F (fk_ring F FK))).
Qed.
Hypothesis H2 : oadd F (o1 F) (o1 F) <> o0 F.
Hypothesis HD : sw_disc F a b <> o0 F.
Local Notation uz := (uone F FK).
Local Notation uadd := (umul F FK).
Local Notation uopp := (uinv F FK).
Local Notation UG := (ugroup F FK).
Local Notation val := (uval F).
Context {I : Type} (iz : I) (iadd : I -> I -> I) (iopp : I -> I) (IG : agroup iz iadd iopp).
Local Notation imul := (gmul iz iadd iopp).
Variable pt : I -> apt T.
Hypothesis pt_on : forall i, sw_on F a b (pt i).
Hypothesis pt_add : forall i j, pt (iadd i j) = sw_add F a (pt i) (pt j).
Hypothesis pt_0 : pt iz = Inf.
Hypothesis pt_opp : forall i, pt (iopp i) = sw_opp F (pt i).
Variables (n : positive) (E : nat).
Hypothesis pt_r : forall j, pt (imul (Z.pos n) j) = Inf.
Hypothesis KE : forall f, f <> o0 F -> fpow F (fpow F f E) (Z.to_nat (Z.pos n)) = o1 F.
Let r0 : 0 <= Z.pos n. Proof. lia. Qed.
Local Notation tv i x y := (fpow F (miller F a n (pt i) x y) E).
Lemma tate_add_i x y i j : good F a b pt x y -> omul F (tv i x y) (tv j x y) = tv (iadd i j) x y.
Proof.
  intros GD. rewrite <- (pow_mul F FK E), !(miller_val F FK a b iz iadd iopp IG pt pt_add x y GD), <- (umul_val F FK).
  pose proof (csum_add iz iadd iopp IG uz uadd uopp UG _ (gU_cocyc F FK a b H2 HD iz iadd iopp IG pt pt_on pt_add pt_0 x y GD) n i j) as H.
  assert (Z : gU F FK a pt x y (imul (Z.pos n) i) (imul (Z.pos n) j) = uz).
  { apply unit_eq. rewrite (gU_val F FK a b iadd pt pt_add x y GD), !pt_r. apply ratio_inf'. }
  rewrite Z in H. rewrite <- !(Ez_val F FK).
  rewrite (ag_comm _ _ _ UG _ uz), (ag_0_l _ _ _ UG) in H. rewrite H. f_equal.
  rewrite (gmul_distr _ _ _ UG). pose proof (kill_r F FK (Z.pos n) E r0 KE 1) as KR. rewrite Z.mul_1_r in KR. rewrite KR. apply (ag_0_l _ _ _ UG).
Qed.
Variables u1 v1 u2 v2 u3 v3 : T.
Hypotheses (G1 : good F a b pt u1 v1) (G2 : good F a b pt u2 v2) (G3 : good F a b pt u3 v3).
Hypothesis S3 : sw_add F a (Aff u1 v1) (Aff u2 v2) = Aff u3 v3.
Lemma tate_add_p i : omul F (tv i u1 v1) (tv i u2 v2) = tv i u3 v3.
Proof.
  rewrite <- (pow_mul F FK E), (miller_val F FK a b iz iadd iopp IG pt pt_add _ _ G1), (miller_val F FK a b iz iadd iopp IG pt pt_add _ _ G2),
    (miller_val F FK a b iz iadd iopp IG pt pt_add _ _ G3), <- (umul_val F FK).
  set (chi := chiU F FK a pt u1 v1 u2 v2 u3 v3).
  pose proof (csum_chi iz iadd iopp IG uz uadd uopp UG (gU F FK a pt u1 v1) (gU F FK a pt u2 v2) (gU F FK a pt u3 v3) chi
    (chiU_cob F FK a b H2 HD iadd pt pt_on pt_add u1 v1 u2 v2 u3 v3 G1 G2 G3 S3) n i) as H.
  assert (Z : chi (imul (Z.pos n) i) = uz).
  { apply unit_eq. unfold chi. rewrite (chiU_val F FK a b H2 HD pt pt_on u1 v1 u2 v2 u3 v3 G1 G2 G3 S3), pt_r. reflexivity. }
  rewrite Z in H. rewrite <- !(Ez_val F FK).
  rewrite (ag_comm _ _ _ UG _ uz), (ag_0_l _ _ _ UG) in H. rewrite H. f_equal.
  rewrite (gmul_distr _ _ _ UG). pose proof (kill_r F FK (Z.pos n) E r0 KE 1) as KR. rewrite Z.mul_1_r in KR. rewrite KR.
  rewrite (ag_comm _ _ _ UG). apply (ag_0_l _ _ _ UG).
Qed.
End Points.

Section Twist.
Context {E T : Type} (G : Fops E) (GK : field_ok G) (F : Fops T) (FK : field_ok F) (emb : E -> T) (u : T).
Hypothesis emb_0 : emb (o0 G) = o0 F.
Hypothesis emb_add : forall x y, emb (oadd G x y) = oadd F (emb x) (emb y).
Hypothesis emb_sub : forall x y, emb (osub G x y) = osub F (emb x) (emb y).
Hypothesis emb_mul : forall x y, emb (omul G x y) = omul F (emb x) (emb y).
Hypothesis emb_inj : forall x y, emb x = emb y -> x = y.
Hypothesis u_0 : u <> o0 F.
Variables a' b' : E.
Hypothesis H2 : oadd G (o1 G) (o1 G) <> o0 G.
Hypothesis HD : sw_disc G a' b' <> o0 G.
Hypothesis H2F : oadd F (o1 F) (o1 F) <> o0 F.
Notation Psi := (psi F emb u).
Notation ta := (tw_a F emb u a').
Notation tb := (tws_b F emb u b').
Variables (r : Z) (Ex : nat).
Hypothesis r_0 : 0 < r.
Hypothesis KE : forall f, f <> o0 F -> fpow F (fpow F f Ex) (Z.to_nat r) = o1 F.
Let HDF : sw_disc F ta tb <> o0 F := psi_disc G F FK emb u emb_0 emb_add emb_mul emb_inj u_0 a' b' HD.
(** The point the functions are evaluated at. *)
Record tev (x y : T) : Prop := {
  tev_on : sw_on F ta tb (Aff x y);
  tev_va : forall c d, sw_on G a' b' (Aff c d) -> osub F x (omul F (emb c) (omul F u u)) <> o0 F;
  tev_la : forall l c d, line_val F (omul F (emb l) u) (omul F (emb c) (omul F u u)) (omul F (emb d) (omul F (omul F u u) u)) x y <> o0 F
}.
Notation tor A := (torsion G a' b' r A).
Lemma tor_z A : tor A -> zmult G a' b' r A = Inf.
Proof. intros [O R]. now rewrite (zmult_mult G GK a' b' H2 HD _ _ O), Z2Pos.id in R by lia. Qed.
Section Pair.
Variables Q1 Q2 : apt E.
Hypotheses (T1 : tor Q1) (T2 : tor Q2).
Notation pt := (pt2 G F emb u a' b' Q1 Q2).
Lemma tgood x y : tev x y -> good F ta tb pt x y.
Proof.
  intros [O VN LN]. constructor; auto.
  - intros i. unfold pt2. pose proof (sp2_on G GK a' b' Q1 Q2 i) as Oi. destruct (proj1_sig (sp2 G a' b' Q1 Q2 i)); cbn [psi vertical_at]; [apply (fk_1_neq_0 F FK)|now apply (VN _ _ Oi)].
  - intros i j. unfold pt2. apply (la_psi_ne G GK F FK emb u emb_0 emb_add emb_sub emb_mul emb_inj u_0 a' b' HD H2F x y VN LN); apply (sp2_on G GK).
Qed.
Let PON := pt2_on G GK F FK emb u emb_add emb_mul a' b' Q1 Q2.
Let PADD := pt2_add G GK F FK emb u emb_0 emb_add emb_sub emb_mul emb_inj u_0 a' b' H2 HD Q1 Q2.
Let P0 := pt2_0 G GK F emb u a' b' H2 HD Q1 Q2.
Let POPP := pt2_opp G GK F FK emb u emb_0 emb_sub a' b' H2 HD Q1 Q2.
Let PR j : pt (gmul iz2 iadd2 iopp2 (Z.pos (Z.to_pos r)) j) = Inf.
Proof. rewrite Z2Pos.id by lia. apply (pt2_r G GK F emb u a' b' H2 HD Q1 Q2 r (tor_z _ T1) (tor_z _ T2)). Qed.
Let KE' f : f <> o0 F -> fpow F (fpow F f Ex) (Z.to_nat (Z.pos (Z.to_pos r))) = o1 F.
Proof. rewrite Z2Pos.id by lia. apply KE. Qed.
Notation tv A x y := (fpow F (miller F ta (Z.to_pos r) (Psi A) x y) Ex).
Theorem tate_add_P x y : tev x y -> omul F (tv Q1 x y) (tv Q2 x y) = tv (sw_add G a' Q1 Q2) x y.
Proof.
  intros TE. pose proof (tate_add_i F FK ta tb H2F HDF iz2 iadd2 iopp2 IG2 pt PON PADD P0 (Z.to_pos r) Ex PR KE' x y (1, 0) (0, 1) (tgood x y TE)) as H.
  change (iadd2 (1, 0) (0, 1)) with (1, 1) in H.
  rewrite (pt2_1 G GK F emb u a' b' H2 HD Q1 Q2 (proj1 T1)), (pt2_2 G GK F emb u a' b' H2 HD Q1 Q2 (proj1 T2)), (pt2_12 G GK F emb u a' b' H2 HD Q1 Q2 (proj1 T1) (proj1 T2)) in H.
  exact H.
Qed.
Theorem tate_add_Q u1 v1 u2 v2 u3 v3 : tev u1 v1 -> tev u2 v2 -> tev u3 v3 -> sw_add F ta (Aff u1 v1) (Aff u2 v2) = Aff u3 v3 ->
  omul F (tv Q1 u1 v1) (tv Q1 u2 v2) = tv Q1 u3 v3.
Proof.
  intros E1 E2 E3 S3.
  pose proof (tate_add_p F FK ta tb H2F HDF iz2 iadd2 iopp2 IG2 pt PON PADD (Z.to_pos r) Ex PR KE' u1 v1 u2 v2 u3 v3 (tgood _ _ E1) (tgood _ _ E2) (tgood _ _ E3) S3 (1, 0)) as H.
  rewrite (pt2_1 G GK F emb u a' b' H2 HD Q1 Q2 (proj1 T1)) in H. exact H.
Qed.
End Pair.
End Twist.
