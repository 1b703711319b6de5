(** The alt_bn128 and bls12_381 pairings with the shipped constants are
    bilinear (C49). *)
From Coq Require Import ZArith List Bool Lia Znumtheory Ring.
From Verif Require Import Mul63 FpField.
From Verif Require Import Result Algebra Limbs LimbsProofs FieldOps FpModel FpSpec FpInst ParamsModel ParamsProofs ParamsA ParamsB ParamsC ParamsD ExtModel ExtSpec ExtFrob ExtProofs ExtInst
  CurveSpec CurveGroup CurveModel CurveProofs Hom TowerModel TowerSpec TowerProofs TowerShipped FinalExpSpec FinalExpModel FinalExpProofs
  PairingModel PairingSpec PairingProofs PairingShipped NeutralProofs MillerSpec MillerProofs MillerTwelve MillerRegular MillerOrder MillerShipped GenProofs GenShipped
  MillerBilinear BilinearTwelve Cochain AlgorithmsProofs.
Import ListNotations.
Open Scope Z_scope.

Section Twelve.
Context {K : Type} (F : Fops K) (q : nat).
Hypothesis PB : prime_base F q.
Variables (nr2 : K) (m : nat).
Hypothesis Hm : (q = 1 + 6 * m)%nat.
Hypothesis N : nonresidue F q 2 nr2.
Notation F2 := (fp2_ops F nr2).
Variable nr6 : K * K.
Hypothesis N2 : nonresidue F2 (q ^ 2) 2 nr6.
Hypothesis N3 : nonresidue F2 (q ^ 2) 3 nr6.
Notation F12 := (fp12_ops F nr2 nr6 nr6).
Let FK : field_ok F := pb_field F q PB.
Let GK : field_ok F2 := two_field F q PB nr2 m Hm N.
Let TK : field_ok F12 := fp12_is_field F q PB nr2 m Hm N nr6 N2 N3.
Let M := rk_monoid F12 (fk_ring F12 TK).
Notation emb := (emb12 F2).
Notation w := (w12 F2).
Notation uM := (tinv F12 w).
Notation eF := (quad_emb F).
Notation up x := (emb (eF x)).
Add Ring BSWring : (rk_ring F12 (fk_ring F12 (fp12_is_field F q PB nr2 m Hm N nr6 N2 N3))).

Lemma q_pos : (0 < q)%nat. Proof. lia. Qed.
Lemma up_add x y : up (oadd F x y) = oadd F12 (up x) (up y).
Proof.
  rewrite <- (emb12_add F2 GK nr6). f_equal. apply (quad_emb_add F (omul F nr2) (fk_ring F FK)).
Qed.
Lemma up_mul x y : up (omul F x y) = omul F12 (up x) (up y).
Proof.
  rewrite <- (emb12_mul F2 GK nr6). f_equal. apply (quad_emb_mul F (omul F nr2) nr2 (fk_ring F FK)). reflexivity.
Qed.
Lemma ph_up x : fpow F12 (up x) q = up x.
Proof.
  assert (H : forall k, fpow F12 (up x) k = up (fpow F x k)).
  { induction k as [|k IH]; [reflexivity|]. cbn [npow]. now rewrite up_mul, IH. }
  rewrite H. do 2 f_equal. apply (pb_fermat F q PB).
Qed.
Lemma ph_add12 x y : fpow F12 (oadd F12 x y) q = oadd F12 (fpow F12 x q) (fpow F12 y q).
Proof.
  pose proof (frob_add F12 (fk_ring F12 TK) q (pb_prime F q PB)) as FA.
  assert (C12 : fnmul F12 (o1 F12) q = o0 F12).
  { assert (C2 : fnmul F2 (o1 F2) q = o0 F2) by (apply (quad_char F (omul F nr2) (fk_ring F FK)); exact (pb_char F q PB)).
    transitivity (emb (fnmul F2 (o1 F2) q)); [|now rewrite C2]. generalize q. intros k.
    induction k as [|k IH]; [reflexivity|]. cbn [npow]. rewrite IH. symmetry. exact (emb12_add F2 GK nr6 _ _). }
  specialize (FA C12 1%nat). rewrite Nat.pow_1_r in FA. apply FA.
Qed.
Lemma two_F12 : oadd F12 (o1 F12) (o1 F12) <> o0 F12.
Proof.
  intros Z. apply (two_F2 F q PB nr2 m Hm N nr6 N2 N3). change (o1 F12) with (emb (o1 F2)) in Z. change (o0 F12) with (emb (o0 F2)) in Z.
  apply (emb12_inj F2). rewrite <- Z. exact (emb12_add F2 GK nr6 _ _).
Qed.
(** The twist is isomorphic to the curve over Fp12. *)
Lemma tb_D b : tws_b F12 emb w (omul F2 (eF b) (tinv F2 nr6)) = up b.
Proof.
  unfold tws_b. rewrite (emb_mul12 F q PB nr2 m Hm N nr6).
  assert (H : omul F12 (emb (tinv F2 nr6)) (emb nr6) = o1 F12).
  { rewrite <- (emb_mul12 F q PB nr2 m Hm N nr6).
    now rewrite (proj2 (tinv_spec F2 GK nr6 (nr6_ne F q nr2 nr6 N2))). }
  pose proof (W6 F q PB nr2 m Hm N nr6) as W. 
  transitivity (omul F12 (emb (eF b)) (omul F12 (emb (tinv F2 nr6)) (omul F12 (omul F12 w w) (omul F12 (omul F12 w w) (omul F12 w w))))); [ring|].
  rewrite W, H. ring.
Qed.
Lemma tb_M b : tws_b F12 emb uM (omul F2 (eF b) nr6) = up b.
Proof.
  unfold tws_b. rewrite (emb_mul12 F q PB nr2 m Hm N nr6).
  pose proof (u_w F q PB nr2 m Hm N nr6 N2 N3) as U.
  pose proof (W6 F q PB nr2 m Hm N nr6) as W. rewrite <- W. clear W.
  generalize dependent uM. intros u U. generalize dependent w. intros w U.
  transitivity (omul F12 (emb (eF b)) (let t := omul F12 u w in omul F12 (omul F12 (omul F12 t t) t) (omul F12 (omul F12 t t) t))); [cbv zeta; ring|].
  rewrite U. cbv zeta. ring.
Qed.
End Twelve.

(** The reduced pairing as a function of two points, for the two textbook
    pairings and an abstract twist. *)
Section Values.
Context {K : Type} (F : Fops K) (q : nat).
Hypothesis PB : prime_base F q.
Variables (nr2 : K) (m : nat).
Hypothesis Hm : (q = 1 + 6 * m)%nat.
Hypothesis N : nonresidue F q 2 nr2.
Notation F2 := (fp2_ops F nr2).
Variable nr6 : K * K.
Hypothesis N2 : nonresidue F2 (q ^ 2) 2 nr6.
Hypothesis N3 : nonresidue F2 (q ^ 2) 3 nr6.
Notation F12 := (fp12_ops F nr2 nr6 nr6).
Let FK : field_ok F := pb_field F q PB.
Let GK : field_ok F2 := two_field F q PB nr2 m Hm N.
Let TK : field_ok F12 := fp12_is_field F q PB nr2 m Hm N nr6 N2 N3.
Let M := rk_monoid F12 (fk_ring F12 TK).
Notation emb := (emb12 F2).
Notation eF := (quad_emb F).
Notation up x := (emb (eF x)).
Add Ring BSVring : (rk_ring F12 (fk_ring F12 (fp12_is_field F q PB nr2 m Hm N nr6 N2 N3))).
Variables (u : (K * K) * (K * K) * (K * K) * ((K * K) * (K * K) * (K * K))) (b : K) (twist_b : K * K) (r : Z) (Ex : nat).
Hypothesis U0 : u <> o0 F12.
Hypothesis Nb : b <> o0 F.
Hypothesis Nt : twist_b <> o0 F2.
Hypothesis TB : tws_b F12 emb u twist_b = up b.
Hypothesis VN : forall xP x, xP <> o0 F -> osub F12 (up xP) (omul F12 (emb x) (omul F12 u u)) <> o0 F12.
Hypothesis LN : forall xP yP l x y, yP <> o0 F ->
  line_val F12 (omul F12 (emb l) u) (omul F12 (emb x) (omul F12 u u)) (omul F12 (emb y) (omul F12 (omul F12 u u) u)) (up xP) (up yP) <> o0 F12.
Hypothesis Pr : prime r.
Hypothesis R3 : 3 < r.
Hypothesis KE : forall f, f <> o0 F12 -> fpow F12 (fpow F12 f Ex) (Z.to_nat r) = o1 F12.
Notation Psi := (psi F12 emb u).
Let A0 := tw_a_0 F q PB nr2 m Hm N nr6 N2 N3 u.
Definition v_S2 (B : apt (K * K)) : Prop := torsion F2 (o0 F2) twist_b r B /\ frob_eigen F12 (o0 F12) q (Psi B).
Notation iG1 := (inG1 F2 F12 emb u (o0 F2) twist_b q).
Notation iG2 := (inG2 F2 F12 emb u (o0 F2) twist_b q r).
Lemma S2_in B : v_S2 B <-> iG2 B.
Proof.
  split.
  - intros [[O T] E]. constructor; auto. rewrite A0. exact E.
  - intros [O T E]. rewrite A0 in E. repeat split; auto.
Qed.
Lemma up_on x y : sw_on F (o0 F) b (Aff x y) -> sw_on F12 (o0 F12) (up b) (Aff (up x) (up y)).
Proof.
  unfold sw_on. intros H. change (o0 F12) with (up (o0 F)).
  rewrite <- !(up_mul F q PB nr2 m Hm N nr6), <- !(up_add F q PB nr2 m Hm N nr6). now rewrite H.
Qed.
Lemma up_sub x y : up (osub F x y) = osub F12 (up x) (up y).
Proof.
  assert (H : oadd F12 (up (osub F x y)) (up y) = up x).
  { rewrite <- (up_add F q PB nr2 m Hm N nr6). do 2 f_equal. pose proof (rk_ring F (fk_ring F FK)) as RR.
    rewrite (Rsub_def RR), <- (Radd_assoc RR), (Radd_comm RR (oopp F y)), (Ropp_def RR), (Radd_comm RR). apply (Radd_0_l RR). }
  rewrite <- H. ring.
Qed.
Lemma up_inj x y : up x = up y -> x = y.
Proof. intros H. now injection H. Qed.
Lemma up_psi A : psi F12 (fun x => up x) (o1 F12) A = match A with Inf => Inf | Aff x y => Aff (up x) (up y) end.
Proof. destruct A as [|x y]; cbn [psi]; [reflexivity|f_equal; ring]. Qed.
Lemma up_add_pt x1 y1 x2 y2 x3 y3 : sw_on F (o0 F) b (Aff x1 y1) -> sw_on F (o0 F) b (Aff x2 y2) ->
  sw_add F (o0 F) (Aff x1 y1) (Aff x2 y2) = Aff x3 y3 ->
  sw_add F12 (o0 F12) (Aff (up x1) (up y1)) (Aff (up x2) (up y2)) = Aff (up x3) (up y3).
Proof.
  intros O1 O2 H.
  pose proof (psi_sw_add F FK F12 TK (fun x => up x) (o1 F12) eq_refl (up_add F q PB nr2 m Hm N nr6) up_sub (up_mul F q PB nr2 m Hm N nr6) up_inj (fk_1_neq_0 F12 TK)
    (o0 F) b _ _ O1 O2) as P.
  rewrite H, !up_psi in P. replace (tw_a F12 (fun x => up x) (o1 F12) (o0 F)) with (o0 F12) in P; [symmetry; exact P|].
  unfold tw_a. change (up (o0 F)) with (o0 F12). ring.
Qed.
Lemma S1_in x y : torsion F (o0 F) b r (Aff x y) -> iG1 (up x) (up y).
Proof.
  intros T. destruct (coord_ne F q PB nr2 m Hm N nr6 N2 N3 b r x y Nb Pr R3 T) as [Nx Ny]. constructor.
  - rewrite A0, TB. apply up_on, T.
  - apply (ph_up F q PB nr2 m Hm N nr6).
  - apply (ph_up F q PB nr2 m Hm N nr6).
  - intros c d _. now apply VN.
  - intros l c d. now apply LN.
Qed.
Let E0 := emb12_0 F2 nr6.
Let EA := emb12_add F2 GK nr6.
Let ES := emb12_sub F2 GK nr6.
Let EM := emb12_mul F2 GK nr6.
Let EI := emb12_inj F2.
Let T2 := two_F2 F q PB nr2 m Hm N nr6 N2 N3.
Let D2 := disc_F2 F q PB nr2 m Hm N nr6 N2 N3 twist_b Nt.
Let TW := two_F12 F q PB nr2 m Hm N nr6 N2 N3.
Let QP := q_pos q m Hm.
Let PA := ph_add12 F q PB nr2 m Hm N nr6 N2 N3.
Let r_0 : 0 < r. Proof. lia. Qed.
Let PHA : fpow F12 (tw_a F12 emb u (o0 F2)) q = tw_a F12 emb u (o0 F2).
Proof. rewrite A0. apply (npow_zero _ _ _ _ _ _ (rk_ring F12 (fk_ring F12 TK))). exact QP. Qed.
Let PHB : fpow F12 (tws_b F12 emb u twist_b) q = tws_b F12 emb u twist_b.
Proof. rewrite TB. apply (ph_up F q PB nr2 m Hm N nr6). Qed.
Lemma v_S2_add B1 B2 : v_S2 B1 -> v_S2 B2 -> v_S2 (sw_add F2 (o0 F2) B1 B2).
Proof.
  rewrite !S2_in. intros I1 I2.
  exact (sum_G2 F2 GK F12 TK emb u E0 EA ES EM EI U0 (o0 F2) twist_b T2 D2 TW q QP PA PHA PHB r r_0 B1 B2 I1 I2).
Qed.
Variables (neg : bool) (n : positive) (k : Z).
Notation ate B x y := (miller_signed F12 (o0 F12) neg n (Psi B) (up x) (up y)).
Notation opt B x y := (optimal_ate F12 (o0 F12) q neg n (Psi B) (up x) (up y)).
Lemma v_ate_Q x y B1 B2 : sgnz neg n = (Z.of_nat q + r * k)%Z -> torsion F (o0 F) b r (Aff x y) -> v_S2 B1 -> v_S2 B2 ->
  omul F12 (fpow F12 (ate B1 x y) Ex) (fpow F12 (ate B2 x y) Ex) = fpow F12 (ate (sw_add F2 (o0 F2) B1 B2) x y) Ex.
Proof.
  intros Et T I1 I2. apply S2_in in I1, I2. rewrite <- A0.
  exact (tw_ate_Q F2 GK F12 TK emb u E0 EA ES EM EI U0 (o0 F2) twist_b T2 D2 TW q QP PA PHA PHB r Ex r_0 KE B1 B2 I1 I2 (up x) (up y) neg n k (S1_in x y T) Et).
Qed.
Lemma v_ate_P x1 y1 x2 y2 x3 y3 B : sgnz neg n = (Z.of_nat q + r * k)%Z ->
  torsion F (o0 F) b r (Aff x1 y1) -> torsion F (o0 F) b r (Aff x2 y2) -> torsion F (o0 F) b r (Aff x3 y3) ->
  sw_add F (o0 F) (Aff x1 y1) (Aff x2 y2) = Aff x3 y3 -> v_S2 B ->
  omul F12 (fpow F12 (ate B x1 y1) Ex) (fpow F12 (ate B x2 y2) Ex) = fpow F12 (ate B x3 y3) Ex.
Proof.
  intros Et I1 I2 I3 H IB. apply S2_in in IB. pose proof (up_add_pt _ _ _ _ _ _ (proj1 I1) (proj1 I2) H) as S. rewrite <- A0 in S |- *.
  exact (tw_ate_P F2 GK F12 TK emb u E0 EA ES EM EI U0 (o0 F2) twist_b T2 D2 TW q QP PA PHA PHB r Ex r_0 KE B B IB IB
    (up x1) (up y1) (up x2) (up y2) (up x3) (up y3) (S1_in _ _ I1) (S1_in _ _ I2) (S1_in _ _ I3) S neg n k Et).
Qed.
Hypothesis KV : forall x, kill_vert F12 emb u Ex (up x).
Let s := Z.of_nat q.
Lemma v_opt_Q x y B1 B2 : (sgnz neg n + s - s * s + s * s * s = r * k)%Z -> torsion F (o0 F) b r (Aff x y) -> v_S2 B1 -> v_S2 B2 ->
  omul F12 (fpow F12 (opt B1 x y) Ex) (fpow F12 (opt B2 x y) Ex) = fpow F12 (opt (sw_add F2 (o0 F2) B1 B2) x y) Ex.
Proof.
  intros Et T I1 I2. apply S2_in in I1, I2. rewrite <- A0.
  exact (tw_optimal_Q F2 GK F12 TK emb u E0 EA ES EM EI U0 (o0 F2) twist_b T2 D2 TW q QP PA PHA PHB r Ex r_0 KE B1 B2 I1 I2 (up x) (up y) neg n k (S1_in x y T) (KV x) Et).
Qed.
Lemma v_opt_P x1 y1 x2 y2 x3 y3 B : (sgnz neg n + s - s * s + s * s * s = r * k)%Z ->
  torsion F (o0 F) b r (Aff x1 y1) -> torsion F (o0 F) b r (Aff x2 y2) -> torsion F (o0 F) b r (Aff x3 y3) ->
  sw_add F (o0 F) (Aff x1 y1) (Aff x2 y2) = Aff x3 y3 -> v_S2 B ->
  omul F12 (fpow F12 (opt B x1 y1) Ex) (fpow F12 (opt B x2 y2) Ex) = fpow F12 (opt B x3 y3) Ex.
Proof.
  intros Et I1 I2 I3 H IB. apply S2_in in IB. pose proof (up_add_pt _ _ _ _ _ _ (proj1 I1) (proj1 I2) H) as S. rewrite <- A0 in S |- *.
  exact (tw_optimal_P F2 GK F12 TK emb u E0 EA ES EM EI U0 (o0 F2) twist_b T2 D2 TW q QP PA PHA PHB r Ex r_0 KE B B IB IB
    (up x1) (up y1) (up x2) (up y2) (up x3) (up y3) (S1_in _ _ I1) (S1_in _ _ I2) (S1_in _ _ I3) S neg n k (KV x1) (KV x2) (KV x3) Et).
Qed.
End Values.

(** ** The shipped constants *)
Section Shipped.
Context {K : Type} (F : Fops K) (e : Z -> K) (h : K -> Z) (D : twelve_consts).
Let p := fc_p (bt_Fq D).
Let r := fc_p (bt_Fr D).
Let q := cq (bt_Fq D).
Hypothesis PB : prime_base F q.
Hypothesis T : twelve_ok F e D.
Hypothesis H1 : ctx_check p = true -> hom F (zq p) h e (rngZ p).
Hypothesis Ck : mill_check D = true.
Hypothesis Pr : prime r.
Notation F2 := (twF2 F e D).
Notation F12 := (twF12 F e D).
Notation T12 := ((K * K) * (K * K) * (K * K) * ((K * K) * (K * K) * (K * K)))%type.
(** G1 and G2 with the point at infinity. *)
Definition tw_S1 (A : apt K) : Prop := torsion F (o0 F) (tw_b e D) r A.
Definition tw_S2 (B : apt (K * K)) : Prop :=
  torsion F2 (o0 F2) (tw_twist_b F e D) r B /\ frob_eigen F12 (o0 F12) q (psi F12 (emb12 F2) (tw_u F e D) B).
(** The reduced pairing with values for the point at infinity. *)
Definition tw_val (ate : apt (K * K) -> K -> K -> T12) (E : nat) (A : apt K) (B : apt (K * K)) : T12 :=
  match A, B with Aff x y, Aff _ _ => fpow F12 (ate B x y) E | _, _ => o1 F12 end.
Record bilinear (ev : apt K -> apt (K * K) -> T12) : Prop := {
  bil_P : forall A1 A2 B, tw_S1 A1 -> tw_S1 A2 -> tw_S2 B -> omul F12 (ev A1 B) (ev A2 B) = ev (sw_add F (o0 F) A1 A2) B;
  bil_Q : forall A B1 B2, tw_S1 A -> tw_S2 B1 -> tw_S2 B2 -> omul F12 (ev A B1) (ev A B2) = ev A (sw_add F2 (o0 F2) B1 B2);
  bil_mult : forall m n A B, tw_S1 A -> tw_S2 B -> ev (mult F (o0 F) m A) (mult F2 (o0 F2) n B) = fpow F12 (ev A B) (Pos.to_nat (m * n));
  bil_r : forall A B, tw_S1 A -> tw_S2 B -> fpow F12 (ev A B) (Z.to_nat r) = o1 F12
}.
Section Ate.
Variables (ate : apt (K * K) -> K -> K -> T12) (E : nat).
Hypothesis KE : forall f, f <> o0 F12 -> fpow F12 (fpow F12 f E) (Z.to_nat r) = o1 F12.
Hypothesis a_Inf : forall x y, ate Inf x y = o1 F12.
Hypothesis a_Q : forall x y B1 B2, tw_S1 (Aff x y) -> tw_S2 B1 -> tw_S2 B2 ->
  omul F12 (fpow F12 (ate B1 x y) E) (fpow F12 (ate B2 x y) E) = fpow F12 (ate (sw_add F2 (o0 F2) B1 B2) x y) E.
Hypothesis a_P : forall x1 y1 x2 y2 x3 y3 B, tw_S1 (Aff x1 y1) -> tw_S1 (Aff x2 y2) -> tw_S1 (Aff x3 y3) ->
  sw_add F (o0 F) (Aff x1 y1) (Aff x2 y2) = Aff x3 y3 -> tw_S2 B ->
  omul F12 (fpow F12 (ate B x1 y1) E) (fpow F12 (ate B x2 y2) E) = fpow F12 (ate B x3 y3) E.
Hypothesis a_ne : forall x y B, tw_S1 (Aff x y) -> tw_S2 B -> B <> Inf -> ate B x y <> o0 F12.
Hypothesis S2a : forall B1 B2, tw_S2 B1 -> tw_S2 B2 -> tw_S2 (sw_add F2 (o0 F2) B1 B2).
Lemma tw_val_aff x y B : field_ok F12 -> tw_val ate E (Aff x y) B = fpow F12 (ate B x y) E.
Proof.
  intros TK. destruct B; [|reflexivity]. cbn [tw_val]. rewrite a_Inf. symmetry. apply (npow_one _ _ (rk_monoid F12 (fk_ring F12 TK))).
Qed.
Theorem bilinear_of : bilinear (tw_val ate E).
Proof.
  pose proof (to_m F e D T) as [m Em]. change (twq D) with q in Em.
  pose proof (mill_check_ok F e h D PB T H1 Ck m Em) as [_ Nb Ntb _ _ _ R3 _ _]. fold r in R3.
  pose proof T as [_ A2 _ A4 A5 _ _ A8 _ _ _ _ _ _ _ _ _ _ _]. change (twq D) with q in *.
  assert (TK : field_ok F12) by (unfold twF12; rewrite A8; exact (fp12_is_field F q PB _ m Em A2 _ A4 A5)).
  pose proof (pb_field F q PB) as FK. pose proof (rk_monoid F12 (fk_ring F12 TK)) as M.
  pose proof (two_F F q PB (e (bt_nr2 D)) m Em A2 _ A4 A5) as TF. pose proof (disc_F F q PB (e (bt_nr2 D)) m Em A2 _ A4 A5 _ Nb) as DF.
  assert (V := fun x y B => tw_val_aff x y B TK).
  assert (VI : forall B, tw_val ate E Inf B = o1 F12) by reflexivity.
  assert (VR : forall A B, tw_S1 A -> tw_S2 B -> fpow F12 (tw_val ate E A B) (Z.to_nat r) = o1 F12).
  { intros [|x y] B I1 I2; [apply (npow_one _ _ M)|]. destruct B as [|x2 y2]; [apply (npow_one _ _ M)|]. apply KE. apply a_ne; auto. discriminate. }
  assert (VN : forall A B, tw_S1 A -> tw_S2 B -> tw_val ate E A B <> o0 F12).
  { intros A B I1 I2 Z. pose proof (VR A B I1 I2) as H. rewrite Z in H.
    rewrite (npow_zero _ _ _ _ _ _ (rk_ring F12 (fk_ring F12 TK))) in H by lia. now apply (fk_1_neq_0 F12 TK). }
  assert (VQ : forall A B1 B2, tw_S1 A -> tw_S2 B1 -> tw_S2 B2 -> omul F12 (tw_val ate E A B1) (tw_val ate E A B2) = tw_val ate E A (sw_add F2 (o0 F2) B1 B2)).
  { intros [|x y] B1 B2 I1 I2 I3; [rewrite !VI; apply (Rmul_1_l (rk_ring F12 (fk_ring F12 TK)))|]. rewrite !V. now apply a_Q. }
  assert (VP : forall A1 A2 B, tw_S1 A1 -> tw_S1 A2 -> tw_S1 (sw_add F (o0 F) A1 A2) -> A1 <> Inf -> A2 <> Inf -> sw_add F (o0 F) A1 A2 <> Inf -> tw_S2 B ->
    omul F12 (tw_val ate E A1 B) (tw_val ate E A2 B) = tw_val ate E (sw_add F (o0 F) A1 A2) B).
  { intros [|x1 y1] [|x2 y2] B I1 I2 I3 N1 N2 N3 IB; try congruence.
    destruct (sw_add F (o0 F) (Aff x1 y1) (Aff x2 y2)) as [|x3 y3] eqn:ES; [congruence|]. rewrite !V. now apply a_P. }
  constructor; auto.
  - exact (e_add F FK F12 TK (o0 F) (tw_b e D) TF DF r Pr R3 tw_S2 _ VI VP VN).
  - exact (e_mult F FK F2 F12 TK (o0 F) (tw_b e D) (o0 F2) TF DF r Pr R3 tw_S2 S2a _ VI VP VQ VN).
Qed.
End Ate.
(** *** The two twists *)
Record tw_facts (m : nat) : Prop := {
  tf_m : (q = 1 + 6 * m)%nat;
  tf_2 : nonresidue F q 2 (e (bt_nr2 D));
  tf_6 : nonresidue F2 (q ^ 2) 2 (map2 e (bt_nr6 D));
  tf_63 : nonresidue F2 (q ^ 2) 3 (map2 e (bt_nr6 D));
  tf_12 : bt_nr12 D = bt_nr6 D;
  tf_u : tw_u F e D <> o0 F12;
  tf_tb : tws_b F12 (emb12 F2) (tw_u F e D) (tw_twist_b F e D) = emb12 F2 (quad_emb F (tw_b e D));
  tf_VN : forall xP x, xP <> o0 F -> osub F12 (emb12 F2 (quad_emb F xP)) (omul F12 (emb12 F2 x) (omul F12 (tw_u F e D) (tw_u F e D))) <> o0 F12;
  tf_LN : forall xP yP l x y, yP <> o0 F ->
    line_val F12 (omul F12 (emb12 F2 l) (tw_u F e D)) (omul F12 (emb12 F2 x) (omul F12 (tw_u F e D) (tw_u F e D)))
      (omul F12 (emb12 F2 y) (omul F12 (omul F12 (tw_u F e D) (tw_u F e D)) (tw_u F e D))) (emb12 F2 (quad_emb F xP)) (emb12 F2 (quad_emb F yP)) <> o0 F12;
  tf_v : forall xP x, exists c, osub F12 (emb12 F2 (quad_emb F xP)) (omul F12 (emb12 F2 x) (omul F12 (tw_u F e D) (tw_u F e D))) = (c, o0 (fp6_3over2_ops F (e (bt_nr2 D)) (map2 e (bt_nr6 D))))
}.
Lemma tw_facts_ok : exists m, tw_facts m.
Proof.
  pose proof (to_m F e D T) as [m Em]. change (twq D) with q in Em. exists m.
  pose proof (mill_check_ok F e h D PB T H1 Ck m Em) as [Etw Nb Ntb _ _ _ R3 _ _].
  pose proof T as [_ A2 _ A4 A5 _ _ A8 _ _ _ _ _ _ _ _ _ _ _]. change (twq D) with q in *.
  pose proof (tw_u_0 F e D PB T) as U0.
  assert (FK2 : field_ok F2) by exact (two_field F q PB _ m Em A2).
  assert (TK : field_ok (fp12_ops F (e (bt_nr2 D)) (map2 e (bt_nr6 D)) (map2 e (bt_nr6 D)))) by exact (fp12_is_field F q PB _ m Em A2 _ A4 A5).
  pose proof (nr6_ne F q _ _ A4) as NE.
  constructor; auto; unfold tw_u, twF12; rewrite ?A8; try (unfold tw_twist_b; rewrite (scale_spec F q PB (e (bt_nr2 D))), Etw); destruct (bt_twist_b_inv D).
  - exact (tb_D F q PB _ m Em A2 _ A4 A5 _).
  - exact (tb_M F q PB _ m Em A2 _ A4 A5 _).
  - exact (VN_D F q PB _ m Em A2 _ A4 A5).
  - exact (VN_M F q PB _ m Em A2 _ A4 A5).
  - exact (LN_D F q PB _ m Em A2 _ A4 A5).
  - exact (LN_M F q PB _ m Em A2 _ A4 A5).
  - intros xP x. exact (vert_D F2 FK2 _ x (quad_emb F xP)).
  - intros xP x. exact (vert_M F2 FK2 _ TK NE x (quad_emb F xP)).
Qed.
Lemma tw_S1_add A1 A2 : tw_S1 A1 -> tw_S1 A2 -> tw_S1 (sw_add F (o0 F) A1 A2).
Proof.
  destruct tw_facts_ok as [m [Em N2 N6 N63 _ _ _ _ _ _]]. pose proof (mill_check_ok F e h D PB T H1 Ck m Em) as [_ Nb _ _ _ _ R3 _ _]. fold r in R3.
  exact (S1_add F (pb_field F q PB) (o0 F) (tw_b e D) (two_F F q PB (e (bt_nr2 D)) m Em N2 _ N6 N63) (disc_F F q PB (e (bt_nr2 D)) m Em N2 _ N6 N63 _ Nb) r R3 A1 A2).
Qed.
Lemma tw_S2_add B1 B2 : tw_S2 B1 -> tw_S2 B2 -> tw_S2 (sw_add F2 (o0 F2) B1 B2).
Proof.
  destruct tw_facts_ok as [m [Em A2 A4 A5 A8 U0 TB _ _ _]]. pose proof (mill_check_ok F e h D PB T H1 Ck m Em) as [_ Nb Ntb _ _ _ R3 _ _]. fold r in R3.
  unfold tw_S2. unfold twF12 in *. rewrite A8 in *.
  exact (v_S2_add F q PB _ m Em A2 _ A4 A5 _ _ _ r U0 Ntb TB R3 B1 B2).
Qed.
Section Power.
Variable E : nat.
Hypothesis KE : forall f, f <> o0 F12 -> fpow F12 (fpow F12 f E) (Z.to_nat r) = o1 F12.
Hypothesis QV : Z.of_nat q = p.
Theorem tw_ate_bilinear : (sgnz (bt_loop_neg D) (tw_n D) - p) mod r = 0 ->
  (forall x y B, tw_S1 (Aff x y) -> tw_S2 B -> B <> Inf -> tw_ate F e D B x y <> o0 F12) ->
  bilinear (tw_val (tw_ate F e D) E).
Proof.
  intros Ec NE. destruct tw_facts_ok as [m [Em A2 A4 A5 A8 U0 TB VN LN _]].
  pose proof (mill_check_ok F e h D PB T H1 Ck m Em) as [_ Nb Ntb _ _ _ R3 _ _]. fold r in R3.
  assert (Et : sgnz (bt_loop_neg D) (tw_n D) = Z.of_nat q + r * ((sgnz (bt_loop_neg D) (tw_n D) - p) / r)).
  { rewrite QV. pose proof (Z.div_mod (sgnz (bt_loop_neg D) (tw_n D) - p) r ltac:(lia)) as H. lia. }
  unfold tw_ate in *. pose proof KE as KE'. unfold tw_S2 in *.
  apply bilinear_of; auto; unfold tw_S2; unfold twF12 in *; rewrite A8 in *.
  - intros x y. rewrite <- (tw_a_0 F q PB _ m Em A2 _ A4 A5 (tw_u F e D)). cbn [psi].
    apply (signed_inf _ (fp12_is_field F q PB _ m Em A2 _ A4 A5)).
  - intros x y B1 B2 I1 I2 I3.
    exact (v_ate_Q F q PB _ m Em A2 _ A4 A5 _ _ _ r E U0 Nb Ntb TB VN LN Pr R3 KE' _ _ _ x y B1 B2 Et I1 I2 I3).
  - intros x1 y1 x2 y2 x3 y3 B I1 I2 I3 H IB.
    exact (v_ate_P F q PB _ m Em A2 _ A4 A5 _ _ _ r E U0 Nb Ntb TB VN LN Pr R3 KE' _ _ _ x1 y1 x2 y2 x3 y3 B Et I1 I2 I3 H IB).
  - exact (v_S2_add F q PB _ m Em A2 _ A4 A5 _ _ _ r U0 Ntb TB R3).
Qed.
Theorem tw_optimal_bilinear c : E = Z.to_nat (c * ((p ^ 12 - 1) / r)) -> 0 <= c -> (p ^ 6 + 1) mod r = 0 ->
  (sgnz (bt_loop_neg D) (tw_n D) + p - p * p + p * p * p) mod r = 0 ->
  (forall x y B, tw_S1 (Aff x y) -> tw_S2 B -> B <> Inf -> tw_optimal F e D B x y <> o0 F12) ->
  bilinear (tw_val (tw_optimal F e D) E).
Proof.
  intros EE C0 E6 Ec NE. destruct tw_facts_ok as [m [Em A2 A4 A5 A8 U0 TB VN LN VT]].
  pose proof (mill_check_ok F e h D PB T H1 Ck m Em) as [_ Nb Ntb _ _ _ R3 _ _]. fold r in R3.
  set (t := sgnz (bt_loop_neg D) (tw_n D)) in *. set (k := (t + p - p * p + p * p * p) / r).
  assert (Et : let s := Z.of_nat q in (t + s - s * s + s * s * s)%Z = r * k).
  { cbv zeta. rewrite QV. unfold k. pose proof (Z.div_mod (t + p - p * p + p * p * p) r ltac:(lia)) as H. lia. }
  pose proof KE as KE'. unfold tw_optimal in *. unfold tw_S2 in *.
  assert (KV : forall x, kill_vert F12 (emb12 F2) (tw_u F e D) E (emb12 F2 (quad_emb F x))).
  { intros x y Nz. destruct (VT x y) as [v Ev]. rewrite Ev in *. clear Ev VT VN LN TB.
    unfold twF12 in *. rewrite A8 in *.
    pose proof (six_pow F q PB _ m Em A2 _ A4 A5 nil false xH v Nz) as H. rewrite QV in H.
    assert (P1 : 1 < p) by (rewrite <- QV; pose proof (prime_ge_2 _ (pb_prime F q PB)); lia).
    assert (P6 : 1 < p ^ 6) by (apply Z.pow_gt_1; lia).
    assert (EF : c * ((p ^ 12 - 1) / r) = (p ^ 6 - 1) * (c * ((p ^ 6 + 1) / r))).
    { pose proof (Z.div_mod (p ^ 6 + 1) r ltac:(lia)) as H6. rewrite E6 in H6.
      replace (p ^ 12 - 1) with (((p ^ 6 - 1) * ((p ^ 6 + 1) / r)) * r).
      - rewrite Z.div_mul by lia. ring.
      - replace (p ^ 12) with (p ^ 6 * p ^ 6) by (rewrite <- Z.pow_add_r by lia; reflexivity).
        transitivity ((p ^ 6 - 1) * (r * ((p ^ 6 + 1) / r))); [ring|]. rewrite Z.add_0_r in H6. rewrite <- H6. ring. }
    rewrite EE, EF. pose proof (Z.div_pos (p ^ 6 + 1) r ltac:(lia) ltac:(lia)) as D0.
    rewrite Z2Nat.inj_mul by (try apply Z.mul_nonneg_nonneg; lia).
    pose proof (fp12_is_field F q PB _ m Em A2 _ A4 A5) as TK. pose proof (rk_monoid _ (fk_ring _ TK)) as M.
    rewrite (npow_mul _ _ M). unfold zpow in H. rewrite H. apply (npow_one _ _ M). }
  apply bilinear_of; auto; unfold tw_S2; unfold twF12 in *; rewrite A8 in *.
  - intros x y. rewrite <- (tw_a_0 F q PB _ m Em A2 _ A4 A5 (tw_u F e D)). cbn [psi].
    apply (optimal_inf _ (fp12_is_field F q PB _ m Em A2 _ A4 A5)).
  - intros x y B1 B2 I1 I2 I3.
    exact (v_opt_Q F q PB _ m Em A2 _ A4 A5 _ _ _ r E U0 Nb Ntb TB VN LN Pr R3 KE' _ _ k KV x y B1 B2 Et I1 I2 I3).
  - intros x1 y1 x2 y2 x3 y3 B I1 I2 I3 H IB.
    exact (v_opt_P F q PB _ m Em A2 _ A4 A5 _ _ _ r E U0 Nb Ntb TB VN LN Pr R3 KE' _ _ k KV x1 y1 x2 y2 x3 y3 B Et I1 I2 I3 H IB).
  - exact (v_S2_add F q PB _ m Em A2 _ A4 A5 _ _ _ r U0 Ntb TB R3).
Qed.
End Power.
End Shipped.

(** ** Statements about the code *)
Section Statements.
Context {K : Type} (F : Fops K) (e : Z -> K) (D : twelve_consts).
Let r := fc_p (bt_Fr D).
Notation F2 := (twF2 F e D).
Notation F12 := (twF12 F e D).
Notation T12 := ((K * K) * (K * K) * (K * K) * ((K * K) * (K * K) * (K * K)))%type.
Variable pairing : K * K * K -> (K * K) * (K * K) * (K * K) -> result T12.
Notation G1 P := (tw_G1 F e D (jac_den F P)).
Notation G2 Q := (tw_G2 F e D (jac_den F2 Q)).
(** pairing(m P, n Q) = pairing(P, Q)^(m n), an r-th root of unity. *)
Definition pair_mult : Prop := forall P Q P' Q' m n, G1 P -> G2 Q ->
  jac_den F P' = mult F (o0 F) m (jac_den F P) -> jac_den F P' <> Inf ->
  jac_den F2 Q' = mult F2 (o0 F2) n (jac_den F2 Q) -> jac_den F2 Q' <> Inf ->
  exists v, pairing P Q = Ok v /\ fpow F12 v (Z.to_nat r) = o1 F12 /\ pairing P' Q' = Ok (fpow F12 v (Pos.to_nat (m * n))).
(** pairing(P1 + P2, Q) = pairing(P1, Q) pairing(P2, Q), one if P1 + P2 = O. *)
Definition pair_add_P : Prop := forall P1 P2 Q, G1 P1 -> G1 P2 -> G2 Q -> exists v1 v2,
  pairing P1 Q = Ok v1 /\ pairing P2 Q = Ok v2 /\
  (forall P3, jac_den F P3 = sw_add F (o0 F) (jac_den F P1) (jac_den F P2) -> jac_den F P3 <> Inf -> pairing P3 Q = Ok (omul F12 v1 v2)) /\
  (sw_add F (o0 F) (jac_den F P1) (jac_den F P2) = Inf -> omul F12 v1 v2 = o1 F12).
Definition pair_add_Q : Prop := forall P Q1 Q2, G1 P -> G2 Q1 -> G2 Q2 -> exists v1 v2,
  pairing P Q1 = Ok v1 /\ pairing P Q2 = Ok v2 /\
  (forall Q3, jac_den F2 Q3 = sw_add F2 (o0 F2) (jac_den F2 Q1) (jac_den F2 Q2) -> jac_den F2 Q3 <> Inf -> pairing P Q3 = Ok (omul F12 v1 v2)) /\
  (sw_add F2 (o0 F2) (jac_den F2 Q1) (jac_den F2 Q2) = Inf -> omul F12 v1 v2 = o1 F12).

Lemma pair_of (ev : apt K -> apt (K * K) -> T12) : bilinear F e D ev ->
  (forall A1 A2, tw_S1 F e D A1 -> tw_S1 F e D A2 -> tw_S1 F e D (sw_add F (o0 F) A1 A2)) ->
  (forall B1 B2, tw_S2 F e D B1 -> tw_S2 F e D B2 -> tw_S2 F e D (sw_add F2 (o0 F2) B1 B2)) ->
  (forall A B, A = Inf \/ B = Inf -> ev A B = o1 F12) ->
  (forall P Q, G1 P -> G2 Q -> pairing P Q = Ok (ev (jac_den F P) (jac_den F2 Q))) ->
  pair_mult /\ pair_add_P /\ pair_add_Q.
Proof.
  intros [BP BQ BM BR] S1a S2a EI PV.
  assert (I1 : forall P, G1 P -> tw_S1 F e D (jac_den F P)) by now intros P [_ H].
  assert (I2 : forall Q, G2 Q -> tw_S2 F e D (jac_den F2 Q)) by now intros Q (_ & H).
  assert (J1 : forall P, tw_S1 F e D (jac_den F P) -> jac_den F P <> Inf -> G1 P) by (intros P H N; now split).
  assert (J2 : forall Q, tw_S2 F e D (jac_den F2 Q) -> jac_den F2 Q <> Inf -> G2 Q) by (intros Q H N; split; [exact N|exact H]).
  split; [|split].
  - intros P Q P' Q' m n HP HQ EP NP EQ NQ. exists (ev (jac_den F P) (jac_den F2 Q)).
    assert (SP : tw_S1 F e D (jac_den F P')).
    { rewrite EP. clear EP. apply I1 in HP. induction m as [m IH|m IH|]; cbn [mult]; auto. }
    assert (SQ : tw_S2 F e D (jac_den F2 Q')).
    { rewrite EQ. clear EQ. apply I2 in HQ. induction n as [n IH|n IH|]; cbn [mult]; auto. }
    split; [now apply PV|]. split; [apply BR; auto|]. rewrite (PV P' Q' (J1 _ SP NP) (J2 _ SQ NQ)), EP, EQ. f_equal. apply BM; auto.
  - intros P1 P2 Q H1 H2 HQ. exists (ev (jac_den F P1) (jac_den F2 Q)), (ev (jac_den F P2) (jac_den F2 Q)).
    split; [now apply PV|]. split; [now apply PV|]. split.
    + intros P3 E3 N3. assert (S3 : tw_S1 F e D (jac_den F P3)) by (rewrite E3; apply S1a; auto).
      rewrite (PV P3 Q (J1 _ S3 N3) HQ), E3. f_equal. symmetry. apply BP; auto.
    + intros E3. rewrite BP by auto. rewrite E3. apply EI. now left.
  - intros P Q1 Q2 HP H1 H2. exists (ev (jac_den F P) (jac_den F2 Q1)), (ev (jac_den F P) (jac_den F2 Q2)).
    split; [now apply PV|]. split; [now apply PV|]. split.
    + intros Q3 E3 N3. assert (S3 : tw_S2 F e D (jac_den F2 Q3)) by (rewrite E3; apply S2a; auto).
      rewrite (PV P Q3 HP (J2 _ S3 N3)), E3. f_equal. symmetry. apply BQ; auto.
    + intros E3. rewrite BQ by auto. rewrite E3. apply EI. now right.
Qed.
End Statements.

Lemma den_val {K} (F : Fops K) (e : Z -> K) (D : twelve_consts) ate E pairing c : E = Z.to_nat (c * ((fc_p (bt_Fq D) ^ 12 - 1) / fc_p (bt_Fr D))) ->
  (forall P Q xP yP B, jac_den F P = Aff xP yP -> jac_den (twF2 F e D) Q = B -> tw_G1 F e D (Aff xP yP) -> tw_G2 F e D B ->
    ate B xP yP <> o0 (twF12 F e D) /\ pairing P Q = Ok (fpow (twF12 F e D) (ate B xP yP) (Z.to_nat (c * ((fc_p (bt_Fq D) ^ 12 - 1) / fc_p (bt_Fr D)))))) ->
  forall P Q, tw_G1 F e D (jac_den F P) -> tw_G2 F e D (jac_den (twF2 F e D) Q) ->
  pairing P Q = Ok (tw_val F e D ate E (jac_den F P) (jac_den (twF2 F e D) Q)).
Proof.
  intros -> H P Q HP HQ. destruct (jac_den F P) as [|xP yP] eqn:EP; [now destruct HP|].
  destruct (jac_den (twF2 F e D) Q) as [|x y] eqn:EQ; [now destruct HQ|].
  exact (proj2 (H P Q xP yP _ EP EQ HP HQ)).
Qed.
Lemma alt_bn128_loop_check : let D := alt_bn128_tower in let p := fc_p (bt_Fq D) in let r := fc_p (bt_Fr D) in
  ((p ^ 6 + 1) mod r =? 0) && ((sgnz (bt_loop_neg D) (tw_n D) + p - p * p + p * p * p) mod r =? 0) = true.
Proof. vm_compute. reflexivity. Qed.
Lemma bls12_381_loop_check : let D := bls12_381_tower in let p := fc_p (bt_Fq D) in let r := fc_p (bt_Fr D) in
  ((sgnz (bt_loop_neg D) (tw_n D) - p) mod r =? 0) = true.
Proof. vm_compute. reflexivity. Qed.

Section Ctx.
Variable D : twelve_consts.
Variable CO : field_consts_ok (bt_Fq D).
Notation F := (cF (bt_Fq D) CO).
Notation e := (ce (bt_Fq D) CO).
Notation F2 := (twF2 F e D).
Notation F12 := (twF12 F e D).
Hypothesis T : twelve_ok F e D.
Hypothesis Ck : mill_check D = true.
Hypothesis Pr : prime (fc_p (bt_Fr D)).
Let PB := base_prime (bt_Fq D) CO.
Let QV : Z.of_nat (cq (bt_Fq D)) = fc_p (bt_Fq D) := TowerShipped.q_val F D PB.
Lemma bls_pairs : bt_twist_b_inv D = false -> final_exp_ok F12 (fc_p (bt_Fq D) ^ 12 - 1) (fc_p (bt_Fr D)) (tw_bls_final F e D) ->
  ((sgnz (bt_loop_neg D) (tw_n D) - fc_p (bt_Fq D)) mod fc_p (bt_Fr D) =? 0) = true ->
  let pairing := tw_bls_reduced_pairing F e D in pair_mult F e D pairing /\ pair_add_P F e D pairing /\ pair_add_Q F e D pairing.
Proof.
  intros Inv (_ & _ & c & C0 & Cg & FE) Hl pairing. apply Z.eqb_eq in Hl.
  set (E := Z.to_nat (c * ((fc_p (bt_Fq D) ^ 12 - 1) / fc_p (bt_Fr D)))).
  assert (KE : forall f, f <> o0 F12 -> fpow F12 (fpow F12 f E) (Z.to_nat (fc_p (bt_Fr D))) = o1 F12).
  { intros f Nf. destruct (FE f Nf) as (y & _ & -> & H). exact H. }
  assert (TX : forall P Q xP yP B, jac_den F P = Aff xP yP -> jac_den F2 Q = B -> tw_G1 F e D (Aff xP yP) -> tw_G2 F e D B ->
    tw_ate F e D B xP yP <> o0 F12 /\ pairing P Q = Ok (fpow F12 (tw_ate F e D B xP yP) E)).
  { intros P Q xP yP B DP DQ GP GQ. destruct B as [|x y]; [now destruct GQ as [GQ _]|].
    destruct (tw_bls_textbook F e (toZ (fc_P (bt_Fq D))) D PB T (base_hom _ CO) Ck Pr P Q xP yP x y Inv DP DQ GP (proj1 (proj2 GQ))) as [Nf Ef].
    split; [exact Nf|]. destruct (FE _ Nf) as (v & Ev & Vv & _). unfold pairing. rewrite Ef. rewrite Vv in Ev. exact Ev. }
  pose proof (pb_field F _ PB) as FK. pose proof (to_m F e D T) as [m Em].
  assert (FK2 : field_ok F2) by exact (two_field F _ PB _ m Em (to_nr2 F e D T)).
  apply (pair_of F e D pairing (tw_val F e D (tw_ate F e D) E)).
  - apply (tw_ate_bilinear F e (toZ (fc_P (bt_Fq D))) D PB T (base_hom _ CO) Ck Pr E KE QV Hl).
    intros x y B S1 S2 NB. refine (proj1 (TX (x, y, o1 F) (match B with Aff x2 y2 => (x2, y2, o1 F2) | Inf => (o0 F2, o0 F2, o0 F2) end) x y B _ _ _ _)).
    + apply (den_aff F FK).
    + destruct B; [congruence|]. apply (den_aff F2 FK2).
    + split; [discriminate|exact S1].
    + split; [exact NB|exact S2].
  - exact (tw_S1_add F e (toZ (fc_P (bt_Fq D))) D PB T (base_hom _ CO) Ck).
  - exact (tw_S2_add F e (toZ (fc_P (bt_Fq D))) D PB T (base_hom _ CO) Ck).
  - intros A B [-> | ->]; [reflexivity|]. now destruct A.
  - exact (den_val F e D _ E pairing c eq_refl TX).
Qed.
Lemma alt_pairs : bn_div_check D = true -> bt_twist_b_inv D = true -> final_exp_ok F12 (fc_p (bt_Fq D) ^ 12 - 1) (fc_p (bt_Fr D)) (tw_bn_final F e D) ->
  (let p := fc_p (bt_Fq D) in let r := fc_p (bt_Fr D) in
    ((p ^ 6 + 1) mod r =? 0) && ((sgnz (bt_loop_neg D) (tw_n D) + p - p * p + p * p * p) mod r =? 0)) = true ->
  let pairing := tw_alt_reduced_pairing F e D in pair_mult F e D pairing /\ pair_add_P F e D pairing /\ pair_add_Q F e D pairing.
Proof.
  intros Dv Inv (_ & _ & c & C0 & Cg & FE) Hl pairing. cbv zeta in Hl. rewrite andb_true_iff, !Z.eqb_eq in Hl. destruct Hl as [H6 Hl].
  set (E := Z.to_nat (c * ((fc_p (bt_Fq D) ^ 12 - 1) / fc_p (bt_Fr D)))).
  assert (KE : forall f, f <> o0 F12 -> fpow F12 (fpow F12 f E) (Z.to_nat (fc_p (bt_Fr D))) = o1 F12).
  { intros f Nf. destruct (FE f Nf) as (y & _ & -> & H). exact H. }
  assert (TX : forall P Q xP yP B, jac_den F P = Aff xP yP -> jac_den F2 Q = B -> tw_G1 F e D (Aff xP yP) -> tw_G2 F e D B ->
    tw_optimal F e D B xP yP <> o0 F12 /\ pairing P Q = Ok (fpow F12 (tw_optimal F e D B xP yP) E)).
  { intros P Q xP yP B DP DQ GP GQ. destruct B as [|x y]; [now destruct GQ as [GQ _]|].
    destruct (tw_alt_textbook F e (toZ (fc_P (bt_Fq D))) D PB T (base_hom _ CO) Ck Pr P Q xP yP x y Dv Inv DP DQ GP GQ) as [Nf Ef].
    split; [exact Nf|]. destruct (FE _ Nf) as (v & Ev & Vv & _). unfold pairing. rewrite Ef. rewrite Vv in Ev. exact Ev. }
  pose proof (pb_field F _ PB) as FK. pose proof (to_m F e D T) as [m Em].
  assert (FK2 : field_ok F2) by exact (two_field F _ PB _ m Em (to_nr2 F e D T)).
  apply (pair_of F e D pairing (tw_val F e D (tw_optimal F e D) E)).
  - apply (tw_optimal_bilinear F e (toZ (fc_P (bt_Fq D))) D PB T (base_hom _ CO) Ck Pr E KE QV c eq_refl C0 H6 Hl).
    intros x y B S1 S2 NB. refine (proj1 (TX (x, y, o1 F) (match B with Aff x2 y2 => (x2, y2, o1 F2) | Inf => (o0 F2, o0 F2, o0 F2) end) x y B _ _ _ _)).
    + apply (den_aff F FK).
    + destruct B; [congruence|]. apply (den_aff F2 FK2).
    + split; [discriminate|exact S1].
    + split; [exact NB|exact S2].
  - exact (tw_S1_add F e (toZ (fc_P (bt_Fq D))) D PB T (base_hom _ CO) Ck).
  - exact (tw_S2_add F e (toZ (fc_P (bt_Fq D))) D PB T (base_hom _ CO) Ck).
  - intros A B [-> | ->]; [reflexivity|]. now destruct A.
  - exact (den_val F e D _ E pairing c eq_refl TX).
Qed.
End Ctx.

Theorem alt_bn128_pairs CO : let D := alt_bn128_tower in let F := cF (bt_Fq D) CO in let e := ce (bt_Fq D) CO in let pairing := tw_alt_reduced_pairing F e D in
  pair_mult F e D pairing /\ pair_add_P F e D pairing /\ pair_add_Q F e D pairing.
Proof.
  intros D F e. pose proof (shipped_twelve_ok D CO (or_introl eq_refl)) as T.
  exact (alt_pairs D CO T alt_bn128_mill (oki_prime _ (fco_inv _ alt_bn128_Fr_ok)) alt_bn128_bn_div eq_refl
    (bn_final_ok F e D (base_prime (bt_Fq D) CO) T alt_bn128_final_check) alt_bn128_loop_check).
Qed.
Theorem bls12_381_pairs CO : let D := bls12_381_tower in let F := cF (bt_Fq D) CO in let e := ce (bt_Fq D) CO in let pairing := tw_bls_reduced_pairing F e D in
  pair_mult F e D pairing /\ pair_add_P F e D pairing /\ pair_add_Q F e D pairing.
Proof.
  intros D F e. pose proof (shipped_twelve_ok D CO (or_intror (or_introl eq_refl))) as T.
  exact (bls_pairs D CO T bls12_381_mill (oki_prime _ (fco_inv _ bls12_381_Fr_ok)) eq_refl
    (bls_final_ok F e D (base_prime (bt_Fq D) CO) T bls12_381_final_check) bls12_381_loop_check).
Qed.

(** Multiples of the generators. *)
Definition pair_generators {K} (F : Fops K) (e : Z -> K) (D : twelve_consts)
    (pairing : K * K * K -> (K * K) * (K * K) * (K * K) -> result ((K * K) * (K * K) * (K * K) * ((K * K) * (K * K) * (K * K)))) : Prop :=
  let F2 := twF2 F e D in let F12 := twF12 F e D in
  exists v, pairing (e (fst (bt_G1 D)), e (snd (bt_G1 D)), o1 F) (map2 e (fst (bt_G2 D)), map2 e (snd (bt_G2 D)), o1 F2) = Ok v /\
  fpow F12 v (Z.to_nat (fc_p (bt_Fr D))) = o1 F12 /\
  forall a b P Q, Z.pos a < fc_p (bt_Fr D) -> Z.pos b < fc_p (bt_Fr D) ->
  jac_den F P = mult F (o0 F) a (gen1 e D) -> jac_den F2 Q = mult F2 (o0 F2) b (gen2 e D) ->
  pairing P Q = Ok (fpow F12 v (Pos.to_nat (a * b))).
Lemma mult_ne_r D CO : In D shipped_twelve -> prime (fc_p (bt_Fr D)) -> let F := cF (bt_Fq D) CO in let e := ce (bt_Fq D) CO in let F2 := twF2 F e D in
  (forall a A, tw_G1 F e D A -> Z.pos a < fc_p (bt_Fr D) -> mult F (o0 F) a A <> Inf) /\
  (forall b B, tw_G2 F e D B -> Z.pos b < fc_p (bt_Fr D) -> mult F2 (o0 F2) b B <> Inf).
Proof.
  intros HI Pr F e F2. pose proof (shipped_twelve_ok D CO HI) as T. set (PB := base_prime (bt_Fq D) CO).
  assert (Ck : mill_check D = true) by (destruct HI as [<-|[<-|[]]]; [exact alt_bn128_mill|exact bls12_381_mill]).
  destruct (tw_facts_ok F e (toZ (fc_P (bt_Fq D))) D PB T (base_hom _ CO) Ck) as [m [Em N2 N6 N63 _ _ _ _ _ _]].
  pose proof (mill_check_ok F e (toZ (fc_P (bt_Fq D))) D PB T (base_hom _ CO) Ck m Em) as [_ Nb Ntb _ _ _ R3 _ _].
  assert (ND : forall a, Z.pos a < fc_p (bt_Fr D) -> ~ (fc_p (bt_Fr D) | Z.pos a)) by (intros a H DV; apply Z.divide_pos_le in DV; lia).
  split.
  - intros a A [NI TA] Ha. pose proof (proj1 TA) as O. 
    pose proof (two_F F _ PB (e (bt_nr2 D)) m Em N2 _ N6 N63) as H2. pose proof (disc_F F _ PB (e (bt_nr2 D)) m Em N2 _ N6 N63 _ Nb) as HD.
    apply (S1_z F (pb_field F _ PB) _ _ H2 HD _ R3 A O) in TA. rewrite (zmult_mult F (pb_field F _ PB) _ _ H2 HD _ _ O).
    exact (zmult_ne F (pb_field F _ PB) _ _ H2 HD _ A Pr O NI TA _ (ND a Ha)).
  - intros a A (NI & TA & _) Ha. pose proof (proj1 TA) as O.
    assert (FK2 : field_ok F2) by exact (two_field F _ PB _ m Em N2).
    pose proof (two_F2 F _ PB (e (bt_nr2 D)) m Em N2 _ N6 N63) as H2. pose proof (disc_F2 F _ PB (e (bt_nr2 D)) m Em N2 _ N6 N63 _ Ntb) as HD.
    apply (S1_z F2 FK2 _ _ H2 HD _ R3 A O) in TA. rewrite (zmult_mult F2 FK2 _ _ H2 HD _ _ O).
    exact (zmult_ne F2 FK2 _ _ H2 HD _ A Pr O NI TA _ (ND a Ha)).
Qed.
Lemma at_gen D CO pairing : In D shipped_twelve -> prime (fc_p (bt_Fr D)) -> let F := cF (bt_Fq D) CO in let e := ce (bt_Fq D) CO in
  pair_mult F e D pairing -> pair_generators F e D pairing.
Proof.
  intros HI Pr F e PM. destruct (shipped_generators D CO HI) as [G1 G2]. fold F e in G1, G2.
  destruct (mult_ne_r D CO HI Pr) as [M1 M2]. fold F e in M1, M2.
  pose proof (pb_field F _ (base_prime (bt_Fq D) CO)) as FK. pose proof (shipped_twelve_ok D CO HI) as T. pose proof (to_m F e D T) as [m Em].
  assert (FK2 : field_ok (twF2 F e D)) by exact (two_field F _ (base_prime (bt_Fq D) CO) _ m Em (to_nr2 F e D T)).
  set (P0 := (e (fst (bt_G1 D)), e (snd (bt_G1 D)), o1 F)).
  set (Q0 := (map2 e (fst (bt_G2 D)), map2 e (snd (bt_G2 D)), o1 (twF2 F e D))).
  assert (E1 : jac_den F P0 = gen1 e D) by exact (den_aff F FK _ _).
  assert (E2 : jac_den (twF2 F e D) Q0 = gen2 e D) by exact (den_aff _ FK2 _ _).
  destruct (PM P0 Q0 P0 Q0 xH xH) as (v & V1 & V2 & _); rewrite ?E1, ?E2; auto; try discriminate.
  exists v. split; [exact V1|]. split; [exact V2|]. intros a b P Q Ha Hb HP HQ.
  destruct (PM P0 Q0 P Q a b) as (v' & V1' & _ & V3'); rewrite ?E1, ?E2; auto.
  - rewrite HP. now apply M1.
  - rewrite HQ. now apply M2.
  - rewrite V1 in V1'. injection V1' as <-. exact V3'.
Qed.
Theorem alt_bn128_generators CO : let D := alt_bn128_tower in let F := cF (bt_Fq D) CO in let e := ce (bt_Fq D) CO in
  pair_generators F e D (tw_alt_reduced_pairing F e D).
Proof. exact (at_gen alt_bn128_tower CO _ (or_introl eq_refl) (oki_prime _ (fco_inv _ alt_bn128_Fr_ok)) (proj1 (alt_bn128_pairs CO))). Qed.
Theorem bls12_381_generators CO : let D := bls12_381_tower in let F := cF (bt_Fq D) CO in let e := ce (bt_Fq D) CO in
  pair_generators F e D (tw_bls_reduced_pairing F e D).
Proof. exact (at_gen bls12_381_tower CO _ (or_intror (or_introl eq_refl)) (oki_prime _ (fco_inv _ bls12_381_Fr_ok)) (proj1 (bls12_381_pairs CO))). Qed.
