(** Bilinearity of the ate and optimal ate pairings on the twelfth-degree
    towers. *)
From Coq Require Import ZArith List Bool Ring Field Lia Znumtheory.
From Verif Require Import Result Algebra FieldOps GroupOps GroupProofs ExtModel ExtSpec ExtProofs ExtFrob ExtInst CurveSpec CurveGroup
  CurveProofs MillerSpec MillerProofs MillerTwelve MillerRegular MillerOrder MillerCocycle Cochain MillerBilinear.
Import ListNotations.
Open Scope Z_scope.

(** ** Two points of the twist generate points of the curve *)
Section Two.
Context {E T : Type} (G : Fops E) (GK : field_ok G) (F : Fops T) (FK : field_ok F) (emb : E -> T) (u : T).
Hypothesis emb_0 : emb (o0 G) = o0 F.
Hypothesis emb_add : forall x y, emb (oadd G x y) = oadd F (emb x) (emb y).
Hypothesis emb_sub : forall x y, emb (osub G x y) = osub F (emb x) (emb y).
Hypothesis emb_mul : forall x y, emb (omul G x y) = omul F (emb x) (emb y).
Hypothesis emb_inj : forall x y, emb x = emb y -> x = y.
Hypothesis u_0 : u <> o0 F.
Variables a' b' : E.
Hypothesis H2 : oadd G (o1 G) (o1 G) <> o0 G.
Hypothesis HD : sw_disc G a' b' <> o0 G.
Add Ring BTF : (rk_ring F (fk_ring F FK)).
Add Ring BTG : (rk_ring G (fk_ring G GK)).
Notation Psi := (psi F emb u).
Notation ta := (tw_a F emb u a').
Notation tb := (tws_b F emb u b').
Local Notation "x * y" := (omul F x y).

(** The image of a line is a line. *)
Lemma psi_line x1 y1 x2 y2 l : line G a' b' x1 y1 x2 y2 l ->
  line F ta tb (emb x1 * (u * u)) (emb y1 * (u * u * u)) (emb x2 * (u * u)) (emb y2 * (u * u * u)) (emb l * u).
Proof.
  intros (E1 & A & B). repeat split.
  - apply (f_equal emb) in E1. rewrite emb_add, emb_mul, emb_sub in E1. rewrite E1. ring.
  - apply (f_equal emb) in A. rewrite emb_sub, !emb_mul, !emb_add, !emb_mul in A. unfold tw_a. rewrite A. ring.
  - apply (f_equal emb) in B. rewrite emb_sub, !emb_mul, !emb_sub, !emb_mul in B. unfold tws_b. rewrite B. ring.
Qed.
Hypothesis H2F : oadd F (o1 F) (o1 F) <> o0 F.
Let HDF : sw_disc F ta tb <> o0 F := psi_disc G F FK emb u emb_0 emb_add emb_mul emb_inj u_0 a' b' HD.
Lemma la_psi_ne xP yP : (forall x y, sw_on G a' b' (Aff x y) -> osub F xP (emb x * (u * u)) <> o0 F) ->
  (forall l x y, line_val F (emb l * u) (emb x * (u * u)) (emb y * (u * u * u)) xP yP <> o0 F) ->
  forall A B, sw_on G a' b' A -> sw_on G a' b' B -> line_at F ta (Psi A) (Psi B) xP yP <> o0 F.
Proof.
  intros VN LN A B OA OB.
  assert (V : forall C, sw_on G a' b' C -> vertical_at F (Psi C) xP <> o0 F) by (intros [|x y] O; cbn [psi vertical_at]; [apply (fk_1_neq_0 F FK)|exact (VN x y O)]).
  destruct (line_cases G GK a' b' A B OA OB) as [->|[->|[->|(x1 & y1 & x2 & y2 & l & -> & -> & L)]]].
  - cbn [psi]. rewrite la_O_l. now apply V.
  - cbn [psi]. rewrite la_O_r. now apply V.
  - rewrite (psi_opp G GK F FK emb u emb_0 emb_sub). rewrite (la_opp' F FK). now apply V.
  - cbn [psi]. rewrite (la_line F FK ta tb H2F HDF _ _ _ _ _ _ _ (psi_line _ _ _ _ _ L)). apply LN.
Qed.

Variables Q1 Q2 : apt E.
Hypotheses (O1 : sw_on G a' b' Q1) (O2 : sw_on G a' b' Q2).
Let AG := sp_group G GK a' b' H2 HD.
Local Notation sz := (sp_zero G a' b').
Local Notation sa := (sp_add G a' b').
Local Notation so := (sp_opp G a' b').
Definition iz2 : Z * Z := (0, 0).
Definition iadd2 (i j : Z * Z) : Z * Z := (fst i + fst j, snd i + snd j).
Definition iopp2 (i : Z * Z) : Z * Z := (- fst i, - snd i).
Lemma IG2 : agroup iz2 iadd2 iopp2.
Proof.
  constructor; [constructor|..]; intros; unfold iz2, iadd2, iopp2; cbn [fst snd];
    repeat match goal with x : Z * Z |- _ => destruct x end; cbn [fst snd]; f_equal; lia.
Qed.
Definition sp2 (i : Z * Z) := sa (gmul sz sa so (fst i) (sp_mk G a' b' Q1)) (gmul sz sa so (snd i) (sp_mk G a' b' Q2)).
Definition pt2 (i : Z * Z) : apt T := Psi (proj1_sig (sp2 i)).
Lemma sp2_on i : sw_on G a' b' (proj1_sig (sp2 i)). Proof. apply (sw_pt_on G GK). Qed.
Lemma sp2_add i j : sp2 (iadd2 i j) = sa (sp2 i) (sp2 j).
Proof. unfold sp2, iadd2. cbn [fst snd]. rewrite !(gmul_add _ _ _ AG). apply (ag_4 _ _ _ AG). Qed.
Lemma sp2_opp i : sp2 (iopp2 i) = so (sp2 i).
Proof. unfold sp2, iopp2. cbn [fst snd]. rewrite !(gmul_opp _ _ _ AG). symmetry. apply (ag_opp_add _ _ _ AG). Qed.
Lemma sp2_0 : sp2 iz2 = sz.
Proof. unfold sp2, iz2. cbn [fst snd]. rewrite !gmul_0. apply (ag_0_l _ _ _ AG). Qed.
Lemma pt2_on i : sw_on F ta tb (pt2 i).
Proof. apply (psi_on G F FK emb u emb_add emb_mul). apply sp2_on. Qed.
Lemma pt2_add i j : pt2 (iadd2 i j) = sw_add F ta (pt2 i) (pt2 j).
Proof.
  unfold pt2. rewrite sp2_add, (sp_add_val G GK a' b' H2 HD).
  apply (psi_sw_add G GK F FK emb u emb_0 emb_add emb_sub emb_mul emb_inj u_0 a' b'); apply sp2_on.
Qed.
Lemma pt2_0 : pt2 iz2 = Inf. Proof. unfold pt2. now rewrite sp2_0. Qed.
Lemma pt2_opp i : pt2 (iopp2 i) = sw_opp F (pt2 i).
Proof. unfold pt2. rewrite sp2_opp, (sp_opp_val G GK). apply (psi_opp G GK F FK emb u emb_0 emb_sub). Qed.
Lemma pt2_1 : pt2 (1, 0) = Psi Q1.
Proof.
  unfold pt2, sp2. cbn [fst snd]. rewrite gmul_0, (gmul_1 _ _ _ AG), (ag_0_r _ _ _ AG). now rewrite sp_mk_val.
Qed.
Lemma pt2_2 : pt2 (0, 1) = Psi Q2.
Proof.
  unfold pt2, sp2. cbn [fst snd]. rewrite gmul_0, (gmul_1 _ _ _ AG), (ag_0_l _ _ _ AG). now rewrite sp_mk_val.
Qed.
Lemma pt2_12 : pt2 (1, 1) = Psi (sw_add G a' Q1 Q2).
Proof.
  unfold pt2, sp2. cbn [fst snd]. rewrite !(gmul_1 _ _ _ AG), (sp_add_val G GK a' b' H2 HD), !sp_mk_val; auto.
Qed.
Notation im2 := (gmul iz2 iadd2 iopp2).
Lemma im2_fst k i : im2 k i = (k * fst i, k * snd i)%Z.
Proof.
  revert k. apply Z.peano_ind.
  - reflexivity.
  - intros k IH. unfold Z.succ. rewrite (gmul_succ _ _ _ IG2), IH. unfold iadd2. cbn [fst snd]. f_equal; lia.
  - intros k IH. unfold Z.pred. rewrite (gmul_add _ _ _ IG2), IH. change (-1) with (- (1)). rewrite (gmul_opp _ _ _ IG2), (gmul_1 _ _ _ IG2).
    unfold iadd2, iopp2. cbn [fst snd]. f_equal; lia.
Qed.
Variable r : Z.
Hypotheses (R1 : zmult G a' b' r Q1 = Inf) (R2 : zmult G a' b' r Q2 = Inf).
Lemma sp2_r j : sp2 (im2 r j) = sz.
Proof.
  unfold sp2. rewrite im2_fst. cbn [fst snd].
  assert (X : forall Q k, zmult G a' b' r Q = Inf -> gmul sz sa so (r * k) (sp_mk G a' b' Q) = sz).
  { intros Q k H. rewrite Z.mul_comm, (gmul_mul _ _ _ AG).
    assert (H' : gmul sz sa so r (sp_mk G a' b' Q) = sz) by (apply (sw_pt_eq G); exact H).
    rewrite H'. apply (gmul_zero _ _ _ AG). }
  rewrite !X by assumption. apply (ag_0_l _ _ _ AG).
Qed.
Lemma pt2_r j : pt2 (im2 r j) = Inf. Proof. unfold pt2. now rewrite sp2_r. Qed.
(** The Frobenius. *)
Variable q : nat.
Hypothesis fr_sum : forall A B, sw_on F ta tb A -> sw_on F ta tb B ->
  frob_pt F q (sw_add F ta A B) = sw_add F ta (frob_pt F q A) (frob_pt F q B).
Hypothesis fr_neg : forall A, frob_pt F q (sw_opp F A) = sw_opp F (frob_pt F q A).
Hypotheses (F1 : frob_pt F q (Psi Q1) = Psi (zmult G a' b' (Z.of_nat q) Q1)) (F2 : frob_pt F q (Psi Q2) = Psi (zmult G a' b' (Z.of_nat q) Q2)).
Lemma frob_z Q : sw_on G a' b' Q -> frob_pt F q (Psi Q) = Psi (zmult G a' b' (Z.of_nat q) Q) ->
  forall k, frob_pt F q (Psi (zmult G a' b' k Q)) = Psi (zmult G a' b' (Z.of_nat q * k) Q).
Proof.
  intros O H. assert (PA := psi_sw_add G GK F FK emb u emb_0 emb_add emb_sub emb_mul emb_inj u_0 a' b').
  assert (ON : forall k, sw_on G a' b' (zmult G a' b' k Q)) by (intros; apply (zmult_on G GK)).
  assert (PO : forall k, sw_on F ta tb (Psi (zmult G a' b' k Q))) by (intros; now apply (psi_on G F FK emb u emb_add emb_mul)).
  assert (P : forall n, frob_pt F q (Psi (zmult G a' b' (Z.pos n) Q)) = Psi (zmult G a' b' (Z.of_nat q * Z.pos n) Q)).
  { induction n as [|n IH] using Pos.peano_ind.
    - rewrite Z.mul_1_r. now rewrite (zmult_1 G GK a' b' H2 HD).
    - replace (Z.pos (Pos.succ n)) with (Z.pos n + 1)%Z by lia. rewrite Z.mul_add_distr_l, Z.mul_1_r.
      rewrite !(zmult_add G GK a' b' H2 HD), !PA, fr_sum, IH by auto. f_equal. now rewrite (zmult_1 G GK a' b' H2 HD). }
  intros [|n|n].
  - rewrite Z.mul_0_r. reflexivity.
  - apply P.
  - change (Z.neg n) with (- Z.pos n). rewrite Z.mul_opp_r, !(zmult_opp G GK a' b' H2 HD), !(psi_opp G GK F FK emb u emb_0 emb_sub), fr_neg, P. reflexivity.
Qed.
Lemma pt2_frob i : frob_pt F q (pt2 i) = pt2 (im2 (Z.of_nat q) i).
Proof.
  assert (PA := psi_sw_add G GK F FK emb u emb_0 emb_add emb_sub emb_mul emb_inj u_0 a' b').
  rewrite im2_fst. unfold pt2, sp2. cbn [fst snd]. rewrite !(sp_add_val G GK a' b' H2 HD), !PA by apply (sw_pt_on G GK).
  rewrite fr_sum by (apply (psi_on G F FK emb u emb_add emb_mul), (sw_pt_on G GK)). f_equal.
  - apply (frob_z Q1 O1 F1).
  - apply (frob_z Q2 O2 F2).
Qed.
End Two.

Lemma mult_Inf {T} (F : Fops T) a n : mult F a n Inf = Inf.
Proof. induction n as [n IH|n IH|]; cbn [mult]; rewrite ?IH; reflexivity. Qed.

(** ** Bilinearity on a twist *)
Section Twist.
Context {E T : Type} (G : Fops E) (GK : field_ok G) (F : Fops T) (FK : field_ok F) (emb : E -> T) (u : T).
Hypothesis emb_0 : emb (o0 G) = o0 F.
Hypothesis emb_add : forall x y, emb (oadd G x y) = oadd F (emb x) (emb y).
Hypothesis emb_sub : forall x y, emb (osub G x y) = osub F (emb x) (emb y).
Hypothesis emb_mul : forall x y, emb (omul G x y) = omul F (emb x) (emb y).
Hypothesis emb_inj : forall x y, emb x = emb y -> x = y.
Hypothesis u_0 : u <> o0 F.
Variables a' b' : E.
Hypothesis H2 : oadd G (o1 G) (o1 G) <> o0 G.
Hypothesis HD : sw_disc G a' b' <> o0 G.
Hypothesis H2F : oadd F (o1 F) (o1 F) <> o0 F.
Notation Psi := (psi F emb u).
Notation ta := (tw_a F emb u a').
Notation tb := (tws_b F emb u b').
Variable q : nat.
Hypothesis Hq : (0 < q)%nat.
Notation ph x := (fpow F x q).
Hypothesis ph_add : forall x y, ph (oadd F x y) = oadd F (ph x) (ph y).
Hypothesis ph_a : ph ta = ta.
Hypothesis ph_b : ph tb = tb.
Variables (r : Z) (Ex : nat).
Hypothesis r_0 : 0 < r.
Hypothesis KE : forall f, f <> o0 F -> fpow F (fpow F f Ex) (Z.to_nat r) = o1 F.
Let HDF : sw_disc F ta tb <> o0 F := psi_disc G F FK emb u emb_0 emb_add emb_mul emb_inj u_0 a' b' HD.

(** P: over the base field, on no line with coefficients in the twist's field
    and not above or below a point of the twist. *)
Record inG1 (x y : T) : Prop := {
  g1_on : sw_on F ta tb (Aff x y);
  g1_x : ph x = x;
  g1_y : ph y = y;
  g1_va : forall c d, sw_on G a' b' (Aff c d) -> osub F x (omul F (emb c) (omul F u u)) <> o0 F;
  g1_la : forall l c d, line_val F (omul F (emb l) u) (omul F (emb c) (omul F u u)) (omul F (emb d) (omul F (omul F u u) u)) x y <> o0 F
}.
(** Q: on the twist, of order r, Frobenius eigenvalue q. *)
Record inG2 (Q : apt E) : Prop := {
  g2_on : sw_on G a' b' Q;
  g2_r : mult G a' (Z.to_pos r) Q = Inf;
  g2_q : frob_pt F q (Psi Q) = mult F ta (Z.to_pos (Z.of_nat q)) (Psi Q)
}.
Lemma zm_r Q : inG2 Q -> zmult G a' b' r Q = Inf.
Proof. intros [O R _]. now rewrite (zmult_mult G GK a' b' H2 HD _ _ O), Z2Pos.id in R by lia. Qed.
Lemma zm_q Q : inG2 Q -> frob_pt F q (Psi Q) = Psi (zmult G a' b' (Z.of_nat q) Q).
Proof.
  intros [O _ R]. rewrite R. rewrite <- (psi_mult G GK F FK emb u emb_0 emb_add emb_sub emb_mul emb_inj u_0 a' b' H2 HD _ Q O).
  now rewrite (zmult_mult G GK a' b' H2 HD _ _ O), Z2Pos.id by lia.
Qed.
Let FRA := fr_add F FK ta tb H2F HDF q Hq ph_add ph_a ph_b.
Let FRO := fr_opp F FK q Hq ph_add.
Section Pair.
Variables Q1 Q2 : apt E.
Hypotheses (G21 : inG2 Q1) (G22 : inG2 Q2).
Let O1 := g2_on _ G21.
Let O2 := g2_on _ G22.
Notation pt := (pt2 G F emb u a' b' Q1 Q2).
Lemma good1 x y : inG1 x y -> good F ta tb pt x y.
Proof.
  intros [O _ _ VN LN]. constructor; auto.
  - intros i. unfold pt2. pose proof (sp2_on G GK a' b' Q1 Q2 i) as Oi. destruct (proj1_sig (sp2 G a' b' Q1 Q2 i)); cbn [psi vertical_at]; [apply (fk_1_neq_0 F FK)|now apply (VN _ _ Oi)].
  - intros i j. unfold pt2. apply (la_psi_ne G GK F FK emb u emb_0 emb_add emb_sub emb_mul emb_inj u_0 a' b' HD H2F x y VN LN); apply (sp2_on G GK).
Qed.
Let PON := pt2_on G GK F FK emb u emb_add emb_mul a' b' Q1 Q2.
Let PADD := pt2_add G GK F FK emb u emb_0 emb_add emb_sub emb_mul emb_inj u_0 a' b' H2 HD Q1 Q2.
Let P0 := pt2_0 G GK F emb u a' b' H2 HD Q1 Q2.
Let POPP := pt2_opp G GK F FK emb u emb_0 emb_sub a' b' H2 HD Q1 Q2.
Let PFR := pt2_frob G GK F FK emb u emb_0 emb_add emb_sub emb_mul emb_inj u_0 a' b' H2 HD Q1 Q2 O1 O2 q FRA FRO (zm_q _ G21) (zm_q _ G22).
Let PR := pt2_r G GK F emb u a' b' H2 HD Q1 Q2 r (zm_r _ G21) (zm_r _ G22).
Lemma sum_G2 : inG2 (sw_add G a' Q1 Q2).
Proof.
  constructor.
  - now apply (sw_on_add G GK a' b' H2 HD).
  - rewrite (zmult_mult G GK a' b' H2 HD) by now apply (sw_on_add G GK a' b' H2 HD). rewrite Z2Pos.id by lia.
    apply (psi_inj F FK emb u emb_inj u_0). change (Psi Inf) with (@Inf T). rewrite <- (PR (1, 1)).
    pose proof (pt_mult F ta iz2 iadd2 iopp2 IG2 pt PADD (Z.to_pos r) (1, 1)) as H. rewrite Z2Pos.id in H by lia. rewrite <- H.
    rewrite (pt2_12 G GK F emb u a' b' H2 HD Q1 Q2 O1 O2).
    rewrite <- (psi_mult G GK F FK emb u emb_0 emb_add emb_sub emb_mul emb_inj u_0 a' b' H2 HD) by now apply (sw_on_add G GK a' b' H2 HD).
    rewrite (zmult_mult G GK a' b' H2 HD) by now apply (sw_on_add G GK a' b' H2 HD). now rewrite Z2Pos.id by lia.
  - rewrite <- (pt2_12 G GK F emb u a' b' H2 HD Q1 Q2 O1 O2), PFR, (pt_mult F ta iz2 iadd2 iopp2 IG2 pt PADD). now rewrite Z2Pos.id by lia.
Qed.
Lemma opp_G2 : inG2 (sw_opp G Q1).
Proof.
  constructor.
  - now apply sw_on_opp.
  - rewrite (zmult_mult G GK a' b' H2 HD) by now apply sw_on_opp. rewrite Z2Pos.id by lia.
    replace (sw_opp G Q1) with (zmult G a' b' (-1) Q1).
    2:{ change (-1) with (- (1)). now rewrite (zmult_opp G GK a' b' H2 HD), (zmult_1 G GK a' b' H2 HD). }
    rewrite (zmult_zmult G GK a' b' H2 HD), Z.mul_comm, <- (zmult_zmult G GK a' b' H2 HD), (zm_r _ G21). 
    change (-1) with (- (1)). now rewrite (zmult_opp G GK a' b' H2 HD), (zmult_1 G GK a' b' H2 HD).
  - rewrite (psi_opp G GK F FK emb u emb_0 emb_sub), <- (pt2_1 G GK F emb u a' b' H2 HD Q1 Q2 O1), <- POPP, PFR, (pt_mult F ta iz2 iadd2 iopp2 IG2 pt PADD).
    now rewrite Z2Pos.id by lia.
Qed.
Theorem tw_ate_Q x y neg n k : inG1 x y -> sgnz neg n = (Z.of_nat q + r * k)%Z ->
  omul F (fpow F (miller_signed F ta neg n (Psi Q1) x y) Ex) (fpow F (miller_signed F ta neg n (Psi Q2) x y) Ex) =
  fpow F (miller_signed F ta neg n (Psi (sw_add G a' Q1 Q2)) x y) Ex.
Proof.
  intros G1 Et. pose proof (ate_Q F FK ta tb H2F HDF iz2 iadd2 iopp2 IG2 pt PON PADD P0 POPP q Hq ph_add ph_a ph_b PFR r Ex ltac:(lia) PR KE
    x y neg n k (1, 0) (0, 1) (good1 x y G1) (g1_x x y G1) (g1_y x y G1) Et) as H.
  rewrite <- PADD in H. change (iadd2 (1, 0) (0, 1)) with (1, 1) in H.
  rewrite (pt2_1 G GK F emb u a' b' H2 HD Q1 Q2 O1), (pt2_2 G GK F emb u a' b' H2 HD Q1 Q2 O2), (pt2_12 G GK F emb u a' b' H2 HD Q1 Q2 O1 O2) in H.
  exact H.
Qed.
Definition kill_vert (x : T) : Prop :=
  forall c, osub F x (omul F (emb c) (omul F u u)) <> o0 F -> fpow F (osub F x (omul F (emb c) (omul F u u))) Ex = o1 F.
Lemma kill_pt x y i : inG1 x y -> kill_vert x -> fpow F (vertical_at F (pt i) x) Ex = o1 F.
Proof.
  intros G1 KV. unfold pt2. pose proof (sp2_on G GK a' b' Q1 Q2 i) as Oi. destruct (proj1_sig (sp2 G a' b' Q1 Q2 i)) as [|c d]; cbn [psi vertical_at].
  - apply (npow_one _ _ (rk_monoid F (fk_ring F FK))).
  - apply KV. exact (g1_va x y G1 c d Oi).
Qed.
Theorem tw_optimal_Q x y neg n k : inG1 x y -> kill_vert x ->
  let s := Z.of_nat q in (sgnz neg n + s - s * s + s * s * s = r * k)%Z ->
  omul F (fpow F (optimal_ate F ta q neg n (Psi Q1) x y) Ex) (fpow F (optimal_ate F ta q neg n (Psi Q2) x y) Ex) =
  fpow F (optimal_ate F ta q neg n (Psi (sw_add G a' Q1 Q2)) x y) Ex.
Proof.
  intros G1 KV s Et. pose proof (optimal_Q F FK ta tb H2F HDF iz2 iadd2 iopp2 IG2 pt PON PADD P0 POPP q Hq ph_add ph_a ph_b PFR r Ex ltac:(lia) PR KE
    x y neg n k (1, 0) (0, 1) (good1 x y G1) (g1_x x y G1) (g1_y x y G1) (fun i => kill_pt x y i G1 KV) Et) as H.
  rewrite <- PADD in H. change (iadd2 (1, 0) (0, 1)) with (1, 1) in H.
  rewrite (pt2_1 G GK F emb u a' b' H2 HD Q1 Q2 O1), (pt2_2 G GK F emb u a' b' H2 HD Q1 Q2 O2), (pt2_12 G GK F emb u a' b' H2 HD Q1 Q2 O1 O2) in H.
  exact H.
Qed.
(** Sums of the points P. *)
Variables u1 v1 u2 v2 u3 v3 : T.
Hypotheses (G11 : inG1 u1 v1) (G12 : inG1 u2 v2) (G13 : inG1 u3 v3).
Hypothesis S3 : sw_add F ta (Aff u1 v1) (Aff u2 v2) = Aff u3 v3.
Theorem tw_ate_P neg n k : sgnz neg n = (Z.of_nat q + r * k)%Z ->
  omul F (fpow F (miller_signed F ta neg n (Psi Q1) u1 v1) Ex) (fpow F (miller_signed F ta neg n (Psi Q1) u2 v2) Ex) =
  fpow F (miller_signed F ta neg n (Psi Q1) u3 v3) Ex.
Proof.
  intros Et. pose proof (ate_P F FK ta tb H2F HDF iz2 iadd2 iopp2 IG2 pt PON PADD P0 POPP q Hq ph_add ph_a ph_b PFR r Ex ltac:(lia) PR KE
    u1 v1 u2 v2 u3 v3 (good1 _ _ G11) (good1 _ _ G12) (good1 _ _ G13) S3 (g1_x _ _ G11) (g1_y _ _ G11) (g1_x _ _ G12) (g1_y _ _ G12) neg n k (1, 0) Et) as H.
  rewrite (pt2_1 G GK F emb u a' b' H2 HD Q1 Q2 O1) in H. exact H.
Qed.
Theorem tw_optimal_P neg n k : kill_vert u1 -> kill_vert u2 -> kill_vert u3 ->
  let s := Z.of_nat q in (sgnz neg n + s - s * s + s * s * s = r * k)%Z ->
  omul F (fpow F (optimal_ate F ta q neg n (Psi Q1) u1 v1) Ex) (fpow F (optimal_ate F ta q neg n (Psi Q1) u2 v2) Ex) =
  fpow F (optimal_ate F ta q neg n (Psi Q1) u3 v3) Ex.
Proof.
  intros K1 K2 K3 s Et.
  assert (KV : forall j w, w = u1 \/ w = u2 \/ w = u3 -> fpow F (vertical_at F (pt j) w) Ex = o1 F).
  { intros j w [->|[->| ->]]; [apply (kill_pt u1 v1)|apply (kill_pt u2 v2)|apply (kill_pt u3 v3)]; assumption. }
  pose proof (optimal_P F FK ta tb H2F HDF iz2 iadd2 iopp2 IG2 pt PON PADD P0 POPP q Hq ph_add ph_a ph_b PFR r Ex ltac:(lia) PR KE
    u1 v1 u2 v2 u3 v3 (good1 _ _ G11) (good1 _ _ G12) (good1 _ _ G13) S3 (g1_x _ _ G11) (g1_y _ _ G11) (g1_x _ _ G12) (g1_y _ _ G12) neg n k (1, 0) KV Et) as H.
  rewrite (pt2_1 G GK F emb u a' b' H2 HD Q1 Q2 O1) in H. exact H.
Qed.
End Pair.
(** The pairing with the point at infinity, and with opposite points. *)
Lemma miller_inf n x y : miller F ta n Inf x y = o1 F.
Proof.
  assert (L : line_ratio F ta Inf Inf x y = o1 F).
  { unfold line_ratio. cbn [line_at sw_add vertical_at]. apply (tdiv_eq F FK); [apply (fk_1_neq_0 F FK)|].
    symmetry. apply (Rmul_1_l (rk_ring F (fk_ring F FK))). }
  assert (O : omul F (o1 F) (o1 F) = o1 F) by apply (Rmul_1_l (rk_ring F (fk_ring F FK))).
  induction n as [n IH|n IH|]; cbn [miller mult]; rewrite ?IH, ?(mult_Inf F ta); cbn [sw_add]; rewrite ?L, ?O; reflexivity.
Qed.
Lemma tinv_1 : tinv F (o1 F) = o1 F.
Proof.
  pose proof (proj2 (tinv_spec F FK (o1 F) (fk_1_neq_0 F FK))) as H. rewrite (rk_mul_comm F (fk_ring F FK)) in H.
  rewrite <- H at 2. symmetry. apply (Rmul_1_l (rk_ring F (fk_ring F FK))).
Qed.
Lemma ratio_inf x y : line_ratio F ta Inf Inf x y = o1 F.
Proof.
  unfold line_ratio. cbn [line_at sw_add vertical_at]. apply (tdiv_eq F FK); [apply (fk_1_neq_0 F FK)|].
  symmetry. apply (Rmul_1_l (rk_ring F (fk_ring F FK))).
Qed.
Lemma signed_inf neg n x y : miller_signed F ta neg n Inf x y = o1 F.
Proof.
  assert (O : omul F (o1 F) (o1 F) = o1 F) by apply (Rmul_1_l (rk_ring F (fk_ring F FK))).
  unfold miller_signed. rewrite miller_inf, (mult_Inf F ta). cbn [vertical_at]. rewrite O, tinv_1. now destruct neg.
Qed.
Lemma optimal_inf neg n x y : optimal_ate F ta q neg n Inf x y = o1 F.
Proof.
  assert (O : omul F (o1 F) (o1 F) = o1 F) by apply (Rmul_1_l (rk_ring F (fk_ring F FK))).
  unfold optimal_ate. rewrite signed_inf. unfold mult_signed. rewrite (mult_Inf F ta). cbn [frob_pt sw_opp].
  replace (if neg then Inf else Inf) with (@Inf T) by now destruct neg. cbn [sw_add]. now rewrite ratio_inf, !O.
Qed.
End Twist.

(** ** From sums to multiples *)
Section Scalars.
Context {K E T : Type} (F : Fops K) (FK : field_ok F) (G : Fops E) (F12 : Fops T) (TK : field_ok F12).
Variables (a b : K) (a' : E).
Hypothesis H2 : oadd F (o1 F) (o1 F) <> o0 F.
Hypothesis HD : sw_disc F a b <> o0 F.
Variable r : Z.
Hypothesis Pr : prime r.
Hypothesis R3 : 3 < r.
Variable S2 : apt E -> Prop.
Hypothesis S2_add : forall B1 B2, S2 B1 -> S2 B2 -> S2 (sw_add G a' B1 B2).
Variable e : apt K -> apt E -> T.
Hypothesis e_Inf : forall B, e Inf B = o1 F12.
Notation S1 A := (torsion F a b r A).
Hypothesis e_P : forall A1 A2 B, S1 A1 -> S1 A2 -> S1 (sw_add F a A1 A2) -> A1 <> Inf -> A2 <> Inf -> sw_add F a A1 A2 <> Inf -> S2 B ->
  omul F12 (e A1 B) (e A2 B) = e (sw_add F a A1 A2) B.
Hypothesis e_Q : forall A B1 B2, S1 A -> S2 B1 -> S2 B2 -> omul F12 (e A B1) (e A B2) = e A (sw_add G a' B1 B2).
Hypothesis e_ne : forall A B, S1 A -> S2 B -> e A B <> o0 F12.
Add Ring BSring : (rk_ring F12 (fk_ring F12 TK)).

Lemma zmult_sum k A B : sw_on F a b A -> sw_on F a b B -> zmult F a b k (sw_add F a A B) = sw_add F a (zmult F a b k A) (zmult F a b k B).
Proof.
  intros OA OB. unfold zmult. pose proof (sp_group F FK a b H2 HD) as AG.
  rewrite <- (sp_add_val F FK a b H2 HD), <- (gmul_distr _ _ _ AG). do 2 f_equal. apply (sw_pt_eq F).
  rewrite (sp_add_val F FK a b H2 HD), !sp_mk_val; auto. now apply (sw_on_add F FK a b H2 HD).
Qed.
Lemma zmult_Inf k : zmult F a b k Inf = Inf.
Proof.
  unfold zmult. change (sp_mk F a b Inf) with (sp_zero F a b). now rewrite (gmul_zero _ _ _ (sp_group F FK a b H2 HD)).
Qed.
Lemma sw_add_Inf A B : sw_on F a b A -> sw_on F a b B -> sw_add F a A B = Inf -> B = sw_opp F A.
Proof.
  intros OA OB H. pose proof (sw_on_opp F FK a b A OA) as OO.
  transitivity (sw_add F a (sw_add F a (sw_opp F A) A) B); [now rewrite (sw_add_opp_l F FK)|].
  rewrite (sw_add_assoc F FK a b H2 HD), H by auto. now destruct A.
Qed.
Lemma S1_z A : sw_on F a b A -> (S1 A <-> zmult F a b r A = Inf).
Proof.
  intros O. unfold torsion. rewrite (zmult_mult F FK a b H2 HD _ _ O), Z2Pos.id by lia. tauto.
Qed.
Lemma S1_add A1 A2 : S1 A1 -> S1 A2 -> S1 (sw_add F a A1 A2).
Proof.
  intros T1 T2. pose proof (proj1 T1) as O1. pose proof (proj1 T2) as O2. apply S1_z in T1, T2; auto.
  apply S1_z; [now apply (sw_on_add F FK a b H2 HD)|]. rewrite zmult_sum by auto. now rewrite T1, T2.
Qed.
Lemma S1_opp A : S1 A -> S1 (sw_opp F A).
Proof.
  intros T1. pose proof (proj1 T1) as O1. apply S1_z in T1; auto. pose proof (sw_on_opp F FK a b _ O1) as O2.
  apply S1_z; auto. pose proof (zmult_sum r A (sw_opp F A) O1 O2) as H.
  rewrite (sw_add_opp_r F FK), T1 in H. rewrite zmult_Inf in H. symmetry. exact H.
Qed.
Lemma S1_Inf : S1 Inf.
Proof. split; [exact Logic.I|]. apply mult_Inf. Qed.
Lemma dbl_ne A : S1 A -> A <> Inf -> sw_add F a A A <> Inf.
Proof.
  intros T1 NI Z. pose proof (proj1 T1) as O1. apply S1_z in T1; auto.
  apply (zmult_ne F FK a b H2 HD r A Pr O1 NI T1 2); [intros D; apply Z.divide_pos_le in D; lia|].
  change 2 with (1 + 1). now rewrite (zmult_add F FK a b H2 HD), !(zmult_1 F FK a b H2 HD).
Qed.
Lemma e_opp A B : S1 A -> A <> Inf -> S2 B -> omul F12 (e A B) (e (sw_opp F A) B) = o1 F12.
Proof.
  intros T1 NI TB. pose proof (dbl_ne A T1 NI) as N2. pose proof (S1_add A A T1 T1) as T2. pose proof (S1_opp A T1) as T3.
  pose proof (proj1 T1) as O1.
  assert (EA : sw_add F a (sw_add F a A A) (sw_opp F A) = A).
  { pose proof (sw_on_opp F FK a b _ O1) as O2. rewrite (sw_add_assoc F FK a b H2 HD) by auto. rewrite (sw_add_opp_r F FK). now destruct A. }
  assert (NO : sw_opp F A <> Inf) by (destruct A; [congruence|discriminate]).
  pose proof (e_P _ _ B T1 T1 T2 NI NI N2 TB) as D1.
  pose proof (e_P (sw_add F a A A) (sw_opp F A) B T2 T3) as D2. rewrite EA in D2. specialize (D2 T1 N2 NO NI TB).
  rewrite <- D1 in D2. apply (fk_mul_cancel F12 TK _ _ (e A B)); [now apply e_ne|].
  transitivity (omul F12 (omul F12 (e A B) (e A B)) (e (sw_opp F A) B)); [ring|]. rewrite D2. ring.
Qed.
Theorem e_add A1 A2 B : S1 A1 -> S1 A2 -> S2 B -> omul F12 (e A1 B) (e A2 B) = e (sw_add F a A1 A2) B.
Proof.
  intros T1 T2 TB.
  destruct A1 as [|x1 y1]; [rewrite e_Inf; cbn [sw_add]; ring|].
  destruct A2 as [|x2 y2]; [rewrite e_Inf; cbn [sw_add]; ring|].
  destruct (sw_add F a (Aff x1 y1) (Aff x2 y2)) as [|x3 y3] eqn:ES.
  - rewrite e_Inf. assert (EO : Aff x2 y2 = sw_opp F (Aff x1 y1)).
    { apply sw_add_Inf; [apply T1|apply T2|exact ES]. }
    rewrite EO. apply e_opp; auto. discriminate.
  - rewrite <- ES. apply e_P; auto; try discriminate; [now apply S1_add|rewrite ES; discriminate].
Qed.
Lemma S1_mult n A : S1 A -> S1 (mult F a n A).
Proof. intros TA. induction n as [n IH|n IH|]; cbn [mult]; auto; repeat apply S1_add; auto. Qed.
Lemma S2_mult n B : S2 B -> S2 (mult G a' n B).
Proof. intros TA. induction n as [n IH|n IH|]; cbn [mult]; auto; repeat apply S2_add; auto. Qed.
Let M := rk_monoid F12 (fk_ring F12 TK).
Lemma pow_xO x n : fpow F12 x (Pos.to_nat n~0) = omul F12 (fpow F12 x (Pos.to_nat n)) (fpow F12 x (Pos.to_nat n)).
Proof. rewrite Pos2Nat.inj_xO. apply (npow_double _ _ M). Qed.
Lemma pow_xI x n : fpow F12 x (Pos.to_nat n~1) = omul F12 (omul F12 (fpow F12 x (Pos.to_nat n)) (fpow F12 x (Pos.to_nat n))) x.
Proof. rewrite Pos2Nat.inj_xI. cbn [npow]. rewrite (npow_double _ _ M). ring. Qed.
Theorem e_mult_P n A B : S1 A -> S2 B -> e (mult F a n A) B = fpow F12 (e A B) (Pos.to_nat n).
Proof.
  intros TA TB. induction n as [n IH|n IH|]; cbn [mult].
  - pose proof (S1_mult n A TA) as TM. rewrite <- e_add, <- e_add, IH, pow_xI by (auto; now apply S1_add). reflexivity.
  - pose proof (S1_mult n A TA) as TM. rewrite <- e_add, IH, pow_xO by auto. reflexivity.
  - change (Pos.to_nat 1) with 1%nat. symmetry. apply (npow_1 _ _ M).
Qed.
Theorem e_mult_Q n A B : S1 A -> S2 B -> e A (mult G a' n B) = fpow F12 (e A B) (Pos.to_nat n).
Proof.
  intros TA TB. induction n as [n IH|n IH|]; cbn [mult].
  - pose proof (S2_mult n B TB) as TM. rewrite <- e_Q, <- e_Q, IH, pow_xI by (auto; now apply S2_add). reflexivity.
  - pose proof (S2_mult n B TB) as TM. rewrite <- e_Q, IH, pow_xO by auto. reflexivity.
  - change (Pos.to_nat 1) with 1%nat. symmetry. apply (npow_1 _ _ M).
Qed.
Theorem e_mult m n A B : S1 A -> S2 B -> e (mult F a m A) (mult G a' n B) = fpow F12 (e A B) (Pos.to_nat (m * n)).
Proof.
  intros TA TB. rewrite e_mult_P, e_mult_Q by (auto; now apply S2_mult).
  rewrite Pos.mul_comm, Pos2Nat.inj_mul. symmetry. apply (npow_mul _ _ M).
Qed.
End Scalars.
