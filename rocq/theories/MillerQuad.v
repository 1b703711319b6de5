(** The mnt4 and mnt6 pairings against the textbook ate pairing.  Both use a
    quadratic twist: the big field is E[w]/(w^2 - nu) with E = Fq2 or Fq3, and
    (x, y) on the twist is (x / nu, y / (nu w)) on the curve. *)
From Coq Require Import ZArith List Bool Ring Field Lia Znumtheory.
From Verif Require Import Result Algebra Limbs LimbsProofs FieldOps BigintModel AlgorithmsModel AlgorithmsProofs ExtModel ExtSpec ExtProofs CurveSpec CurveGroup CurveModel
  CurveProofs MillerSpec PairingModel PairingSpec PairingProofs NeutralProofs MillerProofs MillerRegular.
Import ListNotations.

Lemma prj_to_affine_at {K} (F : Fops K) (FK : field_ok F) P x y : prj_den F P = Aff x y -> prj_to_affine F P = Ok (x, y, o1 F).
Proof.
  destruct P as [[X Y] Z]. cbn [prj_den]. destruct (oeqb F Z (o0 F)) eqn:E; [discriminate|]. intros H. injection H as H1 H2.
  apply (rk_eqb_neq F (fk_ring F FK)) in E. unfold prj_to_affine.
  assert (Z0 : prj_is_zero F (X, Y, Z) = false).
  { unfold prj_is_zero. apply (rk_eqb_neq F (fk_ring F FK)) in E. rewrite E. apply andb_false_r. }
  rewrite Z0. destruct (tinv_spec F FK Z E) as [-> _]. cbn [bind]. unfold tdiv in *. now rewrite H1, H2.
Qed.

(** ** The steps, over the field of the twist *)
Section Steps.
Context {K L : Type} (F : Fops K) (G : Fops L) (GK : field_ok G) (scale : K -> L -> L) (a' b' : L).
Let RG : ring_ok G := fk_ring G GK.
Add Field MQGfield : (fk_field G GK).
Local Notation "0" := (o0 G).
Local Notation "1" := (o1 G).
Local Notation "x + y" := (oadd G x y).
Local Notation "x - y" := (osub G x y).
Local Notation "x * y" := (omul G x y).
Local Notation "- x" := (oopp G x).
Definition eight : L := let t := 1 + 1 in let f := t + t in f + f.
Hypothesis S8 : forall x, scale (oopp F (Fq_eight F)) x = - (eight * x).

Lemma quad_step_dbl x y z : z <> 0 -> y + y <> 0 ->
  exists l x3 y3 z3, z3 <> 0 /\ l * (y + y) = x * x + x * x + x * x + a' /\ third G l x y x = Aff x3 y3 /\
    let c := (y + y + (y + y)) * (z * z * z * (z * z * z)) in c <> 0 /\
    mnt_doubling_step F G scale a' (x * (z * z), y * (z * z * z), z, z * z) =
      ((x3 * (z3 * z3), y3 * (z3 * z3 * z3), z3, z3 * z3),
       {| c_H := c; c_4C := c * y; c_J := c * l; c_L := c * (l * x) |}).
Proof.
  intros Nz Ny.
  assert (H2 : 1 + 1 <> 0) by (intros X; apply Ny; transitivity ((1 + 1) * y); [ring|rewrite X; ring]).
  assert (Ny0 : y <> 0) by (intros X; apply Ny; rewrite X; ring).
  pose (l := tdiv G (x * x + x * x + x * x + a') (y + y)).
  exists l. unfold third. cbv zeta. do 2 eexists. exists ((y + y) * (z * z * (z * z))).
  split; [repeat apply fk_mul_neq_0; auto|]. split; [unfold l; field; auto|]. split; [reflexivity|].
  assert (N4 : y + y + (y + y) <> 0).
  { replace (y + y + (y + y)) with ((1 + 1) * (y + y)) by ring. now apply fk_mul_neq_0. }
  split; [repeat apply fk_mul_neq_0; auto|].
  rewrite (mnt_dbl_simpl F G RG scale a'). cbv zeta. rewrite S8. unfold eight. cbv zeta.
  assert (Hl : x * x + x * x + x * x + a' = l * (y + y)) by (unfold l; field; auto).
  assert (HA : a' = l * (y + y) - (x * x + x * x + x * x)) by (rewrite <- Hl; ring). clearbody l. clear Hl. subst a'.
  repeat match goal with |- (_, _) = (_, _) => apply (f_equal2 pair) end; try ring.
  f_equal; ring.
Qed.
Lemma quad_step_add x y z x2 y2 : 1 + 1 <> 0 -> z <> 0 -> x <> x2 ->
  exists l x3 y3 z3, z3 <> 0 /\ l * (x2 - x) = y2 - y /\ third G l x y x2 = Aff x3 y3 /\
    mnt_mixed_addition_step G x2 y2 (osqr G y2) (x * (z * z), y * (z * z * z), z, z * z) =
      ((x3 * (z3 * z3), y3 * (z3 * z3 * z3), z3, z3 * z3), {| c_L1 := z3 * l; c_RZ := z3 |}).
Proof.
  intros H2 Nz Nx.
  assert (Nd : x2 - x <> 0) by (intros Z; apply Nx; symmetry; now apply (rk_sub_0 G RG)).
  pose (l := tdiv G (y2 - y) (x2 - x)).
  exists l. unfold third. cbv zeta. do 2 eexists. exists ((1 + 1) * (z * z * z * (x2 - x))).
  split; [repeat apply fk_mul_neq_0; auto|]. split; [unfold l; field; auto|]. split; [reflexivity|].
  rewrite (mnt_add_simpl G RG). cbv zeta.
  assert (Hl : y2 = l * (x2 - x) + y) by (unfold l; field; auto). clearbody l. subst y2.
  repeat match goal with |- (_, _) = (_, _) => apply (f_equal2 pair) end; try ring.
  f_equal; ring.
Qed.
Lemma quad_step_neg x y z zi : z <> 0 -> zi * z = 1 ->
  exists R, mnt_mixed_addition_step G (x * (z * z) * (zi * zi)) (- (y * (z * z * z)) * (zi * zi * zi)) (osqr G (- (y * (z * z * z)) * (zi * zi * zi)))
      (x * (z * z), y * (z * z * z), z, z * z) =
      (R, {| c_L1 := - ((y + y + (y + y)) * (z * z * z)); c_RZ := 0 |}).
Proof.
  intros Nz Hz. 
  assert (E1 : x * (z * z) * (zi * zi) = x) by (transitivity (x * ((zi * z) * (zi * z))); [ring|rewrite Hz; ring]).
  assert (E2 : - (y * (z * z * z)) * (zi * zi * zi) = - y) by (transitivity (- (y * ((zi * z) * (zi * z) * (zi * z)))); [ring|rewrite Hz; ring]).
  rewrite E1, E2. rewrite (mnt_add_simpl G RG). cbv zeta. eexists. f_equal. f_equal; ring.
Qed.
End Steps.

(** Two lists of coefficients, one for each kind of step. *)
Section Quad.
Context {K L : Type} (F : Fops K) (G : Fops L) (GK : field_ok G) (e1 : K -> L) (scale : K -> L -> L) (nu : L) (mnr : L -> L).
Hypothesis e1_1 : e1 (o1 F) = o1 G.
Hypothesis e1_add : forall x y, e1 (oadd F x y) = oadd G (e1 x) (e1 y).
Hypothesis e1_mul : forall x y, e1 (omul F x y) = omul G (e1 x) (e1 y).
Hypothesis e1_opp : forall x, e1 (oopp F x) = oopp G (e1 x).
Hypothesis e1_inj : forall x y, e1 x = e1 y -> x = y.
Hypothesis e1_0 : e1 (o0 F) = o0 G.
Hypothesis Hs : forall s x, scale s x = omul G (e1 s) x.
Hypothesis Hmnr : forall x, mnr x = omul G nu x.
Hypothesis Nnu : nu <> o0 G.
Notation T := (quad_ops G mnr).
Hypothesis TK : field_ok T.
Let RG : ring_ok G := fk_ring G GK.
Let RT : ring_ok T := fk_ring T TK.
Notation emb := (quad_emb G).
Notation w := (quad_u G).
Notation u := (tinv T w).
Notation up x := (emb (e1 x)).
Add Field MQ2G : (fk_field G GK).
Add Field MQ2T : (fk_field T TK).
Lemma q_emb_0 : emb (o0 G) = o0 T. Proof. reflexivity. Qed.
Lemma q_emb_add x y : emb (oadd G x y) = oadd T (emb x) (emb y). Proof. apply (quad_emb_add G mnr RG). Qed.
Lemma q_emb_mul x y : emb (omul G x y) = omul T (emb x) (emb y). Proof. apply (quad_emb_mul G mnr nu RG Hmnr). Qed.
Lemma q_emb_opp x : emb (oopp G x) = oopp T (emb x).
Proof. unfold quad_emb. cbn. unfold quad_opp. f_equal. ring. Qed.
Lemma q_emb_sub x y : emb (osub G x y) = osub T (emb x) (emb y).
Proof. unfold quad_emb. cbn. unfold quad_sub. f_equal. ring. Qed.
Lemma q_emb_inj x y : emb x = emb y -> x = y.
Proof. intros H. now injection H. Qed.
Lemma q_emb_ne x : x <> o0 G -> emb x <> o0 T.
Proof. intros N H. apply N. now injection H. Qed.
Lemma w_sq : omul T w w = emb nu. Proof. apply (quad_u_sqr G mnr nu RG Hmnr). Qed.
Lemma w_ne : w <> o0 T.
Proof. intros H. apply (fk_1_neq_0 G GK). now injection H. Qed.
Lemma u_w : omul T u w = o1 T. Proof. now destruct (tinv_spec T TK w w_ne). Qed.
Lemma u_ne : u <> o0 T.
Proof. intros H. apply (fk_1_neq_0 T TK). rewrite <- u_w, H. ring. Qed.
Lemma nu_ne : emb nu <> o0 T. Proof. now apply q_emb_ne. Qed.
Lemma u_sq : omul T u u = emb (tinv G nu).
Proof.
  apply (fk_mul_cancel T TK _ _ (emb nu) nu_ne). rewrite <- q_emb_mul, (proj2 (tinv_spec G GK nu Nnu)).
  rewrite <- w_sq. change (emb (o1 G)) with (o1 T). transitivity (omul T (omul T u w) (omul T u w)); [ring|]. rewrite u_w. ring.
Qed.
Lemma pair_eq x y : (x, y) = oadd T (emb x) (omul T (emb y) w).
Proof. exact (quad_basis G mnr nu RG Hmnr (x, y)). Qed.

Variables (a b : K) (a' b' : L).
Hypothesis Ea : a' = omul G (e1 a) (omul G nu nu).
Hypothesis Eb : b' = omul G (e1 b) (omul G (omul G nu nu) nu).
Notation Psi := (psi T emb u).
Notation ta := (tw_a T emb u a').
Lemma nu_u : omul T (emb nu) (omul T u u) = o1 T.
Proof. rewrite u_sq, <- q_emb_mul. rewrite (rk_mul_comm G RG), (proj2 (tinv_spec G GK nu Nnu)). reflexivity. Qed.
Lemma q_ta : ta = up a.
Proof.
  unfold tw_a. rewrite Ea, !q_emb_mul. pose proof nu_u as H.
  transitivity (omul T (up a) (omul T (omul T (emb nu) (omul T u u)) (omul T (emb nu) (omul T u u)))); [ring|]. rewrite H. ring.
Qed.
Lemma q_tb : tws_b T emb u b' = up b.
Proof.
  unfold tws_b. rewrite Eb, !q_emb_mul. pose proof nu_u as H.
  transitivity (omul T (up b) (omul T (omul T (omul T (emb nu) (omul T u u)) (omul T (emb nu) (omul T u u))) (omul T (emb nu) (omul T u u)))); [ring|].
  rewrite H. ring.
Qed.

(** *** The lines *)
Variables (xP yP : K).
Notation PP := ({| PX := xP; PY := yP; PX_twist := scale xP nu; PY_twist := scale yP nu |}).
Notation lv l x y := (line_val T (omul T (emb l) u) (omul T (emb x) (omul T u u)) (omul T (emb y) (omul T (omul T u u) u)) (up xP) (up yP)).
Lemma line_RR c l x y :
  mnt_g_RR G PP {| c_H := c; c_4C := omul G c y; c_J := omul G c l; c_L := omul G c (omul G l x) |} =
  omul T (omul T (emb c) (omul T (omul T w w) w)) (lv l x y).
Proof.
  unfold mnt_g_RR, line_val. cbn [c_H c_4C c_J c_L PX_twist PY_twist]. rewrite !Hs, pair_eq.
  repeat rewrite ?q_emb_add, ?q_emb_sub, ?q_emb_mul, ?q_emb_opp. rewrite <- w_sq. pose proof u_w as H.
  generalize dependent u. intros v H.
  transitivity (osub T (osub T (omul T (omul T (emb c) (up yP)) (omul T (omul T w w) w)) (omul T (emb c) (emb y)))
    (omul T (omul T (emb c) (emb l)) (osub T (omul T (up xP) (omul T w w)) (emb x)))); [ring|].
  set (t := omul T v w) in H.
  transitivity (osub T (osub T (omul T (omul T (emb c) (up yP)) (omul T (omul T w w) w)) (omul T (omul T (emb c) (emb y)) (omul T (omul T t t) t)))
    (omul T (omul T (emb c) (emb l)) (omul T t (osub T (omul T (up xP) (omul T w w)) (omul T (emb x) (omul T t t)))))); [rewrite H; ring|].
  unfold t. ring.
Qed.
Lemma line_RQ (Qp : mnt_G2_precomp) c l x y :
  QX_over_twist Qp = omul G x (tinv G nu) -> QY_over_twist Qp = omul G y (tinv G nu) ->
  mnt_g_RQ G e1 PP Qp {| c_L1 := omul G c l; c_RZ := c |} = omul T (emb (omul G c nu)) (lv l x y).
Proof.
  intros H1 H2. unfold mnt_g_RQ, line_val. cbn [c_L1 c_RZ PX PY_twist]. rewrite Hs, H1, H2, pair_eq.
  repeat rewrite ?q_emb_add, ?q_emb_sub, ?q_emb_mul, ?q_emb_opp. rewrite <- u_sq. rewrite <- w_sq. pose proof u_w as H.
  generalize dependent u. intros v H.
  set (t := omul T v w) in H.
  transitivity (osub T (osub T (omul T (omul T (emb c) (up yP)) (omul T w w)) (omul T (omul T (omul T (emb c) (emb y)) (omul T v v)) (omul T t w)))
    (omul T (omul T (emb c) (emb l)) (omul T (omul T t w) (osub T (up xP) (omul T (emb x) (omul T v v)))))).
  - rewrite H. ring.
  - unfold t. ring.
Qed.
Lemma line_neg (Qp : mnt_G2_precomp) c x :
  QX_over_twist Qp = omul G x (tinv G nu) ->
  mnt_g_RQ G e1 PP Qp {| c_L1 := oopp G c; c_RZ := o0 G |} = omul T (emb (omul G c (osub G (e1 xP) (omul G x (tinv G nu))))) w.
Proof.
  intros H1. unfold mnt_g_RQ. cbn [c_L1 c_RZ PX PY_twist]. rewrite Hs, H1, pair_eq.
  repeat rewrite ?q_emb_add, ?q_emb_sub, ?q_emb_mul, ?q_emb_opp. change (emb (o0 G)) with (o0 T). ring.
Qed.

(** *** The loop *)
Variable kill : L * L -> Prop.
Hypothesis KL : kills T kill.
Hypothesis kill_emb : forall c, c <> o0 G -> kill (emb c).
Hypothesis kill_w : kill w.
Hypothesis H2 : oadd G (o1 G) (o1 G) <> o0 G.
Definition qrep (R : L * L * L * L) (A : apt (L * L)) : Prop := exists x y z, z <> o0 G /\ sw_on G a' b' (Aff x y) /\
  R = (omul G x (omul G z z), omul G y (omul G (omul G z z) z), z, omul G z z) /\ A = Psi (Aff x y).
Notation dstep := (mnt_doubling_step F G scale a').
Lemma S8 x : scale (oopp F (Fq_eight F)) x = oopp G (omul G (eight G) x).
Proof. rewrite Hs, e1_opp. unfold Fq_eight, eight. cbv zeta. rewrite !e1_add, e1_1. ring. Qed.
Lemma q_dbl R A : qrep R A -> regular_dbl T ta A (up xP) ->
  qrep (fst (dstep R)) (sw_add T ta A A) /\ upto T kill (mnt_g_RR G PP (snd (dstep R))) (line_at T ta A A (up xP) (up yP)).
Proof.
  intros (x & y & z & Nz & O & -> & ->) Rg. unfold regular_dbl in Rg. cbn [psi] in Rg. destruct Rg as [Hy _].
  apply (u3_0 G T TK emb u q_emb_0 q_emb_add q_emb_inj u_ne) in Hy.
  destruct (quad_step_dbl F G GK scale a' S8 x y z Nz Hy) as (l & x3 & y3 & z3 & Nz3 & Hl & H3 & Nc & Es).
  destruct (psi_dbl G T TK emb u q_emb_0 q_emb_add q_emb_sub q_emb_mul q_emb_inj u_ne a' x y l Hy Hl) as [P1 P2].
  rewrite Es. cbn [fst snd]. split.
  - exists x3, y3, z3. rewrite <- P1, H3. repeat split; auto. rewrite <- H3. now apply (third_dbl_on G GK a' b').
  - rewrite P2, line_RR. eexists. split; [|reflexivity].
    apply (kill_mul T kill KL); [now apply kill_emb|]. repeat apply (kill_mul T kill KL); auto.
Qed.
Variables xQ yQ : L.
Hypothesis OQ : sw_on G a' b' (Aff xQ yQ).
Notation Qt := (Psi (Aff xQ yQ)).
Notation astep := (mnt_mixed_addition_step G xQ yQ (osqr G yQ)).
Definition Qdummy : mnt_G2_precomp := {| QX := xQ; QY := yQ; QY2 := osqr G yQ; QX_over_twist := omul G xQ (tinv G nu); QY_over_twist := omul G yQ (tinv G nu);
  dbl_coeffs := []; add_coeffs := [] |}.
Notation lnA := (mnt_g_RQ G e1 PP Qdummy).
Lemma q_add R A : qrep R A -> regular_add T ta A Qt (up xP) ->
  qrep (fst (astep R)) (sw_add T ta A Qt) /\ upto T kill (lnA (snd (astep R))) (line_at T ta A Qt (up xP) (up yP)).
Proof.
  intros (x & y & z & Nz & O & -> & ->) Rg. unfold regular_add in Rg. cbn [psi] in Rg. destruct Rg as [Hx _].
  assert (Nx : x <> xQ) by (intros ->; now apply Hx).
  destruct (quad_step_add G GK x y z xQ yQ H2 Nz Nx) as (l & x3 & y3 & z3 & Nz3 & Hl & H3 & Es).
  destruct (psi_addition G T TK emb u q_emb_sub q_emb_mul q_emb_inj u_ne a' x y xQ yQ l Nx Hl) as [P1 P2].
  rewrite Es. cbn [fst snd]. split.
  - exists x3, y3, z3. rewrite <- P1, H3. repeat split; auto. rewrite <- H3. now apply (third_add_on G GK a' b' x y xQ yQ).
  - rewrite P2, (line_RQ Qdummy z3 l xQ yQ eq_refl eq_refl). 
    rewrite (line_val_swap T TK (omul T (emb l) u) (omul T (emb x) (omul T u u)) (omul T (emb y) (omul T (omul T u u) u))
       (omul T (emb xQ) (omul T u u)) (omul T (emb yQ) (omul T (omul T u u) u))).
    + eexists. split; [|reflexivity]. apply kill_emb. apply (fk_mul_neq_0 G GK); auto.
    + apply (f_equal emb) in Hl. rewrite q_emb_mul, !q_emb_sub in Hl.
      transitivity (omul T (omul T (emb l) (osub T (emb xQ) (emb x))) (omul T (omul T u u) u)); [ring|]. rewrite Hl. ring.
Qed.
Lemma q_vert R A : qrep R A -> vertical_at T A (up xP) <> o0 T -> kill (vertical_at T A (up xP)).
Proof.
  intros (x & y & z & _ & _ & _ & ->). cbn [psi vertical_at]. rewrite u_sq, <- q_emb_mul, <- q_emb_sub. intros N. apply kill_emb. intros Z. apply N. now rewrite Z.
Qed.
Notation pbody := (mnt_precompute_body F G scale a' xQ yQ (osqr G yQ)).
Definition Qlike (Qp : mnt_G2_precomp) (dcs : list mnt_dbl_coeffs) (acs : list mnt_add_coeffs) : Prop :=
  (exists dd, dbl_coeffs Qp = dcs ++ dd) /\ (exists aa, add_coeffs Qp = acs ++ aa) /\
  QX_over_twist Qp = omul G xQ (tinv G nu) /\ QY_over_twist Qp = omul G yQ (tinv G nu).
Lemma lnA_eq Qp dcs acs ac : Qlike Qp dcs acs -> mnt_g_RQ G e1 PP Qp ac = lnA ac.
Proof. intros (_ & _ & H1 & H3). unfold mnt_g_RQ. rewrite H1, H3. reflexivity. Qed.
Lemma at_idx_like {B} (l l1 : list B) x l2 : l = (l1 ++ [x]) ++ l2 -> at_idx l (length l1) = Ok x.
Proof. intros ->. rewrite <- app_assoc. apply at_idx_app. Qed.
Lemma Qlike_tail Qp dcs dc acs ac : Qlike Qp (dcs ++ dc) (acs ++ ac) -> Qlike Qp dcs acs.
Proof.
  intros ((dd & E1) & (aa & E3) & H). split; [|split; [|exact H]].
  - rewrite E1, <- app_assoc. eauto.
  - rewrite E3, <- app_assoc. eauto.
Qed.
Lemma q_loop n : regular T ta n Qt (up xP) ->
  exists R dcs acs f, mfold pbody (below (Z.pos n)) ((xQ, yQ, o1 G, o1 G), [], []) = Ok (R, dcs, acs) /\
    qrep R (mult T ta n Qt) /\ upto T kill f (miller T ta n Qt (up xP) (up yP)) /\
    forall Qp, Qlike Qp dcs acs -> mfold (mnt_miller_body G e1 T PP Qp) (below (Z.pos n)) (o1 T, O, O) = Ok (f, length dcs, length acs).
Proof.
  pose proof (dbl_ratio T TK ta kill KL qrep dstep (mnt_g_RR G PP) (up xP) (up yP) q_dbl q_vert) as DR.
  pose proof (add_ratio T TK ta kill KL qrep astep lnA Qt (up xP) (up yP) q_add q_vert) as AR.
  induction n as [n IH|n IH|]; cbn [regular mult miller].
  - intros (Hr & Hd & Ha). destruct (IH Hr) as (R & dcs & acs & f & E1 & H1 & U & E2). clear IH.
    destruct (DR R _ H1 Hd) as [H3 U3]. destruct (AR _ _ H3 Ha) as [H4 U4]. clear DR AR.
    change (Z.pos n~1) with (2 * Z.pos n + Z.b2z true)%Z. rewrite below_double.
    destruct (dstep R) as [R1 c1] eqn:ED. cbn [fst snd] in *. destruct (astep R1) as [R2 c2] eqn:EA. cbn [fst snd] in *.
    exists R2, (dcs ++ [c1]), (acs ++ [c2]), (omul T (omul T (omul T f f) (mnt_g_RR G PP c1)) (lnA c2)). split; [|split; [exact H4|split]].
    + rewrite mfold_app, E1. cbn [bind mfold]. unfold mnt_precompute_body. rewrite ED, EA. reflexivity.
    + repeat apply (upto_mul T TK kill KL); auto.
    + intros Qp HQ. rewrite mfold_app, (E2 Qp (Qlike_tail _ _ _ _ _ HQ)). cbn [bind mfold]. unfold mnt_miller_body.
      rewrite <- (lnA_eq Qp _ _ c2 HQ). destruct HQ as ((dd & D1) & (aa & D2) & _).
      rewrite (at_idx_like _ _ _ _ D1), (at_idx_like _ _ _ _ D2). cbn [bind]. rewrite (rk_sqr T RT), !app_length.
      do 3 f_equal; cbn [length]; lia.
  - intros (Hr & Hd). destruct (IH Hr) as (R & dcs & acs & f & E1 & H1 & U & E2). clear IH.
    destruct (DR R _ H1 Hd) as [H3 U3]. clear DR AR.
    replace (Z.pos n~0) with (2 * Z.pos n + Z.b2z false)%Z by (cbn; lia). rewrite below_double.
    destruct (dstep R) as [R1 c1] eqn:ED. cbn [fst snd] in *.
    exists R1, (dcs ++ [c1]), acs, (omul T (omul T f f) (mnt_g_RR G PP c1)). split; [|split; [exact H3|split]].
    + rewrite mfold_app, E1. cbn [bind mfold]. unfold mnt_precompute_body. rewrite ED. reflexivity.
    + repeat apply (upto_mul T TK kill KL); auto.
    + intros Qp HQ. assert (HQ' : Qlike Qp dcs acs) by (apply (Qlike_tail Qp dcs [c1] acs []); now rewrite app_nil_r).
      rewrite mfold_app, (E2 Qp HQ'). cbn [bind mfold]. unfold mnt_miller_body.
      destruct HQ as ((dd & D1) & _). rewrite (at_idx_like _ _ _ _ D1). cbn [bind]. rewrite (rk_sqr T RT), !app_length.
      do 3 f_equal; cbn [length]; lia.
  - intros _. exists (xQ, yQ, o1 G, o1 G), [], [], (o1 T). split; [reflexivity|]. split; [|split; [now apply (upto_refl T TK kill KL)|reflexivity]].
    exists xQ, yQ, (o1 G). split; [apply (fk_1_neq_0 G GK)|]. split; [exact OQ|]. split; [|reflexivity].
    repeat match goal with |- (_, _) = (_, _) => apply (f_equal2 pair) end; ring.
Qed.

(** *** The pairing before the final exponentiation *)
Hypothesis FK : field_ok F.
Variables (lc : bigint) (neg : bool) (n : positive).
Hypothesis Llc : limbs lc.
Hypothesis Hlc : val lc = Z.pos n.
Definition quad_pairing (P : K * K * K) (Q : L * L * L) : result (L * L) :=
  prec_P <- mnt_precompute_G1 F scale nu P ;;
  prec_Q <- mnt_precompute_G2 F G scale nu a' lc neg Q ;;
  mnt_miller_loop G e1 T lc neg prec_P prec_Q.
Theorem quad_miller P Q : prj_den F P = Aff xP yP -> prj_den G Q = Aff xQ yQ ->
  regular_signed T ta neg n Qt (up xP) -> miller T ta n Qt (up xP) (up yP) <> o0 T -> vertical_at T Qt (up xP) <> o0 T ->
  (forall x y, mult T ta n Qt = Psi (Aff x y) -> oadd G y y <> o0 G) ->
  exists f, quad_pairing P Q = Ok f /\ upto T kill f (miller_signed T ta neg n Qt (up xP) (up yP)).
Proof.
  intros DP DQ [Rg Rv] Nf VQ Ny. unfold quad_pairing, mnt_precompute_G1, mnt_precompute_G2.
  rewrite (prj_to_affine_at F FK P _ _ DP), (prj_to_affine_at G GK Q _ _ DQ). cbn [bind].
  destruct (tinv_spec G GK nu Nnu) as [-> _]. cbn [bind].
  destruct (q_loop n Rg) as (R & dcs & acs & f & E1 & (x & y & z & Nz & O & ER & EA) & U & E2).
  rewrite bit_loop_skip by (auto; apply loop_bound; auto). rewrite Hlc, E1. cbn [bind].
  pose proof (Ny x y EA) as Ny'. subst R. destruct neg.
  - destruct (tinv_spec G GK z Nz) as [-> Hz]. cbn [bind]. rewrite !(rk_sqr G RG).
    destruct (quad_step_neg G GK x y z (tinv G z) Nz Hz) as (R & Es). rewrite !(rk_sqr G RG) in Es. rewrite Es. cbn [bind].
    unfold mnt_miller_loop, mnt_miller_loop_idx. rewrite bit_loop_skip by (auto; apply loop_bound; auto). rewrite Hlc.
    set (ac := {| c_L1 := _; c_RZ := _ |}).
    match goal with |- context [mnt_miller_body _ _ _ _ ?Qp] => set (Q1 := Qp) end.
    assert (HQ : Qlike Q1 dcs acs) by (split; [exists []; now rewrite app_nil_r|split; [now exists [ac]|now split]]).
    rewrite (E2 Q1 HQ). cbn [bind]. unfold Q1 at 1. cbn [add_coeffs]. rewrite at_idx_app. cbn [bind].
    unfold ac. rewrite (line_neg Q1 _ xQ eq_refl).
    assert (Kg : kill (omul T (emb (omul G (omul G (oadd G (oadd G y y) (oadd G y y)) (omul G (omul G z z) z)) (osub G (e1 xP) (omul G xQ (tinv G nu))))) w)).
    { apply (kill_mul T kill KL); [|exact kill_w]. apply kill_emb. repeat apply (fk_mul_neq_0 G GK); auto.
      - replace (oadd G (oadd G y y) (oadd G y y)) with (omul G (oadd G (o1 G) (o1 G)) (oadd G y y)) by ring. now apply (fk_mul_neq_0 G GK).
      - cbn [psi vertical_at] in VQ. rewrite u_sq, <- q_emb_mul, <- q_emb_sub in VQ. intros Z. apply VQ. now rewrite Z. }
    set (g := omul T (emb _) w) in *.
    assert (Ng : g <> o0 T) by now apply (kill_0 T kill KL).
    pose proof (upto_0 T TK kill KL _ _ U) as U0.
    assert (Nf' : omul T f g <> o0 T) by (apply (fk_mul_neq_0 T TK); [tauto|auto]).
    destruct (tinv_spec T TK _ Nf') as [-> _]. cbn [bind]. exists (tinv T (omul T f g)). split; [reflexivity|].
    unfold miller_signed. specialize (Rv eq_refl).
    assert (KV : kill (vertical_at T (mult T ta n Qt) (up xP))).
    { apply (q_vert (omul G x (omul G z z), omul G y (omul G (omul G z z) z), z, omul G z z)); [|exact Rv]. exists x, y, z. repeat split; auto. }
    apply (upto_inv T TK kill KL); [now apply (fk_mul_neq_0 T TK)|]. destruct U as (k & Kk & ->).
    exists (omul T (omul T k g) (tinv T (vertical_at T (mult T ta n Qt) (up xP)))). split.
    + apply (kill_mul T kill KL); [now apply (kill_mul T kill KL)|]. now apply (kill_inv T kill KL).
    + field. exact Rv.
  - cbn [bind]. unfold mnt_miller_loop, mnt_miller_loop_idx. rewrite bit_loop_skip by (auto; apply loop_bound; auto). rewrite Hlc.
    match goal with |- context [mnt_miller_body _ _ _ _ ?Qp] => set (Q1 := Qp) end.
    assert (HQ : Qlike Q1 dcs acs) by (split; [exists []; now rewrite app_nil_r|split; [exists []; now rewrite app_nil_r|now split]]).
    rewrite (E2 Q1 HQ). cbn [bind]. exists f. split; [reflexivity|exact U].
Qed.
End Quad.
