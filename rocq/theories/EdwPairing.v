(** The edwards ate pairing against the textbook ate pairing of the short
    Weierstrass form: on points of order r the value is the inverse of the ate
    pairing with loop count -n. *)
From Coq Require Import ZArith List Bool Ring Field Lia Znumtheory.
From Verif Require Import Result Algebra Limbs LimbsProofs FieldOps BigintModel AlgorithmsModel AlgorithmsProofs ExtModel ExtSpec ExtFrob ExtProofs ExtInst CurveSpec CurveGroup
  CurveModel CurveProofs CurveEdwards CurveEdwOps EdwSpec EdwSw MillerSpec PairingModel PairingSpec PairingProofs NeutralProofs MillerProofs MillerRegular MillerQuad
  Cochain MillerBilinear BilinearTwelve BilinearQuad MntShipped.
Import ListNotations.
Open Scope Z_scope.

(** ** The steps, over the field of the twist *)
Section Steps.
Context {L : Type} (G : Fops L) (GK : field_ok G) (a' : L) (mul_a : L -> L).
Hypothesis MA : forall x, mul_a x = omul G a' x.
Let RG : ring_ok G := fk_ring G GK.
Add Field EPG : (fk_field G GK).
Local Notation "0" := (o0 G).
Local Notation "1" := (o1 G).
Local Notation "x + y" := (oadd G x y).
Local Notation "x - y" := (osub G x y).
Local Notation "x * y" := (omul G x y).
Local Notation "- x" := (oopp G x).
(** A conic through (x, y), from the slope m of the line in Montgomery
    coordinates. *)
Definition conic_of (m x y c : L) : L * L * L :=
  let i := te_v G x y - m * te_u G y in (c, (i - m) * c, - ((i + m) * c)).
Lemma edw_dbl_conic x y z : 1 + 1 <> 0 -> x <> 0 -> y <> 0 -> 1 - y <> 0 ->
  a' * (x * x) + y * y <> 0 -> 1 + 1 - a' * (x * x) - y * y <> 0 ->
  edw_doubling_step G mul_a (x * z, y * z, z, x * y * z) =
  (let z3 := (a' * (x * x) + y * y) * (1 + 1 - a' * (x * x) - y * y) * (z * z * (z * z)) in
   (dbl_x G a' x y * z3, dbl_y G a' x y * z3, z3, dbl_x G a' x y * dbl_y G a' x y * z3),
   conic_of (tdiv G (1 + (1 + 1) * y - a' * (x * x)) ((1 + 1) * (x * y))) x y ((1 + 1) * (x * y * (y - 1)) * (z * z))).
Proof.
  intros N2 Nx Ny M Ni Nk. unfold edw_doubling_step, conic_of, dbl_x, dbl_y, te_u, te_v. cbv zeta. rewrite !MA, !(rk_sqr G RG).
  repeat match goal with |- (_, _) = (_, _) => apply (f_equal2 pair) end; try (field; repeat split; auto); try ring.
Qed.
Lemma edw_add_conic x1 y1 z x2 y2 : 1 + 1 <> 0 -> x1 <> 0 -> x2 <> 0 -> 1 - y1 <> 0 -> 1 - y2 <> 0 -> y2 - y1 <> 0 ->
  y1 * y2 + a' * (x1 * x2) <> 0 -> x1 * y2 - y1 * x2 <> 0 ->
  let '(R, (czz, cxy, cxz)) := edw_mixed_addition_step G mul_a (x2, y2, 1, x2 * y2) (x1 * z, y1 * z, z, x1 * y1 * z) in
  let c := x1 * x2 * (y1 - y2) * z in
  R = (let z3 := (y1 * y2 + a' * (x1 * x2)) * (x1 * y2 - y1 * x2) * (z * z) in
   (sum_x G a' x1 y1 x2 y2 * z3, sum_y G x1 y1 x2 y2 * z3, z3, sum_x G a' x1 y1 x2 y2 * sum_y G x1 y1 x2 y2 * z3)) /\
  czz = a' * c /\ (c, cxy, cxz) = conic_of (tdiv G (te_v G x2 y2 - te_v G x1 y1) (te_u G y2 - te_u G y1)) x1 y1 c.
Proof.
  intros N2 Nx1 Nx2 M1 M2 Ny Nc Nf. unfold edw_mixed_addition_step, conic_of, sum_x, sum_y. cbv zeta. rewrite !MA.
  split; [|split].
  - repeat match goal with |- (_, _) = (_, _) => apply (f_equal2 pair) end; try (field; repeat split; auto); try ring.
  - ring.
  - rewrite (te_u_sub G GK y1 y2 M1 M2). unfold te_u, te_v.
    repeat match goal with |- (_, _) = (_, _) => apply (f_equal2 pair) end; try (field; repeat split; auto); try ring.
Qed.
End Steps.

(** The coefficients a regular loop stores. *)
Lemma shape_app {A} (PD PA : A -> Prop) bs cs bs' cs' : shape PD PA bs cs -> shape PD PA bs' cs' -> shape PD PA (bs ++ bs') (cs ++ cs').
Proof. induction 1; intros; cbn [app]; [assumption|constructor; auto|constructor; auto]. Qed.
Section RegShape.
Context {T St A : Type} (F : Fops T) (a : T).
Variables (rep : St -> apt T -> Prop) (dbl add : St -> St * A) (PD PA : A -> Prop) (Q : apt T) (xP : T).
Hypothesis dbl_ok : forall R S, rep R S -> regular_dbl F a S xP -> rep (fst (dbl R)) (sw_add F a S S) /\ PD (snd (dbl R)).
Hypothesis add_ok : forall R S, rep R S -> regular_add F a S Q xP -> rep (fst (add R)) (sw_add F a S Q) /\ PA (snd (add R)).
Lemma reg_shape R0 n : rep R0 Q -> regular F a n Q xP ->
  exists R cs, mfold (push_body dbl add) (below (Z.pos n)) (R0, []) = Ok (R, cs) /\ rep R (mult F a n Q) /\ shape PD PA (below (Z.pos n)) cs.
Proof.
  intros H0. induction n as [n IH|n IH|]; cbn [regular mult].
  - intros (Hr & Hd & Ha). destruct (IH Hr) as (R & cs & E1 & H1 & S1). clear IH.
    destruct (dbl_ok R _ H1 Hd) as [H2 D2]. destruct (add_ok _ _ H2 Ha) as [H3 A3].
    change (Z.pos n~1) with (2 * Z.pos n + Z.b2z true)%Z. rewrite below_double.
    destruct (dbl R) as [R1 c1] eqn:ED. cbn [fst snd] in *. destruct (add R1) as [R2 c2] eqn:EA. cbn [fst snd] in *.
    exists R2, (cs ++ [c1; c2]). split; [|split; [exact H3|]].
    + rewrite mfold_app, E1. cbn [bind mfold]. unfold push_body. rewrite ED, EA, <- app_assoc. reflexivity.
    + apply shape_app; [exact S1|]. repeat constructor; assumption.
  - intros (Hr & Hd). destruct (IH Hr) as (R & cs & E1 & H1 & S1). clear IH.
    destruct (dbl_ok R _ H1 Hd) as [H2 D2].
    replace (Z.pos n~0) with (2 * Z.pos n + Z.b2z false)%Z by (cbn; lia). rewrite below_double.
    destruct (dbl R) as [R1 c1] eqn:ED. cbn [fst snd] in *.
    exists R1, (cs ++ [c1]). split; [|split; [exact H2|]].
    + rewrite mfold_app, E1. cbn [bind mfold]. unfold push_body. rewrite ED. reflexivity.
    + apply shape_app; [exact S1|]. repeat constructor; assumption.
  - intros _. exists R0, []. split; [reflexivity|]. split; [exact H0|]. constructor.
Qed.
End RegShape.

Section Edw.
Context {K L : Type} (F : Fops K) (q : nat) (PB : prime_base F q).
Let FK : field_ok F := pb_field F q PB.
Context (G : Fops L) (GK : field_ok G) (e1 : K -> L) (scale : K -> L -> L) (nu : L) (mnr : L -> L).
Hypothesis e1_0 : e1 (o0 F) = o0 G.
Hypothesis e1_1 : e1 (o1 F) = o1 G.
Hypothesis e1_add : forall x y, e1 (oadd F x y) = oadd G (e1 x) (e1 y).
Hypothesis e1_mul : forall x y, e1 (omul F x y) = omul G (e1 x) (e1 y).
Hypothesis e1_opp : forall x, e1 (oopp F x) = oopp G (e1 x).
Hypothesis e1_inj : forall x y, e1 x = e1 y -> x = y.
Hypothesis Hs : forall s x, scale s x = omul G (e1 s) x.
Hypothesis Hmnr : forall x, mnr x = omul G nu x.
Hypothesis Nnu : nu <> o0 G.
Notation T := (quad_ops G mnr).
Hypothesis TK : field_ok T.
Let RF : ring_ok F := fk_ring F FK.
Let RG : ring_ok G := fk_ring G GK.
Let RT : ring_ok T := fk_ring T TK.
Notation emb := (quad_emb G).
Notation w := (quad_u G).
Notation u := (tinv T w).
Notation up x := (emb (e1 x)).
Add Field EEF : (fk_field F (pb_field F q PB)).
Add Field EEG : (fk_field G GK).
Add Field EET : (fk_field T TK).
(** The curve x^2 + y^2 = 1 + d x^2 y^2 and its twist. *)
Variables (d : K) (d' : L) (mul_a : L -> L).
Hypothesis Ed : d' = omul G (e1 d) nu.
Hypothesis MA : forall x, mul_a x = omul G nu x.
Notation one := (o1 F).
Hypothesis N2F : oadd F one one <> o0 F.
Hypothesis N3F : oadd F (oadd F one one) one <> o0 F.
Hypothesis NdF : d <> o0 F.
Hypothesis NadF : osub F one d <> o0 F.
Notation aW := (te_swa F one d).
Notation bW := (te_swb F one d).
Notation aW' := (te_swa G nu d').
Notation bW' := (te_swb G nu d').
Notation Psi := (psi T emb u).
Let E1S := e1_sub F q PB G GK e1 e1_add e1_opp.
Let E1N := e1_ne F G e1 e1_0 e1_inj.
Lemma edw_Ea : aW' = omul G (e1 aW) (omul G nu nu).
Proof. unfold te_swa. rewrite e1_opp. repeat rewrite ?e1_mul, ?e1_add, ?e1_1. rewrite Ed. ring. Qed.
Lemma edw_Eb : bW' = omul G (e1 bW) (omul G (omul G nu nu) nu).
Proof. unfold te_swb. rewrite e1_opp. repeat rewrite ?e1_mul, ?e1_add, ?E1S, ?e1_1. rewrite Ed. ring. Qed.
Lemma N2G : oadd G (o1 G) (o1 G) <> o0 G.
Proof. rewrite <- e1_1, <- e1_add. now apply E1N. Qed.
Lemma N3G : oadd G (oadd G (o1 G) (o1 G)) (o1 G) <> o0 G.
Proof. rewrite <- e1_1, <- !e1_add. now apply E1N. Qed.
Lemma Nad1 : osub G (o1 G) (e1 d) <> o0 G.
Proof. rewrite <- e1_1, <- E1S. now apply E1N. Qed.
Lemma NdG : d' <> o0 G.
Proof. rewrite Ed. apply (fk_mul_neq_0 G GK); auto. Qed.
Lemma NadG : osub G nu d' <> o0 G.
Proof.
  replace (osub G nu d') with (omul G (osub G (o1 G) (e1 d)) nu) by (rewrite Ed; ring). apply (fk_mul_neq_0 G GK); auto. exact Nad1.
Qed.
Lemma N1F : one <> o0 F. Proof. apply (fk_1_neq_0 F FK). Qed.
Lemma e1_div x y : y <> o0 F -> e1 (tdiv F x y) = tdiv G (e1 x) (e1 y).
Proof.
  intros N. symmetry. apply (tdiv_eq G GK); [now apply E1N|]. rewrite <- e1_mul. f_equal. field. exact N.
Qed.
Let E0 := q_emb_0 G mnr.
Let EA := q_emb_add G GK mnr.
Let EM := q_emb_mul G GK nu mnr Hmnr.
Let ES := q_emb_sub G GK mnr.
Let EI := q_emb_inj G.
Let U0 := u_ne G GK mnr TK.

(** *** The conics are the lines *)
Section Lines.
Variables (p g : K).
Hypothesis Np : p <> o0 F.
Hypothesis Ng : osub F one g <> o0 F.
Notation xP := (te_X F one d g).
Notation yP := (te_Y F one d p g).
Notation prec := (omul F p g, p, oadd F one g).
Notation lv l x y := (line_val T (omul T (emb l) u) (omul T (emb x) (omul T u u)) (omul T (emb y) (omul T (omul T u u) u)) (up xP) (up yP)).
Notation six m := (omul G (omul G (oadd G (o1 G) (o1 G)) (oadd G (oadd G (o1 G) (o1 G)) (o1 G))) m).
Definition line_k (c : L) : L :=
  tdiv G (omul G c (omul G (e1 p) (osub G (o1 G) (e1 g))))
    (omul G (omul G (omul G (omul G (oadd G (o1 G) (o1 G)) (oadd G (oadd G (o1 G) (o1 G)) (o1 G))) (oadd G (oadd G (o1 G) (o1 G)) (o1 G))) (oadd G (oadd G (o1 G) (o1 G)) (o1 G))) (osub G nu d')).
Lemma g1G : osub G (o1 G) (e1 g) <> o0 G.
Proof. rewrite <- e1_1, <- E1S. now apply E1N. Qed.
Lemma line_k_ne c : c <> o0 G -> line_k c <> o0 G.
Proof.
  intros Nc Z. pose proof NadG as N1. pose proof N2G as N2. pose proof N3G as N3. pose proof g1G as N4. pose proof (E1N p Np) as N5.
  unfold line_k in Z. revert Z. generalize dependent (osub G nu d'). intros s Ns Z. apply (tdiv_0 G GK) in Z.
  - revert Z. repeat apply (fk_mul_neq_0 G GK); auto.
  - repeat apply (fk_mul_neq_0 G GK); auto.
Qed.
Lemma conic_RR m x y c :
  edw_g_RR G scale prec (conic_of G m x y c) =
  omul T (omul T (emb (line_k c)) (omul T (omul T w w) w)) (lv (six m) (te_X G nu d' y) (te_Y G nu d' x y)).
Proof.
  pose proof Nad1 as N1. pose proof N2G as N2. pose proof N3G as N3. pose proof g1G as N4. pose proof (E1N p Np) as N5. pose proof NadG as N6.
  rewrite <- (line_RR G GK e1 scale nu mnr Hs Hmnr TK).
  unfold mnt_g_RR, edw_g_RR, conic_of. cbn [c_H c_4C c_J c_L PX_twist PY_twist]. cbv zeta. rewrite !Hs.
  assert (UE : e1 (te_u F g) = tdiv G (oadd G (o1 G) (e1 g)) (osub G (o1 G) (e1 g))).
  { unfold te_u. rewrite e1_div by exact Ng. now rewrite e1_add, E1S, e1_1. }
  assert (VE : e1 (te_v F p g) = tdiv G (oadd G (o1 G) (e1 g)) (omul G (e1 p) (osub G (o1 G) (e1 g)))).
  { unfold te_v. rewrite e1_div by now apply (fk_mul_neq_0 F FK). now rewrite e1_add, e1_mul, E1S, e1_1. }
  assert (XE : e1 xP = oadd G (omul G (omul G (omul G (oadd G (oadd G (o1 G) (o1 G)) (o1 G)) (oadd G (oadd G (o1 G) (o1 G)) (o1 G))) (osub G (o1 G) (e1 d))) (e1 (te_u F g)))
     (omul G (omul G (oadd G (o1 G) (o1 G)) (oadd G (oadd G (o1 G) (o1 G)) (o1 G))) (oadd G (o1 G) (e1 d)))).
  { unfold te_X. repeat rewrite ?e1_mul, ?e1_add, ?E1S, ?e1_1. reflexivity. }
  assert (YE : e1 yP = omul G (omul G (omul G (omul G (omul G (oadd G (o1 G) (o1 G)) (oadd G (oadd G (o1 G) (o1 G)) (o1 G))) (oadd G (oadd G (o1 G) (o1 G)) (o1 G))) (oadd G (oadd G (o1 G) (o1 G)) (o1 G))) (osub G (o1 G) (e1 d))) (e1 (te_v F p g))).
  { unfold te_Y. repeat rewrite ?e1_mul, ?e1_add, ?E1S, ?e1_1. reflexivity. }
  rewrite XE, YE, UE, VE, e1_mul, e1_add, e1_1. unfold line_k, te_X, te_Y. clear XE YE UE VE.
  generalize (te_u G y), (te_v G x y). intros uu vv. rewrite Ed in N6 |- *.
  generalize dependent (oadd G (oadd G (o1 G) (o1 G)) (o1 G)). intros t3 N3. generalize dependent (oadd G (o1 G) (o1 G)). intros t2 N2.
  apply (f_equal2 pair); field; repeat split; auto.
Qed.
Lemma conic_RQ cxy cxz c : edw_g_RQ G scale prec (omul G nu c, cxy, cxz) = omul T w (edw_g_RR G scale prec (c, cxy, cxz)).
Proof.
  unfold edw_g_RQ, edw_g_RR. rewrite !Hs.
  set (A := oadd G _ _). rewrite (pair_eq G GK nu mnr Hmnr A), (pair_eq G GK nu mnr Hmnr _ A), !EM.
  rewrite <- (w_sq G GK nu mnr Hmnr). ring.
Qed.
End Lines.

(** *** The loop *)
Notation one' := (o1 G).
Let HA1 := edw_Ea.
Let N2' := N2G.
Let N3' := N3G.
Let Nd' := NdG.
Let Nad' := NadG.
Variable S2 : L * L -> Prop.
Hypothesis GS2 : te_good G nu d' S2.
Variable kill : L * L -> Prop.
Hypothesis KL : kills T kill.
Hypothesis kill_emb : forall c, c <> o0 G -> kill (emb c).
Hypothesis kill_w : kill w.
Notation ta := (tw_a T emb u aW').
Notation sw2 := (te_sw G nu d').
Definition erep (R : L * L * L * L) (A : apt (L * L)) : Prop := exists x y z, z <> o0 G /\ x <> o0 G /\ S2 (x, y) /\
  R = (omul G x z, omul G y z, z, omul G (omul G x y) z) /\ A = Psi (sw2 (x, y)).
Section Loop.
Variables (p g : K).
Hypothesis Np : p <> o0 F.
Hypothesis Ng : osub F one g <> o0 F.
Notation xP := (te_X F one d g).
Notation yP := (te_Y F one d p g).
Notation prec := (omul F p g, p, oadd F one g).
Notation dstep := (edw_doubling_step G mul_a).
Lemma kill_line c : c <> o0 G -> kill (omul T (emb (line_k p g c)) (omul T (omul T w w) w)).
Proof.
  intros Nc. apply (kill_mul T kill KL); [apply kill_emb; now apply line_k_ne|]. repeat apply (kill_mul T kill KL); auto.
Qed.
(** The first coefficient of every conic is non-zero. *)
Definition czz_ne (c : L * L * L) : Prop := fst (fst c) <> o0 G.
Lemma e_dbl_zz R A : erep R A -> czz_ne (snd (dstep R)).
Proof.
  intros (x & y & z & Nz & Nx & HS & -> & ->). pose proof (tg_on G nu d' S2 GS2 _ HS) as O.
  pose proof (good_ne G nu d' S2 GS2 _ _ HS Nx) as Ny. destruct (te_y1 G nu d' GK Nad' x y O Nx) as [M1 M2].
  destruct (good_dbl G nu d' GK S2 GS2 _ _ HS) as [Ni Nk].
  rewrite (edw_dbl_conic G GK nu mul_a MA x y z N2' Nx Ny M1 Ni Nk). cbv zeta. unfold czz_ne. cbn [fst snd conic_of].
  repeat apply (fk_mul_neq_0 G GK); auto. intros Z. apply M1. transitivity (oopp G (osub G y (o1 G))); [ring|]. rewrite Z. ring.
Qed.
Lemma e_dbl R A : erep R A -> regular_dbl T ta A (up xP) ->
  erep (fst (dstep R)) (sw_add T ta A A) /\ upto T kill (edw_g_RR G scale prec (snd (dstep R))) (line_at T ta A A (up xP) (up yP)).
Proof.
  intros (x & y & z & Nz & Nx & HS & -> & ->) _. pose proof (tg_on G nu d' S2 GS2 _ HS) as O.
  pose proof (good_ne G nu d' S2 GS2 _ _ HS Nx) as Ny. destruct (te_y1 G nu d' GK Nad' x y O Nx) as [M1 M2].
  destruct (good_dbl G nu d' GK S2 GS2 _ _ HS) as [Ni Nk].
  rewrite (edw_dbl_conic G GK nu mul_a MA x y z N2' Nx Ny M1 Ni Nk). cbv zeta. cbn [fst snd].
  rewrite (te_sw_aff G nu d' GK Nad' x y O Nx).
  destruct (psi_dbl G T TK emb u E0 EA ES EM EI U0 aW' (te_X G nu d' y) (te_Y G nu d' x y) (dbl_l G nu x y)
    (te_Y_ne G nu d' GK N2' N3' Nad' x y O Nx) (te_dbl_slope G nu d' GK N2' Nad' x y O Nx Ny)) as [P1 P2].
  pose proof (tg_add G nu d' S2 GS2 _ _ HS HS) as HS3. rewrite (te_dbl_eq G nu d' GK x y O) in HS3.
  assert (Nx3 : dbl_x G nu x y <> o0 G).
  { intros Z. apply (tdiv_0 G GK _ _ Ni) in Z. revert Z. repeat apply (fk_mul_neq_0 G GK); auto. }
  destruct (te_dbl_third G nu d' GK N2' Nad' x y O Nx Ny Ni Nk) as [_ E3].
  split.
  - exists (dbl_x G nu x y), (dbl_y G nu x y). eexists. split; [|split; [exact Nx3|split; [exact HS3|split; [reflexivity|]]]].
    + repeat apply (fk_mul_neq_0 G GK); auto.
    + rewrite <- P1, E3. rewrite (te_sw_aff G nu d' GK Nad' _ _ (tg_on G nu d' S2 GS2 _ HS3) Nx3). reflexivity.
  - rewrite P2, (conic_RR p g Np Ng). eexists. split; [|reflexivity]. apply kill_line. repeat apply (fk_mul_neq_0 G GK); auto.
    intros Z. apply M1. transitivity (oopp G (osub G y (o1 G))); [ring|]. rewrite Z. ring.
Qed.
Variables (xQ yQ : L).
Hypothesis HQ : S2 (xQ, yQ).
Hypothesis NxQ : xQ <> o0 G.
Notation Qt := (Psi (sw2 (xQ, yQ))).
Notation astep := (edw_mixed_addition_step G mul_a (xQ, yQ, o1 G, omul G xQ yQ)).
Lemma e_add R A : erep R A -> regular_add T ta A Qt (up xP) ->
  erep (fst (astep R)) (sw_add T ta A Qt) /\ upto T kill (edw_g_RQ G scale prec (snd (astep R))) (line_at T ta A Qt (up xP) (up yP)).
Proof.
  intros (x & y & z & Nz & Nx & HS & -> & ->) Rg. pose proof (tg_on G nu d' S2 GS2 _ HS) as O. pose proof (tg_on G nu d' S2 GS2 _ HQ) as OQ.
  destruct (te_y1 G nu d' GK Nad' x y O Nx) as [M1 _]. destruct (te_y1 G nu d' GK Nad' xQ yQ OQ NxQ) as [M2 _].
  rewrite (te_sw_aff G nu d' GK Nad' x y O Nx), (te_sw_aff G nu d' GK Nad' xQ yQ OQ NxQ) in *.
  unfold regular_add in Rg. cbn [psi] in Rg. destruct Rg as [Hx _].
  assert (Ny : y <> yQ) by (intros ->; now apply Hx).
  destruct (good_add G nu d' GK N2' Nd' Nad' S2 GS2 _ _ _ _ HS HQ Nx NxQ Ny) as (C1 & C2 & C3 & C4 & C5).
  assert (Nyy : osub G yQ y <> o0 G) by (apply (EdwSw.sub_ne G GK); now apply not_eq_sym).
  pose proof (edw_add_conic G GK nu mul_a MA x y z xQ yQ N2' Nx NxQ M1 M2 Nyy C4 C5) as EC.
  destruct (edw_mixed_addition_step G mul_a _ _) as [R [[czz cxy] cxz]]. cbv zeta in EC. destruct EC as (-> & -> & EC). cbn [fst snd].
  rewrite conic_RQ, EC.
  destruct (psi_addition G T TK emb u ES EM EI U0 aW' (te_X G nu d' y) (te_Y G nu d' x y) (te_X G nu d' yQ) (te_Y G nu d' xQ yQ) (add_l G x y xQ yQ)
    (proj2 (te_X_ne G nu d' GK N2' N3' Nad' y yQ M1 M2) Ny) (te_add_slope G nu d' GK N2' x y xQ yQ M1 M2 Ny)) as [P1 P2].
  pose proof (tg_add G nu d' S2 GS2 _ _ HS HQ) as HS3. rewrite (te_sum_eq G nu d' GK S2 GS2 _ _ _ _ HS HQ C4 C5) in HS3.
  assert (Nx3 : sum_x G nu x y xQ yQ <> o0 G) by (intros Z; apply (tdiv_0 G GK _ _ C4) in Z; contradiction).
  destruct (te_add_third G nu d' GK N2' Nad' _ _ _ _ O OQ Nx NxQ Ny C1 C2 C3 C4 C5) as [_ E3].
  split.
  - do 2 eexists. eexists. split; [|split; [exact Nx3|split; [exact HS3|split; [reflexivity|]]]].
    + repeat apply (fk_mul_neq_0 G GK); auto.
    + rewrite <- P1, E3. rewrite (te_sw_aff G nu d' GK Nad' _ _ (tg_on G nu d' S2 GS2 _ HS3) Nx3). reflexivity.
  - rewrite P2, (conic_RR p g Np Ng).
    match goal with |- context [emb (line_k p g ?c)] => set (cc := c) end.
    exists (omul T w (omul T (emb (line_k p g cc)) (omul T (omul T w w) w))). split.
    + apply (kill_mul T kill KL); auto. apply kill_line. unfold cc. repeat apply (fk_mul_neq_0 G GK); auto. now apply (EdwSw.sub_ne G GK).
    + unfold add_l. ring.
Qed.
Lemma e_add_zz R A : erep R A -> regular_add T ta A Qt (up xP) -> czz_ne (snd (astep R)).
Proof.
  intros (x & y & z & Nz & Nx & HS & -> & ->) Rg. pose proof (tg_on G nu d' S2 GS2 _ HS) as O. pose proof (tg_on G nu d' S2 GS2 _ HQ) as OQ.
  destruct (te_y1 G nu d' GK Nad' x y O Nx) as [M1 _]. destruct (te_y1 G nu d' GK Nad' xQ yQ OQ NxQ) as [M2 _].
  rewrite (te_sw_aff G nu d' GK Nad' x y O Nx), (te_sw_aff G nu d' GK Nad' xQ yQ OQ NxQ) in *.
  unfold regular_add in Rg. cbn [psi] in Rg. destruct Rg as [Hx _].
  assert (Ny : y <> yQ) by (intros ->; now apply Hx).
  destruct (good_add G nu d' GK N2' Nd' Nad' S2 GS2 _ _ _ _ HS HQ Nx NxQ Ny) as (C1 & C2 & C3 & C4 & C5).
  assert (Nyy : osub G yQ y <> o0 G) by (apply (EdwSw.sub_ne G GK); now apply not_eq_sym).
  pose proof (edw_add_conic G GK nu mul_a MA x y z xQ yQ N2' Nx NxQ M1 M2 Nyy C4 C5) as EC.
  destruct (edw_mixed_addition_step G mul_a _ _) as [R [[czz cxy] cxz]]. cbv zeta in EC. destruct EC as (-> & -> & EC). unfold czz_ne. cbn [fst snd].
  repeat apply (fk_mul_neq_0 G GK); auto. now apply (EdwSw.sub_ne G GK).
Qed.
Lemma e_vert R A : erep R A -> vertical_at T A (up xP) <> o0 T -> kill (vertical_at T A (up xP)).
Proof.
  intros (x & y & z & _ & Nx & HS & _ & ->). rewrite (te_sw_aff G nu d' GK Nad' x y (tg_on G nu d' S2 GS2 _ HS) Nx). cbn [psi vertical_at].
  rewrite (u_sq G GK nu mnr Hmnr Nnu TK), <- EM, <- ES. intros N. apply kill_emb. intros Z. apply N. now rewrite Z.
Qed.
Lemma erep_0 : erep (xQ, yQ, o1 G, omul G xQ yQ) Qt.
Proof.
  exists xQ, yQ, (o1 G). split; [apply (fk_1_neq_0 G GK)|]. split; [exact NxQ|]. split; [exact HQ|]. split; [|reflexivity].
  repeat match goal with |- (_, _) = (_, _) => apply (f_equal2 pair) end; ring.
Qed.
Variables (lc : bigint) (n : positive).
Hypothesis Llc : limbs lc.
Hypothesis Hlc : val lc = Z.pos n.
Definition edw_raw (P : K * K * K) (Q : L * L * L) : result (L * L) :=
  prec_P <- edw_precompute_G1 F P ;;
  prec_Q <- edw_precompute_G2 G mul_a lc Q ;;
  edw_miller_loop G scale T lc prec_P prec_Q.
Theorem edw_miller P Q : edw_ok F one d P -> edw_den F P = (p, g) -> edw_ok G nu d' Q -> edw_den G Q = (xQ, yQ) ->
  regular T ta n Qt (up xP) ->
  exists f R, edw_raw P Q = Ok f /\ upto T kill f (miller T ta n Qt (up xP) (up yP)) /\ erep R (mult T ta n Qt).
Proof.
  intros OP DP OQ DQ Rg. unfold edw_raw, edw_precompute_G1, edw_precompute_G2.
  rewrite (edw_to_affine_spec F FK one d P OP), (edw_to_affine_spec G GK nu d' Q OQ), DP, DQ. cbn [bind fst snd].
  destruct (miller_loop T TK ta kill KL erep dstep astep (edw_g_RR G scale prec) (edw_g_RQ G scale prec) Qt (up xP) (up yP)
    e_dbl e_add e_vert _ n erep_0 Rg) as (R & cs & f & E1 & HR & U & E2).
  rewrite bit_loop_skip by (auto; apply loop_bound; auto). rewrite Hlc.
  rewrite (mfold_ext _ (push_body dstep astep)).
  2:{ intros b [R0 cs0]. unfold edw_precompute_body, push_body. destruct (dstep R0) as [R1 l1]. destruct b; reflexivity. }
  rewrite E1. cbn [bind]. unfold edw_miller_loop, edw_miller_loop_idx.
  rewrite bit_loop_skip by (auto; apply loop_bound; auto). rewrite Hlc.
  rewrite (mfold_ext _ (one_body T (edw_g_RR G scale prec) (edw_g_RQ G scale prec) cs)) by (intros; apply (edw_body_one T RT)).
  specialize (E2 []). rewrite app_nil_r in E2. rewrite E2. exists f, R. split; [reflexivity|]. now split.
Qed.
(** With P = O the lines are the first coefficients alone. *)
Theorem edw_miller_zero P Q : edw_is_zero F P = true -> edw_ok G nu d' Q -> edw_den G Q = (xQ, yQ) ->
  regular T ta n Qt (up xP) -> exists f, edw_raw P Q = Ok f /\ f <> o0 T.
Proof.
  intros HP OQ DQ Rg. unfold edw_raw, edw_precompute_G1, edw_precompute_G2.
  rewrite (edw_affine_zero F P HP), (edw_to_affine_spec G GK nu d' Q OQ), DQ. cbn [bind fst snd].
  destruct (reg_shape T ta erep dstep astep czz_ne czz_ne Qt (up xP)
    (fun R A HR Hd => conj (proj1 (e_dbl R A HR Hd)) (e_dbl_zz R A HR)) (fun R A HR Ha => conj (proj1 (e_add R A HR Ha)) (e_add_zz R A HR Ha)) _ n erep_0 Rg)
    as (R & cs & E1 & _ & S).
  rewrite bit_loop_skip by (auto; apply loop_bound; auto). rewrite Hlc.
  rewrite (mfold_ext _ (push_body dstep astep)).
  2:{ intros b [R0 cs0]. unfold edw_precompute_body, push_body. destruct (dstep R0) as [R1 l1]. destruct b; reflexivity. }
  rewrite E1. cbn [bind]. unfold edw_miller_loop, edw_miller_loop_idx.
  rewrite bit_loop_skip by (auto; apply loop_bound; auto). rewrite Hlc.
  match goal with |- context [edw_g_RR G scale ?p0] => set (pz := p0) end.
  rewrite (mfold_ext _ (one_body T (edw_g_RR G scale pz) (edw_g_RQ G scale pz) cs)) by (intros; apply (edw_body_one T RT)).
  assert (N2s : forall c, c <> o0 G -> scale (oadd F one one) c <> o0 G).
  { intros c Nc. rewrite Hs. apply (fk_mul_neq_0 G GK); [|exact Nc]. now apply E1N. }
  apply (one_shape T (edw_g_RR G scale pz) (edw_g_RQ G scale pz) czz_ne czz_ne (fun f => f <> o0 T)) with (pre := []) (post := []) (f := o1 T) in S.
  - destruct S as (f & Ef & Nf). cbn [app length] in Ef. rewrite app_nil_r in Ef. rewrite Ef. cbn [miller_value bind]. eauto.
  - intros f [[a b] c] Nf Hc. repeat apply (fk_mul_neq_0 T TK); auto. unfold edw_g_RR, pz. intros Z. apply (N2s a Hc). now injection Z.
  - intros f [[a b] c] Nf Hc. repeat apply (fk_mul_neq_0 T TK); auto. unfold edw_g_RQ, pz. intros Z. apply (N2s a Hc). now injection Z.
  - apply (fk_1_neq_0 T TK).
Qed.
End Loop.
End Edw.
