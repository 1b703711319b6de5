(** The edwards operations on points of odd order form the group of points of
    a complete twisted Edwards curve. *)
From Coq Require Import ZArith List Bool Ring Field Lia.
From Verif Require Import Result Algebra FieldOps AlgorithmsModel AlgorithmsProofs AlgorithmsField GroupOps
  CurveSpec CurveModel CurveProofs CurveEdwards CurveEdwOps.
Import ListNotations.

Section EdwGops.
Context {K : Type} (F : Fops K).
Hypothesis FK : field_ok F.
Variables a d : K.
Variables mul_a mul_d : K -> K.
Hypothesis MA : forall x, mul_a x = omul F a x.
Hypothesis MD : forall x, mul_d x = omul F d x.
Local Notation den := (edw_den F).
Local Notation ok := (edw_ok F a d).
Local Notation add := (te_add F a d).

Context {G : Type} (z : G) (gadd : G -> G -> G) (gopp : G -> G).
Hypothesis AG : agroup z gadd gopp.
Variable ok' : K * K * K -> Prop.
Variable dG : K * K * K -> G.
Hypothesis OKOK : forall p, ok' p -> ok p.
Hypothesis HZ : forall s, ok s -> den s = te_zero F -> ok' s /\ dG s = z.
Hypothesis HZ' : forall p, ok' p -> dG p = z -> den p = te_zero F.
Hypothesis HF : forall p q, ok' p -> ok' q -> edw_fits F a d (den p) (den q).
Hypothesis HA : forall p q s, ok' p -> ok' q -> ok s -> den s = add (den p) (den q) ->
  ok' s /\ dG s = gadd (dG p) (dG q).
Hypothesis HO : forall p s, ok' p -> ok s -> den s = te_opp F (den p) -> ok' s /\ dG s = gopp (dG p).
Hypothesis HE : forall p s, ok' p -> ok s -> den s = den p -> ok' s /\ dG s = dG p.

Lemma edw_gops_ok_gen : gops_ok (edw_gops F mul_a mul_d) ok' dG z gadd gopp.
Proof.
  destruct (edw_zero_ok F FK a d) as [O0 D0]. pose proof (HZ _ O0 D0) as Z0.
  constructor; cbn [g_default g_zero g_add g_sub g_mixed_add g_dbl g_is_zero g_is_special g_to_special g_batch_special edw_gops].
  - exact AG.
  - exact Z0.
  - exact Z0.
  - intros p q OP OQ. destruct (edw_add_den F FK a d mul_a mul_d MA MD p q) as [O D]; auto.
  - intros p q OP OQ. destruct (edw_opp_den F FK a d q) as [O D]; auto.
    destruct (HO q _ OQ O D) as [OO DO]. rewrite <- DO. unfold edw_sub.
    destruct (edw_add_den F FK a d mul_a mul_d MA MD p (edw_opp F q)) as [O2 D2]; auto.
  - intros p q OP OQ S. destruct (edw_mixed_add_den F FK a d mul_a mul_d MA MD p q) as [O D]; auto.
  - intros p OP. destruct (edw_dbl_den F FK a d mul_a mul_d MA MD p) as [O D]; auto.
  - intros p OP. rewrite (edw_is_zero_spec F FK a d p (OKOK p OP)). split.
    + intros D. apply HZ; auto.
    + apply HZ'; auto.
  - intros p OP. destruct (edw_to_special_spec F FK a d p (OKOK p OP)) as (q & E & OQ & D & S).
    exists q. destruct (HE p q OP OQ D) as [OQ' DQ]. auto.
  - intros l HL H. apply (edw_batch_spec F FK a d); auto.
    clear -HL OKOK. induction HL; constructor; auto.
Qed.
Lemma edw_g1_gops_ok_gen : a = o1 F -> gops_ok (edw_g1_gops F mul_a mul_d) ok' dG z gadd gopp.
Proof.
  intros A1. pose proof edw_gops_ok_gen as H. destruct H as [h1 h2 h3 h4 h5 h6 h7 h8 h9 h10].
  constructor; [exact h1|exact h2|exact h3|exact h4|exact h5|exact h6| |exact h8|exact h9|exact h10].
  intros p. cbn [g_dbl edw_g1_gops]. rewrite (edw_g1_dbl_eq F FK a d mul_a mul_d MA MD p A1). apply h7.
Qed.
End EdwGops.

Section Types.
Context {K : Type} (F : Fops K).
Hypothesis FK : field_ok F.
Variables a d : K.
Let R : ring_ok F := fk_ring F FK.
Add Ring EGring : (rk_ring F (fk_ring F FK)).
Local Notation "0" := (o0 F).
Local Notation "1" := (o1 F).
Local Notation "x + y" := (oadd F x y).
Local Notation "x - y" := (osub F x y).
Local Notation "x * y" := (omul F x y).
Local Notation "- x" := (oopp F x).
Local Notation den := (edw_den F).
Local Notation ok := (edw_ok F a d).
Hypothesis H2 : 1 + 1 <> 0.
Variable r : nat.
Hypothesis Or : Nat.odd r = true.

Lemma edw_ok_on p : ok p -> te_on F a d (den p).
Proof.
  intros O. destruct (edw_cases F FK a d p O) as [[_ ->]|(_ & x & y & c & _ & _ & _ & H & -> & _)]; auto.
  apply te_zero_on; auto.
Qed.
Lemma edw_ok_xy p : ok p -> den p = te_zero F \/ (fst (den p) <> 0 /\ snd (den p) <> 0).
Proof.
  intros O. destruct (edw_cases F FK a d p O) as [[_ ->]|(_ & x & y & c & Nx & Ny & _ & _ & -> & _)]; auto.
Qed.

(** First kind: a is a square and d is not (edwards G1). *)
Section Square_a.
Variable al : K.
Hypothesis HA : a = al * al.
Hypothesis NA : al <> 0.
Hypothesis ND : forall s, s * s <> d.
Local Notation G := (te_pt F a d).
Local Notation tor := (odd_torsion F FK a d r).
Local Notation pe := (te_pt_eq F a d).
Definition edw_dent (p : K * K * K) : te_pt F a d := tp_mk F FK a d (den p).
Definition edw_okr (p : K * K * K) : Prop := ok p /\ tor (edw_dent p).

Lemma edw_dent_val p : ok p -> proj1_sig (edw_dent p) = den p.
Proof. intros O. apply tp_mk_val. now apply edw_ok_on. Qed.
Lemma tor_fits P Q : tor P -> tor Q -> edw_fits F a d (proj1_sig P) (proj1_sig Q).
Proof.
  intros TP TQ. pose proof (te_pt_on F FK a d P) as O1. pose proof (te_pt_on F FK a d Q) as O2.
  split.
  - destruct (proj1_sig P) as [x1 y1], (proj1_sig Q) as [x2 y2]. split.
    + eapply te_complete_p; eauto.
    + eapply te_complete_m; eauto.
  - pose proof (odd_torsion_add F FK a d al HA NA ND H2 r P Q TP TQ) as TS.
    rewrite <- (tp_add_val F FK a d al HA NA ND H2). set (S := tp_add F FK a d P Q) in *.
    destruct (rk_dec F R (fst (proj1_sig S)) 0) as [E|N].
    + left. now rewrite (odd_torsion_x F FK a d al HA NA ND H2 r S Or TS E).
    + right. split; auto. apply (odd_torsion_y F FK a d al HA NA ND H2 r S Or TS).
Qed.

Lemma edw_sq_conditions :
  (forall s, ok s -> den s = te_zero F -> edw_okr s /\ edw_dent s = tp_zero F FK a d) /\
  (forall p, edw_okr p -> edw_dent p = tp_zero F FK a d -> den p = te_zero F) /\
  (forall p q, edw_okr p -> edw_okr q -> edw_fits F a d (den p) (den q)) /\
  (forall p q s, edw_okr p -> edw_okr q -> ok s -> den s = te_add F a d (den p) (den q) ->
    edw_okr s /\ edw_dent s = tp_add F FK a d (edw_dent p) (edw_dent q)) /\
  (forall p s, edw_okr p -> ok s -> den s = te_opp F (den p) -> edw_okr s /\ edw_dent s = tp_opp F FK a d (edw_dent p)) /\
  (forall p s, edw_okr p -> ok s -> den s = den p -> edw_okr s /\ edw_dent s = edw_dent p).
Proof.
  assert (V : forall s, ok s -> forall P : G, den s = proj1_sig P -> tor P -> edw_okr s /\ edw_dent s = P).
  { intros s O P E T. assert (D : edw_dent s = P) by (apply pe; now rewrite edw_dent_val).
    split; auto. split; auto. now rewrite D. }
  split; [|split; [|split; [|split; [|split]]]].
  - intros s O E. apply V; auto. eapply odd_torsion_zero; eauto.
  - intros p [O T] E. rewrite <- (edw_dent_val p O), E. reflexivity.
  - intros p q [OP TP] [OQ TQ]. rewrite <- (edw_dent_val p OP), <- (edw_dent_val q OQ). now apply tor_fits.
  - intros p q s [OP TP] [OQ TQ] O E. apply V; auto.
    + rewrite E. rewrite (tp_add_val F FK a d al HA NA ND H2), !edw_dent_val; auto.
    + eapply odd_torsion_add; eauto.
  - intros p s [OP TP] O E. apply V; auto.
    + rewrite E. rewrite (tp_opp_val F FK a d), edw_dent_val; auto.
    + eapply odd_torsion_opp; eauto.
  - intros p s [OP TP] O E. apply V; auto. rewrite E, edw_dent_val; auto.
Qed.

Theorem edw_sq_gops_ok mul_a mul_d : (forall x, mul_a x = a * x) -> (forall x, mul_d x = d * x) ->
  gops_ok (edw_gops F mul_a mul_d) edw_okr edw_dent (tp_zero F FK a d) (tp_add F FK a d) (tp_opp F FK a d).
Proof.
  intros MA MD. destruct edw_sq_conditions as (C1 & C2 & C3 & C4 & C5 & C6).
  apply (edw_gops_ok_gen F FK a d mul_a mul_d MA MD); auto.
  - now apply tp_group with (al := al).
  - intros p H. apply H.
Qed.
Theorem edw_g1_gops_ok mul_d : a = 1 -> (forall x, mul_d x = d * x) ->
  gops_ok (edw_g1_gops F (fun x => x) mul_d) edw_okr edw_dent (tp_zero F FK a d) (tp_add F FK a d) (tp_opp F FK a d).
Proof.
  intros A1 MD. destruct edw_sq_conditions as (C1 & C2 & C3 & C4 & C5 & C6).
  apply (edw_g1_gops_ok_gen F FK a d (fun x => x) mul_d); auto.
  - intros x. rewrite A1. ring.
  - now apply tp_group with (al := al).
  - intros p H. apply H.
Qed.
End Square_a.

(** Second kind: d is a square and a is not (edwards G2).  The curve with a and
    d exchanged is complete, and (x, y) -> (x, 1/y) maps one to the other. *)
Section Square_d.
Variable be : K.
Hypothesis HD : d = be * be.
Hypothesis NB : be <> 0.
Hypothesis NQ : forall s, s * s <> a.
Local Notation G := (te_pt F d a).
Local Notation tor := (odd_torsion F FK d a r).
Local Notation pe := (te_pt_eq F d a).
Definition te_dual (P : K * K) : K * K := let '(x, y) := P in (x, tinv F y).
Definition edw_dent2 (p : K * K * K) : te_pt F d a := tp_mk F FK d a (te_dual (den p)).
Definition edw_okr2 (p : K * K * K) : Prop := ok p /\ tor (edw_dent2 p).

Lemma tinv_1 : tinv F 1 = 1.
Proof.
  destruct (tinv_spec F FK 1 (fk_1_neq_0 F FK)) as [_ E]. transitivity (tinv F 1 * 1); [ring|exact E].
Qed.
Lemma tinv_uniq y v : y * v = 1 -> tinv F y = v.
Proof.
  intros E. assert (N : y <> 0) by (intros Z; apply (fk_1_neq_0 F FK); rewrite <- E, Z; ring).
  destruct (tinv_spec F FK y N) as [_ I]. apply (fk_mul_cancel F FK _ _ y N). rewrite I, <- E. ring.
Qed.
Lemma te_dual_zero : te_dual (te_zero F) = te_zero F.
Proof. unfold te_dual, te_zero. now rewrite tinv_1. Qed.
Lemma te_dual_on P : te_on F a d P -> snd P <> 0 -> te_on F d a (te_dual P).
Proof.
  destruct P as [x y]. cbn [snd te_dual]. intros O N. destruct (tinv_spec F FK y N) as [_ I].
  set (v := tinv F y) in *. cbn in O |- *.
  transitivity (v * v * (1 + d * (x * x * (y * y))) + (1 - (v * y) * (v * y)) * (d * (x * x))); [ring|].
  rewrite <- O, I.
  transitivity (a * (x * x * (v * v)) + (v * y) * (v * y) ); [ring|]. rewrite I. ring.
Qed.
Lemma edw_ok_y p : ok p -> snd (den p) <> 0.
Proof.
  intros O. destruct (edw_ok_xy p O) as [->|[_ H]]; auto. cbn. apply (fk_1_neq_0 F FK).
Qed.
Lemma edw_dent2_val p : ok p -> proj1_sig (edw_dent2 p) = te_dual (den p).
Proof. intros O. apply tp_mk_val. apply te_dual_on; [now apply edw_ok_on|now apply edw_ok_y]. Qed.

(** One addition, seen on both curves. *)
Lemma dual_add x1 y1 x2 y2 v1 v2 :
  y1 * v1 = 1 -> y2 * v2 = 1 ->
  te_on F d a (x1, v1) -> te_on F d a (x2, v2) ->
  v1 * v2 + d * (x1 * x2) <> 0 ->
  let S := te_add F d a (x1, v1) (x2, v2) in
  S = te_zero F \/ (fst S <> 0 /\ snd S <> 0) ->
  edw_fits F a d (x1, y1) (x2, y2) /\ te_dual (te_add F a d (x1, y1) (x2, y2)) = S.
Proof.
  intros I1 I2 O1 O2 Nd S HS.
  assert (Np : 1 + a * ((x1 * x2) * (v1 * v2)) <> 0) by (eapply te_complete_p; eauto).
  assert (Nm : 1 - a * ((x1 * x2) * (v1 * v2)) <> 0) by (eapply te_complete_m; eauto).
  pose proof (te_dual_x F FK d a _ _ _ _ O1 O2) as DX.
  set (y := y1 * y2). set (v := v1 * v2) in *.
  assert (IV : y * v = 1).
  { unfold y, v. transitivity ((y1 * v1) * (y2 * v2)); [ring|]. rewrite I1, I2. ring. }
  assert (NY : y <> 0) by (intros E; apply (fk_1_neq_0 F FK); rewrite <- IV, E; ring).
  assert (E1 : 1 + d * ((x1 * x2) * y) = y * (v + d * (x1 * x2))) by (rewrite <- IV; ring).
  assert (E2 : 1 - d * ((x1 * x2) * y) = y * (v - d * (x1 * x2))) by (rewrite <- IV; ring).
  assert (E3 : y1 * y2 - a * (x1 * x2) = y * (1 - a * ((x1 * x2) * v))).
  { transitivity (y - (y * v) * (a * (x1 * x2))); [rewrite IV; unfold y; ring|ring]. }
  assert (E4 : x1 * y2 + y1 * x2 = y * (x1 * v1 + x2 * v2)).
  { unfold y. transitivity (x1 * y2 * (y1 * v1) + y1 * x2 * (y2 * v2)); [rewrite I1, I2; ring|ring]. }
  unfold te_add in S. fold v in S.
  assert (HM : v - d * (x1 * x2) <> 0).
  { intros E. destruct HS as [HS|[_ HS]].
    - unfold S, te_zero in HS. injection HS as _ HS. apply (fk_1_neq_0 F FK). rewrite <- HS, E.
      apply (tdiv_eq F FK); auto. ring.
    - apply HS. unfold S. cbn [snd]. rewrite E. apply (tdiv_eq F FK); auto. ring. }
  assert (Pp : 1 + d * ((x1 * x2) * y) <> 0) by (rewrite E1; now apply fk_mul_neq_0).
  assert (Pm : 1 - d * ((x1 * x2) * y) <> 0) by (rewrite E2; now apply fk_mul_neq_0).
  assert (X : tdiv F (x1 * y2 + y1 * x2) (1 + d * ((x1 * x2) * y)) = fst S).
  { unfold S. cbn [fst]. apply tdiv_cross; auto. rewrite E4, E1.
    transitivity (y * ((x1 * v1 + x2 * v2) * (1 + a * (x1 * x2 * v)))); [ring|]. rewrite DX. ring. }
  assert (Y : tdiv F (y1 * y2 - a * (x1 * x2)) (1 - d * ((x1 * x2) * y)) * snd S = 1).
  { unfold S. cbn [snd]. rewrite E3, E2.
    set (u := tdiv F _ _). set (w := tdiv F (v - d * (x1 * x2)) _).
    assert (U : u * (y * (v - d * (x1 * x2))) = y * (1 - a * ((x1 * x2) * v))) by (unfold u; apply tdiv_mul; auto; now apply fk_mul_neq_0).
    assert (W : w * (1 - a * ((x1 * x2) * v)) = v - d * (x1 * x2)) by (unfold w; now apply tdiv_mul).
    apply (fk_mul_cancel F FK _ _ (y * (1 - a * ((x1 * x2) * v)))); [now apply fk_mul_neq_0|].
    transitivity (u * (y * (w * (1 - a * ((x1 * x2) * v))))); [ring|]. rewrite W, U. ring. }
  assert (YU : snd (te_add F a d (x1, y1) (x2, y2)) * snd S = 1) by exact Y.
  assert (XU : fst (te_add F a d (x1, y1) (x2, y2)) = fst S) by exact X.
  assert (DU : te_dual (te_add F a d (x1, y1) (x2, y2)) = S).
  { destruct (te_add F a d (x1, y1) (x2, y2)) as [xs ys]. cbn [fst snd te_dual] in *.
    rewrite (tinv_uniq _ _ YU), XU. symmetry. apply surjective_pairing. }
  split; auto. split.
  - split; assumption.
  - destruct HS as [HS|[Hx Hy]].
    + left. rewrite HS in XU, YU. destruct (te_add F a d (x1, y1) (x2, y2)) as [xs ys].
      cbn in XU, YU. unfold te_zero. f_equal; auto. rewrite <- YU. ring.
    + right. rewrite XU. split; auto. intros E. apply (fk_1_neq_0 F FK). rewrite <- YU, E. ring.
Qed.

Lemma tor2_add p q : edw_okr2 p -> edw_okr2 q ->
  edw_fits F a d (den p) (den q) /\
  te_dual (te_add F a d (den p) (den q)) = proj1_sig (tp_add F FK d a (edw_dent2 p) (edw_dent2 q)).
Proof.
  intros [OP TP] [OQ TQ].
  pose proof (odd_torsion_dual F FK d a be HD NB NQ H2 r _ _ Or TP TQ) as ND.
  pose proof (odd_torsion_add F FK d a be HD NB NQ H2 r _ _ TP TQ) as TS.
  assert (HS : let S := proj1_sig (tp_add F FK d a (edw_dent2 p) (edw_dent2 q)) in
     S = te_zero F \/ (fst S <> 0 /\ snd S <> 0)).
  { cbv zeta. set (S := tp_add F FK d a _ _) in *.
    destruct (rk_dec F R (fst (proj1_sig S)) 0) as [E|N].
    + left. now rewrite (odd_torsion_x F FK d a be HD NB NQ H2 r S Or TS E).
    + right. split; auto. apply (odd_torsion_y F FK d a be HD NB NQ H2 r S Or TS). }
  rewrite (tp_add_val F FK d a be HD NB NQ H2) in HS |- *.
  pose proof (te_pt_on F FK d a (edw_dent2 p)) as O1. pose proof (te_pt_on F FK d a (edw_dent2 q)) as O2.
  pose proof (edw_ok_y p OP) as N1. pose proof (edw_ok_y q OQ) as N2.
  rewrite !edw_dent2_val in * by auto.
  destruct (den p) as [x1 y1], (den q) as [x2 y2]. cbn [te_dual snd] in *.
  apply dual_add; auto.
  - rewrite <- (proj2 (tinv_spec F FK y1 N1)). ring.
  - rewrite <- (proj2 (tinv_spec F FK y2 N2)). ring.
Qed.

Lemma edw_sqd_conditions :
  (forall s, ok s -> den s = te_zero F -> edw_okr2 s /\ edw_dent2 s = tp_zero F FK d a) /\
  (forall p, edw_okr2 p -> edw_dent2 p = tp_zero F FK d a -> den p = te_zero F) /\
  (forall p q, edw_okr2 p -> edw_okr2 q -> edw_fits F a d (den p) (den q)) /\
  (forall p q s, edw_okr2 p -> edw_okr2 q -> ok s -> den s = te_add F a d (den p) (den q) ->
    edw_okr2 s /\ edw_dent2 s = tp_add F FK d a (edw_dent2 p) (edw_dent2 q)) /\
  (forall p s, edw_okr2 p -> ok s -> den s = te_opp F (den p) -> edw_okr2 s /\ edw_dent2 s = tp_opp F FK d a (edw_dent2 p)) /\
  (forall p s, edw_okr2 p -> ok s -> den s = den p -> edw_okr2 s /\ edw_dent2 s = edw_dent2 p).
Proof.
  assert (V : forall s, ok s -> forall P : G, te_dual (den s) = proj1_sig P -> tor P -> edw_okr2 s /\ edw_dent2 s = P).
  { intros s O P E T. assert (D : edw_dent2 s = P) by (apply pe; now rewrite edw_dent2_val).
    split; auto. split; auto. now rewrite D. }
  split; [|split; [|split; [|split; [|split]]]].
  - intros s O E. apply V; auto.
    + rewrite E. apply te_dual_zero.
    + eapply odd_torsion_zero; eauto.
  - intros p [O T] E. pose proof (edw_dent2_val p O) as D. rewrite E in D. cbn [proj1_sig tp_zero] in D.
    destruct (edw_ok_xy p O) as [|[N _]]; auto. exfalso. apply N.
    destruct (den p) as [x y]. unfold te_dual, te_zero in D. injection D as Dx Dy. cbn. auto.
  - intros p q HP HQ. now apply tor2_add.
  - intros p q s HP HQ O E. apply V; auto.
    + rewrite E. now apply tor2_add.
    + destruct HP, HQ. eapply odd_torsion_add; eauto.
  - intros p s [OP TP] O E. apply V; auto.
    + rewrite E. rewrite (tp_opp_val F FK d a), edw_dent2_val; auto.
      destruct (den p). reflexivity.
    + eapply odd_torsion_opp; eauto.
  - intros p s [OP TP] O E. apply V; auto. rewrite E, edw_dent2_val; auto.
Qed.
Theorem edw_sqd_gops_ok mul_a mul_d : (forall x, mul_a x = a * x) -> (forall x, mul_d x = d * x) ->
  gops_ok (edw_gops F mul_a mul_d) edw_okr2 edw_dent2 (tp_zero F FK d a) (tp_add F FK d a) (tp_opp F FK d a).
Proof.
  intros MA MD. destruct edw_sqd_conditions as (C1 & C2 & C3 & C4 & C5 & C6).
  apply (edw_gops_ok_gen F FK a d mul_a mul_d MA MD); auto.
  - now apply tp_group with (al := be).
  - intros p H. apply H.
Qed.
End Square_d.
End Types.
