(** The points of odd order r on the edwards curve and on its twist: closed under
    the group law, and no exceptions of the addition formulas. *)
From Coq Require Import ZArith List Bool Ring Lia.
From Verif Require Import Result Algebra FieldOps CurveSpec CurveGroup CurveModel CurveProofs GroupOps CurveEdwards CurveEdwOps CurveEdwGroup EdwSpec EdwSw.

Section Group.
Context {K : Type} (F : Fops K) (FK : field_ok F) (a d : K).
Let R : ring_ok F := fk_ring F FK.
Add Ring GRring : (rk_ring F (fk_ring F FK)).
Local Notation "0" := (o0 F).
Local Notation "1" := (o1 F).
Local Notation "x + y" := (oadd F x y).
Local Notation "x - y" := (osub F x y).
Local Notation "x * y" := (omul F x y).
Local Notation "- x" := (oopp F x).
Hypothesis H2 : 1 + 1 <> 0.
Variable r : Z.
Hypothesis Rp : (0 < r)%Z.
Hypothesis Ro : Z.odd r = true.
Let rn := Z.to_nat r.
Lemma rn_odd : Nat.odd rn = true.
Proof.
  unfold rn. apply Z.odd_spec in Ro. destruct Ro as [k Hk]. apply Nat.odd_spec. exists (Z.to_nat k). lia.
Qed.
Lemma rn_pos : Pos.to_nat (Z.to_pos r) = rn.
Proof. unfold rn. rewrite <- (Z2Pos.id r) at 2 by lia. reflexivity. Qed.
Lemma te_mult_0 n : te_mult F a d n (te_zero F) = te_zero F.
Proof. induction n as [n IH|n IH|]; cbn [te_mult]; rewrite ?IH, ?(te_add_0_l F FK); reflexivity. Qed.

(** *** a a square, d not *)
Section Square_a.
Variable al : K.
Hypothesis HA : a = al * al.
Hypothesis NA : al <> 0.
Hypothesis ND : forall s, s * s <> d.
Notation tz := (tp_zero F FK a d).
Notation tadd := (tp_add F FK a d).
Notation topp := (tp_opp F FK a d).
Notation tor := (odd_torsion F FK a d rn).
Let AG := tp_group F FK a d al HA NA ND H2.
Let tp_monoid := ag_monoid _ _ _ AG.
Lemma te_mult_tp n (P : te_pt F a d) : te_mult F a d n (proj1_sig P) = proj1_sig (npow tz tadd P (Pos.to_nat n)).
Proof.
  induction n as [n IH|n IH|]; cbn [te_mult].
  - rewrite Pos2Nat.inj_xI. replace (S (2 * Pos.to_nat n)) with (Pos.to_nat n + Pos.to_nat n + 1)%nat by lia.
    rewrite !(npow_add _ _ tp_monoid), !(tp_add_val F FK a d al HA NA ND H2), <- IH. f_equal.
    rewrite (npow_1 _ _ tp_monoid). reflexivity.
  - rewrite Pos2Nat.inj_xO. replace (2 * Pos.to_nat n)%nat with (Pos.to_nat n + Pos.to_nat n)%nat by lia.
    rewrite !(npow_add _ _ tp_monoid), !(tp_add_val F FK a d al HA NA ND H2), <- IH. reflexivity.
  - change (Pos.to_nat 1) with 1%nat. now rewrite (npow_1 _ _ tp_monoid).
Qed.
Lemma te_torsion_iff P : te_torsion F a d r P <-> exists A, proj1_sig A = P /\ tor A.
Proof.
  split.
  - intros [O H]. exists (tp_mk F FK a d P). pose proof (tp_mk_val F FK a d P O) as E. split; [exact E|].
    apply te_pt_eq. rewrite <- rn_pos, <- te_mult_tp, E. exact H.
  - intros (A & <- & H). split; [apply (te_pt_on F FK)|]. rewrite te_mult_tp, rn_pos. now rewrite H.
Qed.
Theorem torsion_good : te_good F a d (te_torsion F a d r).
Proof.
  constructor.
  - split; [now apply te_zero_on|apply te_mult_0].
  - now intros P [O _].
  - intros P H. apply te_torsion_iff in H. destruct H as (A & <- & H). destruct (rk_dec F R (fst (proj1_sig A)) 0) as [E|N].
    + left. now rewrite (odd_torsion_x F FK a d al HA NA ND H2 rn A rn_odd H E).
    + right. split; [exact N|]. exact (odd_torsion_y F FK a d al HA NA ND H2 rn A rn_odd H).
  - intros x1 y1 x2 y2 [O1 _] [O2 _]. split.
    + exact (te_complete_p F FK a d al HA NA ND H2 _ _ _ _ O1 O2).
    + exact (te_complete_m F FK a d al HA NA ND H2 _ _ _ _ O1 O2).
  - intros P Q HP HQ. apply te_torsion_iff in HP, HQ. destruct HP as (A & <- & HP). destruct HQ as (B & <- & HQ).
    apply te_torsion_iff. exists (tadd A B). split; [apply (tp_add_val F FK a d al HA NA ND H2)|].
    exact (odd_torsion_add F FK a d al HA NA ND H2 rn A B HP HQ).
  - intros P HP. apply te_torsion_iff in HP. destruct HP as (A & <- & HP).
    apply te_torsion_iff. exists (topp A). split; [apply (tp_opp_val F FK a d)|].
    exact (odd_torsion_opp F FK a d al HA NA ND H2 rn A HP).
Qed.
End Square_a.
End Group.

Section Dual.
Context {K : Type} (F : Fops K) (FK : field_ok F) (a d : K).
Let R : ring_ok F := fk_ring F FK.
Add Ring GDring : (rk_ring F (fk_ring F FK)).
Local Notation "0" := (o0 F).
Local Notation "1" := (o1 F).
Local Notation "x + y" := (oadd F x y).
Local Notation "x - y" := (osub F x y).
Local Notation "x * y" := (omul F x y).
Local Notation "- x" := (oopp F x).
Hypothesis H2 : 1 + 1 <> 0.
Variable r : Z.
Hypothesis Rp : (0 < r)%Z.
Hypothesis Ro : Z.odd r = true.
(** *** d a square, a not *)
Variable be : K.
Hypothesis HD : d = be * be.
Hypothesis NB : be <> 0.
Hypothesis NQ : forall s, s * s <> a.
Notation tor1 := (te_torsion F d a r).
Notation tor2 := (te_torsion_dual F a d r).
Let GD : te_good F d a tor1 := torsion_good F FK d a H2 r Rp Ro be HD NB NQ.
Notation dual := (te_dual F).
Lemma inv_ne y : y <> 0 -> tinv F y <> 0.
Proof. intros N Z. destruct (tinv_spec F FK y N) as [_ I]. apply (fk_1_neq_0 F FK). rewrite <- I, Z. ring. Qed.
Lemma inv_r y : y <> 0 -> y * tinv F y = 1.
Proof. intros N. destruct (tinv_spec F FK y N) as [_ I]. rewrite <- I. ring. Qed.
Lemma inv_inv y : y <> 0 -> tinv F (tinv F y) = y.
Proof. intros N. apply (tinv_uniq F FK). destruct (tinv_spec F FK y N) as [_ I]. exact I. Qed.
Lemma dual_iff P : tor2 P <-> snd P <> 0 /\ tor1 (dual P).
Proof. destruct P as [x y]. reflexivity. Qed.
Lemma dual_zero P : snd P <> 0 -> dual P = te_zero F -> P = te_zero F.
Proof.
  destruct P as [x y]. cbn [snd te_dual]. unfold te_zero. intros N H. injection H as -> H. f_equal.
  rewrite <- (inv_inv y N), H. now apply tinv_1.
Qed.
Lemma tor2_add' P Q : tor2 P -> tor2 Q -> edw_fits F a d P Q /\ tor2 (te_add F a d P Q) /\ dual (te_add F a d P Q) = te_add F d a (dual P) (dual Q).
Proof.
  rewrite !dual_iff. intros [N1 T1] [N2 T2]. destruct P as [x1 y1], Q as [x2 y2]. cbn [snd te_dual] in *.
  pose proof (tg_add F d a _ GD _ _ T1 T2) as T3. pose proof (tg_xy F d a _ GD _ T3) as X3.
  assert (ND : tinv F y1 * tinv F y2 + d * (x1 * x2) <> 0).
  { pose proof (proj1 (te_torsion_iff F FK d a H2 r Rp be HD NB NQ _) T1) as (A & EA & TA).
    pose proof (proj1 (te_torsion_iff F FK d a H2 r Rp be HD NB NQ _) T2) as (B & EB & TB).
    pose proof (odd_torsion_dual F FK d a be HD NB NQ H2 _ A B (rn_odd r Rp Ro) TA TB) as H. now rewrite EA, EB in H. }
  destruct (dual_add F FK a d H2 be HD NB NQ x1 y1 x2 y2 (tinv F y1) (tinv F y2) (inv_r y1 N1) (inv_r y2 N2) (proj1 T1) (proj1 T2) ND X3) as [Ft Du].
  cbn [te_dual] in Du. split; [exact Ft|]. split.
  - split; [|rewrite Du; exact T3]. destruct Ft as [_ [->|[_ H]]]; [apply (fk_1_neq_0 F FK)|exact H].
  - exact Du.
Qed.
Theorem dual_good : te_good F a d tor2.
Proof.
  constructor.
  - split; [apply (fk_1_neq_0 F FK)|]. rewrite (tinv_1 F FK). apply (tg_zero F d a _ GD).
  - intros [x y] [N [O _]]. pose proof (te_dual_on F FK d a (x, tinv F y) O (inv_ne y N)) as H. cbn [te_dual] in H.
    now rewrite inv_inv in H.
  - intros [x y] [N H]. destruct (tg_xy F d a _ GD _ H) as [E|[Nx _]].
    + left. now apply dual_zero.
    + right. now split.
  - intros x1 y1 x2 y2 T1 T2. now destruct (tor2_add' _ _ T1 T2) as [[Ft _] _].
  - intros P Q T1 T2. now destruct (tor2_add' _ _ T1 T2) as [_ [H _]].
  - intros [x y] [N H]. split; [exact N|]. exact (tg_opp F d a _ GD _ H).
Qed.
Lemma dual_mult n P : tor2 P -> tor2 (te_mult F a d n P) /\ dual (te_mult F a d n P) = te_mult F d a n (dual P).
Proof.
  intros H. induction n as [n [I1 I2]|n [I1 I2]|]; cbn [te_mult].
  - destruct (tor2_add' _ _ I1 I1) as (_ & A1 & A2). destruct (tor2_add' _ _ A1 H) as (_ & B1 & B2). split; [exact B1|]. now rewrite B2, A2, I2.
  - destruct (tor2_add' _ _ I1 I1) as (_ & A1 & A2). split; [exact A1|]. now rewrite A2, I2.
  - now split.
Qed.
(** r kills them. *)
Lemma dual_order P : tor2 P -> te_mult F a d (Z.to_pos r) P = te_zero F.
Proof.
  intros H. destruct (dual_mult (Z.to_pos r) P H) as [T E]. apply dual_zero.
  - apply dual_iff in T. apply T.
  - rewrite E. apply dual_iff in H. apply H.
Qed.
End Dual.
