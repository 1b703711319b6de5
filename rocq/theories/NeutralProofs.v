(** Pairings with a neutral element as input (C42). *)
From Coq Require Import ZArith Znumtheory List Bool Lia Ring.
From Verif Require Import Result Limbs LimbsProofs Algebra NumTheory FieldOps AlgorithmsModel AlgorithmsProofs ExtModel ExtSpec ExtProofs
  ExtFrob ExtCyc ExtInst FinalExpModel FinalExpSpec FinalExpProofs CurveModel PairingModel PairingSpec PairingProofs.
Import ListNotations.
Open Scope Z_scope.
Open Scope result_scope.

(** ** The layout of the coefficients *)
Inductive shape {A} (PD PA : A -> Prop) : list bool -> list A -> Prop :=
| shape_nil : shape PD PA [] []
| shape_dbl bs c cs : PD c -> shape PD PA bs cs -> shape PD PA (false :: bs) (c :: cs)
| shape_add bs c d cs : PD c -> PA d -> shape PD PA bs cs -> shape PD PA (true :: bs) (c :: d :: cs).

Lemma shape_length {A} (PD PA : A -> Prop) bs cs : shape PD PA bs cs -> length cs = (length bs + trues bs)%nat.
Proof. induction 1; cbn [length]; rewrite ?trues_cons, ?IHshape; cbn; lia. Qed.

Section PushShape.
Context {P A : Type} (dbl add : P -> P * A) (I1 : P -> Prop) (PD PA : A -> Prop).
Hypothesis Hd : forall R, I1 R -> I1 (fst (dbl R)) /\ PD (snd (dbl R)).
Hypothesis Ha : forall R, I1 R -> I1 (fst (add R)) /\ PA (snd (add R)).
Lemma push_shape bs : forall R cs R' cs', I1 R -> mfold (push_body dbl add) bs (R, cs) = Ok (R', cs') ->
  I1 R' /\ exists new, cs' = cs ++ new /\ shape PD PA bs new.
Proof.
  induction bs as [|b bs IH]; intros R cs R' cs' HR; cbn [mfold push_body].
  - intros H. injection H as <- <-. split; [exact HR|]. exists []. rewrite app_nil_r. split; [reflexivity|constructor].
  - specialize (Hd R HR). destruct (dbl R) as [R1 c]. cbn [fst snd] in Hd. destruct Hd as [H1 H2]. destruct b.
    + specialize (Ha R1 H1). destruct (add R1) as [R2 d]. cbn [fst snd bind] in *. destruct Ha as [H3 H4].
      intros H. apply IH in H; [|exact H3]. destruct H as (H5 & new & -> & S). split; [exact H5|].
      exists (c :: d :: new). rewrite <- !app_assoc. split; [reflexivity|now constructor].
    + cbn [bind]. intros H. apply IH in H; [|exact H1]. destruct H as (H5 & new & -> & S). split; [exact H5|].
      exists (c :: new). rewrite <- !app_assoc. split; [reflexivity|now constructor].
Qed.
End PushShape.

Lemma at_idx_app {A} (a b : list A) x : at_idx (a ++ x :: b) (length a) = Ok x.
Proof. unfold at_idx. rewrite nth_error_app2, Nat.sub_diag by lia. reflexivity. Qed.
Lemma at_idx_app_S {A} (a b : list A) x y : at_idx (a ++ x :: y :: b) (S (length a)) = Ok y.
Proof. unfold at_idx. rewrite nth_error_app2 by lia. replace (S (length a) - length a)%nat with 1%nat by lia. reflexivity. Qed.

Section OneShape.
Context {T A : Type} (F : Fops T) (ln1 ln2 : A -> T) (PD PA : A -> Prop) (G : T -> Prop).
Hypothesis H1 : forall f c, G f -> PD c -> G (omul F (omul F f f) (ln1 c)).
Hypothesis H2 : forall f c, G f -> PA c -> G (omul F f (ln2 c)).
Lemma one_shape bs cs : shape PD PA bs cs -> forall pre post f, G f ->
  exists g, mfold (one_body F ln1 ln2 (pre ++ cs ++ post)) bs (f, length pre) = Ok (g, (length pre + length cs)%nat) /\ G g.
Proof.
  induction 1; intros pre post f Gf.
  - exists f. cbn. now rewrite Nat.add_0_r.
  - cbn [mfold one_body app]. rewrite at_idx_app. cbn [bind].
    destruct (IHshape (pre ++ [c]) post _ (H1 f c Gf H)) as (g & E & Gg). exists g. split; [|exact Gg].
    rewrite <- !app_assoc in E. cbn [app] in E. rewrite app_length in E. cbn [length] in E.
    replace (S (length pre)) with (length pre + 1)%nat by lia. rewrite E. cbn [length]. do 2 f_equal. lia.
  - cbn [mfold one_body app]. rewrite at_idx_app, at_idx_app_S. cbn [bind].
    destruct (IHshape (pre ++ [c; d]) post _ (H2 _ d (H1 f c Gf H) H0)) as (g & E & Gg). exists g. split; [|exact Gg].
    rewrite <- !app_assoc in E. cbn [app] in E. rewrite app_length in E. cbn [length] in E.
    replace (S (S (length pre))) with (length pre + 2)%nat by lia. rewrite E. cbn [length]. do 2 f_equal. lia.
Qed.
End OneShape.

(** If every addition line is zero, the result is zero as soon as there is an addition. *)
Section OneZero.
Context {T A : Type} (F : Fops T) (R : ring_ok F) (ln1 ln2 : A -> T) (PD PA : A -> Prop).
Add Ring Tz : (rk_ring F R).
Hypothesis Hz : forall c, PA c -> ln2 c = o0 F.
Lemma one_zero bs cs : shape PD PA bs cs -> forall pre post f, (f = o0 F \/ (0 < trues bs)%nat) ->
  mfold (one_body F ln1 ln2 (pre ++ cs ++ post)) bs (f, length pre) = Ok (o0 F, (length pre + length cs)%nat).
Proof.
  induction 1; intros pre post f Gf.
  - destruct Gf as [->|Gf]; [|cbn in Gf; lia]. cbn. now rewrite Nat.add_0_r.
  - cbn [mfold one_body app]. rewrite at_idx_app. cbn [bind].
    pose proof (IHshape (pre ++ [c]) post (omul F (omul F f f) (ln1 c))) as E.
    rewrite <- !app_assoc in E. cbn [app] in E. rewrite app_length in E. cbn [length] in E.
    replace (S (length pre)) with (length pre + 1)%nat by lia. rewrite E. { cbn [length]. do 2 f_equal. lia. }
    rewrite trues_cons in Gf. cbn in Gf. destruct Gf as [->|Gf]; [left; ring|now right].
  - cbn [mfold one_body app]. rewrite at_idx_app, at_idx_app_S. cbn [bind].
    pose proof (IHshape (pre ++ [c; d]) post (omul F (omul F (omul F f f) (ln1 c)) (ln2 d))) as E.
    rewrite <- !app_assoc in E. cbn [app] in E. rewrite app_length in E. cbn [length] in E.
    replace (S (S (length pre))) with (length pre + 2)%nat by lia. rewrite E. { cbn [length]. do 2 f_equal. lia. }
    left. rewrite (Hz d H0). ring.
Qed.
End OneZero.

(** ** Elements that the first part of the final exponentiation maps to one *)
Section Deg6.
Context {K : Type} (F : Fops K) (FK : field_ok F) (nr : K) (p e m6 : nat).
Add Ring Kr6n : (rk_ring F (fk_ring F FK)).
Notation C3 := (fp3_ops F nr).
Notation T := (quad_ops C3 (rot_mnr F nr)).
Notation Q := (p ^ e)%nat.
Hypothesis FT : field_ok T.
Hypothesis Hp : prime (Z.of_nat p).
Hypothesis Hchar : fnmul F (o1 F) p = o0 F.
Hypothesis HQ : (Q = 1 + 6 * m6)%nat.
Hypothesis Hfix : forall a, fpow F a Q = a.
Hypothesis Hns : fpow F nr (3 * m6) = oopp F (o1 F).
Hypothesis Hnc : fpow F nr (2 * m6) <> o1 F.
Notation "x + y" := (oadd F x y). Notation "x - y" := (osub F x y). Notation "x * y" := (omul F x y).
Notation "- x" := (oopp F x). Notation "1" := (o1 F). Notation "0" := (o0 F).
Notation "x ^^ k" := (zpow (o1 T) (omul T) x k) (at level 30).
Let R := fk_ring T FT.
Let M := rk_monoid T R.
Let q := Z.of_nat Q.
Definition six_first : Z := ((q ^ 3 - 1) * (q + 1))%Z.
Definition good (f : K * K * K * (K * K * K)) : Prop := f = o0 T \/ f ^^ six_first = o1 T.
Let w := fpow F nr m6.
Let ph := phi F nr m6.

Lemma q_val : (q = 1 + 6 * Z.of_nat m6)%Z. Proof. unfold q. rewrite HQ. lia. Qed.
Lemma ph_pow f : f ^^ q = ph f.
Proof. unfold zpow, q. rewrite Nat2Z.id. now apply (phi_spec F FK nr p e m6). Qed.
Lemma q_nonneg : (1 <= q)%Z. Proof. rewrite q_val. lia. Qed.
Lemma q_pow k : (0 <= k)%Z -> (1 <= q ^ k)%Z.
Proof. intros. pose proof q_nonneg. pose proof (Z.pow_pos_nonneg q k). lia. Qed.
Lemma w_sq : w * w = w - 1.
Proof. exact (w_eq F FK nr p e m6 HQ Hns Hnc). Qed.

Ltac pairs := repeat match goal with |- (_, _) = (_, _) => f_equal end.
(** Elements of the subfield of degree 2 over F, a + b v w. *)
Lemma good_sub a b : good ((a, 0, 0), (0, b, 0)).
Proof.
  destruct (rk_dec T R ((a, 0, 0), (0, b, 0)) (o0 T)) as [E|E]; [now left|right].
  set (f := (a, 0, 0, (0, b, 0))) in *. pose proof (q_pow 2). pose proof q_nonneg.
  assert (E2 : f ^^ (q ^ 2) = f).
  { rewrite Z.pow_2_r, (zpow_mul _ _ M), !ph_pow by lia. unfold f, ph. cbn [phi]. pairs; ring. }
  apply (zpow_fix T FT) in E2; [|exact E|lia].
  assert (HF : six_first = ((q ^ 2 - 1) * (q ^ 2 + q + 1))%Z) by (unfold six_first; ring).
  rewrite HF, (zpow_mul _ _ M), E2 by lia. apply (zpow_one _ _ M).
Qed.
Lemma pow_scaled f g : f <> o0 T -> f ^^ q = omul T g f -> f ^^ (q - 1) = g.
Proof.
  intros N E. destruct (fk_inv T FT f N) as (h & _ & H). pose proof q_nonneg.
  rewrite <- (zpow_pred T FT f h q H), E by lia.
  rewrite <- (ml_assoc _ _ M), H. apply (ml_1_r _ _ M).
Qed.
Lemma em_mul x y : omul T ((x, 0, 0), (0, 0, 0)) ((y, 0, 0), (0, 0, 0)) = ((x * y, 0, 0), (0, 0, 0)).
Proof. cbn. pairs; ring. Qed.
(** Multiples of v^2 w. *)
Lemma good_mono c : good ((0, 0, 0), (0, 0, c)).
Proof.
  destruct (rk_dec T R ((0, 0, 0), (0, 0, c)) (o0 T)) as [E|E]; [now left|right].
  assert (E1 : ((0, 0, 0), (0, 0, c)) ^^ (q - 1) = ((1 - w, 0, 0), (0, 0, 0))).
  { apply pow_scaled; [exact E|]. rewrite ph_pow. unfold ph. cbn. fold w. pairs; ring. }
  pose proof q_nonneg as H0. pose proof q_val as Hq.
  assert (HF : six_first = ((q - 1) * (6 * ((1 + 6 * Z.of_nat m6 + 12 * Z.of_nat m6 * Z.of_nat m6) * (1 + 3 * Z.of_nat m6))))%Z).
  { unfold six_first. rewrite Hq. ring. }
  rewrite HF, (zpow_mul _ _ M), E1 by lia. rewrite (zpow_mul _ _ M) by lia.
  assert (E6 : ((1 - w, 0, 0), (0, 0, 0)) ^^ 6 = o1 T).
  { pose proof w_sq as W. unfold zpow. change (Z.to_nat 6) with 6%nat. cbn [npow].
    change (o1 T) with ((1, 0, 0), (0, 0, 0)). rewrite !em_mul. clearbody w. pairs; try reflexivity. ring [W]. }
  rewrite E6. apply (zpow_one _ _ M).
Qed.
(** Elements of F^3, and w times them. *)
Lemma pow3 f : f ^^ (q ^ 3) = quad_unitary_inverse C3 f.
Proof.
  pose proof q_nonneg. replace (q ^ 3)%Z with (q * (q * q))%Z by ring.
  rewrite !(zpow_mul _ _ M), !ph_pow by lia. exact (phi3 F FK nr p e m6 HQ Hns Hnc f).
Qed.
Lemma good_even a b c : good ((a, b, c), (0, 0, 0)).
Proof.
  destruct (rk_dec T R ((a, b, c), (0, 0, 0)) (o0 T)) as [E|E]; [now left|right].
  pose proof (q_pow 3). pose proof q_nonneg.
  assert (E3 : ((a, b, c), (0, 0, 0)) ^^ (q ^ 3) = ((a, b, c), (0, 0, 0))) by (rewrite pow3; cbn; pairs; ring).
  apply (zpow_fix T FT) in E3; [|exact E|lia].
  unfold six_first. rewrite (zpow_mul _ _ M), E3 by lia. apply (zpow_one _ _ M).
Qed.
Lemma good_odd a b c : good ((0, 0, 0), (a, b, c)).
Proof.
  destruct (rk_dec T R ((0, 0, 0), (a, b, c)) (o0 T)) as [E|E]; [now left|right].
  pose proof (q_pow 3). pose proof q_nonneg. pose proof q_val as Hq.
  destruct (fk_inv T FT _ E) as (h & _ & Hh).
  assert (E3 : ((0, 0, 0), (a, b, c)) ^^ (q ^ 3 - 1) = ((- (1), 0, 0), (0, 0, 0))).
  { rewrite <- (zpow_pred T FT _ h _ Hh), pow3 by lia.
    transitivity (omul T ((- (1), 0, 0), (0, 0, 0)) (omul T ((0, 0, 0), (a, b, c)) h)).
    - rewrite (ml_assoc _ _ M). f_equal. cbn. pairs; ring.
    - rewrite Hh. apply (ml_1_r _ _ M). }
  assert (HF : six_first = ((q ^ 3 - 1) * (2 * (1 + 3 * Z.of_nat m6)))%Z).
  { unfold six_first. rewrite Hq. ring. }
  rewrite HF, (zpow_mul _ _ M), E3 by lia. rewrite (zpow_mul _ _ M) by lia.
  assert (E2 : ((- (1), 0, 0), (0, 0, 0)) ^^ 2 = o1 T).
  { unfold zpow. change (Z.to_nat 2) with 2%nat. cbn [npow].
    change (o1 T) with ((1, 0, 0), (0, 0, 0)). rewrite !em_mul. pairs; try reflexivity. ring. }
  rewrite E2. apply (zpow_one _ _ M).
Qed.
Add Ring TT6n : (rk_ring T (fk_ring T FT)).
Lemma good_one : good (o1 T).
Proof. right. apply (zpow_one _ _ M). Qed.
Lemma good_mul x y : good x -> good y -> good (omul T x y).
Proof.
  intros [->|Hx]; [intros _; left; ring|]. intros [->|Hy]; [left; ring|]. right.
  unfold zpow in *. rewrite (frob_mul T R), Hx, Hy. ring.
Qed.
Lemma good_inv x y : good x -> oinv T x = Ok y -> good y.
Proof.
  intros [->|Hx] E; [rewrite (fk_inv_0 T FT) in E; discriminate|].
  assert (N : x <> o0 T). { intros ->. rewrite (fk_inv_0 T FT) in E. discriminate. }
  destruct (fk_inv T FT x N) as (y' & E' & H). rewrite E in E'. injection E' as <-.
  right. unfold zpow in *. transitivity (omul T (fpow T x (Z.to_nat six_first)) (fpow T y (Z.to_nat six_first))).
  - rewrite Hx. ring.
  - rewrite <- (frob_mul T R), H. apply (zpow_one _ _ M six_first).
Qed.
End Deg6.

(** ** alt_bn128 and bls12_381 *)
Section TwelveNeutral.
Context {K : Type} (F : Fops K) (q : nat).
Hypothesis PB : prime_base F q.
Variables (nr2 : K) (m : nat).
Hypothesis Hm : (q = 1 + 6 * m)%nat.
Hypothesis N : nonresidue F q 2 nr2.
Notation F2 := (fp2_ops F nr2).
Variable nr6 : K * K.
Hypothesis N2 : nonresidue F2 (q ^ 2) 2 nr6.
Hypothesis N3 : nonresidue F2 (q ^ 2) 3 nr6.
Notation F12 := (fp12_ops F nr2 nr6 nr6).
Variables (t2 : list K) (t61 t62 t12 : list (K * K)).
Hypothesis T2 : frob_table F q 2 1 2 nr2 t2.
Hypothesis T61 : frob_table F2 q 3 1 6 nr6 t61.
Hypothesis T62 : frob_table F2 q 3 2 6 nr6 t62.
Hypothesis T12 : frob_table F2 q 6 1 12 nr6 t12.
Variables (z : list Z) (z_neg : bool).
Hypothesis Lz : limbs z.
Variables (twist twist_b qX qY : K * K) (lc : list Z) (neg : bool).
Hypothesis Llc : limbs lc.
Notation E := (K * K)%type.
Notation T := ((E * E * E) * (E * E * E))%type.
Let FK : field_ok F12 := fp12_is_field F q PB nr2 m Hm N nr6 N2 N3.
Let FK2 : field_ok F2 := two_field F q PB nr2 m Hm N.
Let RF := fk_ring F (pb_field F q PB).
Add Ring TNK : (rk_ring F (fk_ring F (pb_field F q PB))).
Add Ring TNE : (rk_ring F2 (fk_ring F2 (two_field F q PB nr2 m Hm N))).
Let gd : T -> Prop := good F2 nr6 q 2.

Lemma twelve_six m6 : (q ^ 2 = 1 + 6 * m6)%nat ->
  fpow F2 nr6 (3 * m6) = oopp F2 (o1 F2) /\ fpow F2 nr6 (2 * m6) <> o1 F2.
Proof.
  intros H6. split.
  - apply (nonresidue_2 F2 FK2 (q ^ 2) (two_fix F q PB nr2 m Hm N)); auto. lia.
  - apply (nonresidue_3 F2 FK2 (q ^ 2) (two_fix F q PB nr2 m Hm N)); auto. lia.
Qed.
Lemma twelve_char : fnmul F2 (o1 F2) q = o0 F2.
Proof. apply (quad_char F (omul F nr2) RF). apply (pb_char F q PB). Qed.
Lemma gd_sub a b : gd ((a, o0 F2, o0 F2), (o0 F2, b, o0 F2)).
Proof.
  destruct (two_quo q m Hm) as [m6 H6]. destruct (twelve_six m6 H6) as [Hns Hnc].
  exact (good_sub F2 FK2 nr6 q 2 m6 FK (pb_prime F q PB) twelve_char H6 (two_fix F q PB nr2 m Hm N) Hns Hnc a b).
Qed.
Lemma gd_mono c : gd ((o0 F2, o0 F2, o0 F2), (o0 F2, o0 F2, c)).
Proof.
  destruct (two_quo q m Hm) as [m6 H6]. destruct (twelve_six m6 H6) as [Hns Hnc].
  exact (good_mono F2 FK2 nr6 q 2 m6 FK (pb_prime F q PB) twelve_char H6 (two_fix F q PB nr2 m Hm N) Hns Hnc c).
Qed.
Lemma gd_one : gd (o1 F12). Proof. exact (good_one F2 nr6 q 2 FK). Qed.
Lemma gd_mul x y : gd x -> gd y -> gd (omul F12 x y). Proof. exact (good_mul F2 nr6 q 2 FK x y). Qed.
Lemma gd_inv x y : gd x -> oinv F12 x = Ok y -> gd y. Proof. exact (good_inv F2 nr6 q 2 FK x y). Qed.

Let M := rk_monoid F12 (fk_ring F12 FK).
Lemma gd_first f : gd f -> f <> o0 F12 -> zpow (o1 F12) (omul F12) f (first_exponent q) = o1 F12.
Proof.
  intros [H|H] Nz; [now elim Nz|].
  replace (first_exponent q) with (six_first q 2); [exact H|].
  unfold first_exponent, six_first. rewrite Nat2Z.inj_pow. change (Z.of_nat 2) with 2. ring.
Qed.
Lemma cp_one k : cp F12 (Z.of_nat q ^ 4 - Z.of_nat q ^ 2 + 1) (o1 F12) k = o1 F12.
Proof. unfold cp. apply (zpow_one _ _ M). Qed.
Lemma bn_good (pr : result T) :
  pr = AssertFail \/ (exists f, pr = Ok f /\ gd f) ->
  one_or_fail F12 pr (f <- pr ;; bn_final_exponentiation F nr2 nr6 nr6 t2 t61 t62 t12 z z_neg f).
Proof.
  intros [->|(f & -> & G)]; [right; cbn; auto|]. cbn [bind].
  destruct (rk_dec F12 (fk_ring F12 FK) f (o0 F12)) as [->|Nz].
  - right. split; [now left|]. exact (bn_zero F q PB nr2 m Hm N nr6 N2 N3 t2 t61 t62 t12 z z_neg).
  - left. exists f. split; [reflexivity|]. split; [exact Nz|].
    rewrite (bn_final F q PB nr2 m Hm N nr6 N2 N3 t2 t61 t62 t12 T2 T61 T62 T12 z z_neg Lz f Nz).
    rewrite (gd_first f G Nz). f_equal. apply cp_one.
Qed.
Lemma bls_good (pr : result T) :
  pr = AssertFail \/ (exists f, pr = Ok f /\ gd f) ->
  one_or_fail F12 pr (f <- pr ;; bls_final_exponentiation F nr2 nr6 nr6 t2 t61 t62 t12 z z_neg f).
Proof.
  intros [->|(f & -> & G)]; [right; cbn; auto|]. cbn [bind].
  destruct (rk_dec F12 (fk_ring F12 FK) f (o0 F12)) as [->|Nz].
  - right. split; [now left|]. exact (bls_zero F q PB nr2 m Hm N nr6 N2 N3 t2 t61 t62 t12 z z_neg).
  - left. exists f. split; [reflexivity|]. split; [exact Nz|].
    rewrite (bls_final F q PB nr2 m Hm N nr6 N2 N3 t2 t61 t62 t12 T2 T61 T62 T12 z z_neg Lz f Nz).
    rewrite (gd_first f G Nz). f_equal. apply cp_one.
Qed.

(** *** The neutral element of G1 *)
Let any {A} : A -> Prop := fun _ => True.
Lemma push_any {P A} (dbl add : P -> P * A) bs R cs R' cs' : mfold (push_body dbl add) bs (R, cs) = Ok (R', cs') ->
  exists new, cs' = cs ++ new /\ shape any any bs new.
Proof.
  intros H. apply (push_shape dbl add any any any) in H; unfold any; auto. apply H.
Qed.
Lemma g1_zero P : jac_is_zero F P = true -> bn_precompute_G1 F P = Ok (o0 F, o1 F).
Proof. unfold bn_precompute_G1, jac_to_affine. destruct P as [[X Y] Z]. intros ->. reflexivity. Qed.
Lemma jac_affine_total {L} (G : Fops L) (FG : field_ok G) P : exists Q, jac_to_affine G P = Ok Q.
Proof.
  unfold jac_to_affine. destruct P as [[X Y] Z]. unfold jac_is_zero.
  destruct (oeqb G Z (o0 G)) eqn:E0; [eauto|].
  assert (Nz : Z <> o0 G). { intros ->. rewrite (proj2 (rk_eqb G (fk_ring G FG) _ _) eq_refl) in E0. discriminate. }
  destruct (fk_inv G FG Z Nz) as (y & -> & _). cbn. eauto.
Qed.
Lemma scale_0 (x : E) : quad_scale (omul F) (o0 F) x = o0 F2.
Proof. destruct x as [a b]. unfold quad_scale. change (o0 F2) with (o0 F, o0 F). f_equal; ring. Qed.
Lemma scale_r0 c : quad_scale (omul F) c (o0 F2) = o0 F2.
Proof. change (o0 F2) with (o0 F, o0 F). unfold quad_scale. f_equal; ring. Qed.
Lemma line024_zero y c : gd (line024 F nr2 (o0 F, y) c).
Proof. destruct c as [[a b] d]. cbn [line024 fst snd]. rewrite scale_0. apply gd_sub. Qed.
Lemma line045_zero y c : gd (line045 F nr2 (o0 F, y) c).
Proof. destruct c as [[a b] d]. cbn [line045 fst snd]. rewrite scale_0. apply gd_sub. Qed.
Lemma loop_good (line : K * K -> E * E * E -> T) P (PD PA : E * E * E -> Prop) bs cs post :
  (forall c, PD c -> gd (line P c)) -> (forall c, PA c -> gd (line P c)) -> shape PD PA bs cs ->
  exists g, mfold (one_body F12 (line P) (line P) (cs ++ post)) bs (o1 F12, O) = Ok (g, length cs) /\ gd g.
Proof.
  intros H1 H2 S. apply (one_shape F12 (line P) (line P) PD PA gd) with (pre := []) (post := post) (f := o1 F12) in S.
  - exact S.
  - intros f c Gf Hc. apply gd_mul; [now apply gd_mul|auto].
  - intros f c Gf Hc. apply gd_mul; auto.
  - apply gd_one.
Qed.
Lemma inv_good g : gd g -> (if neg then oinv F12 g else Ok g) = AssertFail \/
  exists h, (if neg then oinv F12 g else Ok g) = Ok h /\ gd h.
Proof.
  intros G. destruct neg; [|right; eauto].
  destruct (oinv_cases F12 FK g) as [[h Eh]| ->]; [|now left]. right. exists h. split; [exact Eh|]. now apply (gd_inv g).
Qed.

Lemma bls_loop_good P (PD PA : E * E * E -> Prop) cs :
  (forall c, PD c -> gd (line045 F nr2 P c)) -> (forall c, PA c -> gd (line045 F nr2 P c)) ->
  shape PD PA (below (val lc)) cs ->
  bls_miller_loop F nr2 nr6 nr6 lc neg P cs = AssertFail \/
  exists f, bls_miller_loop F nr2 nr6 nr6 lc neg P cs = Ok f /\ gd f.
Proof.
  intros H1 H2 S. unfold bls_miller_loop, bls_miller_loop_idx.
  rewrite (loop_one F nr2 nr6 FK lc Llc _ (line045 F nr2) (mul_line_045 F RF nr2 nr6)).
  destruct (loop_good (line045 F nr2) P PD PA _ cs [] H1 H2 S) as (g & Eg & G). rewrite app_nil_r in Eg. rewrite Eg.
  cbn [bind]. destruct (inv_good g G) as [->|(h & -> & H)]; cbn; [now left|right; eauto].
Qed.
Lemma alt_loop_good P (PD PA : E * E * E -> Prop) cs c d :
  (forall c, PD c -> gd (line024 F nr2 P c)) -> (forall c, PA c -> gd (line024 F nr2 P c)) ->
  gd (line024 F nr2 P c) -> gd (line024 F nr2 P d) ->
  shape PD PA (below (val lc)) cs ->
  alt_miller_loop F nr2 nr6 nr6 lc neg P (cs ++ [c] ++ [d]) = AssertFail \/
  exists f, alt_miller_loop F nr2 nr6 nr6 lc neg P (cs ++ [c] ++ [d]) = Ok f /\ gd f.
Proof.
  intros H1 H2 Hc Hd S. unfold alt_miller_loop, alt_miller_loop_idx.
  rewrite (loop_one F nr2 nr6 FK lc Llc _ (line024 F nr2) (mul_line_024 F RF nr2 nr6)).
  destruct (loop_good (line024 F nr2) P PD PA _ cs ([c] ++ [d]) H1 H2 S) as (g & Eg & G). rewrite Eg.
  cbn [bind]. cbn [app]. rewrite at_idx_app, at_idx_app_S.
  destruct (inv_good g G) as [->|(h & -> & H)]; cbn [bind miller_value]; [now left|right].
  eexists. split; [reflexivity|]. rewrite !(mul_line_024 F RF nr2 nr6). auto using gd_mul.
Qed.
Lemma bn_push dbl_line add_line two_inv Q Rp (PR PD PA : E * E * E -> Prop) R' cs' :
  let dbl R := let '(R, l) := bn_doubling_step F nr2 twist_b two_inv R in (R, dbl_line l) in
  let add R := let '(R, l) := bn_mixed_addition_step F nr2 Q R in (R, add_line l) in
  (forall R, PR R -> PR (fst (dbl R)) /\ PD (snd (dbl R))) ->
  (forall R, PR R -> PR (fst (add R)) /\ PA (snd (add R))) -> PR Rp ->
  bit_loop lc (bn_precompute_body F nr2 twist_b dbl_line add_line two_inv Q) (S (max_bits lc)) false (Rp, []) = Ok (R', cs') ->
  shape PD PA (below (val lc)) cs'.
Proof.
  intros dbl add H1 H2 HR.
  rewrite bit_loop_skip by (auto; apply loop_bound; auto).
  rewrite (mfold_ext _ (push_body dbl add)).
  - intros H. apply (push_shape dbl add PR PD PA) in H; auto. destruct H as (_ & new & -> & S). exact S.
  - intros b [R0 cs0]. unfold bn_precompute_body, push_body, dbl, add.
    destruct (bn_doubling_step F nr2 twist_b two_inv R0) as [R1 l1].
    destruct b; [|reflexivity]. destruct (bn_mixed_addition_step F nr2 Q R1) as [R2 l2]. reflexivity.
Qed.
Lemma two_inv_ok : exists t, oinv F (Fq_two F) = Ok t.
Proof.
  assert (Nz : Fq_two F <> o0 F).
  { intros E0. pose proof (pb_char F q PB) as C. rewrite Hm in C.
    assert (C' : forall k, fnmul F (o1 F) (1 + 6 * k) = oadd F (o1 F) (omul F (Fq_two F) (fnmul F (o1 F) (3 * k)))).
    { intros k. change (1 + 6 * k)%nat with (S (6 * k)). cbn [fnmul]. f_equal. induction k as [|k IH]; [cbn; ring|].
      replace (6 * S k)%nat with (S (S (S (S (S (S (6 * k))))))) by lia.
      replace (3 * S k)%nat with (S (S (S (3 * k)))) by lia.
      change (fnmul F (o1 F) (S (S (S (S (S (S (6 * k))))))))
        with (oadd F (o1 F) (oadd F (o1 F) (oadd F (o1 F) (oadd F (o1 F) (oadd F (o1 F) (oadd F (o1 F) (fnmul F (o1 F) (6 * k)))))))).
      change (fnmul F (o1 F) (S (S (S (3 * k)))))
        with (oadd F (o1 F) (oadd F (o1 F) (oadd F (o1 F) (fnmul F (o1 F) (3 * k))))).
      rewrite IH. unfold Fq_two. ring. }
    rewrite C', E0 in C. apply (fk_1_neq_0 F (pb_field F q PB)). rewrite <- C. ring. }
  destruct (fk_inv F (pb_field F q PB) _ Nz) as (t & E0 & _). eauto.
Qed.
Theorem bls_left P Q : jac_is_zero F P = true ->
  one_or_fail F12 (bls_pairing F nr2 nr6 nr6 twist twist_b lc neg P Q)
    (bls_reduced_pairing F nr2 nr6 nr6 t2 t61 t62 t12 twist twist_b lc neg z z_neg P Q).
Proof.
  intros HP. apply bls_good. unfold bls_pairing. rewrite (g1_zero P HP). cbn [bind].
  unfold bls_precompute_G2. destruct (jac_affine_total F2 FK2 Q) as [[[QX QY] QZ] ->]. cbn [bind].
  destruct two_inv_ok as [ti ->]. cbn [bind].
  destruct (bn_precompute_loop F nr2 lc Llc twist_b (bls_dbl_line F nr2 twist) (bls_add_line F nr2 twist) ti (QX, QY, QZ) (QX, QY, o1 F2) [])
    as (R' & cs' & Er & _). rewrite Er. cbn [bind].
  apply bn_push with (PR := any) (PD := any) (PA := any) in Er; unfold any in *; auto.
  apply (bls_loop_good _ _ _ _) with (3 := Er); intros; apply line045_zero.
Qed.
Theorem alt_left P Q : jac_is_zero F P = true ->
  one_or_fail F12 (alt_pairing F nr2 nr6 nr6 t2 twist twist_b qX qY lc neg P Q)
    (alt_reduced_pairing F nr2 nr6 nr6 t2 t61 t62 t12 twist twist_b qX qY lc neg z z_neg P Q).
Proof.
  intros HP. apply bn_good. unfold alt_pairing. rewrite (g1_zero P HP). cbn [bind].
  unfold alt_precompute_G2. destruct (jac_affine_total F2 FK2 Q) as [[[QX QY] QZ] ->]. cbn [bind].
  destruct two_inv_ok as [ti ->]. cbn [bind].
  destruct (bn_precompute_loop F nr2 lc Llc twist_b (alt_dbl_line F nr2 twist) (alt_add_line F nr2 twist) ti (QX, QY, QZ) (QX, QY, o1 F2) [])
    as (R' & cs' & Er & _). rewrite Er. cbn [bind].
  apply bn_push with (PR := any) (PD := any) (PA := any) in Er; unfold any in *; auto.
  destruct R' as [[RX RY] RZ].
  destruct (bn_mul_by_q F nr2 t2 qX qY (QX, QY, QZ)) as [[Q1X Q1Y] Q1Z].
  unfold assert_then. destruct (oeqb _ _ _); [|now left].
  destruct (bn_mul_by_q F nr2 t2 qX qY (Q1X, Q1Y, Q1Z)) as [[Q2X Q2Y] Q2Z].
  destruct (oeqb _ _ _); [|now left].
  set (R1 := if neg then _ else _). destruct (bn_mixed_addition_step F nr2 (Q1X, Q1Y, Q1Z) R1) as [R2 l1].
  destruct (bn_mixed_addition_step F nr2 _ R2) as [R3 l2]. cbn [bind].
  apply alt_loop_good with (5 := Er); intros; apply line024_zero.
Qed.

(** *** The neutral element of G2 *)
Theorem alt_right P Q : jac_is_zero F2 Q = true ->
  alt_reduced_pairing F nr2 nr6 nr6 t2 t61 t62 t12 twist twist_b qX qY lc neg z z_neg P Q = AssertFail.
Proof.
  intros HQ. unfold alt_reduced_pairing, alt_pairing, bn_precompute_G1.
  destruct (jac_affine_total F (pb_field F q PB) P) as [[[PX PY] PZ] ->]. cbn [bind].
  unfold alt_precompute_G2, jac_to_affine. destruct Q as [[QX QY] QZ]. rewrite HQ. cbn [bind].
  destruct two_inv_ok as [ti ->]. cbn [bind].
  destruct (bn_precompute_loop F nr2 lc Llc twist_b (alt_dbl_line F nr2 twist) (alt_add_line F nr2 twist) ti
    (o0 F2, o1 F2, o0 F2) (o0 F2, o1 F2, o1 F2) []) as (R' & cs' & Er & _). rewrite Er. cbn [bind].
  destruct R' as [[RX RY] RZ]. unfold bn_mul_by_q. cbn [snd].
  replace (fp2_frobenius F t2 1 (o0 F2)) with (o0 F2).
  - destruct (oeqb F2 (o0 F2) (o1 F2)) eqn:E0; [|reflexivity].
    apply (rk_eqb F2 (fk_ring F2 FK2)) in E0. symmetry in E0. now apply (fk_1_neq_0 F2 FK2) in E0.
  - change (o0 F2) with (o0 F, o0 F). unfold fp2_frobenius. f_equal. ring.
Qed.
Definition x_zero (c : E * E * E) : Prop := fst (fst c) = o0 F2.
Definition vv_zero (c : E * E * E) : Prop := snd c = o0 F2.
Definition only_vv (c : E * E * E) : Prop := fst c = (o0 F2, o0 F2).
Let z_mul x : omul F2 (o0 F2) x = o0 F2. Proof. ring. Qed.
Let mul_z x : omul F2 x (o0 F2) = o0 F2. Proof. ring. Qed.
Lemma bls_dbl_zero ti R : x_zero R ->
  let r := let '(R', l) := bn_doubling_step F nr2 twist_b ti R in (R', bls_dbl_line F nr2 twist l) in
  x_zero (fst r) /\ vv_zero (snd r).
Proof.
  destruct R as [[X Y] Z]. unfold x_zero, vv_zero. cbn [fst]. intros ->.
  cbv zeta beta iota delta [bn_doubling_step bls_dbl_line fst snd].
  rewrite (rk_sqr F2 (fk_ring F2 FK2) (o0 F2)), !z_mul, scale_r0. split; ring.
Qed.
Lemma bls_add_zero Qz R : x_zero R ->
  let r := let '(R', l) := bn_mixed_addition_step F nr2 (o0 F2, o1 F2, Qz) R in (R', bls_add_line F nr2 twist l) in
  x_zero (fst r) /\ only_vv (snd r).
Proof.
  destruct R as [[X Y] Z]. unfold x_zero, only_vv. cbn [fst]. intros ->.
  cbv zeta beta iota delta [bn_mixed_addition_step bls_add_line fst snd].
  split; [ring|]. f_equal; ring.
Qed.
Lemma line_vv_zero P c : vv_zero c -> gd (line045 F nr2 P c).
Proof.
  destruct c as [[a b] d]. unfold vv_zero. cbn [snd]. intros ->. cbn [line045]. rewrite scale_r0. apply gd_sub.
Qed.
Lemma line_only_vv P c : only_vv c -> line045 F nr2 P c = ((o0 F2, o0 F2, o0 F2), (o0 F2, o0 F2, quad_scale (omul F) (fst P) (snd c))).
Proof.
  destruct c as [[a b] d]. unfold only_vv. cbn [fst snd]. intros H. injection H as -> ->. cbn [line045]. now rewrite scale_r0.
Qed.
Lemma bls_right_shape Q cs : jac_is_zero F2 Q = true -> bls_precompute_G2 F nr2 twist twist_b lc Q = Ok cs ->
  shape vv_zero only_vv (below (val lc)) cs.
Proof.
  intros HQ. unfold bls_precompute_G2, jac_to_affine. destruct Q as [[QX QY] QZ]. rewrite HQ. cbn [bind].
  destruct two_inv_ok as [ti ->]. cbn [bind].
  destruct (bn_precompute_loop F nr2 lc Llc twist_b (bls_dbl_line F nr2 twist) (bls_add_line F nr2 twist) ti
    (o0 F2, o1 F2, o0 F2) (o0 F2, o1 F2, o1 F2) []) as (R' & cs' & Er & _). rewrite Er. cbn [bind].
  intros H. injection H as <-.
  apply bn_push with (PR := x_zero) (PD := vv_zero) (PA := only_vv) in Er; auto using bls_dbl_zero, bls_add_zero.
  reflexivity.
Qed.
Lemma bls_precompute_total Q : exists cs, bls_precompute_G2 F nr2 twist twist_b lc Q = Ok cs.
Proof.
  unfold bls_precompute_G2. destruct (jac_affine_total F2 FK2 Q) as [[[QX QY] QZ] ->]. cbn [bind].
  destruct two_inv_ok as [ti ->]. cbn [bind].
  destruct (bn_precompute_loop F nr2 lc Llc twist_b (bls_dbl_line F nr2 twist) (bls_add_line F nr2 twist) ti (QX, QY, QZ) (QX, QY, o1 F2) [])
    as (R' & cs' & Er & _). rewrite Er. cbn [bind]. eauto.
Qed.
Theorem bls_right P Q : jac_is_zero F2 Q = true ->
  one_or_fail F12 (bls_pairing F nr2 nr6 nr6 twist twist_b lc neg P Q)
    (bls_reduced_pairing F nr2 nr6 nr6 t2 t61 t62 t12 twist twist_b lc neg z z_neg P Q).
Proof.
  intros HQ. apply bls_good. unfold bls_pairing, bn_precompute_G1.
  destruct (jac_affine_total F (pb_field F q PB) P) as [[[PX PY] PZ] ->]. cbn [bind].
  destruct (bls_precompute_total Q) as [cs Ec]. rewrite Ec. cbn [bind]. apply bls_right_shape in Ec; [|exact HQ].
  apply bls_loop_good with (3 := Ec).
  - apply line_vv_zero.
  - intros c Hc. rewrite line_only_vv by auto. apply gd_mono.
Qed.
Theorem bls_both P Q : jac_is_zero F P = true -> jac_is_zero F2 Q = true -> (0 < add_count (val lc))%nat ->
  bls_reduced_pairing F nr2 nr6 nr6 t2 t61 t62 t12 twist twist_b lc neg z z_neg P Q = AssertFail.
Proof.
  intros HP HQ HA. unfold bls_reduced_pairing, bls_pairing. rewrite (g1_zero P HP). cbn [bind].
  destruct (bls_precompute_total Q) as [cs Ec]. rewrite Ec. cbn [bind]. apply bls_right_shape in Ec; [|exact HQ].
  unfold bls_miller_loop, bls_miller_loop_idx.
  rewrite (loop_one F nr2 nr6 FK lc Llc _ (line045 F nr2) (mul_line_045 F RF nr2 nr6)).
  assert (Ez : mfold (one_body F12 (line045 F nr2 (o0 F, o1 F)) (line045 F nr2 (o0 F, o1 F)) cs) (below (val lc)) (o1 F12, O) =
    Ok (o0 F12, length cs)).
  { rewrite <- (app_nil_r cs) at 1.
    apply (one_zero F12 (fk_ring F12 FK) _ _ vv_zero only_vv) with (pre := []) (post := []); auto.
    - intros c Hc. rewrite line_only_vv by auto. cbn [fst]. now rewrite scale_0.
    - right. rewrite below_trues; [exact HA|]. now apply val_nonneg. }
  rewrite Ez. cbn [bind]. destruct neg; cbn [bind miller_value].
  - rewrite (fk_inv_0 F12 FK). reflexivity.
  - exact (bls_zero F q PB nr2 m Hm N nr6 N2 N3 t2 t61 t62 t12 z z_neg).
Qed.
(** The point R starts as (0 : 1 : 1); the first addition makes Z zero, the
    second one all coordinates, and the next line is zero. *)
Definition stage (k : nat) (R : E * E * E) : Prop :=
  fst (fst R) = o0 F2 /\ (1 <= k -> snd R = o0 F2)%nat /\ (2 <= k -> snd (fst R) = o0 F2)%nat.
Lemma stage_dbl ti k R : stage k R ->
  let r := let '(R', l) := bn_doubling_step F nr2 twist_b ti R in (R', bls_dbl_line F nr2 twist l) in
  stage k (fst r) /\ (2 <= k -> snd r = (o0 F2, o0 F2, o0 F2))%nat.
Proof.
  destruct R as [[X Y] Z]. unfold stage. cbn [fst snd]. intros (-> & H1 & H2).
  cbv zeta beta iota delta [bn_doubling_step bls_dbl_line fst snd].
  rewrite !(rk_sqr F2 (fk_ring F2 FK2)), !z_mul, scale_r0.
  split; [split; [ring|split; intros Hk]|intros Hk].
  - rewrite (H1 Hk). ring.
  - rewrite (H2 Hk), (H1 ltac:(lia)).
    match goal with |- context [quad_scale (omul F) ti ?x] => replace x with (o0 F2) by ring end. rewrite scale_r0. ring.
  - rewrite (H2 Hk), (H1 ltac:(lia)). f_equal; [f_equal|]; ring.
Qed.
Lemma stage_add Qz k R : stage k R ->
  let r := let '(R', l) := bn_mixed_addition_step F nr2 (o0 F2, o1 F2, Qz) R in (R', bls_add_line F nr2 twist l) in
  stage (S k) (fst r).
Proof.
  destruct R as [[X Y] Z]. unfold stage. cbn [fst snd]. intros (-> & H1 & H2).
  cbv zeta beta iota delta [bn_mixed_addition_step bls_add_line fst snd].
  rewrite !(rk_sqr F2 (fk_ring F2 FK2)).
  split; [ring|split; intros Hk]; [ring|]. rewrite (H1 ltac:(lia)). ring.
Qed.
Lemma stage_zero ti Qz P bs :
  let dbl R := let '(R, l) := bn_doubling_step F nr2 twist_b ti R in (R, bls_dbl_line F nr2 twist l) in
  let add R := let '(R, l) := bn_mixed_addition_step F nr2 (o0 F2, o1 F2, Qz) R in (R, bls_add_line F nr2 twist l) in
  forall R k cs R' cs', stage k R -> bs <> [] -> (2 <= k + trues (removelast bs))%nat ->
  mfold (push_body dbl add) bs (R, cs) = Ok (R', cs') ->
  exists new, cs' = cs ++ new /\ forall pre post f,
    mfold (one_body F12 (line045 F nr2 P) (line045 F nr2 P) (pre ++ new ++ post)) bs (f, length pre) = Ok (o0 F12, (length pre + length new)%nat).
Proof.
  intros dbl add. assert (R12 := fk_ring F12 FK).
  assert (Z1 : forall x, omul F12 (o0 F12) x = o0 F12) by apply (rk_mul_0_l F12 R12).
  induction bs as [|b bs IH]; [now intros|]. intros R k cs R' cs' HR _ Hk.
  cbn [mfold push_body]. pose proof (stage_dbl ti k R HR) as Hd. fold (dbl R) in Hd. cbv zeta in Hd.
  destruct (dbl R) as [R1 c]. cbn [fst snd] in Hd. destruct Hd as [H1 H2].
  destruct (le_lt_dec 2 k) as [L|L].
  - (* the line c is zero *)
    intros H. assert (Sh : exists new, cs' = cs ++ c :: new /\ shape any any (b :: bs) (c :: new)).
    { destruct b.
      - destruct (add R1) as [R2 d]. cbn [bind] in H. apply push_any in H. destruct H as (new & -> & Sh).
        exists (d :: new). rewrite <- !app_assoc. split; [reflexivity|]. now constructor.
      - cbn [bind] in H. apply push_any in H. destruct H as (new & -> & Sh).
        exists new. rewrite <- !app_assoc. split; [reflexivity|]. now constructor. }
    destruct Sh as (new & -> & Sh). exists (c :: new). split; [reflexivity|]. intros pre post f.
    specialize (H2 L). subst c.
    assert (G : forall cs0 bs0 pre0, shape any any bs0 cs0 ->
      mfold (one_body F12 (line045 F nr2 P) (line045 F nr2 P) (pre0 ++ cs0 ++ post)) bs0 (o0 F12, length pre0) =
      Ok (o0 F12, (length pre0 + length cs0)%nat)).
    { intros cs0 bs0 pre0 S0.
      edestruct (one_shape F12 (line045 F nr2 P) (line045 F nr2 P) any any (fun g => g = o0 F12)) as (g & Eg & Hg);
        [| |exact S0|reflexivity|rewrite Hg in Eg; exact Eg]; cbv beta; intros; subst; rewrite !Z1; reflexivity. }
    assert (Ez : forall g, omul F12 g (line045 F nr2 P (o0 F2, o0 F2, o0 F2)) = o0 F12).
    { intros g. rewrite line_only_vv by reflexivity. cbn [snd]. rewrite scale_r0.
      change (omul F12 g (o0 F12) = o0 F12). rewrite (rk_mul_comm F12 R12). apply Z1. }
    inversion Sh; subst.
    + cbn [mfold one_body app]. rewrite at_idx_app. cbn [bind]. rewrite Ez.
      replace (pre ++ (o0 F2, o0 F2, o0 F2) :: new ++ post) with ((pre ++ [(o0 F2, o0 F2, o0 F2)]) ++ new ++ post) by (now rewrite <- app_assoc).
      replace (S (length pre)) with (length (pre ++ [(o0 F2, o0 F2, o0 F2)])) by (rewrite app_length; cbn; lia).
      rewrite G by assumption. rewrite app_length. cbn [length]. do 2 f_equal. lia.
    + cbn [mfold one_body app]. rewrite at_idx_app, at_idx_app_S. cbn [bind]. rewrite Ez, Z1.
      replace (pre ++ (o0 F2, o0 F2, o0 F2) :: d :: cs0 ++ post) with ((pre ++ [(o0 F2, o0 F2, o0 F2); d]) ++ cs0 ++ post) by (now rewrite <- app_assoc).
      replace (S (S (length pre))) with (length (pre ++ [(o0 F2, o0 F2, o0 F2); d])) by (rewrite app_length; cbn; lia).
      rewrite G by assumption. rewrite app_length. cbn [length]. do 2 f_equal. lia.
  - assert (Nb : bs <> []). { intros ->. cbn in Hk. lia. }
    assert (Hr : removelast (b :: bs) = b :: removelast bs) by (destruct bs; [now elim Nb|reflexivity]).
    rewrite Hr, trues_cons in Hk. destruct b.
    + pose proof (stage_add Qz k R1 H1) as H3. fold (add R1) in H3. cbv zeta in H3.
      destruct (add R1) as [R2 d]. cbn [fst bind] in *. intros H. apply (IH _ (S k)) in H; [|exact H3|exact Nb|cbn in Hk; lia].
      destruct H as (new & -> & H). exists (c :: d :: new). rewrite <- !app_assoc. split; [reflexivity|]. intros pre post f.
      cbn [mfold one_body app]. rewrite at_idx_app, at_idx_app_S. cbn [bind].
      specialize (H (pre ++ [c; d]) post (omul F12 (omul F12 (omul F12 f f) (line045 F nr2 P c)) (line045 F nr2 P d))).
      rewrite <- !app_assoc, app_length in H. cbn [app length] in H.
      replace (S (S (length pre))) with (length pre + 2)%nat by lia. rewrite H. cbn [length]. do 2 f_equal. lia.
    + cbn [bind] in *. intros H. apply (IH _ k) in H; [|exact H1|exact Nb|cbn in Hk; lia].
      destruct H as (new & -> & H). exists (c :: new). rewrite <- !app_assoc. split; [reflexivity|]. intros pre post f.
      cbn [mfold one_body app]. rewrite at_idx_app. cbn [bind].
      specialize (H (pre ++ [c]) post (omul F12 (omul F12 f f) (line045 F nr2 P c))).
      rewrite <- !app_assoc, app_length in H. cbn [app length] in H.
      replace (S (length pre)) with (length pre + 1)%nat by lia. rewrite H. cbn [length]. do 2 f_equal. lia.
Qed.
Lemma below_removelast v : 0 < v / 2 -> below v <> [] /\ removelast (below v) = below (v / 2).
Proof.
  intros H. assert (E0 : v = 2 * Z.pos (Z.to_pos (v / 2)) + Z.b2z (Z.odd v)).
  { rewrite Z2Pos.id by exact H. pose proof (Z.div_mod v 2 ltac:(lia)) as D. rewrite Zmod_odd in D.
    destruct (Z.odd v); cbn [Z.b2z]; lia. }
  rewrite <- (Z2Pos.id (v / 2)) by exact H. rewrite E0 at 1 2. rewrite below_double. split.
  - destruct (below (Z.pos (Z.to_pos (v / 2)))); discriminate.
  - apply removelast_last.
Qed.
(** With at least two additions before the last bit the Miller value is zero. *)
Theorem bls_right_fail P Q : jac_is_zero F2 Q = true -> (2 <= add_count (val lc / 2))%nat ->
  bls_reduced_pairing F nr2 nr6 nr6 t2 t61 t62 t12 twist twist_b lc neg z z_neg P Q = AssertFail.
Proof.
  intros HQ HA. unfold bls_reduced_pairing, bls_pairing, bn_precompute_G1.
  destruct (jac_affine_total F (pb_field F q PB) P) as [[[PX PY] PZ] ->]. cbn [bind].
  unfold bls_precompute_G2, jac_to_affine. destruct Q as [[QX QY] QZ]. rewrite HQ. cbn [bind].
  destruct two_inv_ok as [ti ->]. cbn [bind].
  destruct (bn_precompute_loop F nr2 lc Llc twist_b (bls_dbl_line F nr2 twist) (bls_add_line F nr2 twist) ti
    (o0 F2, o1 F2, o0 F2) (o0 F2, o1 F2, o1 F2) []) as (R' & cs' & Er & _). rewrite Er. cbn [bind].
  assert (V : 0 < val lc / 2).
  { unfold add_count, ones in HA. destruct (val lc / 2); [cbn in HA|..]; lia. }
  destruct (below_removelast (val lc) V) as [B1 B2].
  rewrite bit_loop_skip in Er by (auto; apply loop_bound; auto).
  rewrite (mfold_ext _ (push_body (fun R => let '(R, l) := bn_doubling_step F nr2 twist_b ti R in (R, bls_dbl_line F nr2 twist l))
    (fun R => let '(R, l) := bn_mixed_addition_step F nr2 (o0 F2, o1 F2, o0 F2) R in (R, bls_add_line F nr2 twist l)))) in Er.
  2: { intros b [R0 cs0]. unfold bn_precompute_body, push_body.
    destruct (bn_doubling_step F nr2 twist_b ti R0) as [R1 l1].
    destruct b; [|reflexivity]. destruct (bn_mixed_addition_step F nr2 _ R1) as [R2 l2]. reflexivity. }
  apply (stage_zero ti (o0 F2) (PX, PY) (below (val lc)) _ 0) in Er; [|split; [reflexivity|split; lia]|exact B1|].
  2: { rewrite B2, below_trues by lia. exact HA. }
  destruct Er as (new & -> & H). cbn [app].
  unfold bls_miller_loop, bls_miller_loop_idx.
  rewrite (loop_one F nr2 nr6 FK lc Llc _ (line045 F nr2) (mul_line_045 F RF nr2 nr6)).
  specialize (H [] [] (o1 F12)). rewrite app_nil_r in H. cbn [app length Nat.add] in H. rewrite H.
  cbn [bind]. destruct neg; cbn [bind miller_value].
  - rewrite (fk_inv_0 F12 FK). reflexivity.
  - exact (bls_zero F q PB nr2 m Hm N nr6 N2 N3 t2 t61 t62 t12 z z_neg).
Qed.
End TwelveNeutral.

(** ** The steps of mnt4 and mnt6 with squares expanded, for T = Z^2 *)
Section MntSteps.
Context {K L : Type} (F : Fops K) (FE : Fops L) (R : ring_ok FE) (scale : K -> L -> L) (ta : L).
Add Ring MS : (rk_ring FE R).
Notation "x + y" := (oadd FE x y). Notation "x - y" := (osub FE x y). Notation "x * y" := (omul FE x y).
Notation "- x" := (oopp FE x).
Lemma mnt_dbl_simpl X Y Z :
  let C := Y * Y in let E := X * C + X * C in let FF := X * X + X * X + X * X + ta * ((Z * Z) * (Z * Z)) in
  let X3 := FF * FF - (E + E + E + E) in
  let Z3 := Y * Z + Y * Z in
  mnt_doubling_step F FE scale ta (X, Y, Z, Z * Z) =
  ((X3, scale (oopp F (Fq_eight F)) (C * C) + FF * (E + E - X3), Z3, Z3 * Z3),
   {| c_H := Z3 * (Z * Z) + Z3 * (Z * Z); c_4C := C + C + C + C; c_J := FF * (Z * Z) + FF * (Z * Z); c_L := FF * X + FF * X |}).
Proof.
  cbv zeta. unfold mnt_doubling_step. rewrite !(rk_sqr FE R).
  repeat match goal with |- (_, _) = (_, _) => f_equal end; try ring.
  f_equal; ring.
Qed.
Lemma mnt_add_simpl x y X Y Z :
  let H := x * (Z * Z) - X in let E := H * H + H * H + H * H + H * H in
  let V := X * E in let L1 := (y * Z + y * Z) * (Z * Z) - (Y + Y) in
  let X3 := L1 * L1 - H * E - (V + V) in let Z3 := Z * H + Z * H in
  mnt_mixed_addition_step FE x y (osqr FE y) (X, Y, Z, Z * Z) =
  ((X3, L1 * (V - X3) - (Y + Y) * (H * E), Z3, Z3 * Z3), {| c_L1 := L1; c_RZ := Z3 |}).
Proof.
  cbv zeta. unfold mnt_mixed_addition_step. rewrite !(rk_sqr FE R).
  repeat match goal with |- (_, _) = (_, _) => f_equal end; try ring. f_equal; ring.
Qed.
Lemma mnt_add_vertical x y X Y Z : x * (Z * Z) = X ->
  mnt_mixed_addition_step FE x y (osqr FE y) (X, Y, Z, Z * Z) =
  (fst (mnt_mixed_addition_step FE x y (osqr FE y) (X, Y, Z, Z * Z)),
   {| c_L1 := (y * Z + y * Z) * (Z * Z) - (Y + Y); c_RZ := o0 FE |}).
Proof.
  intros HH. rewrite mnt_add_simpl. cbv zeta. cbn [fst]. rewrite HH. f_equal. f_equal. ring.
Qed.
End MntSteps.

(** Invariants of the mnt loops. *)
Section MntInv.
Context {K L : Type} (F : Fops K) (FE : Fops L) (scale : K -> L -> L) (emb : K -> L) (F2 : Fops (L * L)) (R2 : ring_ok F2) (ta : L).
Lemma at_idx_Forall {A} (P : A -> Prop) l i x : Forall P l -> at_idx l i = Ok x -> P x.
Proof.
  unfold at_idx. intros H. destruct (nth_error l i) eqn:E; [|discriminate]. intros X. injection X as <-.
  apply nth_error_In in E. now apply (proj1 (Forall_forall P l) H).
Qed.
Lemma mnt_push_inv qx qy qy2 (PR : L * L * L * L -> Prop) (PD : mnt_dbl_coeffs -> Prop) (PA : mnt_add_coeffs -> Prop) :
  (forall R, PR R -> let r := mnt_doubling_step F FE scale ta R in PR (fst r) /\ PD (snd r)) ->
  (forall R, PR R -> let r := mnt_mixed_addition_step FE qx qy qy2 R in PR (fst r) /\ PA (snd r)) ->
  forall bs R dcs acs R' dcs' acs', PR R -> Forall PD dcs -> Forall PA acs ->
  mfold (mnt_precompute_body F FE scale ta qx qy qy2) bs (R, dcs, acs) = Ok (R', dcs', acs') ->
  PR R' /\ Forall PD dcs' /\ Forall PA acs'.
Proof.
  intros H1 H2. induction bs as [|b bs IH]; intros R dcs acs R' dcs' acs' HR Hd Ha; cbn [mfold].
  - intros X. injection X as <- <- <-. auto.
  - unfold mnt_precompute_body at 1. specialize (H1 R HR). cbv zeta in H1.
    destruct (mnt_doubling_step F FE scale ta R) as [R1 dc]. cbn [fst snd] in H1. destruct H1 as [HR1 Hdc]. destruct b.
    + specialize (H2 R1 HR1). cbv zeta in H2. destruct (mnt_mixed_addition_step FE qx qy qy2 R1) as [R3 ac].
      cbn [fst snd bind] in *. destruct H2 as [HR3 Hac]. apply IH; auto; apply Forall_app; auto.
    + cbn [bind]. apply IH; auto; apply Forall_app; auto.
Qed.
Lemma mnt_run_inv (P : @mnt_G1_precomp K L) (Q : @mnt_G2_precomp L) (G : L * L -> Prop) :
  (forall x y, G x -> G y -> G (omul F2 x y)) ->
  Forall (fun c => G (mnt_g_RR FE P c)) (dbl_coeffs Q) -> Forall (fun c => G (mnt_g_RQ FE emb P Q c)) (add_coeffs Q) ->
  forall bs f i j g i' j', G f -> mfold (mnt_miller_body FE emb F2 P Q) bs (f, i, j) = Ok (g, i', j') -> G g.
Proof.
  intros Hm Hd Ha. induction bs as [|b bs IH]; intros f i j g i' j' Gf; cbn [mfold].
  - intros X. now injection X as <- _ _.
  - unfold mnt_miller_body at 1. destruct (at_idx (dbl_coeffs Q) i) as [c| | | | |] eqn:Ec; try discriminate. cbn [bind].
    apply (at_idx_Forall _ _ _ _ Hd) in Ec. rewrite (rk_sqr F2 R2). destruct b.
    + destruct (at_idx (add_coeffs Q) j) as [d| | | | |] eqn:Ed; try discriminate. cbn [bind].
      apply (at_idx_Forall _ _ _ _ Ha) in Ed. apply IH. auto.
    + cbn [bind]. apply IH. auto.
Qed.
End MntInv.

(** ** edwards and mnt6 *)
Section SixNeutral.
Context {K : Type} (F : Fops K) (q : nat).
Hypothesis PB : prime_base F q.
Variables (nr : K) (m : nat).
Hypothesis Hm : (q = 1 + 6 * m)%nat.
Hypothesis N2 : nonresidue F q 2 nr.
Hypothesis N3 : nonresidue F q 3 nr.
Variables (t31 t32 t6 : list K).
Hypothesis T31 : frob_table F q 3 1 3 nr t31.
Hypothesis T32 : frob_table F q 3 2 3 nr t32.
Hypothesis T6 : frob_table F q 6 1 6 nr t6.
Notation F6 := (fp6_2over3_ops F nr nr).
Notation F3 := (fp3_ops F nr).
Notation L := (K * K * K)%type.
Notation T := (L * L)%type.
Variables (w1 w0 : list Z) (w0_neg : bool).
Hypothesis W1 : exp_ok w1.
Hypothesis W0 : exp_ok w0.
Let FK : field_ok F6 := fp6_2over3_is_field F q PB nr (ex_intro _ m Hm) N2 N3.
Let FB := pb_field F q PB.
Let RF := fk_ring F (pb_field F q PB).
Add Ring SNK : (rk_ring F (fk_ring F (pb_field F q PB))).
Let M := rk_monoid F6 (fk_ring F6 FK).
Let gd : T -> Prop := good F nr q 1.
Notation fe := (six_final_exponentiation F nr nr nr t31 t32 t6 w1 w0 w0_neg).

Let HQ : (q ^ 1 = 1 + 6 * m)%nat. Proof. now rewrite Nat.pow_1_r. Qed.
Let Hfix a : fpow F a (q ^ 1) = a. Proof. rewrite Nat.pow_1_r. apply (pb_fermat F q PB). Qed.
Let Hns : fpow F nr (3 * m) = oopp F (o1 F).
Proof. apply (nonresidue_2 F FB q (pb_fermat F q PB)); auto. lia. Qed.
Let Hnc : fpow F nr (2 * m) <> o1 F.
Proof. apply (nonresidue_3 F FB q (pb_fermat F q PB)); auto. lia. Qed.
Lemma g6_sub a b : gd ((a, o0 F, o0 F), (o0 F, b, o0 F)).
Proof. exact (good_sub F FB nr q 1 m FK (pb_prime F q PB) (pb_char F q PB) HQ Hfix Hns Hnc a b). Qed.
Lemma g6_even a : gd (a, o0 F3).
Proof. destruct a as [[a b] c]. exact (good_even F FB nr q 1 m FK (pb_prime F q PB) (pb_char F q PB) HQ Hfix Hns Hnc a b c). Qed.
Lemma g6_odd a : gd (o0 F3, a).
Proof. destruct a as [[a b] c]. exact (good_odd F FB nr q 1 m FK (pb_prime F q PB) (pb_char F q PB) HQ Hfix Hns Hnc a b c). Qed.
Lemma g6_one : gd (o1 F6). Proof. exact (good_one F nr q 1 FK). Qed.
Lemma g6_mul x y : gd x -> gd y -> gd (omul F6 x y). Proof. exact (good_mul F nr q 1 FK x y). Qed.
Lemma g6_inv x y : gd x -> oinv F6 x = Ok y -> gd y. Proof. exact (good_inv F nr q 1 FK x y). Qed.

Lemma six_good (pr : result T) : pr = AssertFail \/ (exists f, pr = Ok f /\ gd f) ->
  one_or_fail F6 pr (f <- pr ;; fe f).
Proof.
  intros [->|(f & -> & G)]; [right; cbn; auto|]. cbn [bind].
  destruct (rk_dec F6 (fk_ring F6 FK) f (o0 F6)) as [->|Nz].
  - right. split; [now left|]. exact (six_zero F q PB nr m Hm N2 N3 t31 t32 t6 w1 w0 w0_neg).
  - left. exists f. split; [reflexivity|]. split; [exact Nz|].
    pose proof (p6_pos F q PB) as P0. pose proof (Z.pow_pos_nonneg (Z.of_nat q) 3 ltac:(lia) ltac:(lia)) as P3. set (p := Z.of_nat q) in *.
    assert (HN : 0 < p ^ 2 - p + 1) by nia. assert (HE : 0 <= (p ^ 3 - 1) * (p + 1)) by (apply Z.mul_nonneg_nonneg; lia).
    assert (HNE : (p ^ 3 - 1) * (p + 1) * (p ^ 2 - p + 1) = p ^ 6 - 1) by ring.
    unfold six_final_exponentiation.
    rewrite (chunk_final F6 FK p 6 (p ^ 2 - p + 1) ((p ^ 3 - 1) * (p + 1)));
      auto using (frob6_fix F q PB nr m Hm N2 t31 t32 t6 T31 T32 T6), (first6_pow F q PB nr m Hm N2 N3 t31 t32 t6 T31 T32 T6), (exp6_pow F q PB nr m Hm N2 N3); try lia.
    + f_equal. destruct G as [G|G]; [now elim Nz|].
      replace (six_first q 1) with ((p ^ 3 - 1) * (p + 1)) in G by (unfold six_first; rewrite Nat.pow_1_r; reflexivity).
      change (zpow (o1 F6) (omul F6) f ((p ^ 3 - 1) * (p + 1)) = o1 F6) in G.
      rewrite G. unfold cp. apply (zpow_one _ _ M).
    + intros x. rewrite (frob6_pow F q PB nr m Hm N2 t31 t32 t6 T31 T32 T6) by lia. now rewrite Z.pow_1_r.
Qed.

Lemma line_zero {A} (G : Fops A) (RG : ring_ok G) u v w :
  oopp G (oadd G (omul G u (o0 G)) (omul G (osub G v (o0 G)) w)) = o0 G -> omul G v w = o0 G.
Proof.
  intros H. pose proof (rk_ring G RG) as RR. rewrite (Radd_comm RR), (rk_mul_comm G RG u), (rk_mul_0_l G RG), (Radd_comm RR), (Radd_0_l RR) in H.
  rewrite (Rsub_def RR) in H. assert (Z0 : oopp G (o0 G) = o0 G) by (rewrite <- (Radd_0_l RR (oopp G (o0 G))); apply (Ropp_def RR)).
  rewrite Z0, (Radd_comm RR), (Radd_0_l RR) in H.
  pose proof (Ropp_def RR (omul G v w)) as X. rewrite H, (Radd_comm RR), (Radd_0_l RR) in X. exact X.
Qed.
Section EdwardsNeutral.
Variables (mul_a : L -> L) (lc : list Z).
Hypothesis Hma : mul_a (o0 F3) = o0 F3.
Hypothesis Llc : limbs lc.
Let R3 : ring_ok F3 := fp3_ring F RF nr.
Let R6 : ring_ok F6 := fk_ring F6 FK.
Lemma edw_loop_good {A} (g1 g2 : A -> T) (PD PA : A -> Prop) cs :
  (forall c, PD c -> gd (g1 c)) -> (forall c, PA c -> gd (g2 c)) -> shape PD PA (below (val lc)) cs ->
  exists f, bit_loop lc (edw_miller_body F6 g1 g2 cs) (max_bits lc) false (o1 F6, O) = Ok (f, length cs) /\ gd f.
Proof.
  intros H1 H2 S. rewrite bit_loop_skip by (auto; now apply loop_bound).
  rewrite (mfold_ext _ (one_body F6 g1 g2 cs)) by (intros; apply (edw_body_one F6 R6)).
  apply (one_shape F6 g1 g2 PD PA gd) with (pre := []) (post := []) (f := o1 F6) in S.
  - cbn [app] in S. rewrite app_nil_r in S. exact S.
  - intros f c Gf Hc. apply g6_mul; [now apply g6_mul|auto].
  - intros f c Gf Hc. apply g6_mul; auto.
  - apply g6_one.
Qed.
Lemma edw_loop_zero {A} (g1 g2 : A -> T) (PD PA : A -> Prop) cs :
  (forall c, PA c -> g2 c = o0 F6) -> shape PD PA (below (val lc)) cs -> (0 < add_count (val lc))%nat ->
  bit_loop lc (edw_miller_body F6 g1 g2 cs) (max_bits lc) false (o1 F6, O) = Ok (o0 F6, length cs).
Proof.
  intros H2 S HA. rewrite bit_loop_skip by (auto; now apply loop_bound).
  rewrite (mfold_ext _ (one_body F6 g1 g2 cs)) by (intros; apply (edw_body_one F6 R6)).
  apply (one_zero F6 R6 g1 g2 PD PA H2) with (pre := []) (post := []) (f := o1 F6) in S.
  - cbn [app] in S. rewrite app_nil_r in S. exact S.
  - right. rewrite below_trues; [exact HA|]. now apply val_nonneg.
Qed.
Lemma edw_push_shape {A} (G : Fops A) ma dbl Q (PR : A * A * A * A -> Prop) (PD PA : A * A * A -> Prop) n R R' cs' :
  (forall R, PR R -> PR (fst (dbl R)) /\ PD (snd (dbl R))) ->
  (forall R, PR R -> PR (fst (edw_mixed_addition_step G ma Q R)) /\ PA (snd (edw_mixed_addition_step G ma Q R))) -> PR R ->
  (max_bits lc <= n)%nat ->
  bit_loop lc (edw_precompute_body G ma dbl Q) n false (R, []) = Ok (R', cs') -> shape PD PA (below (val lc)) cs'.
Proof.
  intros H1 H2 HR Hn. rewrite bit_loop_skip by (auto; now apply loop_bound).
  rewrite (mfold_ext _ (push_body dbl (edw_mixed_addition_step G ma Q))).
  - intros H. apply (push_shape _ _ PR PD PA) in H; auto. destruct H as (_ & new & -> & S). exact S.
  - intros b [R0 cs0]. unfold edw_precompute_body, push_body. destruct (dbl R0) as [R1 l1]. destruct b; reflexivity.
Qed.
Lemma scale3_0 (x : L) : cubic_scale (omul F) (o0 F) x = o0 F3.
Proof. destruct x as [[a b] c]. unfold cubic_scale. change (o0 F3) with (o0 F, o0 F, o0 F). f_equal; [f_equal|]; ring. Qed.
Lemma scale3_r0 c : cubic_scale (omul F) c (o0 F3) = o0 F3.
Proof. change (o0 F3) with (o0 F, o0 F, o0 F). unfold cubic_scale. f_equal; [f_equal|]; ring. Qed.
Lemma edw_affine_cases {A} (G : Fops A) (FG : field_ok G) P : edw_to_affine G P = AssertFail \/ exists Q, edw_to_affine G P = Ok Q.
Proof.
  unfold edw_to_affine. destruct P as [[X Y] Z]. destruct (edw_is_zero G (X, Y, Z)); [right; eauto|].
  destruct (oinv_cases G FG (omul G X Y)) as [[y ->]| ->]; cbn; eauto.
Qed.
Lemma edw_affine_zero {A} (G : Fops A) P : edw_is_zero G P = true -> edw_to_affine G P = Ok (o0 G, o1 G, o1 G).
Proof. unfold edw_to_affine. destruct P as [[X Y] Z]. now intros ->. Qed.
Lemma edw_pre_cases Q : edw_precompute_G2 F3 mul_a lc Q = AssertFail \/ exists cs, edw_precompute_G2 F3 mul_a lc Q = Ok cs /\
  shape (fun _ => True) (fun _ => True) (below (val lc)) cs.
Proof.
  assert (H3 : exists k, q = (1 + 3 * k)%nat) by (exists (2 * m)%nat; lia).
  pose proof (fp3_is_field F q PB nr H3 N3) as F3K.
  unfold edw_precompute_G2. destruct (edw_affine_cases F3 F3K Q) as [->|[[[X Y] Z] ->]]; [now left|right]. cbn [bind].
  destruct (edw_push lc Llc F3 mul_a (edw_doubling_step F3 mul_a) (X, Y, Z, omul F3 X Y) (max_bits lc) (X, Y, Z, omul F3 X Y) [])
    as (R' & cs' & Ep & _). { now apply (loop_bound lc (max_bits lc)). }
  rewrite Ep. cbn [bind]. exists cs'. split; [reflexivity|].
  apply (edw_push_shape F3 mul_a (edw_doubling_step F3 mul_a) _ (fun _ => True)) with (5 := Ep); auto.
Qed.
Theorem edw_left P Q : edw_is_zero F P = true ->
  one_or_fail F6 (edwards_pairing F nr nr mul_a lc P Q)
    (edwards_reduced_pairing F nr nr nr t31 t32 t6 mul_a lc w1 w0 w0_neg P Q).
Proof.
  intros HP. apply six_good. unfold edwards_pairing, edw_precompute_G1.
  rewrite (edw_affine_zero F P HP). cbn [bind]. clear P HP.
  destruct (edw_pre_cases Q) as [->|(cs & -> & S)]; [now left|right]. cbn [bind].
  unfold edw_miller_loop, edw_miller_loop_idx. cbv zeta.
  set (P := (omul F (o0 F) (o1 F), o0 F, oadd F (o1 F) (o1 F))).
  eapply (edw_loop_good (edw_g_RR F3 (cubic_scale (omul F)) P) (edw_g_RQ F3 (cubic_scale (omul F)) P)) in S.
  - destruct S as (f & -> & G). cbn. eauto.
  - intros [[a b] c] _. unfold P, edw_g_RR. replace (omul F (o0 F) (o1 F)) with (o0 F) by ring. rewrite !scale3_0.
    replace (oadd F3 (o0 F3) (o0 F3)) with (o0 F3) by (symmetry; apply (ml_1_l _ _ (rk_add_monoid F3 R3))). apply g6_odd.
  - intros [[a b] c] _. unfold P, edw_g_RQ. replace (omul F (o0 F) (o1 F)) with (o0 F) by ring. rewrite !scale3_0.
    replace (oadd F3 (o0 F3) (o0 F3)) with (o0 F3) by (symmetry; apply (ml_1_l _ _ (rk_add_monoid F3 R3))). apply g6_even.
Qed.

(** With the neutral element as the point of the Miller loop, every addition line is zero. *)
Section Base.
Context {A : Type} (G : Fops A) (RG : ring_ok G) (ma : A -> A).
Hypothesis ma_0 : ma (o0 G) = o0 G.
Add Ring BaseA : (rk_ring G RG).
Notation "0" := (o0 G). Notation "1" := (o1 G).
Definition edw_stuck (R : A * A * A * A) : Prop := R = (0, 1, 1, 0) \/ R = (0, 0, 0, 0).
Definition conic_zero (c : A * A * A) : Prop := c = (0, 0, 0).
Let s0 : osqr G 0 = 0. Proof. rewrite (rk_sqr G RG). ring. Qed.
Ltac stuck := rewrite ?s0, ?ma_0, ?(rk_sqr G RG);
  repeat match goal with |- context [ma ?x] => replace (ma x) with 0 by (rewrite <- ma_0 at 1; f_equal; ring) end.
Lemma edw_dbl_stuck R : edw_stuck R -> edw_stuck (fst (edw_doubling_step G ma R)) /\ True.
Proof.
  intros [->| ->]; (split; [|exact I]); cbv zeta beta iota delta [edw_doubling_step fst]; stuck;
    [left|right]; repeat match goal with |- (_, _) = (_, _) => f_equal end; ring.
Qed.
Lemma edw_fq_dbl_stuck R : edw_stuck R -> edw_stuck (fst (edw_fq_doubling_step G R)) /\ True.
Proof.
  intros [->| ->]; (split; [|exact I]); cbv zeta beta iota delta [edw_fq_doubling_step fst]; rewrite ?(rk_sqr G RG);
    [left|right]; repeat match goal with |- (_, _) = (_, _) => f_equal end; ring.
Qed.
Lemma edw_add_stuck Z t R : t = 0 -> edw_stuck R ->
  let r := edw_mixed_addition_step G ma (0, 1, Z, t) R in edw_stuck (fst r) /\ conic_zero (snd r).
Proof.
  intros ->. unfold conic_zero.
  intros [->| ->]; cbv zeta beta iota delta [edw_mixed_addition_step fst snd]; stuck; (split; [right|]);
    repeat match goal with |- (_, _) = (_, _) => f_equal end; ring.
Qed.
End Base.
Theorem edw_right P Q : edw_is_zero F3 Q = true -> (0 < add_count (val lc))%nat ->
  edwards_reduced_pairing F nr nr nr t31 t32 t6 mul_a lc w1 w0 w0_neg P Q = AssertFail.
Proof.
  intros HQz HA. unfold edwards_reduced_pairing, edwards_pairing, edw_precompute_G1.
  destruct (edw_affine_cases F FB P) as [->|[[[X Y] Z] ->]]; [reflexivity|]. cbn [bind].
  unfold edw_precompute_G2. rewrite (edw_affine_zero F3 Q HQz). cbn [bind].
  set (q0 := (o0 F3, o1 F3, o1 F3, omul F3 (o0 F3) (o1 F3))).
  destruct (edw_push lc Llc F3 mul_a (edw_doubling_step F3 mul_a) q0 (max_bits lc) q0 [])
    as (R' & cs & Ep & _). { now apply (loop_bound lc (max_bits lc)). }
  rewrite Ep. cbn [bind].
  assert (Et : omul F3 (o0 F3) (o1 F3) = o0 F3) by apply (rk_mul_0_l F3 R3).
  eapply (edw_push_shape F3 mul_a (edw_doubling_step F3 mul_a) q0 (edw_stuck F3) (fun _ => True) (conic_zero F3)) in Ep.
  - unfold edw_miller_loop, edw_miller_loop_idx. erewrite (edw_loop_zero _ _ (fun _ => True) (conic_zero F3)); eauto.
    + cbn [miller_value bind]. exact (six_zero F q PB nr m Hm N2 N3 t31 t32 t6 w1 w0 w0_neg).
    + intros c ->. unfold edw_g_RQ. rewrite !scale3_r0.
      now replace (oadd F3 (o0 F3) (o0 F3)) with (o0 F3) by (symmetry; apply (ml_1_l _ _ (rk_add_monoid F3 R3))).
  - apply (edw_dbl_stuck F3 R3 mul_a Hma).
  - intros R. apply (edw_add_stuck F3 R3 mul_a Hma). exact Et.
  - left. unfold q0. now rewrite Et.
  - reflexivity.
Qed.
Lemma tate_g2_cases Q : tate_precompute_G2 F3 (rot_mnr F nr) Q = AssertFail \/ exists t, tate_precompute_G2 F3 (rot_mnr F nr) Q = Ok t.
Proof.
  assert (H3 : exists k, q = (1 + 3 * k)%nat) by (exists (2 * m)%nat; lia).
  pose proof (fp3_is_field F q PB nr H3 N3) as F3K.
  unfold tate_precompute_G2. destruct (edw_affine_cases F3 F3K Q) as [->|[[[X Y] Z] ->]]; [now left|]. cbn [bind].
  destruct (oinv_cases F3 F3K Z) as [[y ->]| ->]; cbn [bind]; [|now left].
  destruct (oinv_cases F3 F3K (rot_mnr F nr X)) as [[i ->]| ->]; cbn [bind]; [|now left]. right. eauto.
Qed.
(** Tate pairing: the Miller loop is over the point of G1. *)
Lemma tate_left_zero P Q : edw_is_zero F P = true -> (0 < add_count (val lc))%nat ->
  edwards_tate_reduced_pairing F nr nr nr t31 t32 t6 lc w1 w0 w0_neg P Q = AssertFail.
Proof.
  intros HP HA. unfold edwards_tate_reduced_pairing, edwards_tate_pairing, tate_precompute_G1.
  rewrite (edw_affine_zero F P HP). cbn [bind].
  set (q0 := (o0 F, o1 F, o1 F, omul F (o0 F) (o1 F))).
  destruct (edw_push lc Llc F (fun x => x) (edw_fq_doubling_step F) q0 (S (max_bits lc)) q0 [])
    as (R' & cs & Ep & _). { apply (loop_bound lc (S (max_bits lc))); auto. }
  rewrite Ep. cbn [bind].
  assert (Et : omul F (o0 F) (o1 F) = o0 F) by ring.
  eapply (edw_push_shape F (fun x => x) (edw_fq_doubling_step F) q0 (edw_stuck F) (fun _ => True) (conic_zero F)) in Ep.
  - destruct (tate_g2_cases Q) as [->|[t ->]]; cbn [bind]; [reflexivity|].
    unfold tate_miller_loop_idx. erewrite (edw_loop_zero _ _ (fun _ => True) (conic_zero F)); eauto.
    + cbn [miller_value bind]. exact (six_zero F q PB nr m Hm N2 N3 t31 t32 t6 w1 w0 w0_neg).
    + intros c ->. destruct t as [y0 eta]. unfold tate_g. rewrite !scale3_0. change (o0 F, o0 F, o0 F) with (o0 F3).
        now replace (oadd F3 (o0 F3) (o0 F3)) with (o0 F3) by (symmetry; apply (ml_1_l _ _ (rk_add_monoid F3 R3))).
  - apply (edw_fq_dbl_stuck F RF).
  - intros R. apply (edw_add_stuck F RF (fun x => x) eq_refl). exact Et.
  - left. unfold q0. now rewrite Et.
  - auto.
Qed.
(** precompute_G2 inverts the x coordinate of Q. *)
Lemma tate_right_zero P Q : edw_is_zero F3 Q = true ->
  edwards_tate_reduced_pairing F nr nr nr t31 t32 t6 lc w1 w0 w0_neg P Q = AssertFail.
Proof.
  intros HO. assert (H3 : exists k, q = (1 + 3 * k)%nat) by (exists (2 * m)%nat; lia).
  pose proof (fp3_is_field F q PB nr H3 N3) as F3K.
  assert (EQ : tate_precompute_G2 F3 (rot_mnr F nr) Q = AssertFail).
  { unfold tate_precompute_G2. rewrite (edw_affine_zero F3 Q HO). cbn [bind].
    destruct (oinv_cases F3 F3K (o1 F3)) as [[y ->]| ->]; cbn [bind]; [|reflexivity].
    replace (rot_mnr F nr (o0 F3)) with (o0 F3); [now rewrite (fk_inv_0 F3 F3K)|].
    change ((o0 F, o0 F, o0 F) = (omul F nr (o0 F), o0 F, o0 F)). f_equal. f_equal. ring. }
  unfold edwards_tate_reduced_pairing, edwards_tate_pairing, tate_precompute_G1. rewrite EQ.
  destruct (edw_affine_cases F FB P) as [->|[[[X Y] Z] ->]]; [reflexivity|]. cbn [bind].
  match goal with |- context [edw_precompute_body F ?ma ?d ?q0] =>
    destruct (edw_push lc Llc F ma d q0 (S (max_bits lc)) q0 []) as (R' & cs & -> & _) end.
  { apply (loop_bound lc (S (max_bits lc))); auto. }
  reflexivity.
Qed.
End EdwardsNeutral.

(** mnt6 with the neutral element of G2: to_affine_coordinates() gives (0, 1), and
    all points have coordinates that are multiples of powers of the generator u of
    F3: weight i means a multiple of u^i. *)
Section Mnt6Neutral.
Notation "0" := (o0 F). Notation "1" := (o1 F).
Notation scale := (cubic_scale (omul F)).
Notation emb := (fun c => (c, o0 F, o0 F)).
Variables (a : K) (lc : list Z) (neg : bool).
Hypothesis Llc : limbs lc.
Notation twist := (0, 1, 0).
Notation twist_a := (0, 0, a).
Let H3 : exists k, q = (1 + 3 * k)%nat. Proof. exists (2 * m)%nat. rewrite Hm. lia. Qed.
Let F3K : field_ok F3 := fp3_is_field F q PB nr H3 N3.
Let R6 : ring_ok F6 := fk_ring F6 FK.


Notation "x + y" := (oadd F3 x y). Notation "x - y" := (osub F3 x y). Notation "x * y" := (omul F3 x y).
Notation "- x" := (oopp F3 x).
Inductive w3 := w_0 | w_1 | w_2.
Definition wplus (i j : w3) : w3 := match i, j with
  | w_0, j => j | w_1, w_0 => w_1 | w_1, w_1 => w_2 | w_1, w_2 => w_0 | w_2, w_0 => w_2 | w_2, w_1 => w_0 | w_2, w_2 => w_1 end.
Definition W (i : w3) (x : L) : Prop := let '(x0, x1, x2) := x in
  match i with w_0 => x1 = 0 /\ x2 = 0 | w_1 => x0 = 0 /\ x2 = 0 | w_2 => x0 = 0 /\ x1 = 0 end.
Ltac wcase := cbn [W fp3_ops cubic_ops oadd osub omul oopp o0 o1 cubic_add cubic_sub cubic_mul cubic_opp cubic_scale cubic_zero cubic_one];
  intros; repeat match goal with H : _ /\ _ |- _ => destruct H end;
  repeat match goal with H : ?v = o0 F |- _ => is_var v; subst v end; split; ring.
Lemma W_add i x y : W i x -> W i y -> W i (x + y).
Proof. destruct x as [[x0 x1] x2], y as [[y0 y1] y2]. destruct i; wcase. Qed.
Lemma W_sub i x y : W i x -> W i y -> W i (x - y).
Proof. destruct x as [[x0 x1] x2], y as [[y0 y1] y2]. destruct i; wcase. Qed.
Lemma W_opp i x : W i x -> W i (- x).
Proof. destruct x as [[x0 x1] x2]. destruct i; wcase. Qed.
Lemma W_scale i c x : W i x -> W i (scale c x).
Proof. destruct x as [[x0 x1] x2]. destruct i; wcase. Qed.
Lemma W_mul i j x y : W i x -> W j y -> W (wplus i j) (x * y).
Proof. destruct x as [[x0 x1] x2], y as [[y0 y1] y2]. destruct i, j; cbn [wplus]; wcase. Qed.
Ltac winf x := lazymatch x with
  | oadd _ ?a ?b => let p := winf a in let q := winf b in constr:(W_add _ _ _ p q)
  | osub _ ?a ?b => let p := winf a in let q := winf b in constr:(W_sub _ _ _ p q)
  | omul _ ?a ?b => let p := winf a in let q := winf b in constr:(W_mul _ _ _ _ p q)
  | oopp _ ?a => let p := winf a in constr:(W_opp _ _ p)
  | cubic_scale _ ?c ?a => let p := winf a in constr:(W_scale _ c _ p)
  | _ => lazymatch goal with H : W _ x |- _ => constr:(H) end
  end.
Ltac wt := lazymatch goal with |- W ?i ?x => let p := winf x in exact p end.
Definition wpoint (R : L * L * L * L) : Prop := let '(X, Y, Z, T) := R in
  W w_0 Y /\ T = Z * Z /\ ((W w_1 X /\ W w_0 Z) \/ (W w_0 X /\ W w_1 Z)).
Definition wdbl (c : @mnt_dbl_coeffs L) : Prop := W w_0 (c_4C c) /\ W w_2 (c_J c) /\ W w_0 (c_L c) /\ W w_0 (c_H c).
Definition wadd (c : @mnt_add_coeffs L) : Prop := W w_0 (c_L1 c) /\ W w_1 (c_RZ c).
Lemma W_ta : W w_2 twist_a. Proof. split; reflexivity. Qed.
Lemma wdbl_step R : wpoint R -> let r := mnt_doubling_step F F3 scale twist_a R in wpoint (fst r) /\ wdbl (snd r).
Proof.
  destruct R as [[[X Y] Z] T0]. unfold wpoint. intros (HY & -> & HXZ). cbv zeta.
  rewrite (mnt_dbl_simpl F F3 (fp3_ring F RF nr) scale twist_a X Y Z). cbn [fst snd]. unfold wdbl. cbn [c_4C c_J c_L c_H].
  pose proof W_ta as Ha. generalize dependent twist_a. intros ta Ha.
  destruct HXZ as [[HX HZ]|[HX HZ]].
  - split; [split; [wt|split; [reflexivity|left; split; wt]]|]. repeat split; wt.
  - split; [split; [wt|split; [reflexivity|right; split; wt]]|]. repeat split; wt.
Qed.
Lemma wadd_step x y R : W w_1 x -> W w_0 y -> wpoint R ->
  let r := mnt_mixed_addition_step F3 x y (osqr F3 y) R in wpoint (fst r) /\ wadd (snd r).
Proof.
  intros Hx Hy. destruct R as [[[X Y] Z] T0]. unfold wpoint. intros (HY & -> & HXZ). cbv zeta.
  rewrite (mnt_add_simpl F3 (fp3_ring F RF nr) x y X Y Z). cbn [fst snd]. unfold wadd. cbn [c_L1 c_RZ].
  destruct HXZ as [[HX HZ]|[HX HZ]];
    (split; [split; [wt|split; [reflexivity|right; split; wt]]|]; split; wt).
Qed.

Lemma W_zero i : W i (o0 F3). Proof. destruct i; split; reflexivity. Qed.
Lemma W_one : W w_0 (o1 F3). Proof. split; reflexivity. Qed.
Lemma fp3_1 x : omul F3 (o1 F3) x = x. Proof. exact (ml_1_l _ _ (rk_monoid F3 (fp3_ring F RF nr)) x). Qed.
(** Inverses have the opposite weight. *)
Lemma nr_0 : nr <> 0. Proof. apply N2. Qed.
Lemma zero_of x y : omul F x y = 0 -> y <> 0 -> x = 0.
Proof.
  intros E Ny. destruct (rk_dec F RF x 0) as [H|H]; [exact H|]. now apply (fk_mul_neq_0 F FB x y) in E.
Qed.
Lemma W_inv0 x y : W w_0 x -> oinv F3 x = Ok y -> W w_0 y.
Proof.
  intros H E. assert (Nx : x <> o0 F3). { intros ->. rewrite (fk_inv_0 F3 F3K) in E. discriminate. }
  destruct (fk_inv F3 F3K x Nx) as (y' & E' & X). rewrite E in E'. injection E' as <-.
  destruct x as [[x0 x1] x2], y as [[y0 y1] y2]. destruct H as [-> ->].
  assert (N0 : x0 <> 0). { intros ->. now apply Nx. }
  cbn [fp3_ops cubic_ops omul o1 cubic_mul cubic_one] in X. injection X as X0 X1 X2.
  split; apply (zero_of _ x0); auto; [rewrite <- X1|rewrite <- X2]; ring.
Qed.
Lemma W_inv1 x y : W w_1 x -> oinv F3 x = Ok y -> W w_2 y.
Proof.
  intros H E. assert (Nx : x <> o0 F3). { intros ->. rewrite (fk_inv_0 F3 F3K) in E. discriminate. }
  destruct (fk_inv F3 F3K x Nx) as (y' & E' & X). rewrite E in E'. injection E' as <-.
  destruct x as [[x0 x1] x2], y as [[y0 y1] y2]. destruct H as [-> ->].
  assert (N0 : x1 <> 0). { intros ->. now apply Nx. }
  cbn [fp3_ops cubic_ops omul o1 cubic_mul cubic_one] in X. injection X as X0 X1 X2.
  split; apply (zero_of _ x1); auto; [rewrite <- X1|rewrite <- X2]; ring.
Qed.
Definition wG1 (P : @mnt_G1_precomp K L) : Prop := W w_1 (PX_twist P) /\ W w_1 (PY_twist P).
Lemma g_RR_good P c : wG1 P -> wdbl c -> gd (mnt_g_RR F3 P c).
Proof.
  intros [HX HY] (H1 & H2 & H3' & H4). unfold mnt_g_RR.
  assert (W0' : W w_0 (- c_4C c - c_J c * PX_twist P + c_L c)) by wt.
  assert (W1' : W w_1 (c_H c * PY_twist P)) by wt.
  destruct (- c_4C c - c_J c * PX_twist P + c_L c) as [[x0 x1] x2], (c_H c * PY_twist P) as [[y0 y1] y2].
  destruct W0' as [-> ->], W1' as [-> ->]. apply g6_sub.
Qed.
Lemma g_RQ_good P Q c : wG1 P -> W w_0 (QX_over_twist Q) -> W w_2 (QY_over_twist Q) -> wadd c -> gd (mnt_g_RQ F3 emb P Q c).
Proof.
  intros [HX HY] H1 H2 [H4 H5]. unfold mnt_g_RQ.
  assert (He : W w_0 (PX P, 0, 0)) by (split; reflexivity). set (e := (PX P, 0, 0)) in *.
  assert (W2' : W w_2 (c_RZ c * PY_twist P)) by wt.
  assert (W0' : W w_0 (- (QY_over_twist Q * c_RZ c + (e - QX_over_twist Q) * c_L1 c))) by wt.
  destruct (c_RZ c * PY_twist P) as [[x0 x1] x2], (- (QY_over_twist Q * c_RZ c + (e - QX_over_twist Q) * c_L1 c)) as [[y0 y1] y2].
  destruct W2' as [-> ->], W0' as [-> ->].
  replace ((0, 0, x2), (y0, 0, 0)) with (omul F6 (o0 F3, o1 F3) ((y0, 0, 0), (0, x2, 0))).
  - apply g6_mul; [apply g6_odd|apply g6_sub].
  - cbn [fp6_2over3_ops quad_ops omul quad_mul rot_mnr fp3_ops cubic_ops o0 o1 oadd osub cubic_mul cubic_add cubic_sub cubic_zero cubic_one].
    repeat match goal with |- (_, _) = (_, _) => f_equal end; ring.
Qed.
Lemma prj_affine_total {A} (G : Fops A) (FG : field_ok G) P : prj_to_affine G P = AssertFail \/ exists Q, prj_to_affine G P = Ok Q.
Proof.
  unfold prj_to_affine. destruct P as [[X Y] Z]. destruct (prj_is_zero G (X, Y, Z)); [right; eauto|].
  destruct (oinv_cases G FG Z) as [[y ->]| ->]; cbn; eauto.
Qed.
Lemma prj_affine_zero {A} (G : Fops A) P : prj_is_zero G P = true -> prj_to_affine G P = Ok (o0 G, o1 G, o0 G).
Proof. unfold prj_to_affine. destruct P as [[X Y] Z]. now intros ->. Qed.

Lemma mnt6_pre_right Q c : prj_is_zero F3 Q = true -> mnt_precompute_G2 F F3 scale twist twist_a lc neg Q = Ok c ->
  W w_0 (QX_over_twist c) /\ W w_2 (QY_over_twist c) /\ Forall wdbl (dbl_coeffs c) /\ Forall wadd (add_coeffs c).
Proof.
  intros HZ. unfold mnt_precompute_G2. rewrite (prj_affine_zero F3 Q HZ). cbn [bind].
  destruct (oinv F3 twist) as [ti| | | | |] eqn:Et; try discriminate. cbn [bind].
  apply W_inv1 in Et; [|split; reflexivity].
  rewrite bit_loop_skip by (auto; now apply loop_bound).
  destruct (mnt_push F F3 scale twist_a lc (o0 F3) (o1 F3) (osqr F3 (o1 F3)) (below (val lc)) (o0 F3, o1 F3, o1 F3, o1 F3) [] [])
    as (R' & dcs & acs & Ep & _). rewrite Ep. cbn [bind].
  apply (mnt_push_inv F F3 scale twist_a (o0 F3) (o1 F3) (osqr F3 (o1 F3)) wpoint wdbl wadd) in Ep; auto.
  - destruct Ep as (HR & Hd & Ha).
    assert (HQx : W w_0 (o0 F3 * ti)). { replace (o0 F3 * ti) with (o0 F3); [apply W_zero|]. symmetry. apply (rk_mul_0_l F3 (fp3_ring F RF nr)). }
    assert (HQy : W w_2 (o1 F3 * ti)) by (rewrite fp3_1; exact Et).
    destruct neg.
    + destruct R' as [[[RX RY] RZ] RT]. destruct (oinv F3 RZ) as [zi| | | | |] eqn:Ez; try discriminate. cbn [bind].
      assert (X1 : W w_1 (RX * osqr F3 zi) /\ W w_0 (- RY * (osqr F3 zi * zi))).
      { rewrite (rk_sqr F3 (fp3_ring F RF nr)). destruct HR as (HY & _ & [[HX HZ']|[HX HZ']]).
        - apply W_inv0 in Ez; [|exact HZ']. split; wt.
        - apply W_inv1 in Ez; [|exact HZ']. split; wt. }
      destruct X1 as [HXx HXy].
      pose proof (wadd_step _ _ (RX, RY, RZ, RT) HXx HXy HR) as S. cbv zeta in S.
      destruct (mnt_mixed_addition_step F3 _ _ _ (RX, RY, RZ, RT)) as [R3 ac]. cbn [fst snd bind] in *.
      intros X. injection X as <-. cbn [QX_over_twist QY_over_twist dbl_coeffs add_coeffs].
      repeat (split; [assumption|]). apply Forall_app. split; [exact Ha|]. constructor; [apply S|constructor].
    + cbn [bind]. intros X. injection X as <-. cbn [QX_over_twist QY_over_twist dbl_coeffs add_coeffs]. auto.
  - apply wdbl_step.
  - intros R. apply (wadd_step (o0 F3) (o1 F3)); [apply W_zero|apply W_one].
  - split; [apply W_one|]. split; [symmetry; apply fp3_1|]. left. split; [apply W_zero|apply W_one].
Qed.
Lemma mnt6_pre_cases Q : mnt_precompute_G2 F F3 scale twist twist_a lc neg Q = AssertFail \/
  exists c, mnt_precompute_G2 F F3 scale twist twist_a lc neg Q = Ok c.
Proof.
  unfold mnt_precompute_G2. destruct (prj_affine_total F3 F3K Q) as [->|[[[X Y] Z] ->]]; [now left|]. cbn [bind].
  destruct (oinv_cases F3 F3K twist) as [[ti ->]| ->]; cbn [bind]; [|now left].
  rewrite bit_loop_skip by (auto; now apply loop_bound).
  destruct (mnt_push F F3 scale twist_a lc X Y (osqr F3 Y) (below (val lc)) (X, Y, o1 F3, o1 F3) [] [])
    as (R' & dcs & acs & -> & _). cbn [bind]. destruct neg; [|right; cbn; eauto].
  destruct R' as [[[RX RY] RZ] RT]. destruct (oinv_cases F3 F3K RZ) as [[zi ->]| ->]; cbn [bind]; [right|now left].
  destruct (mnt_mixed_addition_step F3 _ _ _ (RX, RY, RZ, RT)) as [R3 ac]. cbn. eauto.
Qed.
Lemma wG1_ok P X Y Z : prj_to_affine F P = Ok (X, Y, Z) ->
  exists p, mnt_precompute_G1 F scale twist P = Ok p /\ wG1 p.
Proof.
  intros E. unfold mnt_precompute_G1. rewrite E. cbn [bind]. eexists. split; [reflexivity|].
  split; cbn [PX_twist PY_twist cubic_scale W]; split; ring.
Qed.
Theorem mnt6_right P Q : prj_is_zero F3 Q = true ->
  one_or_fail F6 (mnt6_pairing F nr nr twist_a lc neg P Q)
    (mnt6_reduced_pairing F nr nr nr t31 t32 t6 twist_a lc neg w1 w0 w0_neg P Q).
Proof.
  intros HZ. apply six_good. unfold mnt6_pairing. cbv zeta.
  destruct (prj_affine_total F FB P) as [E|[[[X Y] Z] E]].
  { left. unfold mnt_precompute_G1. rewrite E. reflexivity. }
  destruct (wG1_ok P X Y Z E) as (p & -> & Hp). cbn [bind].
  destruct (mnt6_pre_cases Q) as [->|[c Ec]]; [now left|]. rewrite Ec. cbn [bind].
  pose proof (mnt_precompute_length F F3 scale twist twist_a lc neg Llc Q c Ec) as [L1 L2].
  apply mnt6_pre_right in Ec; [|exact HZ]. destruct Ec as (Hx & Hy & Hd & Ha).
  unfold mnt_miller_loop, mnt_miller_loop_idx. rewrite bit_loop_skip by (auto; now apply loop_bound).
  assert (Vn : (0 <= val lc)%Z) by now apply val_nonneg.
  destruct (mnt_one_run F3 emb F6 lc p c (below (val lc)) (o1 F6) 0 0) as [g Eg].
  { rewrite below_length. lia. }
  { rewrite below_trues by auto. unfold mnt_adds in L2. lia. }
  rewrite Eg. cbn [bind].
  apply (mnt_run_inv F3 emb F6 R6 p c gd g6_mul) in Eg; [|..|apply g6_one].
  - destruct neg; [|right; cbn; eauto].
    destruct (at_idx_ok (add_coeffs c) (0 + trues (below (val lc)))) as (d & Ed & _).
    { rewrite below_trues by auto. unfold mnt_adds in L2. lia. }
    rewrite Ed. cbn [bind]. apply (at_idx_Forall _ _ _ _ Ha) in Ed.
    destruct (oinv_cases F6 FK (omul F6 g (mnt_g_RQ F3 emb p c d))) as [[y Ey]| ->]; [|now left]. right. rewrite Ey. cbn [bind].
    exists y. split; [reflexivity|]. refine (g6_inv _ y _ Ey). apply g6_mul; [exact Eg|]. now apply g_RQ_good.
  - eapply Forall_impl; [|exact Hd]. intros. now apply g_RR_good.
  - eapply Forall_impl; [|exact Ha]. intros. now apply g_RQ_good.
Qed.

(** A negative loop count ends with the line through R and -R, which vanishes at
    points with the same x coordinate as Q. *)
Definition on_square (R : L * L * L * L) : Prop := let '(X, Y, Z, T) := R in T = Z * Z.
Lemma mnt6_last_line Q c : prj_is_zero F3 Q = true -> mnt_precompute_G2 F F3 scale twist twist_a lc true Q = Ok c ->
  QX_over_twist c = o0 F3 /\
  exists acs ac, add_coeffs c = acs ++ [ac] /\ length acs = trues (below (val lc)) /\ c_RZ ac = o0 F3.
Proof.
  intros HZ Ec. pose proof (mnt_precompute_length F F3 scale twist twist_a lc true Llc Q c Ec) as [_ Lc]. revert Ec.
  unfold mnt_precompute_G2. rewrite (prj_affine_zero F3 Q HZ). cbn [bind].
  destruct (oinv F3 twist) as [ti| | | | |]; try discriminate. cbn [bind].
  rewrite bit_loop_skip by (auto; now apply loop_bound).
  destruct (mnt_push F F3 scale twist_a lc (o0 F3) (o1 F3) (osqr F3 (o1 F3)) (below (val lc)) (o0 F3, o1 F3, o1 F3, o1 F3) [] [])
    as (R' & dcs & acs & Ep & _). rewrite Ep. cbn [bind].
  apply (mnt_push_inv F F3 scale twist_a (o0 F3) (o1 F3) (osqr F3 (o1 F3)) on_square (fun _ => True) (fun _ => True)) in Ep; auto.
  - destruct Ep as (HR & _ & _). destruct R' as [[[RX RY] RZ] RT]. cbn [on_square] in HR. subst RT.
    destruct (oinv F3 RZ) as [zi| | | | |] eqn:Ez; try discriminate. cbn [bind].
    assert (HH : RX * osqr F3 zi * (RZ * RZ) = RX).
    { assert (Nz : RZ <> o0 F3). { intros ->. rewrite (fk_inv_0 F3 F3K) in Ez. discriminate. }
      destruct (fk_inv F3 F3K RZ Nz) as (zi' & E' & X). rewrite Ez in E'. injection E' as <-.
      pose proof (rk_ring F3 (fp3_ring F RF nr)) as RR.
      rewrite (rk_sqr F3 (fp3_ring F RF nr)). rewrite <- (Rmul_assoc RR), (Rmul_assoc RR (zi * zi)), <- (Rmul_assoc RR zi zi RZ), (Rmul_comm RR zi RZ), X.
      rewrite (Rmul_comm RR zi (o1 F3)), fp3_1, (Rmul_comm RR zi RZ), X, (Rmul_comm RR RX). apply fp3_1. }
    match goal with |- context [mnt_mixed_addition_step F3 ?x ?y ?z ?r] => destruct (mnt_mixed_addition_step F3 x y z r) as [R3 ac] eqn:Em end.
    assert (Hac : c_RZ ac = o0 F3).
    { rewrite (mnt_add_vertical F3 (fp3_ring F RF nr) _ _ _ RY _ HH) in Em. injection Em as _ <-. reflexivity. }
    intros X. injection X as <-. cbn [QX_over_twist add_coeffs] in *. split; [apply (rk_mul_0_l F3 (fp3_ring F RF nr))|].
    exists acs, ac. split; [reflexivity|]. split; [|exact Hac].
    rewrite app_length in Lc. cbn [length] in Lc. unfold mnt_adds in Lc. rewrite below_trues by now apply val_nonneg. lia.
  - intros [[[X Y] Z] T0] HR. cbn [on_square] in HR. subst T0. split; [|exact I].
    rewrite (mnt_dbl_simpl F F3 (fp3_ring F RF nr)). reflexivity.
  - intros [[[X Y] Z] T0] HR. cbn [on_square] in HR. subst T0. split; [|exact I].
    rewrite (mnt_add_simpl F3 (fp3_ring F RF nr)). reflexivity.
  - cbn [on_square]. symmetry. apply fp3_1.
Qed.
Theorem mnt6_vertical P Q Y Z : prj_to_affine F P = Ok (0, Y, Z) -> prj_is_zero F3 Q = true ->
  mnt6_reduced_pairing F nr nr nr t31 t32 t6 twist_a lc true w1 w0 w0_neg P Q = AssertFail.
Proof.
  intros HP HZ. unfold mnt6_reduced_pairing, mnt6_pairing. cbv zeta.
  unfold mnt_precompute_G1. rewrite HP. cbn [bind].
  destruct (mnt_precompute_G2 F F3 scale twist twist_a lc true Q) as [c| | | | |] eqn:Ec.
  2: reflexivity.
  2-5: exfalso; revert Ec; unfold mnt_precompute_G2; rewrite (prj_affine_zero F3 Q HZ); cbn [bind];
    destruct (oinv_cases F3 F3K twist) as [[ti ->]| ->]; cbn [bind]; [|discriminate];
    rewrite bit_loop_skip by (auto; now apply loop_bound);
    destruct (mnt_push F F3 scale twist_a lc (o0 F3) (o1 F3) (osqr F3 (o1 F3)) (below (val lc)) (o0 F3, o1 F3, o1 F3, o1 F3) [] [])
      as ([[[RX RY] RZ] RT] & dcs & acs & -> & _); cbn [bind];
    destruct (oinv_cases F3 F3K RZ) as [[zi ->]| ->]; cbn [bind]; [|discriminate];
    destruct (mnt_mixed_addition_step F3 _ _ _ (RX, RY, RZ, RT)) as [R3 ac]; discriminate.
  cbn [bind]. pose proof (mnt_precompute_length F F3 scale twist twist_a lc true Llc Q c Ec) as [L1 L2].
  apply mnt6_last_line in Ec; [|exact HZ]. destruct Ec as (HX & acs & ac & Ea & La & Hac).
  assert (Vn : (0 <= val lc)%Z) by now apply val_nonneg.
  unfold mnt_miller_loop, mnt_miller_loop_idx. rewrite bit_loop_skip by (auto; now apply loop_bound).
  match goal with |- context [mnt_miller_body F3 emb F6 ?p c] => destruct (mnt_one_run F3 emb F6 lc p c (below (val lc)) (o1 F6) 0 0) as [g Eg] end.
  { rewrite below_length. lia. }
  { rewrite Ea, app_length. cbn. lia. }
  rewrite Eg. cbn [bind Nat.add]. rewrite Ea, <- La, at_idx_app. cbn [bind].
  unfold mnt_g_RQ. rewrite HX, Hac. cbn [PX PY PX_twist PY_twist].
  assert (R3 := fp3_ring F RF nr). pose proof (rk_ring F3 R3) as RR.
  match goal with |- context [oinv F6 (omul F6 g (?x, ?y))] => replace (x, y) with (o0 F6) end.
  - rewrite (rk_mul_comm F6 R6), (rk_mul_0_l F6 R6), (fk_inv_0 F6 FK). reflexivity.
  - change (o0 F6) with (o0 F3, o0 F3). f_equal.
    + symmetry. apply (rk_mul_0_l F3 R3).
    + change (0, 0, 0) with (o0 F3). rewrite (proj2 (rk_sub_0 F3 R3 (o0 F3) (o0 F3)) eq_refl).
      rewrite (rk_mul_comm F3 R3 _ (o0 F3)), !(rk_mul_0_l F3 R3), (ml_1_l _ _ (rk_add_monoid F3 R3)).
      rewrite <- (ml_1_l _ _ (rk_add_monoid F3 R3) (- o0 F3)). symmetry. exact (Ropp_def RR (o0 F3)).
Qed.
Theorem mnt6_both P Q : prj_is_zero F P = true -> prj_is_zero F3 Q = true ->
  mnt6_reduced_pairing F nr nr nr t31 t32 t6 twist_a lc true w1 w0 w0_neg P Q = AssertFail.
Proof. intros HP. exact (mnt6_vertical P Q _ _ (prj_affine_zero F P HP)). Qed.

(** With no zero line among the coefficients the Miller value is not zero at points
    with non-zero coordinates. *)
Definition lines_ne (c : @mnt_G2_precomp L) : Prop := QX_over_twist c = o0 F3 /\
  Forall (fun d => c_H d <> o0 F3) (dbl_coeffs c) /\ Forall (fun d => c_RZ d <> o0 F3 \/ c_L1 d <> o0 F3) (add_coeffs c).
Lemma mnt6_lines_pre Q : prj_is_zero F3 Q = true ->
  mnt_precompute_G2 F F3 scale twist twist_a lc neg Q = mnt_precompute_G2 F F3 scale twist twist_a lc neg (prj_zero F3).
Proof.
  intros HO. unfold mnt_precompute_G2. rewrite (prj_affine_zero F3 Q HO), (prj_affine_zero F3 (prj_zero F3)); [reflexivity|].
  unfold prj_is_zero, prj_zero. cbn [andb]. rewrite ?andb_true_iff. repeat split; apply (rk_eqb F3 (fk_ring F3 F3K)); reflexivity.
Qed.
Theorem mnt6_right_ne P Q c X Y Z : prj_is_zero F3 Q = true -> mnt_precompute_G2 F F3 scale twist twist_a lc neg (prj_zero F3) = Ok c -> lines_ne c ->
  prj_to_affine F P = Ok (X, Y, Z) -> X <> 0 -> Y <> 0 ->
  exists f, mnt6_pairing F nr nr twist_a lc neg P Q = Ok f /\ f <> o0 F6.
Proof.
  intros HO Ec (CX & Cd & Ca) E NX NY. unfold mnt6_pairing, mnt_precompute_G1. cbv zeta. rewrite E. cbn [bind].
  rewrite (mnt6_lines_pre Q HO), Ec. cbn [bind].
  pose proof (mnt_precompute_length F F3 scale twist twist_a lc neg Llc _ c Ec) as [L1 L2].
  set (p := {| PX := X; PY := Y; PX_twist := _; PY_twist := _ |}).
  pose proof (fp3_ring F RF nr) as R3. pose proof (rk_ring F3 R3) as RR.
  assert (NT : PY_twist p <> o0 F3).
  { cbn [p PY_twist cubic_scale fp3_ops cubic_ops o0 cubic_zero]. intros X0. injection X0 as _ X0 _. apply NY. rewrite <- X0. ring. }
  assert (NE : (PX p, 0, 0) <> o0 F3). { cbn. intros X0. injection X0 as X0. exact (NX X0). }
  assert (Hd : Forall (fun d => mnt_g_RR F3 p d <> o0 F6) (dbl_coeffs c)).
  { eapply Forall_impl; [|exact Cd]. intros d Nd. unfold mnt_g_RR. intros X0. apply (f_equal snd) in X0. cbn [snd] in X0.
    exact (fk_mul_neq_0 F3 F3K _ _ Nd NT X0). }
  assert (Ha : Forall (fun d => mnt_g_RQ F3 emb p c d <> o0 F6) (add_coeffs c)).
  { eapply Forall_impl; [|exact Ca]. intros d Nd. unfold mnt_g_RQ. rewrite CX. intros X0.
    pose proof (f_equal fst X0) as XA. apply (f_equal snd) in X0. cbn [fst snd] in XA, X0.
    assert (RZ0 : c_RZ d = o0 F3).
    { destruct (rk_dec F3 R3 (c_RZ d) (o0 F3)) as [H|H]; [exact H|]. exfalso. exact (fk_mul_neq_0 F3 F3K _ _ H NT XA). }
    destruct Nd as [Nd|Nd]; [exact (Nd RZ0)|]. apply (fk_mul_neq_0 F3 F3K _ _ NE Nd). rewrite RZ0 in X0.
    change (o0 F6) with (o0 F3, o0 F3) in X0. cbn [snd] in X0.
    exact (line_zero F3 R3 _ _ _ X0). }
  unfold mnt_miller_loop, mnt_miller_loop_idx. rewrite bit_loop_skip by (auto; now apply loop_bound).
  assert (Vn : (0 <= val lc)%Z) by now apply val_nonneg.
  destruct (mnt_one_run F3 emb F6 lc p c (below (val lc)) (o1 F6) 0 0) as [g Eg].
  { rewrite below_length. lia. }
  { rewrite below_trues by auto. unfold mnt_adds in L2. lia. }
  rewrite Eg. cbn [bind].
  apply (mnt_run_inv F3 emb F6 R6 p c (fun x => x <> o0 F6) (fk_mul_neq_0 F6 FK) Hd Ha) in Eg; [|apply (fk_1_neq_0 F6 FK)].
  destruct neg; [|cbn; eauto].
  destruct (at_idx_ok (add_coeffs c) (0 + trues (below (val lc)))) as (d & Ed & _).
  { rewrite below_trues by auto. unfold mnt_adds in L2. lia. }
  rewrite Ed. cbn [bind]. apply (at_idx_Forall _ _ _ _ Ha) in Ed.
  pose proof (fk_mul_neq_0 F6 FK _ _ Eg Ed) as Nf.
  destruct (fk_inv F6 FK _ Nf) as (y & Ey & Xy). rewrite Ey. cbn [bind]. exists y. split; [reflexivity|].
  intros ->. rewrite (rk_mul_comm F6 R6), (rk_mul_0_l F6 R6) in Xy. symmetry in Xy. exact (fk_1_neq_0 F6 FK Xy).
Qed.
End Mnt6Neutral.
End SixNeutral.
