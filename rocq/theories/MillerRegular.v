(** Miller's algorithm on points of prime order: it meets no vertical line and
    no zero, so its result is a non-zero field element. *)
From Coq Require Import ZArith List Bool Ring Field Lia Znumtheory.
From Verif Require Import Result Algebra FieldOps CurveSpec GroupOps GroupProofs CurveGroup CurveProofs MillerSpec MillerProofs.
Import ListNotations.
Open Scope Z_scope.

(** ** Multiples *)
Section Order.
Context {K : Type} (F : Fops K) (FK : field_ok F) (a b : K).
Hypothesis H2 : oadd F (o1 F) (o1 F) <> o0 F.
Hypothesis HD : sw_disc F a b <> o0 F.
Let AG := sp_group F FK a b H2 HD.
Local Notation R := (fk_ring F FK).
Local Notation on := (sw_on F a b).
Local Notation gm := (gmul (sp_zero F a b) (sp_add F a b) (sp_opp F a b)).
Add Ring MOring : (rk_ring F (fk_ring F FK)).

Definition zmult (k : Z) (Q : apt K) : apt K := proj1_sig (gm k (sp_mk F a b Q)).
Lemma zmult_on k Q : on (zmult k Q).
Proof. apply (sw_pt_on F FK). Qed.
Lemma zmult_1 Q : on Q -> zmult 1 Q = Q.
Proof. intros O. unfold zmult. rewrite (gmul_1 _ _ _ AG). now apply sp_mk_val. Qed.
Lemma zmult_0 Q : zmult 0 Q = Inf. Proof. reflexivity. Qed.
Lemma zmult_add i j Q : zmult (i + j) Q = sw_add F a (zmult i Q) (zmult j Q).
Proof. unfold zmult. rewrite (gmul_add _ _ _ AG). now apply sp_add_val. Qed.
Lemma zmult_opp i Q : zmult (- i) Q = sw_opp F (zmult i Q).
Proof. unfold zmult. rewrite (gmul_opp _ _ _ AG). now apply sp_opp_val. Qed.
Lemma zmult_mult n Q : on Q -> mult F a n Q = zmult (Z.pos n) Q.
Proof.
  intros O. induction n as [n IH|n IH|]; cbn [mult].
  - rewrite IH, <- !zmult_add. rewrite <- (zmult_1 Q O) at 2. rewrite <- zmult_add. f_equal. lia.
  - rewrite IH, <- !zmult_add. f_equal. lia.
  - symmetry. now apply zmult_1.
Qed.
Lemma zmult_zmult i j Q : zmult i (zmult j Q) = zmult (i * j) Q.
Proof.
  unfold zmult. rewrite (gmul_mul _ _ _ AG). do 2 f_equal. apply (sw_pt_eq F). rewrite sp_mk_val; auto.
  apply (sw_pt_on F FK).
Qed.

Variables (r : Z) (Q : apt K).
Hypothesis Pr : prime r.
Hypothesis OQ : on Q.
Hypothesis NQ : Q <> Inf.
Hypothesis TQ : zmult r Q = Inf.
Lemma zmult_div k : (r | k) -> zmult k Q = Inf.
Proof. intros [c ->]. rewrite <- zmult_zmult, TQ. unfold zmult. change (sp_mk F a b Inf) with (sp_zero F a b). now rewrite (gmul_zero _ _ _ AG). Qed.
Lemma zmult_ne k : ~ (r | k) -> zmult k Q <> Inf.
Proof.
  intros D E. apply NQ. destruct (prime_rel_prime r Pr k D) as [_ _ _]. 
  destruct (rel_prime_bezout r k (prime_rel_prime r Pr k D)) as [u v H].
  rewrite <- (zmult_1 Q OQ), <- H, zmult_add. rewrite (Z.mul_comm u), (Z.mul_comm v).
  rewrite zmult_div by (exists u; lia). cbn [sw_add]. rewrite Z.mul_comm, <- zmult_zmult, E.
  unfold zmult. change (sp_mk F a b Inf) with (sp_zero F a b). now rewrite (gmul_zero _ _ _ AG).
Qed.
Lemma zmult_aff k : ~ (r | k) -> exists x y, zmult k Q = Aff x y.
Proof. intros D. pose proof (zmult_ne k D). destruct (zmult k Q) as [|x y]; [tauto|eauto]. Qed.
Lemma zmult_y k x y : ~ (r | k) -> ~ (r | 2) -> zmult k Q = Aff x y -> oadd F y y <> o0 F.
Proof.
  intros D D2 E H. apply (zmult_ne (k + k)).
  - replace (k + k) with (2 * k) by lia. intros X. apply prime_mult in X; tauto.
  - rewrite zmult_add, E. transitivity (sw_add F a (Aff x y) (sw_opp F (Aff x y))); [|apply (sw_add_opp_r F FK)].
    cbn [sw_opp]. do 2 f_equal. transitivity (oadd F (oadd F y y) (oopp F y)); [ring|]. rewrite H. ring.
Qed.
Lemma zmult_x i j x1 y1 x2 y2 : ~ (r | i - j) -> ~ (r | i + j) -> zmult i Q = Aff x1 y1 -> zmult j Q = Aff x2 y2 -> x1 <> x2.
Proof.
  intros D1 D2 E1 E2 ->. pose proof (zmult_on i Q) as O1. pose proof (zmult_on j Q) as O2. rewrite E1 in O1. rewrite E2 in O2.
  cbn [sw_on] in O1, O2. assert (Y : omul F (osub F y1 y2) (oadd F y1 y2) = o0 F).
  { transitivity (osub F (omul F y1 y1) (omul F y2 y2)); [ring|]. rewrite O1, O2. ring. }
  apply (fk_mul_0 F FK) in Y. destruct Y as [Y|Y].
  - apply (zmult_ne (i - j) D1). unfold Z.sub. rewrite zmult_add, zmult_opp, E1, E2.
    replace y1 with y2; [apply (sw_add_opp_r F FK)|]. symmetry. now apply (rk_sub_0 F R).
  - apply (zmult_ne (i + j) D2). rewrite zmult_add, E1, E2.
    replace y2 with (oopp F y1); [apply (sw_add_opp_r F FK a (Aff x2 y1))|].
    transitivity (osub F y2 (oadd F y1 y2)); [ring|]. rewrite Y. ring.
Qed.
End Order.

(** ** A twist of the curve *)
Section Twist.
Context {E T : Type} (G : Fops E) (GK : field_ok G) (F : Fops T) (FK : field_ok F) (emb : E -> T) (u : T).
Hypothesis emb_0 : emb (o0 G) = o0 F.
Hypothesis emb_add : forall x y, emb (oadd G x y) = oadd F (emb x) (emb y).
Hypothesis emb_sub : forall x y, emb (osub G x y) = osub F (emb x) (emb y).
Hypothesis emb_mul : forall x y, emb (omul G x y) = omul F (emb x) (emb y).
Hypothesis emb_inj : forall x y, emb x = emb y -> x = y.
Hypothesis u_0 : u <> o0 F.
Variables a' b' : E.
Hypothesis H2 : oadd G (o1 G) (o1 G) <> o0 G.
Hypothesis HD : sw_disc G a' b' <> o0 G.
Add Ring MRT : (rk_ring F (fk_ring F FK)).
Add Ring MRG : (rk_ring G (fk_ring G GK)).
Notation Psi := (psi F emb u).
Notation ta := (tw_a F emb u a').
Local Notation "x * y" := (omul F x y).
Definition tws_b : T := emb b' * (u * u * (u * u) * (u * u)).

Lemma emb_opp x : emb (oopp G x) = oopp F (emb x).
Proof.
  transitivity (emb (osub G (o0 G) x)); [f_equal; ring|]. rewrite emb_sub, emb_0. ring.
Qed.
Lemma psi_opp A : Psi (sw_opp G A) = sw_opp F (Psi A).
Proof. destruct A as [|x y]; cbn [psi sw_opp]; auto. f_equal. rewrite emb_opp. ring. Qed.
Lemma psi_on A : sw_on G a' b' A -> sw_on F ta tws_b (Psi A).
Proof.
  destruct A as [|x y]; cbn [psi sw_on]; auto. intros H. apply (f_equal emb) in H. repeat rewrite ?emb_mul, ?emb_add in H.
  unfold tw_a, tws_b. transitivity (emb y * emb y * (u * u * (u * u) * (u * u))); [ring|]. rewrite H. ring.
Qed.
Lemma emb_nmul x k : emb (fnmul G x k) = fnmul F (emb x) k.
Proof. induction k as [|k IH]; [exact emb_0|]. cbn [npow]. now rewrite emb_add, IH. Qed.
Lemma nmul_mul x y k : fnmul F x k * y = fnmul F (x * y) k.
Proof. induction k as [|k IH]; cbn [npow]; [ring|]. rewrite <- IH. ring. Qed.
Lemma psi_disc : sw_disc F ta tws_b <> o0 F.
Proof.
  assert (H : sw_disc F ta tws_b = emb (sw_disc G a' b') * ((u * u * (u * u) * (u * u)) * (u * u * (u * u) * (u * u)))).
  { unfold sw_disc. rewrite emb_add, !emb_nmul, !emb_mul.
    transitivity (oadd F (fnmul F (emb a' * emb a' * emb a') 4 * ((u * u * (u * u) * (u * u)) * (u * u * (u * u) * (u * u))))
      (fnmul F (emb b' * emb b') 27 * ((u * u * (u * u) * (u * u)) * (u * u * (u * u) * (u * u))))); [|ring].
    rewrite !nmul_mul. f_equal; f_equal; unfold tw_a, tws_b; ring. }
  rewrite H. repeat apply (fk_mul_neq_0 F FK); auto. intros Z. apply HD. apply emb_inj. now rewrite emb_0.
Qed.
Lemma psi_inj A B : Psi A = Psi B -> A = B.
Proof.
  destruct A as [|x y], B as [|x2 y2]; cbn [psi]; intros H; try discriminate; auto. injection H as H1 H3.
  f_equal.
  - now apply (u2_inj F FK emb u emb_inj u_0).
  - apply emb_inj. apply (fk_mul_cancel F FK _ _ (u * u * u)); auto. repeat apply fk_mul_neq_0; auto.
Qed.

(** Doubling and adding, with the lines. *)
Lemma psi_double x y : oadd G y y <> o0 G -> exists l,
  Psi (sw_add G a' (Aff x y) (Aff x y)) = sw_add F ta (Psi (Aff x y)) (Psi (Aff x y)) /\
  forall xP yP, line_at F ta (Psi (Aff x y)) (Psi (Aff x y)) xP yP =
    line_val F (emb l * u) (emb x * (u * u)) (emb y * (u * u * u)) xP yP.
Proof.
  intros N. set (l := tdiv G (oadd G (oadd G (oadd G (omul G x x) (omul G x x)) (omul G x x)) a') (oadd G y y)).
  assert (Hl : omul G l (oadd G y y) = oadd G (oadd G (oadd G (omul G x x) (omul G x x)) (omul G x x)) a') by now apply (tdiv_mul G GK).
  exists l. rewrite (proj1 (dbl_slope G GK a' x y l N Hl)).
  exact (psi_dbl G F FK emb u emb_0 emb_add emb_sub emb_mul emb_inj u_0 a' x y l N Hl).
Qed.
Lemma psi_sum x1 y1 x2 y2 : x1 <> x2 -> exists l,
  Psi (sw_add G a' (Aff x1 y1) (Aff x2 y2)) = sw_add F ta (Psi (Aff x1 y1)) (Psi (Aff x2 y2)) /\
  forall xP yP, line_at F ta (Psi (Aff x1 y1)) (Psi (Aff x2 y2)) xP yP =
    line_val F (emb l * u) (emb x1 * (u * u)) (emb y1 * (u * u * u)) xP yP.
Proof.
  intros N. set (l := tdiv G (osub G y2 y1) (osub G x2 x1)).
  assert (Hl : omul G l (osub G x2 x1) = osub G y2 y1).
  { apply (tdiv_mul G GK). intros Z. apply N. symmetry. now apply (rk_sub_0 G (fk_ring G GK)). }
  exists l. rewrite (proj1 (add_slope G GK a' x1 y1 x2 y2 l N Hl)).
  exact (psi_addition G F FK emb u emb_sub emb_mul emb_inj u_0 a' x1 y1 x2 y2 l N Hl).
Qed.
Lemma psi_sw_add A B : sw_on G a' b' A -> sw_on G a' b' B -> Psi (sw_add G a' A B) = sw_add F ta (Psi A) (Psi B).
Proof.
  intros OA OB. destruct A as [|x1 y1]; [reflexivity|]. destruct B as [|x2 y2]; [reflexivity|].
  destruct (opp_dec G GK (Aff x1 y1) (Aff x2 y2)) as [Eo|No].
  { rewrite Eo, psi_opp, (sw_add_opp_l G GK), (sw_add_opp_l F FK). reflexivity. }
  destruct (oeqb G x1 x2) eqn:Ex.
  - apply (rk_eqb G (fk_ring G GK)) in Ex. subst x2. cbn [sw_on] in OA, OB.
    assert (Y : omul G (osub G y1 y2) (oadd G y1 y2) = o0 G).
    { transitivity (osub G (omul G y1 y1) (omul G y2 y2)); [ring|]. rewrite OA, OB. ring. }
    apply (fk_mul_0 G GK) in Y. destruct Y as [Y|Y].
    + assert (Y2 : y1 = y2) by now apply (rk_sub_0 G (fk_ring G GK)). subst y2. destruct (psi_double x1 y1) as (l & H & _); auto.
      intros Z. apply No. cbn [sw_opp]. f_equal. transitivity (osub G (oadd G y1 y1) y1); [ring|]. rewrite Z. ring.
    + exfalso. apply No. cbn [sw_opp]. f_equal. transitivity (osub G (oadd G y1 y2) y2); [ring|]. rewrite Y. ring.
  - apply (rk_eqb_neq G (fk_ring G GK)) in Ex. destruct (psi_sum x1 y1 x2 y2 Ex) as (l & H & _). exact H.
Qed.
Lemma psi_mult n A : sw_on G a' b' A -> Psi (mult G a' n A) = mult F ta n (Psi A).
Proof.
  intros O. assert (OM : forall n, sw_on G a' b' (mult G a' n A)).
  { intros k. rewrite (zmult_mult G GK a' b' H2 HD k A O). now apply zmult_on. }
  induction n as [n IH|n IH|]; cbn [mult]; auto.
  - rewrite !psi_sw_add, IH by auto using (sw_on_add G GK a' b' H2 HD). reflexivity.
  - rewrite !psi_sw_add, IH by auto. reflexivity.
Qed.

(** *** Regularity for a point of prime order r, at a point (xP, yP) that no
    line with coefficients in the twist's field meets. *)
Variables (r : Z) (Q : apt E) (xP yP : T).
Lemma vert_ne : (forall x y, sw_on G a' b' (Aff x y) -> osub F xP (emb x * (u * u)) <> o0 F) ->
  forall A, sw_on G a' b' A -> vertical_at F (Psi A) xP <> o0 F.
Proof. intros VN [|x y]; cbn [psi vertical_at]; intros O; [apply (fk_1_neq_0 F FK)|exact (VN x y O)]. Qed.
Lemma vn_on : (forall x y, sw_on G a' b' (Aff x y) -> osub F xP (emb x * (u * u)) <> o0 F) ->
  forall k x y, zmult G a' b' k Q = Aff x y -> osub F xP (emb x * (u * u)) <> o0 F.
Proof. intros VN k x y E0. apply (VN x y). rewrite <- E0. apply (zmult_on G GK). Qed.
Hypothesis Pr : prime r.
Hypothesis R2 : ~ (r | 2).
Hypothesis OQ : sw_on G a' b' Q.
Hypothesis NQ : Q <> Inf.
Hypothesis TQ : zmult G a' b' r Q = Inf.
Notation zm k := (zmult G a' b' k Q).
Hypothesis VN : forall k x y, zm k = Aff x y -> osub F xP (emb x * (u * u)) <> o0 F.
Hypothesis LN : forall l x y, line_val F (emb l * u) (emb x * (u * u)) (emb y * (u * u * u)) xP yP <> o0 F.

Lemma vert_zm k : vertical_at F (Psi (zm k)) xP <> o0 F.
Proof. pose proof (VN k) as V. destruct (zm k) as [|x y]; cbn [psi vertical_at]; [apply (fk_1_neq_0 F FK)|exact (V x y eq_refl)]. Qed.
Lemma vert_sum i j : vertical_at F (Psi (sw_add G a' (zm i) (zm j))) xP <> o0 F.
Proof. rewrite <- (zmult_add G GK a' b' H2 HD). apply vert_zm. Qed.
Lemma tdiv_ne x y : x <> o0 F -> y <> o0 F -> tdiv F x y <> o0 F.
Proof.
  intros Nx Ny H. apply Nx. rewrite <- (tdiv_mul F FK x y Ny), H. ring.
Qed.
Lemma ord_dbl k : ~ (r | k) -> regular_dbl F ta (Psi (zm k)) xP /\ line_ratio F ta (Psi (zm k)) (Psi (zm k)) xP yP <> o0 F.
Proof.
  intros D. destruct (zmult_aff G GK a' b' H2 HD r Q Pr OQ NQ TQ k D) as (x & y & Ek).
  pose proof (zmult_y G GK a' b' H2 HD r Q Pr OQ NQ TQ k x y D R2 Ek) as Ny.
  pose proof (zmult_on G GK a' b' k Q) as O. pose proof (vert_sum k k) as V. unfold line_ratio.
  rewrite <- psi_sw_add by auto. split.
  - unfold regular_dbl. rewrite Ek in *. rewrite <- psi_sw_add by auto. cbn [psi]. split; [|exact V].
    now apply (u3_0 G F FK emb u emb_0 emb_add emb_inj u_0).
  - rewrite Ek in *. destruct (psi_double x y Ny) as (l & _ & L). rewrite L. apply tdiv_ne; [apply LN|exact V].
Qed.
Lemma ord_add i j : ~ (r | i) -> ~ (r | j) -> ~ (r | i - j) -> ~ (r | i + j) ->
  regular_add F ta (Psi (zm i)) (Psi (zm j)) xP /\ line_ratio F ta (Psi (zm i)) (Psi (zm j)) xP yP <> o0 F.
Proof.
  intros Di Dj D1 D2. destruct (zmult_aff G GK a' b' H2 HD r Q Pr OQ NQ TQ i Di) as (x1 & y1 & Ei).
  destruct (zmult_aff G GK a' b' H2 HD r Q Pr OQ NQ TQ j Dj) as (x2 & y2 & Ej).
  pose proof (zmult_x G GK a' b' H2 HD r Q Pr OQ NQ TQ i j x1 y1 x2 y2 D1 D2 Ei Ej) as Nx.
  pose proof (zmult_on G GK a' b' i Q) as Oi. pose proof (zmult_on G GK a' b' j Q) as Oj. pose proof (vert_sum i j) as V. unfold line_ratio.
  rewrite <- psi_sw_add by auto. split.
  - unfold regular_add. rewrite Ei, Ej in *. rewrite <- psi_sw_add by auto. cbn [psi]. split; [|exact V].
    intros X. apply Nx. now apply (u2_inj F FK emb u emb_inj u_0) in X.
  - rewrite Ei, Ej in *. destruct (psi_sum x1 y1 x2 y2 Nx) as (l & _ & L). rewrite L. apply tdiv_ne; [apply LN|exact V].
Qed.

Lemma psi_zm n : mult F ta n (Psi Q) = Psi (zm (Z.pos n)).
Proof. rewrite <- (zmult_mult G GK a' b' H2 HD n Q OQ). symmetry. now apply psi_mult. Qed.
Lemma small k : 0 < k < r -> ~ (r | k).
Proof. intros H D. apply Z.divide_pos_le in D; lia. Qed.
Theorem ord_regular n : Z.pos n < r -> regular F ta n (Psi Q) xP /\ miller F ta n (Psi Q) xP yP <> o0 F.
Proof.
  intros L. induction n as [n IH|n IH|]; cbn [regular miller].
  - assert (L' : Z.pos n < r) by lia. destruct (IH L') as [R1 M1]. rewrite psi_zm.
    destruct (ord_dbl (Z.pos n)) as [R3 M3]; [apply small; lia|].
    replace (sw_add F ta (Psi (zm (Z.pos n))) (Psi (zm (Z.pos n)))) with (Psi (zm (Z.pos n + Z.pos n)))
      by (rewrite (zmult_add G GK a' b' H2 HD); apply psi_sw_add; apply (zmult_on G GK)).
    assert (EQ : Psi Q = Psi (zm 1)) by now rewrite (zmult_1 G GK a' b' H2 HD). rewrite EQ in *.
    destruct (ord_add (Z.pos n + Z.pos n) 1) as [R4 M4]; try (apply small; lia).
    split; [exact (conj R1 (conj R3 R4))|]. repeat (apply (fk_mul_neq_0 F FK); [|assumption]); assumption.
  - assert (L' : Z.pos n < r) by lia. destruct (IH L') as [R1 M1]. rewrite psi_zm.
    destruct (ord_dbl (Z.pos n)) as [R3 M3]; [apply small; lia|].
    split; [exact (conj R1 R3)|]. repeat (apply (fk_mul_neq_0 F FK); [|assumption]); assumption.
  - split; [exact I|apply (fk_1_neq_0 F FK)].
Qed.
Definition sgn (neg : bool) (n : positive) : Z := if neg then Z.neg n else Z.pos n.
Lemma psi_signed neg n : mult_signed F ta neg n (Psi Q) = Psi (zm (sgn neg n)).
Proof.
  unfold mult_signed, sgn. rewrite psi_zm. destruct neg; auto. rewrite <- psi_opp, <- (zmult_opp G GK a' b' H2 HD). reflexivity.
Qed.
Theorem ord_signed neg n : Z.pos n < r ->
  regular_signed F ta neg n (Psi Q) xP /\ miller_signed F ta neg n (Psi Q) xP yP <> o0 F.
Proof.
  intros L. destruct (ord_regular n L) as [R1 M1]. assert (V : vertical_at F (mult F ta n (Psi Q)) xP <> o0 F).
  { rewrite psi_zm. apply vert_zm. }
  split; [split; auto|]. unfold miller_signed. destruct neg; auto.
  intros Z. assert (N : miller F ta n (Psi Q) xP yP * vertical_at F (mult F ta n (Psi Q)) xP <> o0 F) by now apply (fk_mul_neq_0 F FK).
  destruct (tinv_spec F FK _ N) as [_ I]. rewrite Z in I. apply (fk_1_neq_0 F FK). rewrite <- I. ring.
Qed.
(** [s] is the eigenvalue of the q-power Frobenius on the point. *)
Theorem ord_optimal q neg n s : Z.pos n < r ->
  frob_pt F q (Psi Q) = Psi (zm s) -> frob_pt F q (Psi (zm s)) = Psi (zm (s * s)) ->
  let t := sgn neg n in
  ~ (r | s) -> ~ (r | t - s) -> ~ (r | t + s) -> ~ (r | t + s - s * s) -> ~ (r | t + s + s * s) ->
  regular_optimal F ta q neg n (Psi Q) xP /\ optimal_ate F ta q neg n (Psi Q) xP yP <> o0 F.
Proof.
  intros L F1 F2 t Ds D1 D2 D3 D4. destruct (ord_signed neg n L) as [R1 M1].
  assert (Dt : ~ (r | t)).
  { unfold t, sgn. destruct neg; [|apply small; lia]. intros X. apply (small (Z.pos n)); [lia|].
    apply Z.divide_opp_r in X. exact X. }
  assert (Dss : ~ (r | s * s)) by (intros X; apply prime_mult in X; tauto).
  unfold regular_optimal, optimal_ate. cbv zeta. rewrite psi_signed. fold t. rewrite F1, F2.
  replace (sw_opp F (Psi (zm (s * s)))) with (Psi (zm (- (s * s)))) by (rewrite (zmult_opp G GK a' b' H2 HD); apply psi_opp).
  replace (sw_add F ta (Psi (zm t)) (Psi (zm s))) with (Psi (zm (t + s)))
    by (rewrite (zmult_add G GK a' b' H2 HD); apply psi_sw_add; apply (zmult_on G GK)).
  destruct (ord_add t s) as [R3 M3]; auto.
  destruct (ord_add (t + s) (- (s * s))) as [R4 M4]; auto.
  - intros X. apply Dss. exact (proj1 (Z.divide_opp_r _ _) X).
  - replace (t + s - - (s * s)) with (t + s + s * s) by lia. auto.
  - split; [exact (conj R1 (conj R3 R4))|]. repeat (apply (fk_mul_neq_0 F FK); [|assumption]); assumption.
Qed.
End Twist.
