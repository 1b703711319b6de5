(** The ate and the optimal ate pairing of [MillerSpec] are bilinear, up to the
    factors a final exponentiation removes. *)
From Coq Require Import ZArith List Bool Ring Field Lia Eqdep_dec.
From Verif Require Import Result Algebra FieldOps CurveSpec GroupOps GroupProofs CurveGroup CurveProofs MillerSpec MillerCocycle Cochain.
Import ListNotations.
Open Scope Z_scope.

(** ** The multiplicative group of a field *)
Section Units.
Context {T : Type} (F : Fops T) (FK : field_ok F).
Let R := fk_ring F FK.
Add Field MBfield : (fk_field F FK).
Definition unit := {x : T | oeqb F x (o0 F) = false}.
Definition uval (u : unit) : T := proj1_sig u.
Lemma unit_eq u v : uval u = uval v -> u = v.
Proof.
  destruct u as [x Hx], v as [y Hy]; cbn. intros ->. f_equal. apply UIP_dec. apply bool_dec.
Qed.
Lemma uval_ne u : uval u <> o0 F.
Proof. destruct u as [x Hx]; cbn. now apply (rk_eqb_neq F R). Qed.
Definition mkU (d : unit) (x : T) : unit :=
  match bool_dec (oeqb F x (o0 F)) false with left H => exist _ x H | right _ => d end.
Lemma mkU_val d x : x <> o0 F -> uval (mkU d x) = x.
Proof.
  intros N. unfold mkU. destruct (bool_dec _ _) as [H|H]; [reflexivity|]. exfalso. apply H. now apply (rk_eqb_neq F R).
Qed.
Lemma one_ok : oeqb F (o1 F) (o0 F) = false.
Proof. apply (rk_eqb_neq F R). apply (fk_1_neq_0 F FK). Qed.
Definition uone : unit := exist _ (o1 F) one_ok.
Definition umul (u v : unit) : unit := mkU uone (omul F (uval u) (uval v)).
Definition uinv (u : unit) : unit := mkU uone (tinv F (uval u)).
Lemma tinv_ne x : x <> o0 F -> tinv F x <> o0 F.
Proof.
  intros N E. destruct (tinv_spec F FK x N) as [_ I]. rewrite E in I. apply (fk_1_neq_0 F FK). rewrite <- I. ring.
Qed.
Lemma umul_val u v : uval (umul u v) = omul F (uval u) (uval v).
Proof. apply mkU_val. apply (fk_mul_neq_0 F FK); apply uval_ne. Qed.
Lemma uinv_val u : uval (uinv u) = tinv F (uval u).
Proof. apply mkU_val. apply tinv_ne, uval_ne. Qed.
Lemma ugroup : agroup uone umul uinv.
Proof.
  constructor.
  - constructor; intros; apply unit_eq; rewrite ?umul_val; cbn [uone uval proj1_sig]; ring.
  - intros; apply unit_eq; rewrite !umul_val; ring.
  - intros x; apply unit_eq; rewrite umul_val, uinv_val. cbn [uone uval proj1_sig].
    pose proof (proj2 (tinv_spec F FK _ (uval_ne x))) as I. etransitivity; [|exact I]. ring.
Qed.
Notation upow := (gmul uone umul uinv).
Lemma unpow_val u n : uval (npow uone umul u n) = fpow F (uval u) n.
Proof. induction n as [|n IH]; [reflexivity|]. cbn [npow]. now rewrite umul_val, IH. Qed.
Lemma upow_val k u : 0 <= k -> uval (upow k u) = fpow F (uval u) (Z.to_nat k).
Proof. intros H. rewrite (gmul_pos _ _ _ _ _ H). apply unpow_val. Qed.
End Units.

(** ** A group of points *)
Section Points.
Context {T : Type} (F : Fops T) (FK : field_ok F) (a b : T).
Hypothesis H2 : oadd F (o1 F) (o1 F) <> o0 F.
Hypothesis HD : sw_disc F a b <> o0 F.
Let R := fk_ring F FK.
Add Field MBPfield : (fk_field F FK).
Local Notation "0" := (o0 F).
Local Notation "1" := (o1 F).
Local Notation "x + y" := (oadd F x y).
Local Notation "x - y" := (osub F x y).
Local Notation "x * y" := (omul F x y).
Local Notation "- x" := (oopp F x).
Local Notation add := (sw_add F a).
Local Notation opp := (sw_opp F).
Local Notation on := (sw_on F a b).
Local Notation line := (line F a b).
Local Notation la := (line_at F a).
Local Notation va := (vertical_at F).
Local Notation U := (unit F).
Local Notation uz := (uone F FK).
Local Notation uadd := (umul F FK).
Local Notation uopp := (uinv F FK).
Local Notation UG := (ugroup F FK).
Local Notation val := (uval F).
Local Notation mk := (mkU F uz).
Local Notation mk_val := (mkU_val F FK uz).

(** The points indexed by an abelian group. *)
Context {I : Type} (iz : I) (iadd : I -> I -> I) (iopp : I -> I) (IG : agroup iz iadd iopp).
Local Notation imul := (gmul iz iadd iopp).
Variable pt : I -> apt T.
Hypothesis pt_on : forall i, on (pt i).
Hypothesis pt_add : forall i j, pt (iadd i j) = add (pt i) (pt j).
Hypothesis pt_0 : pt iz = Inf.
Hypothesis pt_opp : forall i, pt (iopp i) = opp (pt i).

Lemma pt_mult n i : mult F a n (pt i) = pt (imul (Z.pos n) i).
Proof.
  induction n as [n IH|n IH|]; cbn [mult]; cbv zeta.
  - now rewrite (gm_dbl1 _ _ _ IG), !pt_add, IH.
  - now rewrite (gm_dbl _ _ _ IG), !pt_add, IH.
  - now rewrite (gmul_1 _ _ _ IG).
Qed.
Lemma pt_signed neg n i : mult_signed F a neg n (pt i) = pt (imul (sgnz neg n) i).
Proof.
  unfold mult_signed, sgnz. rewrite pt_mult. destruct neg; auto. rewrite <- pt_opp, <- (gmul_opp _ _ _ IG). reflexivity.
Qed.

(** A point where no line through two of the points vanishes. *)
Record good (x y : T) : Prop := {
  gd_on : on (Aff x y);
  gd_va : forall i, va (pt i) x <> 0;
  gd_la : forall i j, la (pt i) (pt j) x y <> 0
}.
Definition gU (x y : T) (i j : I) : U := mk (line_ratio F a (pt i) (pt j) x y).

Section One.
Variables x y : T.
Hypothesis GD : good x y.
Lemma ratio_ne i j : line_ratio F a (pt i) (pt j) x y <> 0.
Proof.
  unfold line_ratio. rewrite <- pt_add. intros E. apply (gd_la x y GD i j).
  rewrite <- (tdiv_mul F FK (la (pt i) (pt j) x y) (va (pt (iadd i j)) x)), E by apply (gd_va x y GD). ring.
Qed.
Lemma gU_val i j : val (gU x y i j) = line_ratio F a (pt i) (pt j) x y.
Proof. apply mk_val. apply ratio_ne. Qed.
Lemma gU_cocyc : cocyc iz iadd uz uadd (gU x y).
Proof.
  constructor.
  - intros i j. apply unit_eq. rewrite !gU_val. unfold line_ratio.
    rewrite (la_sym F FK a b H2 HD) by auto. now rewrite (sw_add_comm F FK a b H2 HD (pt i) (pt j)) by auto.
  - intros i j k. apply unit_eq. rewrite !umul_val, !gU_val. unfold line_ratio.
    rewrite <- !pt_add. pose proof (cocycle F FK a b H2 HD (pt i) (pt j) (pt k) x y (pt_on i) (pt_on j) (pt_on k) (gd_on x y GD)) as H.
    rewrite <- !pt_add in H. rewrite (ag_assoc _ _ _ IG i j k).
    pose proof (gd_va x y GD (iadd i j)) as V1. pose proof (gd_va x y GD (iadd j k)) as V2. pose proof (gd_va x y GD (iadd (iadd i j) k)) as V3.
    apply (fk_mul_cancel F FK _ _ (va (pt (iadd i j)) x * va (pt (iadd j k)) x * va (pt (iadd (iadd i j) k)) x)).
    { repeat apply (fk_mul_neq_0 F FK); auto. }
    transitivity (la (pt i) (pt j) x y * la (pt (iadd i j)) (pt k) x y * va (pt (iadd j k)) x); [field; auto|].
    rewrite H. field. auto.
  - apply unit_eq. rewrite gU_val. unfold line_ratio. rewrite pt_0. cbn. apply (tdiv_eq F FK); [apply (fk_1_neq_0 F FK)|]. ring.
Qed.
Lemma vert_val i : val (vert iopp (gU x y) i) = va (pt i) x.
Proof.
  unfold vert. rewrite gU_val. unfold line_ratio. rewrite pt_opp, (la_opp F FK), (sw_add_opp_r F FK). cbn [vertical_at].
  apply (tdiv_eq F FK); [apply (fk_1_neq_0 F FK)|]. ring.
Qed.
Lemma miller_val n i : miller F a n (pt i) x y = val (csum iz iadd iopp uz uadd (gU x y) n i).
Proof.
  induction n as [n IH|n IH|]; cbn [miller csum]; cbv zeta.
  - rewrite !umul_val, !gU_val, IH, pt_add, pt_mult. ring.
  - rewrite !umul_val, !gU_val, IH, pt_mult. ring.
  - reflexivity.
Qed.
Lemma signed_val neg n i : miller_signed F a neg n (pt i) x y = val (csigned iz iadd iopp uz uadd uopp (gU x y) neg n i).
Proof.
  unfold miller_signed, csigned. destruct neg; [|apply miller_val].
  rewrite uinv_val, umul_val, miller_val, pt_mult. do 2 f_equal. symmetry. apply vert_val.
Qed.
Lemma optimal_val q neg n i : (forall i, frob_pt F q (pt i) = pt (imul (Z.of_nat q) i)) ->
  optimal_ate F a q neg n (pt i) x y = val (coptimal iz iadd iopp uz uadd uopp (gU x y) (Z.of_nat q) neg n i).
Proof.
  intros Fr. unfold optimal_ate, coptimal. cbv zeta. rewrite !umul_val, !gU_val, <- signed_val, pt_signed, !Fr, <- pt_opp, pt_add.
  now rewrite (gmul_mul _ _ _ IG).
Qed.
Lemma gU_period r k i j : (forall j, pt (imul r j) = Inf) -> gU x y (iadd i (imul (r * k)%Z j)) = gU x y i.
Proof.
  intros Pr. unfold gU. assert (E : pt (iadd i (imul (r * k)%Z j)) = pt i).
  { rewrite pt_add, (gmul_mul _ _ _ IG), Pr. apply (sw_add_O_r F). }
  now rewrite E.
Qed.
End One.

(** *** The Frobenius *)
Section Frob.
Variable q : nat.
Hypothesis Hq : (0 < q)%nat.
Local Notation ph x := (fpow F x q).
Hypothesis ph_add : forall x y, ph (x + y) = ph x + ph y.
Hypothesis ph_a : ph a = a.
Hypothesis ph_b : ph b = b.
Let M := rk_monoid F R.
Lemma ph_mul x y : ph (x * y) = ph x * ph y.
Proof. apply (npow_mul_distr _ _ M (rk_mul_comm F R)). Qed.
Lemma ph_0 : ph 0 = 0. Proof. apply (npow_zero _ _ _ _ _ _ (rk_ring F R)). exact Hq. Qed.
Lemma ph_1 : ph 1 = 1. Proof. apply (npow_one _ _ M). Qed.
Lemma ph_sub x y : ph (x - y) = ph x - ph y.
Proof.
  assert (E : ph (x - y) + ph y = ph x) by (rewrite <- ph_add; f_equal; ring). rewrite <- E. ring.
Qed.
Lemma ph_opp x : ph (- x) = - ph x.
Proof. replace (- x) with (0 - x) by ring. rewrite ph_sub, ph_0. ring. Qed.
Lemma ph_ne x : x <> 0 -> ph x <> 0.
Proof.
  intros N. generalize q. intros k. induction k as [|k IH]; cbn [npow]; [apply (fk_1_neq_0 F FK)|now apply (fk_mul_neq_0 F FK)].
Qed.
Lemma ph_div x y : y <> 0 -> ph (tdiv F x y) = tdiv F (ph x) (ph y).
Proof.
  intros N. symmetry. apply (tdiv_eq F FK); [now apply ph_ne|]. now rewrite <- ph_mul, (tdiv_mul F FK).
Qed.
Local Notation fr := (frob_pt F q).
Lemma fr_opp A : fr (opp A) = opp (fr A).
Proof. destruct A; cbn; auto. now rewrite ph_opp. Qed.
Lemma fr_on A : on A -> on (fr A).
Proof.
  destruct A as [|u v]; cbn; auto. intros E. apply (f_equal (fun x => ph x)) in E.
  rewrite !ph_add, !ph_mul, ph_a, ph_b in E. exact E.
Qed.
Lemma fr_line x1 y1 x2 y2 l : line x1 y1 x2 y2 l -> line (ph x1) (ph y1) (ph x2) (ph y2) (ph l).
Proof.
  intros (E & A & B). repeat split.
  - rewrite E at 1. now rewrite ph_add, ph_mul, ph_sub.
  - rewrite <- ph_a. rewrite A at 1. now rewrite !ph_sub, !ph_add, !ph_mul, !ph_add.
  - rewrite <- ph_b. rewrite B at 1. now rewrite !ph_sub, !ph_mul, !ph_sub, !ph_mul.
Qed.
Lemma fr_va A u : ph (va A u) = va (fr A) (ph u).
Proof. destruct A; cbn; [apply ph_1|apply ph_sub]. Qed.
Lemma fr_la A B u v : on A -> on B -> ph (la A B u v) = la (fr A) (fr B) (ph u) (ph v).
Proof.
  intros OA OB. destruct (line_cases F FK a b A B OA OB) as [->|[->|[->|(x1 & y1 & x2 & y2 & l & -> & -> & L)]]].
  - cbn [frob_pt]. rewrite !la_O_l. apply fr_va.
  - cbn [frob_pt]. rewrite !la_O_r. apply fr_va.
  - rewrite fr_opp, !(la_opp' F FK). apply fr_va.
  - cbn [frob_pt]. rewrite (la_line F FK a b H2 HD _ _ _ _ _ _ _ L), (la_line F FK a b H2 HD _ _ _ _ _ _ _ (fr_line _ _ _ _ _ L)).
    now rewrite !ph_sub, ph_mul, ph_sub.
Qed.
Lemma fr_add A B : on A -> on B -> fr (add A B) = add (fr A) (fr B).
Proof.
  intros OA OB. destruct (line_cases F FK a b A B OA OB) as [->|[->|[->|(x1 & y1 & x2 & y2 & l & -> & -> & L)]]].
  - reflexivity.
  - cbn [frob_pt]. now rewrite !(sw_add_O_r F).
  - rewrite fr_opp, !(sw_add_opp_l F FK). reflexivity.
  - cbn [frob_pt]. rewrite (line_add F FK a b H2 HD _ _ _ _ _ L), (line_add F FK a b H2 HD _ _ _ _ _ (fr_line _ _ _ _ _ L)).
    cbn [frob_pt]. f_equal; now rewrite !ph_sub, !ph_mul, ?ph_sub, ?ph_mul.
Qed.
Lemma upow_q u : gmul uz uadd uopp (Z.of_nat q) u = npow uz uadd u q.
Proof. apply (gmul_nat uz uadd uopp). Qed.
Hypothesis Fr : forall i, fr (pt i) = pt (imul (Z.of_nat q) i).
Lemma gU_frob x y i j : good x y -> ph x = x -> ph y = y ->
  gU x y (imul (Z.of_nat q) i) (imul (Z.of_nat q) j) = gmul uz uadd uopp (Z.of_nat q) (gU x y i j).
Proof.
  intros GD Ex Ey. apply unit_eq. rewrite upow_q, unpow_val, !gU_val by auto. unfold line_ratio.
  rewrite <- !pt_add, <- (gmul_distr _ _ _ IG), <- !Fr. rewrite <- Ex at 1 2. rewrite <- Ey at 1.
  rewrite <- fr_la, <- fr_va by auto. symmetry. apply ph_div. apply (gd_va x y GD).
Qed.

(** *** The final exponentiation *)
Variables (r : Z) (E : nat).
Hypothesis r_0 : (0 <= r)%Z.
Hypothesis pt_r : forall j, pt (imul r j) = Inf.
Hypothesis KE : forall f, f <> 0 -> fpow F (fpow F f E) (Z.to_nat r) = 1.
Local Notation um := (gmul uz uadd uopp).
Local Notation Ez := (Z.of_nat E).
Lemma um_comm k l u : um k (um l u) = um l (um k u).
Proof. now rewrite <- !(gmul_mul _ _ _ UG), Z.mul_comm. Qed.
Lemma kill_r k u : um Ez (um (r * k) u) = uz.
Proof.
  rewrite Z.mul_comm, um_comm, (gmul_mul _ _ _ UG).
  assert (H : um r (um Ez u) = uz).
  { apply unit_eq. rewrite upow_val by exact r_0. rewrite (gmul_nat uz uadd uopp), unpow_val. apply KE. apply (uval_ne F FK). }
  rewrite H. apply (gmul_zero _ _ _ UG).
Qed.
Lemma Ez_val u : val (um Ez u) = fpow F (val u) E.
Proof. now rewrite (gmul_nat uz uadd uopp), unpow_val. Qed.
Lemma kill_v k u : fpow F (val u) E = 1 -> um Ez (um k u) = uz.
Proof.
  intros H. rewrite um_comm. assert (H1 : um Ez u = uz) by (apply unit_eq; now rewrite Ez_val). rewrite H1. apply (gmul_zero _ _ _ UG).
Qed.
Lemma pow_1 : fpow F 1 E = 1. Proof. apply (npow_one _ _ M). Qed.
Lemma pow_mul x y : fpow F (x * y) E = fpow F x E * fpow F y E.
Proof. apply (npow_mul_distr _ _ M (rk_mul_comm F R)). Qed.
Lemma kill_v3 u v w : fpow F (val u) E = 1 -> fpow F (val v) E = 1 -> fpow F (val w) E = 1 ->
  fpow F (val (uadd (uadd u v) (uopp w))) E = 1.
Proof.
  intros Hu Hv Hw. rewrite !umul_val, uinv_val, !pow_mul, Hu, Hv.
  assert (H : fpow F (tinv F (val w)) E * fpow F (val w) E = 1).
  { rewrite <- pow_mul. rewrite (proj2 (tinv_spec F FK _ (uval_ne F FK w))). apply pow_1. }
  rewrite Hw in H. etransitivity; [|exact H]. ring.
Qed.

(** *** Additivity in the point Q *)
Theorem ate_Q x y neg n k i j : good x y -> ph x = x -> ph y = y -> sgnz neg n = (Z.of_nat q + r * k)%Z ->
  fpow F (miller_signed F a neg n (pt i) x y) E * fpow F (miller_signed F a neg n (pt j) x y) E =
  fpow F (miller_signed F a neg n (add (pt i) (pt j)) x y) E.
Proof.
  intros GD Ex Ey Et. rewrite <- pow_mul, <- pt_add, !signed_val, <- (umul_val F FK) by auto.
  rewrite (ate_add _ _ _ IG _ _ _ UG _ (gU_cocyc x y GD) (Z.of_nat q) r (fun i j => gU_frob x y i j GD Ex Ey)
    (fun i k j => gU_period x y r k i j pt_r) neg n k i j Et).
  rewrite <- !Ez_val. f_equal. rewrite (gmul_distr _ _ _ UG), kill_r. apply (ag_0_l _ _ _ UG).
Qed.
Theorem optimal_Q x y neg n k i j : good x y -> ph x = x -> ph y = y -> (forall i, fpow F (va (pt i) x) E = 1) ->
  let s := Z.of_nat q in (sgnz neg n + s - s * s + s * s * s = r * k)%Z ->
  fpow F (optimal_ate F a q neg n (pt i) x y) E * fpow F (optimal_ate F a q neg n (pt j) x y) E =
  fpow F (optimal_ate F a q neg n (add (pt i) (pt j)) x y) E.
Proof.
  intros GD Ex Ey KV s Et. rewrite <- pow_mul, <- pt_add, !optimal_val, <- (umul_val F FK) by auto.
  rewrite (optimal_add _ _ _ IG _ _ _ UG _ (gU_cocyc x y GD) (Z.of_nat q) r (fun i j => gU_frob x y i j GD Ex Ey)
    (fun i k j => gU_period x y r k i j pt_r) neg n k i j Et).
  rewrite <- !Ez_val. f_equal. rewrite !(gmul_distr _ _ _ UG Ez), kill_r, kill_v.
  - pose proof UG as G. agroup_eq G.
  - apply kill_v3; rewrite vert_val by auto; apply KV.
Qed.

(** *** Additivity in the point P *)
Section Sum.
Variables u1 v1 u2 v2 u3 v3 : T.
Hypotheses (G1 : good u1 v1) (G2 : good u2 v2) (G3 : good u3 v3).
Hypothesis S3 : add (Aff u1 v1) (Aff u2 v2) = Aff u3 v3.
Definition chi_at (A : apt T) : T :=
  match A with Inf => 1 | Aff x y => tdiv F (- la (Aff u1 v1) (Aff u2 v2) x y) (va (Aff u3 v3) x) end.
Lemma sum_line : exists m, line u1 v1 u2 v2 m /\ u3 = m * m - u1 - u2 /\ v3 = m * (u1 - u3) - v1.
Proof.
  destruct (line_cases F FK a b _ _ (gd_on _ _ G1) (gd_on _ _ G2)) as [|[|[N|(x1 & y1 & x2 & y2 & l & E1 & E2 & L)]]]; try discriminate.
  - rewrite N, (sw_add_opp_l F FK) in S3. discriminate.
  - injection E1 as <- <-. injection E2 as <- <-. exists l. split; auto.
    rewrite (line_add F FK a b H2 HD _ _ _ _ _ L) in S3. injection S3 as <- <-. auto.
Qed.
Lemma sub_ne x z : x - z <> 0 -> z - x <> 0.
Proof. intros N Z. apply N. transitivity (- (z - x)); [ring|]. rewrite Z. ring. Qed.
Lemma va_ne3 i x y : pt i = Aff x y -> u1 - x <> 0 /\ u2 - x <> 0 /\ u3 - x <> 0.
Proof.
  intros Ei. pose proof (gd_va _ _ G1 i) as V1. pose proof (gd_va _ _ G2 i) as V2. pose proof (gd_va _ _ G3 i) as V3.
  rewrite Ei in V1, V2, V3. cbn in V1, V2, V3. auto.
Qed.
Lemma la_norm i x y : pt i = Aff x y ->
  la (Aff u1 v1) (Aff u2 v2) x y * la (Aff u1 v1) (Aff u2 v2) x (- y) = - ((x - u1) * (x - u2) * (x - u3)).
Proof.
  intros Ei. destruct sum_line as (m & L & -> & _). pose proof (pt_on i) as O. rewrite Ei in O.
  rewrite !(la_line F FK a b H2 HD _ _ _ _ _ _ _ L), <- (line_norm F FK a b _ _ _ _ _ _ _ L O). ring.
Qed.
Lemma la_ne i x y : pt i = Aff x y -> la (Aff u1 v1) (Aff u2 v2) x y <> 0.
Proof.
  intros Ei Z. pose proof (la_norm i x y Ei) as H. rewrite Z in H. destruct (va_ne3 i x y Ei) as (W1 & W2 & W3).
  assert (N : (x - u1) * (x - u2) * (x - u3) <> 0) by (repeat apply (fk_mul_neq_0 F FK); now apply sub_ne).
  apply N. transitivity (- (- ((x - u1) * (x - u2) * (x - u3)))); [ring|]. rewrite <- H. ring.
Qed.
Lemma chi_ne i : chi_at (pt i) <> 0.
Proof.
  destruct (pt i) as [|x y] eqn:Ei; cbn [chi_at]; [apply (fk_1_neq_0 F FK)|].
  intros Z. apply (la_ne i x y Ei). assert (V : va (Aff u3 v3) x <> 0) by (cbn; apply sub_ne; exact (proj2 (proj2 (va_ne3 i x y Ei)))).
  transitivity (- (tdiv F (- la (Aff u1 v1) (Aff u2 v2) x y) (va (Aff u3 v3) x) * va (Aff u3 v3) x)).
  - rewrite (tdiv_mul F FK) by exact V. ring.
  - rewrite Z. ring.
Qed.
Definition chiU (i : I) : U := mk (chi_at (pt i)).
Lemma chiU_val i : val (chiU i) = chi_at (pt i). Proof. apply mk_val, chi_ne. Qed.
Lemma ratio_O_l A x y : va A x <> 0 -> line_ratio F a Inf A x y = 1.
Proof. intros N. unfold line_ratio. rewrite la_O_l, (sw_add_O_l F). apply (tdiv_eq F FK); auto. ring. Qed.
Lemma ratio_O_r A x y : va A x <> 0 -> line_ratio F a A Inf x y = 1.
Proof. intros N. unfold line_ratio. rewrite la_O_r, (sw_add_O_r F). apply (tdiv_eq F FK); auto. ring. Qed.

(** The lines at P1 and P2 against the lines at P1 + P2. *)
Theorem chi_coboundary i j :
  line_ratio F a (pt i) (pt j) u1 v1 * line_ratio F a (pt i) (pt j) u2 v2 * chi_at (add (pt i) (pt j)) =
  line_ratio F a (pt i) (pt j) u3 v3 * chi_at (pt i) * chi_at (pt j).
Proof.
  destruct (line_cases F FK a b (pt i) (pt j) (pt_on i) (pt_on j)) as [EA|[EA|[EA|(x1 & y1 & x2 & y2 & l & E1 & E2 & L)]]].
  - rewrite EA. rewrite !ratio_O_l by (eapply gd_va; eassumption). rewrite (sw_add_O_l F). cbn [chi_at]. ring.
  - rewrite EA. rewrite !ratio_O_r by (eapply gd_va; eassumption). rewrite (sw_add_O_r F). cbn [chi_at]. ring.
  - rewrite EA, (sw_add_opp_l F FK). cbn [chi_at]. unfold line_ratio. rewrite (sw_add_opp_l F FK), !(la_opp' F FK).
    destruct (pt j) as [|x y] eqn:Ej.
    + cbn. field. apply (fk_1_neq_0 F FK).
    + cbn [vertical_at sw_opp chi_at].
      destruct (va_ne3 j x y Ej) as (W1 & W2 & W3). apply sub_ne in W3 as W3'.
      pose proof (la_norm j x y Ej) as H. set (l1 := la (Aff u1 v1) (Aff u2 v2) x y) in *. set (l2 := la (Aff u1 v1) (Aff u2 v2) x (- y)) in *.
      pose proof (fk_1_neq_0 F FK) as N1.
      transitivity (tdiv F ((u3 - x) * (l1 * l2)) ((x - u3) * (x - u3))).
      * rewrite H. field. auto.
      * field. auto.
  - destruct sum_line as (m & M' & Eu & Ev).
    set (x3 := l * l - x1 - x2). set (y3 := y1 + l * (x3 - x1)).
    assert (Es : add (pt i) (pt j) = Aff x3 (- y3)).
    { rewrite E1, E2, (line_add F FK a b H2 HD _ _ _ _ _ L). unfold y3, x3. f_equal. ring. }
    assert (Ek : pt (iadd i j) = Aff x3 (- y3)) by now rewrite pt_add.
    unfold line_ratio. rewrite Es. rewrite E1, E2. cbn [chi_at vertical_at].
    destruct (va_ne3 i _ _ E1) as (A1 & A2 & A3). destruct (va_ne3 j _ _ E2) as (B1 & B2 & B3). destruct (va_ne3 _ _ _ Ek) as (D1 & D2 & D3).
    pose proof (recip_lines F FK a b _ _ _ _ _ _ _ _ _ _ L M') as Rc. cbv zeta in Rc. fold x3 in Rc. fold y3 in Rc. rewrite <- Eu in Rc.
    rewrite !(la_line F FK a b H2 HD _ _ _ _ _ _ _ L), !(la_line F FK a b H2 HD _ _ _ _ _ _ _ M').
    (* the lines at the third points and at their opposites *)
    assert (O3 : on (Aff u3 v3)) by apply G3.
    pose proof (line_norm F FK a b _ _ _ _ _ _ _ L O3) as N3. fold x3 in N3.
    assert (Ox : on (Aff x3 (- y3))) by (rewrite <- Ek; apply pt_on).
    pose proof (line_norm F FK a b _ _ _ _ _ _ _ M' Ox) as Nx. rewrite <- Eu in Nx.
    set (p1 := v1 - y1 - l * (u1 - x1)) in *. set (p2 := v2 - y1 - l * (u2 - x1)) in *.
    set (q1 := y1 - v1 - m * (x1 - u1)) in *. set (q2 := y2 - v1 - m * (x2 - u1)) in *.
    set (p3 := v3 - y1 - l * (u3 - x1)) in *. set (q3 := - y3 - v1 - m * (x3 - u1)) in *.
    replace (v1 + m * (u3 - u1) - y1 - l * (u3 - x1)) with (- (v3 + y1 + l * (u3 - x1))) in Rc by (rewrite Ev; ring).
    replace (y3 - v1 - m * (x3 - u1)) with (- (- y3 + v1 + m * (x3 - u1))) in Rc by ring.
    set (p3' := v3 + y1 + l * (u3 - x1)) in *. set (q3' := - y3 + v1 + m * (x3 - u1)) in *.
    assert (NP : p3' <> 0).
    { intros Z. assert (N : (u3 - x1) * (u3 - x2) * (u3 - x3) <> 0) by (repeat apply (fk_mul_neq_0 F FK); auto).
      apply N. rewrite <- N3, Z. ring. }
    clearbody p1 p2 q1 q2 p3 q3 p3' q3' x3 y3. clear Eu Ev.
    pose proof (sub_ne _ _ A3) as A3'. pose proof (sub_ne _ _ B3) as B3'. pose proof (sub_ne _ _ D3) as D3'.
    apply (fk_mul_cancel F FK _ _ p3' NP).
    transitivity (tdiv F (p1 * p2 * (- p3') * q3) ((u1 - x3) * (u2 - x3) * (x3 - u3))); [field; auto|].
    rewrite Rc.
    transitivity (tdiv F (q1 * q2 * (q3 * q3')) ((u1 - x3) * (u2 - x3) * (x3 - u3))); [field; auto|].
    rewrite Nx.
    transitivity (tdiv F (q1 * q2 * (p3 * p3')) ((u3 - x3) * (x1 - u3) * (x2 - u3))); [|field; auto].
    rewrite N3. field. repeat split; auto.
Qed.
Lemma chiU_cob i j : uadd (uadd (gU u1 v1 i j) (gU u2 v2 i j)) (chiU (iadd i j)) = uadd (uadd (gU u3 v3 i j) (chiU i)) (chiU j).
Proof.
  apply unit_eq. rewrite !umul_val, !gU_val, !chiU_val, pt_add by auto. apply chi_coboundary.
Qed.
Lemma chiU_0 : chiU iz = uz. Proof. apply unit_eq. rewrite chiU_val, pt_0. reflexivity. Qed.
Lemma chiU_period k i j : chiU (iadd i (imul (r * k)%Z j)) = chiU i.
Proof.
  unfold chiU. assert (Ep : pt (iadd i (imul (r * k)%Z j)) = pt i).
  { rewrite pt_add, (gmul_mul _ _ _ IG), pt_r. apply (sw_add_O_r F). }
  now rewrite Ep.
Qed.
Hypotheses (E1 : ph u1 = u1) (E2 : ph v1 = v1) (E3 : ph u2 = u2) (E4 : ph v2 = v2).
Lemma chiU_frob i : chiU (imul (Z.of_nat q) i) = um (Z.of_nat q) (chiU i).
Proof.
  apply unit_eq. rewrite upow_q, unpow_val, !chiU_val, <- Fr. destruct (pt i) as [|x y] eqn:Ei; cbn [frob_pt chi_at].
  - symmetry. apply ph_1.
  - assert (V : va (Aff u3 v3) x <> 0) by (cbn; apply sub_ne; exact (proj2 (proj2 (va_ne3 i x y Ei)))).
    rewrite ph_div, ph_opp, fr_la, fr_va by (exact V || apply G1 || apply G2). cbn [frob_pt]. rewrite E1, E2, E3, E4.
    assert (E5 : frob_pt F q (Aff u3 v3) = Aff u3 v3).
    { rewrite <- S3, fr_add by (apply G1 || apply G2). cbn [frob_pt]. now rewrite E1, E2, E3, E4. }
    cbn [frob_pt] in E5. now rewrite E5.
Qed.
Theorem ate_P neg n k i : sgnz neg n = (Z.of_nat q + r * k)%Z ->
  fpow F (miller_signed F a neg n (pt i) u1 v1) E * fpow F (miller_signed F a neg n (pt i) u2 v2) E =
  fpow F (miller_signed F a neg n (pt i) u3 v3) E.
Proof.
  intros Et. rewrite <- pow_mul, !signed_val, <- (umul_val F FK) by auto.
  rewrite (ate_chi _ _ _ IG _ _ _ UG _ _ _ chiU chiU_0 chiU_cob (Z.of_nat q) r chiU_frob (fun i k j => chiU_period k i j) neg n k i Et).
  rewrite <- !Ez_val. f_equal. rewrite (gmul_distr _ _ _ UG), kill_r. apply (ag_0_l _ _ _ UG).
Qed.
Theorem optimal_P neg n k i : (forall j u, u = u1 \/ u = u2 \/ u = u3 -> fpow F (va (pt j) u) E = 1) ->
  let s := Z.of_nat q in (sgnz neg n + s - s * s + s * s * s = r * k)%Z ->
  fpow F (optimal_ate F a q neg n (pt i) u1 v1) E * fpow F (optimal_ate F a q neg n (pt i) u2 v2) E =
  fpow F (optimal_ate F a q neg n (pt i) u3 v3) E.
Proof.
  intros KV s Et. rewrite <- pow_mul, !optimal_val, <- (umul_val F FK) by auto.
  rewrite (optimal_chi _ _ _ IG _ _ _ UG _ _ _ chiU chiU_0 chiU_cob (Z.of_nat q) r chiU_frob (fun i k j => chiU_period k i j) neg n k i Et).
  rewrite <- !Ez_val. f_equal. rewrite !(gmul_distr _ _ _ UG Ez), kill_r, kill_v.
  - pose proof UG as G. agroup_eq G.
  - apply kill_v3; rewrite vert_val by auto; apply KV; auto.
Qed.
End Sum.
End Frob.
End Points.
