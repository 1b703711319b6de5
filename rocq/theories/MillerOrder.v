(** Points of prime order under the twelfth-degree pairings: the textbook
    computation is regular, so the pairings return a power of it. *)
From Coq Require Import ZArith List Bool Ring Field Lia Znumtheory.
From Verif Require Import Result Algebra Limbs LimbsProofs FieldOps BigintModel ExtModel ExtSpec ExtProofs ExtFrob ExtInst CurveSpec CurveGroup CurveModel
  CurveProofs FinalExpModel FinalExpProofs MillerSpec PairingModel PairingSpec PairingProofs NeutralProofs MillerProofs MillerTwelve MillerRegular.
Import ListNotations.
Open Scope Z_scope.

(** A prime field has no small multiples of one equal to zero. *)
Section Char.
Context {K : Type} (F : Fops K) (R : ring_ok F) (q : nat).
Hypothesis Hp : prime (Z.of_nat q).
Hypothesis Hc : fnmul F (o1 F) q = o0 F.
Hypothesis H1 : o1 F <> o0 F.
Add Ring MCring : (rk_ring F R).
Let A := ring_add_monoid _ _ _ _ _ _ (rk_ring F R).
Lemma char_ne k : ~ (Z.of_nat q | Z.of_nat k) -> fnmul F (o1 F) k <> o0 F.
Proof.
  intros D E. apply H1.
  destruct (rel_prime_bezout _ _ (prime_rel_prime _ Hp _ D)) as [u v H].
  assert (M0 : forall n j, fnmul F (o1 F) n = o0 F -> fnmul F (o1 F) (n * j) = o0 F).
  { intros n j Hn. rewrite (npow_mul _ _ A), Hn. apply (npow_one _ _ A). }
  assert (S1 : forall n, fnmul F (o1 F) n = o0 F -> fnmul F (o1 F) (1 + n) = o1 F).
  { intros n Hn. rewrite (npow_add _ _ A), Hn, (npow_1 _ _ A). ring. }
  assert (Eq : exists i j, (1 + q * i = k * j)%nat).
  { pose proof (prime_ge_2 _ Hp) as Q2. set (Q := Z.of_nat q) in *. set (x := Z.of_nat k) in *.
    set (v' := v mod Q). assert (V : 0 <= v') by (apply Z.mod_pos_bound; lia).
    assert (C : (x * v') mod Q = 1).
    { unfold v'. rewrite Z.mul_mod_idemp_r by lia. replace (x * v) with (1 + (- u) * Q) by lia.
      rewrite Z.mod_add by lia. apply Z.mod_small. lia. }
    assert (C2 : x * v' = Q * (x * v' / Q) + 1) by (rewrite <- C; apply Z.div_mod; lia).
    assert (I0 : 0 <= x * v' / Q) by (apply Z.div_pos; [apply Z.mul_nonneg_nonneg|]; lia).
    exists (Z.to_nat (x * v' / Q)), (Z.to_nat v'). apply Nat2Z.inj.
    rewrite Nat2Z.inj_add, !Nat2Z.inj_mul, !Z2Nat.id by lia. fold Q x. lia. }
  destruct Eq as (i & j & Eq).
  rewrite <- (S1 (q * i)%nat (M0 q i Hc)), Eq. now apply M0.
Qed.
End Char.

(** A point of prime order r > 3 on y^2 = x^3 + b has non-zero coordinates. *)
Section Coord.
Context {K : Type} (F : Fops K) (FK : field_ok F).
Add Field COField : (fk_field F FK).
Lemma coord_ne_in b r xP yP : oadd F (o1 F) (o1 F) <> o0 F -> sw_disc F (o0 F) b <> o0 F -> prime r -> 3 < r ->
  torsion F (o0 F) b r (Aff xP yP) -> xP <> o0 F /\ yP <> o0 F.
Proof.
  intros two_F HD Pr R3 [O T].
  assert (D2 : ~ (r | 2)) by (intros D; apply Z.divide_pos_le in D; lia).
  assert (D1 : ~ (r | 1)) by (intros D; apply Z.divide_pos_le in D; lia).
  rewrite (zmult_mult F FK _ b two_F HD _ _ O), Z2Pos.id in T by lia.
  assert (NI : Aff xP yP <> Inf) by discriminate.
  assert (E1 : zmult F (o0 F) b 1 (Aff xP yP) = Aff xP yP) by now apply (zmult_1 F FK _ b two_F HD).
  pose proof (zmult_y F FK _ b two_F HD r _ Pr O NI T 1 xP yP D1 D2 E1) as Ny.
  assert (Ny' : yP <> o0 F) by (intros Z; apply Ny; rewrite Z; ring).
  split; auto. intros X.
  apply (zmult_ne F FK _ b two_F HD r _ Pr O NI T 3); [intros D; apply Z.divide_pos_le in D; lia|].
  change 3 with (1 + 1 + 1). rewrite !(zmult_add F FK _ b two_F HD), !E1.
  assert (E2 : sw_add F (o0 F) (Aff xP yP) (Aff xP yP) = sw_opp F (Aff xP yP)).
  { rewrite (proj1 (dbl_slope F FK (o0 F) xP yP (o0 F) Ny ltac:(rewrite X; ring))). unfold third. cbn [sw_opp]. rewrite X. f_equal; ring. }
  rewrite E2. apply (sw_add_opp_l F FK).
Qed.
End Coord.

(** Coordinates of vertical lines. *)
Section Coords.
Context {E : Type} (G : Fops E) (GK : field_ok G) (xi : E).
Notation F12 := (quad_ops (fp3_ops G xi) (rot_mnr G xi)).
Add Ring MCOring : (rk_ring G (fk_ring G GK)).
Lemma w2_coord x : fst (fst (fst (omul F12 (emb12 G x) (omul F12 (w12 G) (w12 G))))) = o0 G.
Proof. rewrite (w12_2 G GK xi). unfold emb12. cbn. ring. Qed.
Lemma w4_coord x i : fst (fst (fst (omul F12 (emb12 G x) (omul F12 (emb12 G i)
  (omul F12 (omul F12 (w12 G) (w12 G)) (omul F12 (w12 G) (w12 G))))))) = o0 G.
Proof. rewrite (w12_4 G GK xi). unfold emb12. cbn. ring. Qed.
End Coords.

Lemma mul_0_r {T} (G : Fops T) (R : ring_ok G) x : omul G x (o0 G) = o0 G.
Proof. rewrite (rk_mul_comm G R). apply (rk_mul_0_l G R). Qed.

Section Twelve.
Context {K : Type} (F : Fops K) (q : nat).
Hypothesis PB : prime_base F q.
Variables (nr2 : K) (m : nat).
Hypothesis Hm : (q = 1 + 6 * m)%nat.
Hypothesis N : nonresidue F q 2 nr2.
Notation F2 := (fp2_ops F nr2).
Variable nr6 : K * K.
Hypothesis N2 : nonresidue F2 (q ^ 2) 2 nr6.
Hypothesis N3 : nonresidue F2 (q ^ 2) 3 nr6.
Notation F12 := (fp12_ops F nr2 nr6 nr6).
Let FK : field_ok F := pb_field F q PB.
Let GK : field_ok F2 := two_field F q PB nr2 m Hm N.
Let TK : field_ok F12 := fp12_is_field F q PB nr2 m Hm N nr6 N2 N3.
Let RF := fk_ring F FK.
Let M := rk_monoid F12 (fk_ring F12 TK).
Notation emb := (emb12 F2).
Notation w := (w12 F2).
Notation uM := (tinv F12 w).
Notation eF := (quad_emb F).
Add Ring MOWring : (rk_ring F12 (fk_ring F12 (fp12_is_field F q PB nr2 m Hm N nr6 N2 N3))).
Add Ring MOGring : (rk_ring F2 (fk_ring F2 (two_field F q PB nr2 m Hm N))).
Add Ring MOFring : (rk_ring F (fk_ring F (pb_field F q PB))).

Lemma q_7 : (7 <= q)%nat.
Proof. pose proof (pb_prime F q PB) as [H _]. destruct m; lia. Qed.
Lemma char_2_3 k : (k = 2 \/ k = 27)%nat -> fnmul F (o1 F) k <> o0 F.
Proof.
  intros H. apply (char_ne F RF q (pb_prime F q PB) (pb_char F q PB) (fk_1_neq_0 F FK)). pose proof q_7 as Q7. intros D.
  assert (D2 : (Z.of_nat q | 2) \/ (Z.of_nat q | 3)).
  { destruct H as [-> | ->]; [left; exact D|]. right. change (Z.of_nat 27) with (3 * (3 * 3)) in D.
    apply (prime_mult _ (pb_prime F q PB)) in D. destruct D as [D|D]; auto. apply (prime_mult _ (pb_prime F q PB)) in D. tauto. }
  destruct D2 as [D2|D2]; apply Z.divide_pos_le in D2; lia.
Qed.
Lemma two_F : oadd F (o1 F) (o1 F) <> o0 F.
Proof. intros E. apply (char_2_3 2); auto. cbn [npow]. etransitivity; [|exact E]. ring. Qed.
Lemma two_F2 : oadd F2 (o1 F2) (o1 F2) <> o0 F2.
Proof. intros E. apply two_F. now injection E. Qed.
Lemma disc_0 {T} (G : Fops T) (R : field_ok G) (e : K -> T) b : (forall x y, e (oadd F x y) = oadd G (e x) (e y)) -> e (o0 F) = o0 G -> e (o1 F) = o1 G ->
  (forall x, e x = o0 G -> x = o0 F) -> b <> o0 G -> sw_disc G (o0 G) b <> o0 G.
Proof.
  intros EA E0 E1 EI Nb. pose proof (fk_ring G R) as RG. 
  assert (EN : forall k, e (fnmul F (o1 F) k) = fnmul G (o1 G) k).
  { induction k as [|k IH]; [exact E0|]. cbn [npow]. now rewrite EA, IH, E1. }
  assert (NM : forall x k, fnmul G x k = omul G (fnmul G (o1 G) k) x).
  { intros x k. induction k as [|k IH]; cbn [npow]; [now rewrite (rk_mul_0_l G RG)|].
    rewrite IH. pose proof (rk_ring G RG) as RT. rewrite (Rdistr_l RT). now rewrite (Rmul_1_l RT). }
  unfold sw_disc. rewrite (NM _ 4%nat), (NM _ 27%nat), !(rk_mul_0_l G RG), (mul_0_r G RG).
  rewrite (Radd_0_l (rk_ring G RG)). apply (fk_mul_neq_0 G R); [|now apply (fk_mul_neq_0 G R)].
  rewrite <- EN. intros Z. apply (char_2_3 27); auto.
Qed.
Lemma disc_F b : b <> o0 F -> sw_disc F (o0 F) b <> o0 F.
Proof. apply (disc_0 F FK (fun x => x)); auto. Qed.
Lemma disc_F2 b : b <> o0 F2 -> sw_disc F2 (o0 F2) b <> o0 F2.
Proof.
  apply (disc_0 F2 GK eF); auto.
  - apply (quad_emb_add F (omul F nr2) RF).
  - intros x E. now injection E.
Qed.

Lemma coord_ne b r xP yP : b <> o0 F -> prime r -> 3 < r -> torsion F (o0 F) b r (Aff xP yP) ->
  xP <> o0 F /\ yP <> o0 F.
Proof. intros Nb. exact (coord_ne_in F FK b r xP yP two_F (disc_F b Nb)). Qed.
Lemma coord_ne2 b r xQ yQ : b <> o0 F2 -> prime r -> 3 < r -> torsion F2 (o0 F2) b r (Aff xQ yQ) ->
  xQ <> o0 F2 /\ yQ <> o0 F2.
Proof. intros Nb. exact (coord_ne_in F2 GK b r xQ yQ two_F2 (disc_F2 b Nb)). Qed.

(** Lines with coefficients in Fp2 do not pass through such a point. *)
Lemma eF_ne x : x <> o0 F -> eF x <> o0 F2.
Proof. intros N0 E. apply N0. now injection E. Qed.
Lemma VN_D xP x : xP <> o0 F -> osub F12 (emb (eF xP)) (omul F12 (emb x) (omul F12 w w)) <> o0 F12.
Proof.
  intros Nx E. apply (eF_ne xP Nx). assert (S2 : emb (eF xP) = omul F12 (emb x) (omul F12 w w)).
  { transitivity (oadd F12 (osub F12 (emb (eF xP)) (omul F12 (emb x) (omul F12 w w))) (omul F12 (emb x) (omul F12 w w))); [ring|]. rewrite E. ring. }
  apply (f_equal (fun c => fst (fst (fst c)))) in S2. etransitivity; [exact S2|]. exact (w2_coord F2 GK nr6 x).
Qed.
Lemma VN_M xP x : xP <> o0 F -> osub F12 (emb (eF xP)) (omul F12 (emb x) (omul F12 uM uM)) <> o0 F12.
Proof.
  intros Nx E. apply (eF_ne xP Nx). assert (S2 : emb (eF xP) = omul F12 (emb x) (omul F12 uM uM)).
  { transitivity (oadd F12 (osub F12 (emb (eF xP)) (omul F12 (emb x) (omul F12 uM uM))) (omul F12 (emb x) (omul F12 uM uM))); [ring|]. rewrite E. ring. }
  pose proof (u_2 F2 GK nr6 TK (nr6_ne F q nr2 nr6 N2)) as U2.
  rewrite (U2 : omul F12 uM uM = _) in S2. clear U2.
  apply (f_equal (fun c => fst (fst (fst c)))) in S2. etransitivity; [exact S2|]. exact (w4_coord F2 GK nr6 x _).
Qed.
Lemma VN_0 v x : v <> o0 F12 -> x <> o0 F2 -> osub F12 (emb (eF (o0 F))) (omul F12 (emb x) (omul F12 v v)) <> o0 F12.
Proof.
  intros Nv Nx E. assert (Z : omul F12 (emb x) (omul F12 v v) = o0 F12).
  { transitivity (osub F12 (emb (eF (o0 F))) (osub F12 (emb (eF (o0 F))) (omul F12 (emb x) (omul F12 v v)))); [ring|]. rewrite E.
    change (emb (eF (o0 F))) with (o0 F12). ring. }
  revert Z. apply (fk_mul_neq_0 F12 TK); [|now apply (fk_mul_neq_0 F12 TK)].
  intros Z. apply Nx. exact (f_equal (fun c => fst (fst (fst c))) Z).
Qed.
Lemma den_001 : jac_den F (o0 F, o1 F, o1 F) = Aff (o0 F) (o1 F).
Proof.
  unfold jac_den. rewrite (proj2 (rk_eqb_neq F (fk_ring F FK) _ _) (fk_1_neq_0 F FK)).
  assert (N1 : omul F (o1 F) (o1 F) <> o0 F) by (apply (fk_mul_neq_0 F FK); apply (fk_1_neq_0 F FK)).
  f_equal; apply (tdiv_eq F FK); try (now apply (fk_mul_neq_0 F FK); [|apply (fk_1_neq_0 F FK)]); auto; ring.
Qed.
Lemma LN_D xP yP l x y : yP <> o0 F ->
  line_val F12 (omul F12 (emb l) w) (omul F12 (emb x) (omul F12 w w)) (omul F12 (emb y) (omul F12 (omul F12 w w) w)) (emb (eF xP)) (emb (eF yP)) <> o0 F12.
Proof.
  intros Ny E. pose proof (line_D F2 GK nr6 TK (o1 F2) l x y (eF xP) (eF yP)) as L.
  apply (eF_ne yP Ny). apply (f_equal (fun c => snd (fst (snd c)))) in L. cbn [fst snd] in L.
  transitivity (omul F2 (eF yP) (o1 F2)); [ring|]. rewrite L. clear L.
  change (quad_ops (fp3_ops F2 nr6) (rot_mnr F2 nr6)) with F12. rewrite E, (mul_0_r F12 (fk_ring F12 TK)). reflexivity.
Qed.
Lemma LN_M xP yP l x y : yP <> o0 F ->
  line_val F12 (omul F12 (emb l) uM) (omul F12 (emb x) (omul F12 uM uM)) (omul F12 (emb y) (omul F12 (omul F12 uM uM) uM)) (emb (eF xP)) (emb (eF yP)) <> o0 F12.
Proof.
  intros Ny E. pose proof (line_M F2 GK nr6 TK (o1 F2) l x y (eF xP) (eF yP)) as L.
  apply (eF_ne yP Ny). apply (f_equal (fun c => fst (fst (fst c)))) in L. cbn [fst snd] in L.
  assert (Z : omul F2 (eF yP) (omul F2 nr6 (o1 F2)) = o0 F2).
  { etransitivity; [exact L|]. clear L. change (quad_ops (fp3_ops F2 nr6) (rot_mnr F2 nr6)) with F12. rewrite E, (mul_0_r F12 (fk_ring F12 TK)). reflexivity. }
  apply (fk_mul_0 F2 GK) in Z. destruct Z as [Z|Z]; auto.
  exfalso. apply (nr6_ne F q nr2 nr6 N2). rewrite <- Z. ring.
Qed.

(** The Frobenius is a homomorphism. *)
Lemma frob_mult b n A : sw_disc F12 (o0 F12) b <> o0 F12 -> sw_on F12 (o0 F12) b A ->
  frob_pt F12 q (mult F12 (o0 F12) n A) = mult F12 (o0 F12) n (frob_pt F12 q A).
Proof.
  intros HD O. pose proof (frob_add F12 (fk_ring F12 TK) q (pb_prime F q PB)) as FA.
  assert (C12 : fnmul F12 (o1 F12) q = o0 F12).
  { assert (C2 : fnmul F2 (o1 F2) q = o0 F2) by (apply (quad_char F (omul F nr2) RF); exact (pb_char F q PB)).
    transitivity (emb (fnmul F2 (o1 F2) q)); [|now rewrite C2]. generalize q. intros k.
    induction k as [|k IH]; [reflexivity|]. cbn [npow]. rewrite IH. symmetry. exact (emb12_add F2 GK nr6 _ _). }
  specialize (FA C12 1%nat). rewrite Nat.pow_1_r in FA.
  set (ph := fun x => fpow F12 x q).
  assert (P0 : ph (o0 F12) = o0 F12).
  { apply (npow_zero _ _ _ _ _ _ (rk_ring F12 (fk_ring F12 TK))). pose proof q_7. lia. }
  assert (PM : forall x y, ph (omul F12 x y) = omul F12 (ph x) (ph y)) by (intros; apply (frob_mul F12 (fk_ring F12 TK))).
  assert (PN : forall x, ph x = o0 F12 -> x = o0 F12).
  { unfold ph. intros x. generalize q. intros k. induction k as [|k IH]; cbn [npow]; intros E.
    - exfalso. now apply (fk_1_neq_0 F12 TK).
    - apply (fk_mul_0 F12 TK) in E. tauto. }
  assert (PS : forall x y, ph (osub F12 x y) = osub F12 (ph x) (ph y)).
  { intros x y. assert (E : oadd F12 (ph (osub F12 x y)) (ph y) = ph x).
    { unfold ph. rewrite <- FA. f_equal. ring. }
    rewrite <- E. ring. }
  assert (PI : forall x y, ph x = ph y -> x = y).
  { intros x y E. apply (rk_sub_0 F12 (fk_ring F12 TK)). apply PN. rewrite PS, E. ring. }
  assert (E : forall B, frob_pt F12 q B = psi F12 ph (o1 F12) B).
  { intros [|x y]; cbn [frob_pt psi]; auto. unfold ph. f_equal; ring. }
  rewrite !E.
  rewrite (psi_mult F12 TK F12 TK ph (o1 F12) P0 FA PS PM PI (fk_1_neq_0 F12 TK) (o0 F12) b).
  - f_equal. unfold tw_a. rewrite P0. ring.
  - intros Z. apply two_F2. change (o1 F12) with (emb (o1 F2)) in Z. change (o0 F12) with (emb (o0 F2)) in Z.
    apply (emb12_inj F2). rewrite <- Z. exact (emb12_add F2 GK nr6 _ _).
  - exact HD.
  - exact O.
Qed.

(** *** The pairings *)
Variables (t2 : list K) (t61 t62 t12 : list (K * K)).
Hypothesis T2 : frob_table F q 2 1 2 nr2 t2.
Hypothesis T61 : frob_table F2 q 3 1 6 nr6 t61.
Hypothesis T62 : frob_table F2 q 3 2 6 nr6 t62.
Hypothesis T12 : frob_table F2 q 6 1 12 nr6 t12.
Variables (zz : list Z) (z_neg : bool).
Hypothesis Lz : limbs zz.
Variables (lc : bigint) (neg : bool) (n : positive).
Hypothesis Llc : limbs lc.
Hypothesis Hlc : val lc = Z.pos n.
Variables (b : K) (twist_b : K * K) (r : Z).
Hypothesis Nb : b <> o0 F.
Hypothesis Nt : twist_b <> o0 F2.
Hypothesis Pr : prime r.
Hypothesis R3 : 3 < r.
Hypothesis Ln : Z.pos n < r.
Lemma r_2 : ~ (r | 2). Proof. intros D. apply Z.divide_pos_le in D; lia. Qed.
Lemma twist_ord x y : torsion F2 (o0 F2) twist_b r (Aff x y) -> zmult F2 (o0 F2) twist_b r (Aff x y) = Inf.
Proof.
  intros [O T]. rewrite (zmult_mult F2 GK _ _ two_F2 (disc_F2 _ Nt) _ _ O), Z2Pos.id in T by lia. exact T.
Qed.
(** The point may be any (xP, yP) with yP non-zero that no vertical line
    through a multiple of Q meets. *)
Theorem bls_order_at P Q xP yP x y : jac_den F P = Aff xP yP -> yP <> o0 F ->
  (forall k c d, zmult F2 (o0 F2) twist_b k (Aff x y) = Aff c d -> osub F12 (emb (eF xP)) (omul F12 (emb c) (omul F12 uM uM)) <> o0 F12) ->
  jac_den F2 Q = Aff x y -> torsion F2 (o0 F2) twist_b r (Aff x y) ->
  let f := miller_signed F12 (o0 F12) neg n (psi F12 emb uM (Aff x y)) (emb (eF xP)) (emb (eF yP)) in
  f <> o0 F12 /\
  bls_reduced_pairing F nr2 nr6 nr6 t2 t61 t62 t12 nr6 twist_b lc neg zz z_neg P Q =
  bls_final_exponentiation F nr2 nr6 nr6 t2 t61 t62 t12 zz z_neg f.
Proof.
  intros DP Ny VN DQ HQ.
  pose proof (ord_signed F2 GK F12 TK emb uM (emb12_0 F2 nr6) (emb12_add F2 GK nr6) (emb12_sub F2 GK nr6) (emb12_mul F2 GK nr6) (emb12_inj F2)
    (uM_0 F q PB nr2 m Hm N nr6 N2 N3) (o0 F2) twist_b two_F2 (disc_F2 _ Nt) r (Aff x y) (emb (eF xP)) (emb (eF yP)) Pr r_2 (proj1 HQ)
    ltac:(discriminate) (twist_ord x y HQ) VN (fun l x y => LN_M xP yP l x y Ny) neg n Ln) as [Rg Nf].
  rewrite (tw_a_0 F q PB nr2 m Hm N nr6 N2 N3) in Rg, Nf. split; [exact Nf|].
  exact (bls_textbook F q PB nr2 m Hm N nr6 N2 N3 t2 t61 t62 t12 T2 T61 T62 T12 zz z_neg Lz lc neg n Llc Hlc twist_b P Q xP yP x y DP DQ (proj1 HQ) Rg).
Qed.
Theorem bls_order P Q xP yP x y : jac_den F P = Aff xP yP -> torsion F (o0 F) b r (Aff xP yP) -> jac_den F2 Q = Aff x y -> torsion F2 (o0 F2) twist_b r (Aff x y) ->
  let f := miller_signed F12 (o0 F12) neg n (psi F12 emb uM (Aff x y)) (emb (eF xP)) (emb (eF yP)) in
  f <> o0 F12 /\
  bls_reduced_pairing F nr2 nr6 nr6 t2 t61 t62 t12 nr6 twist_b lc neg zz z_neg P Q =
  bls_final_exponentiation F nr2 nr6 nr6 t2 t61 t62 t12 zz z_neg f.
Proof.
  intros DP TP. destruct (coord_ne b r xP yP Nb Pr R3 TP) as [Nx Ny].
  exact (bls_order_at P Q xP yP x y DP Ny (fun k c d _ => VN_M xP c Nx)).
Qed.
(** No multiple of a point of order r on the twist has x = 0. *)
Lemma twist_x x y k c d : torsion F2 (o0 F2) twist_b r (Aff x y) -> zmult F2 (o0 F2) twist_b k (Aff x y) = Aff c d -> c <> o0 F2.
Proof.
  intros HQ E. pose proof (disc_F2 _ Nt) as HD2. pose proof (zmult_on F2 GK (o0 F2) twist_b k (Aff x y)) as O.
  assert (T : torsion F2 (o0 F2) twist_b r (Aff c d)).
  { split; [now rewrite <- E|]. rewrite E in O. rewrite (zmult_mult F2 GK _ _ two_F2 HD2 _ _ O), Z2Pos.id by lia.
    rewrite <- E, (zmult_zmult F2 GK _ _ two_F2 HD2). apply (zmult_div F2 GK _ _ two_F2 HD2 r _ (twist_ord x y HQ)). exists k. apply Z.mul_comm. }
  exact (proj1 (coord_ne2 twist_b r c d Nt Pr R3 T)).
Qed.
(** The neutral element of G1 stands for (0, 1) in the loop. *)
Theorem bls_left_exact P Q x y : jac_is_zero F P = true -> jac_den F2 Q = Aff x y -> torsion F2 (o0 F2) twist_b r (Aff x y) ->
  bls_reduced_pairing F nr2 nr6 nr6 t2 t61 t62 t12 nr6 twist_b lc neg zz z_neg P Q = Ok (o1 F12).
Proof.
  intros HP DQ HQ.
  destruct (bls_left F q PB nr2 m Hm N nr6 N2 N3 t2 t61 t62 t12 T2 T61 T62 T12 zz z_neg Lz nr6 twist_b lc neg Llc P Q HP) as [(f & _ & _ & E)|[_ E]]; [exact E|].
  exfalso. destruct (bls_order_at (o0 F, o1 F, o1 F) Q (o0 F) (o1 F) x y den_001 (fk_1_neq_0 F FK)
    (fun k c d Ek => VN_0 uM c (uM_0 F q PB nr2 m Hm N nr6 N2 N3) (twist_x x y k c d HQ Ek)) DQ HQ) as [Nf Ef].
  rewrite (bls_final F q PB nr2 m Hm N nr6 N2 N3 t2 t61 t62 t12 T2 T61 T62 T12 zz z_neg Lz _ Nf) in Ef.
  unfold bls_reduced_pairing, bls_pairing in E, Ef. rewrite (g1_zero F P HP) in E. rewrite (g1_at F q PB _ _ _ den_001) in Ef. congruence.
Qed.

Variables qX qY : K * K.
Hypothesis HqX : omul F12 (emb qX) (omul F12 w w) = fpow F12 (omul F12 w w) q.
Hypothesis HqY : omul F12 (emb qY) (omul F12 (omul F12 w w) w) = fpow F12 (omul F12 (omul F12 w w) w) q.
Let s := Z.of_nat q.
Let t := sgn neg n.
Hypothesis Ds : ~ (r | s).
Hypothesis D1 : ~ (r | t - s).
Hypothesis D2 : ~ (r | t + s).
Hypothesis D3 : ~ (r | t + s - s * s).
Hypothesis D4 : ~ (r | t + s + s * s).
Theorem alt_order_at P Q xP yP x y : jac_den F P = Aff xP yP -> yP <> o0 F ->
  (forall k c d, zmult F2 (o0 F2) twist_b k (Aff x y) = Aff c d -> osub F12 (emb (eF xP)) (omul F12 (emb c) (omul F12 w w)) <> o0 F12) ->
  jac_den F2 Q = Aff x y -> torsion F2 (o0 F2) twist_b r (Aff x y) ->
  frob_eigen F12 (o0 F12) q (psi F12 emb w (Aff x y)) ->
  let f := optimal_ate F12 (o0 F12) q neg n (psi F12 emb w (Aff x y)) (emb (eF xP)) (emb (eF yP)) in
  f <> o0 F12 /\
  alt_reduced_pairing F nr2 nr6 nr6 t2 t61 t62 t12 nr6 twist_b qX qY lc neg zz z_neg P Q =
  bn_final_exponentiation F nr2 nr6 nr6 t2 t61 t62 t12 zz z_neg f.
Proof.
  intros DP Ny VN DQ HQ EV. unfold frob_eigen in EV. fold s in EV.
  pose proof q_7 as Q7. pose proof (tw_a_0 F q PB nr2 m Hm N nr6 N2 N3 w) as A0. pose proof (w12_0 F2 GK nr6) as W0. pose proof (disc_F2 _ Nt) as HD2.
  pose proof (proj1 HQ) as OQ. change (quad_ops (fp3_ops F2 nr6) (rot_mnr F2 nr6)) with F12 in W0.
  assert (PZ : forall A k, sw_on F2 (o0 F2) twist_b A -> mult F12 (o0 F12) k (psi F12 emb w A) = psi F12 emb w (mult F2 (o0 F2) k A)).
  { intros A k OA. symmetry. rewrite <- A0.
    exact (psi_mult F2 GK F12 TK emb w (emb12_0 F2 nr6) (emb12_add F2 GK nr6) (emb12_sub F2 GK nr6) (emb12_mul F2 GK nr6) (emb12_inj F2)
      W0 (o0 F2) twist_b two_F2 HD2 k A OA). }
  assert (Es : Z.pos (Z.to_pos s) = s) by (apply Z2Pos.id; unfold s; lia).
  assert (E1 : frob_pt F12 q (psi F12 emb w (Aff x y)) = psi F12 emb w (zmult F2 (o0 F2) twist_b s (Aff x y))).
  { rewrite EV, PZ by auto. now rewrite (zmult_mult F2 GK _ _ two_F2 HD2 _ _ OQ), Es. }
  assert (E2 : frob_pt F12 q (psi F12 emb w (zmult F2 (o0 F2) twist_b s (Aff x y))) = psi F12 emb w (zmult F2 (o0 F2) twist_b (s * s) (Aff x y))).
  { rewrite <- E1, EV at 1. rewrite (frob_mult (tws_b F12 emb w twist_b)).
    - assert (OM : sw_on F2 (o0 F2) twist_b (mult F2 (o0 F2) (Z.to_pos s) (Aff x y)))
        by (rewrite (zmult_mult F2 GK _ _ two_F2 HD2 _ _ OQ); apply (zmult_on F2 GK)).
      rewrite EV, (PZ _ _ OQ), (PZ _ _ OM), (zmult_mult F2 GK _ _ two_F2 HD2 _ _ OM), (zmult_mult F2 GK _ _ two_F2 HD2 _ _ OQ), Es.
      now rewrite (zmult_zmult F2 GK _ _ two_F2 HD2).
    - pose proof (psi_disc F2 F12 TK emb w (emb12_0 F2 nr6) (emb12_add F2 GK nr6) (emb12_mul F2 GK nr6) (emb12_inj F2) W0 _ _ HD2) as H. rewrite A0 in H. exact H.
    - pose proof (psi_on F2 F12 TK emb w (emb12_add F2 GK nr6) (emb12_mul F2 GK nr6) _ _ _ OQ) as H. rewrite A0 in H. exact H. }
  pose proof (ord_optimal F2 GK F12 TK emb w (emb12_0 F2 nr6) (emb12_add F2 GK nr6) (emb12_sub F2 GK nr6) (emb12_mul F2 GK nr6) (emb12_inj F2)
    W0 (o0 F2) twist_b two_F2 HD2 r (Aff x y) (emb (eF xP)) (emb (eF yP)) Pr r_2 OQ
    ltac:(discriminate) (twist_ord x y HQ) VN (fun l x y => LN_D xP yP l x y Ny) q neg n s Ln E1 E2 Ds D1 D2 D3 D4) as [Rg Nf].
  rewrite A0 in Rg, Nf. split; [exact Nf|].
  exact (alt_textbook F q PB nr2 m Hm N nr6 N2 N3 t2 t61 t62 t12 T2 T61 T62 T12 zz z_neg Lz lc neg n Llc Hlc twist_b qX qY HqX HqY P Q xP yP x y DP DQ OQ Rg).
Qed.
Theorem alt_order P Q xP yP x y : jac_den F P = Aff xP yP -> torsion F (o0 F) b r (Aff xP yP) -> jac_den F2 Q = Aff x y -> torsion F2 (o0 F2) twist_b r (Aff x y) ->
  frob_eigen F12 (o0 F12) q (psi F12 emb w (Aff x y)) ->
  let f := optimal_ate F12 (o0 F12) q neg n (psi F12 emb w (Aff x y)) (emb (eF xP)) (emb (eF yP)) in
  f <> o0 F12 /\
  alt_reduced_pairing F nr2 nr6 nr6 t2 t61 t62 t12 nr6 twist_b qX qY lc neg zz z_neg P Q =
  bn_final_exponentiation F nr2 nr6 nr6 t2 t61 t62 t12 zz z_neg f.
Proof.
  intros DP TP. destruct (coord_ne b r xP yP Nb Pr R3 TP) as [Nx Ny].
  exact (alt_order_at P Q xP yP x y DP Ny (fun k c d _ => VN_D xP c Nx)).
Qed.
Theorem alt_left_exact P Q x y : jac_is_zero F P = true -> jac_den F2 Q = Aff x y -> torsion F2 (o0 F2) twist_b r (Aff x y) ->
  frob_eigen F12 (o0 F12) q (psi F12 emb w (Aff x y)) ->
  alt_reduced_pairing F nr2 nr6 nr6 t2 t61 t62 t12 nr6 twist_b qX qY lc neg zz z_neg P Q = Ok (o1 F12).
Proof.
  intros HP DQ HQ EV.
  destruct (alt_left F q PB nr2 m Hm N nr6 N2 N3 t2 t61 t62 t12 T2 T61 T62 T12 zz z_neg Lz nr6 twist_b qX qY lc neg Llc P Q HP) as [(f & _ & _ & E)|[_ E]]; [exact E|].
  exfalso. destruct (alt_order_at (o0 F, o1 F, o1 F) Q (o0 F) (o1 F) x y den_001 (fk_1_neq_0 F FK)
    (fun k c d Ek => VN_0 w c (w12_0 F2 GK nr6) (twist_x x y k c d HQ Ek)) DQ HQ EV) as [Nf Ef].
  rewrite (bn_final F q PB nr2 m Hm N nr6 N2 N3 t2 t61 t62 t12 T2 T61 T62 T12 zz z_neg Lz _ Nf) in Ef.
  unfold alt_reduced_pairing, alt_pairing in E, Ef. rewrite (g1_zero F P HP) in E. rewrite (g1_at F q PB _ _ _ den_001) in Ef. congruence.
Qed.
End Twelve.
