(** The final exponentiations raise to a fixed power. *)
From Coq Require Import ZArith Znumtheory List Bool Lia Ring Field Arith.
From Verif Require Import Result Limbs LimbsProofs Algebra NumTheory FieldOps BigintModel AlgorithmsModel AlgorithmsProofs
  WnafModel WnafProofs ExtModel ExtSpec ExtProofs ExtFrob ExtCyc ExtInst FinalExpModel.
Import ListNotations.
Open Scope Z_scope.

Section Order.
Context {T : Type} (F : Fops T) (R : ring_ok F).
Let M := rk_monoid F R.
Notation "x ^^ k" := (zpow (o1 F) (omul F) x k) (at level 30).
Variable N : Z.
Hypothesis HN : 0 < N.

(** Integer powers of elements whose order divides N. *)
Definition cp (x : T) (k : Z) : T := x ^^ (k mod N).
Definition ord (x : T) : Prop := x ^^ N = o1 F.

Lemma ord_mod x k : ord x -> 0 <= k -> x ^^ k = cp x k.
Proof.
  intros H Hk. unfold cp. rewrite (Z.div_mod k N) at 1 by lia.
  pose proof (Z.mod_pos_bound k N HN). pose proof (Z.div_pos k N Hk HN).
  rewrite (zpow_add _ _ M), (zpow_mul _ _ M) by nia.
  unfold ord in H. rewrite H, (zpow_one _ _ M). apply (ml_1_l _ _ M).
Qed.
Lemma cp_ord x k : ord x -> ord (cp x k).
Proof.
  intros H. unfold ord, cp. pose proof (Z.mod_pos_bound k N HN).
  rewrite <- (zpow_mul _ _ M), Z.mul_comm, (zpow_mul _ _ M) by lia. rewrite H. apply (zpow_one _ _ M).
Qed.
Lemma cp_eq x a b : (N | a - b) -> cp x a = cp x b.
Proof.
  intros [k E]. unfold cp. f_equal. replace a with (b + k * N) by lia. apply Z.mod_add. lia.
Qed.
Lemma cp_add x a b : ord x -> omul F (cp x a) (cp x b) = cp x (a + b).
Proof.
  intros H. unfold cp at 1 2. pose proof (Z.mod_pos_bound a N HN). pose proof (Z.mod_pos_bound b N HN).
  rewrite <- (zpow_add _ _ M), (ord_mod x) by (auto; lia). apply cp_eq.
  exists (- (a / N) - b / N). rewrite (Z.div_mod a N) at 2 by lia. rewrite (Z.div_mod b N) at 2 by lia. ring.
Qed.
Lemma cp_pow x a k : ord x -> 0 <= k -> cp x a ^^ k = cp x (k * a).
Proof.
  intros H Hk. unfold cp at 1. pose proof (Z.mod_pos_bound a N HN).
  rewrite <- (zpow_mul _ _ M), (ord_mod x) by (auto; nia). apply cp_eq.
  exists (- (k * (a / N))). rewrite (Z.div_mod a N) at 2 by lia. ring.
Qed.
Lemma cp_0 x : cp x 0 = o1 F.
Proof. unfold cp. rewrite Z.mod_0_l by lia. reflexivity. Qed.
Lemma cp_1 x : ord x -> cp x 1 = x.
Proof. intros H. rewrite <- ord_mod by (auto; lia). apply (zpow_1 _ _ M). Qed.
Lemma cp_opp x a y : ord x -> omul F (cp x a) y = o1 F -> y = cp x (- a).
Proof.
  intros H E. rewrite <- (ml_1_l _ _ M y), <- (cp_0 x).
  replace 0 with (- a + a) by lia. rewrite <- cp_add by auto.
  rewrite <- (ml_assoc _ _ M), E. apply (ml_1_r _ _ M).
Qed.

(** An exponent L with L r = c N, c prime to r, is c times N/r. *)
Lemma cp_cofactor x L r c : ord x -> 0 < r -> 0 <= c -> Z.gcd c r = 1 -> L * r = c * N ->
  (r | N) /\ cp x L = x ^^ (c * (N / r)).
Proof.
  intros H Hr Hc G E.
  assert (D : (r | N)).
  { apply (Z.gauss r c N); [exists L; lia|now rewrite Z.gcd_comm]. }
  split; [exact D|]. destruct D as [h Eh].
  assert (EL : L = c * h) by (apply (Z.mul_reg_r _ _ r); [lia|]; rewrite E, Eh; ring).
  replace (N / r) with h by (rewrite Eh, Z.div_mul by lia; reflexivity). rewrite (ord_mod x) by (auto; nia). now rewrite EL.
Qed.
End Order.

Section Quot.
Context {T : Type} (F : Fops T) (FK : field_ok F).
Let R : ring_ok F := fk_ring F FK.
Let M := rk_monoid F R.
Add Ring Kquot : (rk_ring F (fk_ring F FK)).
Notation "x ^^ k" := (zpow (o1 F) (omul F) x k) (at level 30).
Lemma zpow_pred f g a : omul F f g = o1 F -> 1 <= a -> omul F (f ^^ a) g = f ^^ (a - 1).
Proof.
  intros E Ha. replace a with ((a - 1) + 1) at 1 by lia.
  rewrite (zpow_add _ _ M), (zpow_1 _ _ M), <- (ml_assoc _ _ M), E by lia. apply (ml_1_r _ _ M).
Qed.
Lemma zpow_fix f a : f <> o0 F -> 1 <= a -> f ^^ a = f -> f ^^ (a - 1) = o1 F.
Proof.
  intros H Ha E. destruct (fk_inv F FK f H) as (g & _ & G).
  rewrite <- (zpow_pred f g a G Ha), E. exact G.
Qed.
Lemma zpow_neq_0 f a : f <> o0 F -> f ^^ a <> o0 F.
Proof. intros H. now apply (fk_pow_neq_0 F FK). Qed.
End Quot.

(** The addition chains. *)
Section TwelveChain.
Context {K : Type} (F : Fops K) (q : nat).
Hypothesis PB : prime_base F q.
Variables (nr2 : K) (m : nat).
Hypothesis Hm : (q = 1 + 6 * m)%nat.
Hypothesis N : nonresidue F q 2 nr2.
Notation F2 := (fp2_ops F nr2).
Variable nr6 : K * K.
Hypothesis N2 : nonresidue F2 (q ^ 2) 2 nr6.
Hypothesis N3 : nonresidue F2 (q ^ 2) 3 nr6.
Notation F12 := (fp12_ops F nr2 nr6 nr6).
Variables (t2 : list K) (t61 t62 t12 : list (K * K)).
Hypothesis T2 : frob_table F q 2 1 2 nr2 t2.
Hypothesis T61 : frob_table F2 q 3 1 6 nr6 t61.
Hypothesis T62 : frob_table F2 q 3 2 6 nr6 t62.
Hypothesis T12 : frob_table F2 q 6 1 12 nr6 t12.
Variables (z : list Z) (z_neg : bool).
Hypothesis Lz : limbs z.

Let p := Z.of_nat q.
Let N12 := p ^ 4 - p ^ 2 + 1.
Let FK : field_ok F12 := fp12_is_field F q PB nr2 m Hm N nr6 N2 N3.
Let R : ring_ok F12 := fk_ring F12 FK.
Let M := rk_monoid F12 R.
Notation "x ^^ k" := (zpow (o1 F12) (omul F12) x k) (at level 30).
Let csqr := fp12_cyclotomic_squared F2 nr6.
Let uinv := quad_unitary_inverse (fp6_3over2_ops F nr2 nr6).
Let frob (k : Z) x := fp12_frobenius F nr2 t2 t61 t62 t12 k x.
Let cexp x e := fp12_cyclotomic_exp F nr2 nr6 nr6 x e.
Notation C := (cp F12 N12).
Notation ok := (ord F12 N12).

Lemma p_pos : 1 < p.
Proof. pose proof (pb_prime F q PB) as [H _]. exact H. Qed.
Lemma N12_pos : 0 < N12.
Proof. pose proof p_pos. unfold N12. assert (p ^ 4 = p ^ 2 * p ^ 2) by ring. nia. Qed.
Lemma to_nat_pow k : 0 <= k -> (q ^ Z.to_nat k)%nat = Z.to_nat (p ^ k).
Proof.
  intros Hk. apply Nat2Z.inj. rewrite Nat2Z.inj_pow. fold p. rewrite !Z2Nat.id; auto.
  apply Z.pow_nonneg. pose proof p_pos. lia.
Qed.
Lemma ok_cyc x : ok x <-> cyclotomic12 F12 q x.
Proof.
  unfold ord, cyclotomic12, zpow. replace (Z.to_nat N12) with (q ^ 4 - q ^ 2 + 1)%nat; [tauto|].
  pose proof p_pos. unfold N12. assert (p ^ 4 = p ^ 2 * p ^ 2) by ring. assert (0 <= p ^ 2 <= p ^ 4) by nia.
  rewrite Z2Nat.inj_add, Z2Nat.inj_sub by lia.
  rewrite <- !to_nat_pow by lia. reflexivity.
Qed.
Lemma nr6_0 : nr6 <> o0 F2.
Proof. apply N2. Qed.
Lemma frob_pow k x : 0 <= k -> frob k x = x ^^ (p ^ k).
Proof.
  intros Hk. unfold frob, zpow. rewrite <- to_nat_pow by lia.
  apply (fp12_frob_spec F q PB); auto using nr6_0.
  - exact (two_square F q PB nr2 m Hm N).
  - now exists m.
Qed.
Lemma C_sqr x a : ok x -> csqr (C x a) = C x (2 * a).
Proof.
  intros H. unfold csqr. rewrite (fp12_cyc_squared F q PB nr2 m Hm N nr6 N2 N3).
  - rewrite (cp_add F12 R N12 N12_pos) by auto. f_equal. lia.
  - apply ok_cyc. now apply (cp_ord F12 R N12 N12_pos).
Qed.
Lemma C_uinv x a : ok x -> uinv (C x a) = C x (- a).
Proof.
  intros H. unfold uinv. apply (cp_opp F12 R N12 N12_pos); auto.
  apply (fp12_cyc_unitary F q PB nr2 m Hm N nr6 N2 N3).
  apply ok_cyc. now apply (cp_ord F12 R N12 N12_pos).
Qed.
Lemma C_frob x k a : ok x -> 0 <= k -> frob k (C x a) = C x (p ^ k * a).
Proof.
  intros H Hk. rewrite frob_pow by auto. apply (cp_pow F12 R N12 N12_pos); auto.
  apply Z.pow_nonneg. pose proof p_pos. lia.
Qed.
Lemma C_exp x e a : ok x -> limbs e -> cexp (C x a) e = C x (val e * a).
Proof.
  intros H L. unfold cexp. rewrite (fp12_cyc_exp F q PB nr2 m Hm N nr6 N2 N3); auto.
  - apply (cp_pow F12 R N12 N12_pos); auto. now apply val_nonneg.
  - apply ok_cyc. now apply (cp_ord F12 R N12 N12_pos).
Qed.
Lemma C_mul x a b : ok x -> omul F12 (C x a) (C x b) = C x (a + b).
Proof. apply (cp_add F12 R N12 N12_pos). Qed.

(** the signed parameter *)
Let zs := if z_neg then - val z else val z.

Lemma C_bn_exp x a : ok x -> bn_exp_by_neg_z F nr2 nr6 nr6 z z_neg (C x a) = C x (- zs * a).
Proof.
  intros H. unfold bn_exp_by_neg_z, zs. fold (cexp (C x a) z). rewrite C_exp by auto.
  destruct z_neg; cbn [negb].
  - f_equal. ring.
  - fold uinv. rewrite C_uinv by auto. f_equal. ring.
Qed.
Lemma C_bls_exp x a : ok x -> bls_exp_by_z F nr2 nr6 nr6 z z_neg (C x a) = C x (zs * a).
Proof.
  intros H. unfold bls_exp_by_z, zs. fold (cexp (C x a) z). rewrite C_exp by auto.
  destruct z_neg.
  - fold uinv. rewrite C_uinv by auto. f_equal. ring.
  - reflexivity.
Qed.

(** alt_bn128_pairing.cpp:156-163 *)
Definition bn_exponent : Z :=
  p ^ 3 * (12 * zs ^ 3 + 6 * zs ^ 2 + 4 * zs - 1) + p ^ 2 * (12 * zs ^ 3 + 6 * zs ^ 2 + 6 * zs) +
  p * (12 * zs ^ 3 + 6 * zs ^ 2 + 4 * zs) + (12 * zs ^ 3 + 12 * zs ^ 2 + 6 * zs + 1).
(** bls12_381_pairing.cpp *)
Definition bls_exponent : Z :=
  p ^ 3 * (zs ^ 2 - 2 * zs + 1) + p ^ 2 * (zs ^ 3 - 2 * zs ^ 2 + zs) +
  p * (zs ^ 4 - 2 * zs ^ 3 + 2 * zs - 1) + (zs ^ 5 - 2 * zs ^ 4 + 2 * zs ^ 2 - zs + 3).

Lemma bn_last x : ok x -> bn_last_chunk F nr2 nr6 nr6 t2 t61 t62 t12 z z_neg x = C x bn_exponent.
Proof.
  intros H. transitivity (bn_last_chunk F nr2 nr6 nr6 t2 t61 t62 t12 z z_neg (C x 1)).
  { now rewrite (cp_1 F12 R N12 N12_pos) by auto. }
  unfold bn_last_chunk. cbv zeta. fold csqr uinv.
  repeat match goal with |- context [fp12_frobenius F nr2 t2 t61 t62 t12 ?k ?x] => fold (frob k x) end.
  repeat (rewrite ?C_bn_exp, ?C_sqr, ?C_uinv, ?C_mul by auto).
  rewrite !C_frob by (auto; lia). rewrite !C_mul by auto.
  f_equal. unfold bn_exponent. ring.
Qed.
Lemma bls_last x : ok x -> bls_last_chunk F nr2 nr6 nr6 t2 t61 t62 t12 z z_neg x = C x bls_exponent.
Proof.
  intros H. transitivity (bls_last_chunk F nr2 nr6 nr6 t2 t61 t62 t12 z z_neg (C x 1)).
  { now rewrite (cp_1 F12 R N12 N12_pos) by auto. }
  unfold bls_last_chunk. cbv zeta. fold csqr uinv.
  repeat match goal with |- context [fp12_frobenius F nr2 t2 t61 t62 t12 ?k ?x] => fold (frob k x) end.
  repeat (rewrite ?C_bls_exp, ?C_sqr, ?C_uinv, ?C_mul by auto).
  rewrite !C_frob by (auto; lia). rewrite !C_mul by auto.
  f_equal. unfold bls_exponent. ring.
Qed.

(** f^(p^6) is the conjugate *)
Lemma uinv_pow f : uinv f = f ^^ (p ^ 6).
Proof.
  destruct (two_quo q m Hm) as [m6 H6].
  pose proof (two_field F q PB nr2 m Hm N) as FK2.
  assert (Hns : fpow F2 nr6 (3 * m6) = oopp F2 (o1 F2)).
  { apply (nonresidue_2 F2 FK2 (q ^ 2) (two_fix F q PB nr2 m Hm N)); auto. lia. }
  assert (Hnc : fpow F2 nr6 (2 * m6) <> o1 F2).
  { apply (nonresidue_3 F2 FK2 (q ^ 2) (two_fix F q PB nr2 m Hm N)); auto. lia. }
  assert (P : forall x, fpow F12 x (q ^ 2) = phi F2 nr6 m6 x).
  { intros x. apply (phi_spec F2 FK2 nr6 q 2 m6); auto.
    - apply (pb_prime F q PB).
    - apply (quad_char F (omul F nr2) (fk_ring F (pb_field F q PB))). apply (pb_char F q PB).
    - exact (two_fix F q PB nr2 m Hm N). }
  transitivity (phi F2 nr6 m6 (phi F2 nr6 m6 (phi F2 nr6 m6 f))).
  { symmetry. exact (phi3 F2 FK2 nr6 q 2 m6 H6 Hns Hnc f). }
  rewrite <- !P, <- !(npow_mul _ _ M).
  unfold zpow. rewrite <- to_nat_pow by lia. f_equal.
  change (Z.to_nat 6) with (2 + (2 + 2))%nat. now rewrite !Nat.pow_add_r.
Qed.
Lemma fp12_fix f : f ^^ (p ^ 12) = f.
Proof.
  pose proof p_pos. replace (p ^ 12) with (p ^ 6 * p ^ 6) by ring.
  rewrite (zpow_mul _ _ M), <- !uinv_pow by nia.
  destruct f as [a b]. cbn [uinv quad_unitary_inverse]. unfold uinv, quad_unitary_inverse. f_equal.
  pose proof (rk_ring _ (fp3_ring F2 (fp2_ring F (fk_ring F (pb_field F q PB)) nr2) nr6)) as RR.
  exact (Ropp_opp (Eqsth _) (Eq_ext _ _ _) RR b).
Qed.

Definition first_exponent : Z := (p ^ 6 - 1) * (p ^ 2 + 1).
Lemma first_total : first_exponent * N12 = p ^ 12 - 1.
Proof. unfold first_exponent, N12. ring. Qed.
Lemma p_pow_pos k : 0 <= k -> 1 <= p ^ k.
Proof. intros. pose proof p_pos. pose proof (Z.pow_pos_nonneg p k). lia. Qed.
Lemma first_nonneg : 0 <= first_exponent.
Proof. unfold first_exponent. pose proof (p_pow_pos 6). pose proof (p_pow_pos 2). nia. Qed.
Lemma first_ord f : f <> o0 F12 -> ok (f ^^ first_exponent).
Proof.
  intros H. unfold ord. pose proof N12_pos.
  rewrite <- (zpow_mul _ _ M), first_total by (auto using first_nonneg; lia).
  apply (zpow_fix F12 FK); auto using fp12_fix. apply p_pow_pos. lia.
Qed.
Lemma first_chunk_spec f : f <> o0 F12 ->
  twelve_first_chunk F nr2 nr6 nr6 t2 t61 t62 t12 f = Ok (f ^^ first_exponent).
Proof.
  intros H. destruct (fk_inv F12 FK f H) as (g & E & G).
  unfold twelve_first_chunk. rewrite E. cbn [bind]. fold uinv.
  rewrite uinv_pow, (zpow_pred F12 FK f g _ G) by (apply p_pow_pos; lia).
  match goal with |- context [fp12_frobenius F nr2 t2 t61 t62 t12 ?k ?x] => fold (frob k x) end.
  rewrite frob_pow by lia. pose proof (p_pow_pos 6). pose proof (p_pow_pos 2).
  rewrite <- (zpow_mul _ _ M), <- (zpow_add _ _ M) by nia. f_equal. f_equal. unfold first_exponent. ring.
Qed.

Lemma twelve_total L f r c : f <> o0 F12 -> 0 < r -> 0 <= c -> Z.gcd c r = 1 -> L * r = c * N12 ->
  (r | p ^ 12 - 1) /\ C (f ^^ first_exponent) L = f ^^ (c * ((p ^ 12 - 1) / r)) /\
  (C (f ^^ first_exponent) L) ^^ r = o1 F12.
Proof.
  intros H Hr Hc G E. pose proof (first_ord f H) as O.
  destruct (cp_cofactor F12 R N12 N12_pos _ L r c O Hr Hc G E) as [[h Eh] E'].
  pose proof N12_pos. assert (0 <= h) by nia.
  assert (EN : p ^ 12 - 1 = first_exponent * h * r) by (rewrite <- first_total, Eh; ring).
  split; [exists (first_exponent * h); exact EN|]. split.
  - rewrite E', Eh, EN, !Z.div_mul by lia. pose proof first_nonneg.
    rewrite <- (zpow_mul _ _ M) by (first [lia | apply Z.mul_nonneg_nonneg; lia]). f_equal. ring.
  - rewrite (cp_pow F12 R N12 N12_pos) by (auto; lia). rewrite Z.mul_comm, E.
    rewrite (cp_eq F12 N12 N12_pos _ (c * N12) 0) by (exists c; ring). apply (cp_0 F12 N12 N12_pos).
Qed.

Lemma bn_final f : f <> o0 F12 ->
  bn_final_exponentiation F nr2 nr6 nr6 t2 t61 t62 t12 z z_neg f = Ok (C (f ^^ first_exponent) bn_exponent).
Proof.
  intros H. unfold bn_final_exponentiation. rewrite first_chunk_spec by auto. cbn [bind].
  now rewrite bn_last by now apply first_ord.
Qed.
Lemma bls_final f : f <> o0 F12 ->
  bls_final_exponentiation F nr2 nr6 nr6 t2 t61 t62 t12 z z_neg f = Ok (C (f ^^ first_exponent) bls_exponent).
Proof.
  intros H. unfold bls_final_exponentiation. rewrite first_chunk_spec by auto. cbn [bind].
  now rewrite bls_last by now apply first_ord.
Qed.
Lemma bn_total f r c : f <> o0 F12 -> 0 < r -> 0 <= c -> Z.gcd c r = 1 -> bn_exponent * r = c * (p ^ 4 - p ^ 2 + 1) ->
  (r | p ^ 12 - 1) /\ exists y, bn_final_exponentiation F nr2 nr6 nr6 t2 t61 t62 t12 z z_neg f = Ok y /\
  y = f ^^ (c * ((p ^ 12 - 1) / r)) /\ y ^^ r = o1 F12.
Proof.
  intros H Hr Hc G E. destruct (twelve_total bn_exponent f r c H Hr Hc G E) as (D & E1 & E2).
  split; [exact D|]. eexists. split; [now apply bn_final|]. now split.
Qed.
Lemma bls_total f r c : f <> o0 F12 -> 0 < r -> 0 <= c -> Z.gcd c r = 1 -> bls_exponent * r = c * (p ^ 4 - p ^ 2 + 1) ->
  (r | p ^ 12 - 1) /\ exists y, bls_final_exponentiation F nr2 nr6 nr6 t2 t61 t62 t12 z z_neg f = Ok y /\
  y = f ^^ (c * ((p ^ 12 - 1) / r)) /\ y ^^ r = o1 F12.
Proof.
  intros H Hr Hc G E. destruct (twelve_total bls_exponent f r c H Hr Hc G E) as (D & E1 & E2).
  split; [exact D|]. eexists. split; [now apply bls_final|]. now split.
Qed.
Lemma twelve_zero : twelve_first_chunk F nr2 nr6 nr6 t2 t61 t62 t12 (o0 F12) = AssertFail.
Proof. unfold twelve_first_chunk. now rewrite (fk_inv_0 F12 FK). Qed.
Lemma bn_zero : bn_final_exponentiation F nr2 nr6 nr6 t2 t61 t62 t12 z z_neg (o0 F12) = AssertFail.
Proof. unfold bn_final_exponentiation. now rewrite twelve_zero. Qed.
Lemma bls_zero : bls_final_exponentiation F nr2 nr6 nr6 t2 t61 t62 t12 z z_neg (o0 F12) = AssertFail.
Proof. unfold bls_final_exponentiation. now rewrite twelve_zero. Qed.
End TwelveChain.

(** w1 q + w0 chunks *)
Section ChunkChain.
Context {T : Type} (F : Fops T) (FK : field_ok F).
Let R : ring_ok F := fk_ring F FK.
Let M := rk_monoid F R.
Notation "x ^^ k" := (zpow (o1 F) (omul F) x k) (at level 30).
Variables (p k N E : Z) (frob : Z -> T -> T) (cexp : T -> list Z -> result T) (first : T -> T -> T).
Variables (w1 w0 : list Z) (neg : bool).
Hypothesis Hp : 1 < p.
Hypothesis Hk : 0 <= k.
Hypothesis HN : 0 < N.
Hypothesis HE : 0 <= E.
Hypothesis HNE : E * N = p ^ k - 1.
Hypothesis Hfix : forall f, f ^^ (p ^ k) = f.
Hypothesis Hfrob : forall f, frob 1 f = f ^^ p.
Hypothesis Hfirst : forall f g, omul F f g = o1 F -> first f g = f ^^ E.
Definition exp_ok (e : list Z) : Prop := limbs e /\ (1 <= length e)%nat /\ val e <> Bn (length e) - 1.
Hypothesis Hexp : forall x e, ord F N x -> exp_ok e -> cexp x e = Ok (x ^^ val e).
Hypothesis W1 : exp_ok w1.
Hypothesis W0 : exp_ok w0.

Definition chunk_exponent : Z := val w1 * p + (if neg then - val w0 else val w0).

Lemma chunk_first_ord f : f <> o0 F -> ord F N (f ^^ E).
Proof.
  intros H. unfold ord. rewrite <- (zpow_mul _ _ M), HNE by lia.
  apply (zpow_fix F FK); auto. pose proof (Z.pow_pos_nonneg p k). lia.
Qed.
Lemma chunk_last x y : ord F N x -> ord F N y -> omul F x y = o1 F ->
  last_chunk (omul F) frob cexp w1 w0 neg x y = Ok (cp F N x chunk_exponent).
Proof.
  intros Ox Oy E1. assert (V1 : 0 <= val w1) by (apply val_nonneg; apply W1).
  assert (V0 : 0 <= val w0) by (apply val_nonneg; apply W0).
  assert (Ey : y = cp F N x (- 1)).
  { apply (cp_opp F R N HN x 1 y); auto. now rewrite (cp_1 F R N HN). }
  unfold last_chunk. rewrite Hfrob, (ord_mod F R N HN x p) by (auto; lia).
  rewrite Hexp by (auto; now apply (cp_ord F R N HN)). cbn [bind].
  rewrite (cp_pow F R N HN) by auto. unfold chunk_exponent. destruct neg.
  - rewrite Hexp by auto. cbn [bind]. rewrite Ey, (cp_pow F R N HN), (cp_add F R N HN) by auto.
    f_equal. f_equal. ring.
  - rewrite Hexp by auto. cbn [bind]. rewrite (ord_mod F R N HN x (val w0)), (cp_add F R N HN) by auto.
    reflexivity.
Qed.
Lemma chunk_final f : f <> o0 F ->
  chunked_final_exponentiation (omul F) (oinv F) frob cexp w1 w0 neg first f =
  Ok (cp F N (f ^^ E) chunk_exponent).
Proof.
  intros H. destruct (fk_inv F FK f H) as (g & Eg & G).
  unfold chunked_final_exponentiation. rewrite Eg. cbn [bind].
  assert (G' : omul F g f = o1 F) by (rewrite (rk_mul_comm F R); exact G).
  assert (Hg : g <> o0 F).
  { intros ->. apply (fk_1_neq_0 F FK). rewrite <- G'. apply (rk_mul_0_l F R). }
  rewrite (Hfirst f g G), (Hfirst g f G'). apply chunk_last.
  - now apply chunk_first_ord.
  - now apply chunk_first_ord.
  - unfold zpow. rewrite <- (frob_mul F R), G. apply (npow_one _ _ M).
Qed.
Lemma chunk_total f r c : f <> o0 F -> 0 < r -> 0 <= c -> Z.gcd c r = 1 -> chunk_exponent * r = c * N ->
  (r | p ^ k - 1) /\ cp F N (f ^^ E) chunk_exponent = f ^^ (c * ((p ^ k - 1) / r)) /\
  (cp F N (f ^^ E) chunk_exponent) ^^ r = o1 F.
Proof.
  intros H Hr Hc G EL. pose proof (chunk_first_ord f H) as O.
  destruct (cp_cofactor F R N HN _ _ r c O Hr Hc G EL) as [[h Eh] E'].
  assert (0 <= h) by nia.
  assert (EN : p ^ k - 1 = E * h * r) by (rewrite <- HNE, Eh; ring).
  split; [exists (E * h); exact EN|]. split.
  - rewrite E', Eh, EN, !Z.div_mul by lia.
    rewrite <- (zpow_mul _ _ M) by (first [lia | apply Z.mul_nonneg_nonneg; lia]). f_equal. ring.
  - rewrite (cp_pow F R N HN) by (auto; lia). rewrite Z.mul_comm, EL.
    rewrite (cp_eq F N HN _ (c * N) 0) by (exists c; ring). apply (cp_0 F N HN).
Qed.
Lemma chunk_zero :
  chunked_final_exponentiation (omul F) (oinv F) frob cexp w1 w0 neg first (o0 F) = AssertFail.
Proof. unfold chunked_final_exponentiation. now rewrite (fk_inv_0 F FK). Qed.
End ChunkChain.

Lemma q_pow_Z q k : 0 <= k -> (q ^ Z.to_nat k)%nat = Z.to_nat (Z.of_nat q ^ k).
Proof.
  intros Hk. apply Nat2Z.inj. rewrite Nat2Z.inj_pow. rewrite !Z2Nat.id; auto.
  apply Z.pow_nonneg. lia.
Qed.

Section FourChain.
Context {K : Type} (F : Fops K) (q : nat).
Hypothesis PB : prime_base F q.
Variables (nr : K) (m : nat).
Hypothesis Hm : (q = 1 + 4 * m)%nat.
Hypothesis N2 : nonresidue F q 2 nr.
Variables (t2 t4 : list K).
Hypothesis T2 : frob_table F q 2 1 2 nr t2.
Hypothesis T4 : frob_table F q 4 1 4 nr t4.
Notation F4 := (fp4_ops F nr nr).
Let p := Z.of_nat q.
Let FK : field_ok F4 := fp4_is_field F q PB nr (ex_intro _ m Hm) N2.
Let R : ring_ok F4 := fk_ring F4 FK.
Let M := rk_monoid F4 R.
Notation "x ^^ k" := (zpow (o1 F4) (omul F4) x k) (at level 30).

Lemma p4_pos : 1 < p.
Proof. pose proof (pb_prime F q PB) as [H _]. exact H. Qed.
Lemma frob4_pow k x : 0 <= k -> fp4_frobenius F t2 t4 k x = x ^^ (p ^ k).
Proof.
  intros Hk. unfold zpow, p. rewrite <- q_pow_Z by lia.
  apply (fp4_frob_spec F q PB); auto; [apply N2|now exists m].
Qed.
Lemma frob4_fix f : f ^^ (p ^ 4) = f.
Proof.
  rewrite <- frob4_pow by lia. destruct f as [[a b] [c d]].
  destruct T2 as [L2 E2], T4 as [L4 E4]. cbn [fp4_frobenius fp2_frobenius].
  unfold fp2_frobenius, coeff, quad_scale. change (Z.to_nat (4 mod 2)) with 0%nat. change (Z.to_nat (4 mod 4)) with 0%nat.
  rewrite E2, E4 by lia. cbn [Nat.pow Nat.sub Nat.div Nat.divmod fst Nat.mul npow].
  pose proof (fk_ring F (pb_field F q PB)) as RF.
  now rewrite !(ml_1_l _ _ (rk_monoid F RF)).
Qed.
Lemma first4_pow f g : omul F4 f g = o1 F4 ->
  first_chunk4 (omul F4) (fp4_frobenius F t2 t4) f g = f ^^ (p ^ 2 - 1).
Proof.
  intros G. unfold first_chunk4. rewrite frob4_pow by lia. apply (zpow_pred F4 FK); auto.
  pose proof p4_pos. nia.
Qed.
Lemma exp4_pow x e : ord F4 (p ^ 2 + 1) x -> exp_ok e -> fp4_cyclotomic_exp F nr nr x e = Ok (x ^^ val e).
Proof.
  intros H (L & Ln & V). unfold zpow. apply (fp4_cyc_exp F q PB nr m Hm N2); auto.
  unfold cyclotomic4. unfold ord, zpow in H. etransitivity; [|exact H]. f_equal.
  pose proof p4_pos. rewrite Z2Nat.inj_add by nia. unfold p. now rewrite <- q_pow_Z by lia.
Qed.

Lemma mnt4_final w1 w0 (neg : bool) f r c : exp_ok w1 -> exp_ok w0 -> f <> o0 F4 ->
  0 < r -> 0 <= c -> Z.gcd c r = 1 -> (val w1 * p + (if neg then - val w0 else val w0)) * r = c * (p ^ 2 + 1) ->
  (r | p ^ 4 - 1) /\ exists y, mnt4_final_exponentiation F nr nr t2 t4 w1 w0 neg f = Ok y /\
  y = f ^^ (c * ((p ^ 4 - 1) / r)) /\ y ^^ r = o1 F4.
Proof.
  intros W1 W0 H Hr Hc G EL. pose proof p4_pos.
  assert (HN : 0 < p ^ 2 + 1) by nia. assert (HE : 0 <= p ^ 2 - 1) by nia.
  assert (HNE : (p ^ 2 - 1) * (p ^ 2 + 1) = p ^ 4 - 1) by ring.
  destruct (chunk_total F4 FK p 4 (p ^ 2 + 1) (p ^ 2 - 1) w1 w0 neg p4_pos ltac:(lia) HN HE HNE frob4_fix
    f r c H Hr Hc G EL) as (D & E1 & E2).
  split; [exact D|]. eexists. split; [|split; [exact E1|exact E2]].
  unfold mnt4_final_exponentiation.
  apply (chunk_final F4 FK p 4 (p ^ 2 + 1) (p ^ 2 - 1)); auto using frob4_fix, first4_pow, exp4_pow; try lia.
  intros x. rewrite frob4_pow by lia. now rewrite Z.pow_1_r.
Qed.
Lemma mnt4_zero w1 w0 neg : mnt4_final_exponentiation F nr nr t2 t4 w1 w0 neg (o0 F4) = AssertFail.
Proof. apply (chunk_zero F4 FK). Qed.
End FourChain.

Section SixChain.
Context {K : Type} (F : Fops K) (q : nat).
Hypothesis PB : prime_base F q.
Variables (nr : K) (m : nat).
Hypothesis Hm : (q = 1 + 6 * m)%nat.
Hypothesis N2 : nonresidue F q 2 nr.
Hypothesis N3 : nonresidue F q 3 nr.
Variables (t31 t32 t6 : list K).
Hypothesis T31 : frob_table F q 3 1 3 nr t31.
Hypothesis T32 : frob_table F q 3 2 3 nr t32.
Hypothesis T6 : frob_table F q 6 1 6 nr t6.
Notation F6 := (fp6_2over3_ops F nr nr).
Let p := Z.of_nat q.
Let FK : field_ok F6 := fp6_2over3_is_field F q PB nr (ex_intro _ m Hm) N2 N3.
Let R : ring_ok F6 := fk_ring F6 FK.
Let M := rk_monoid F6 R.
Notation "x ^^ k" := (zpow (o1 F6) (omul F6) x k) (at level 30).

Lemma p6_pos : 1 < p.
Proof. pose proof (pb_prime F q PB) as [H _]. exact H. Qed.
Lemma frob6_pow k x : 0 <= k -> fp6_2over3_frobenius F t31 t32 t6 k x = x ^^ (p ^ k).
Proof.
  intros Hk. unfold zpow, p. rewrite <- q_pow_Z by lia.
  apply (fp6_2over3_frob_spec F q PB); auto; [apply N2|now exists m].
Qed.
Lemma frob6_fix f : f ^^ (p ^ 6) = f.
Proof.
  rewrite <- frob6_pow by lia. destruct f as [[[a b] c] [[d e] g]].
  destruct T31 as [L2 E2], T32 as [L3 E3], T6 as [L4 E4]. cbn [fp6_2over3_frobenius fp3_frobenius].
  unfold fp3_frobenius, coeff, cubic_scale. change (Z.to_nat (6 mod 3)) with 0%nat. change (Z.to_nat (6 mod 6)) with 0%nat.
  rewrite E2, E3, E4 by lia. cbn [Nat.pow Nat.sub Nat.div Nat.divmod fst Nat.mul npow].
  pose proof (fk_ring F (pb_field F q PB)) as RF.
  now rewrite !(ml_1_l _ _ (rk_monoid F RF)).
Qed.
Lemma p6_3 : 1 <= p ^ 3.
Proof. pose proof p6_pos. pose proof (Z.pow_pos_nonneg p 3). lia. Qed.
Lemma first6_pow f g : omul F6 f g = o1 F6 ->
  first_chunk6 (omul F6) (fp6_2over3_frobenius F t31 t32 t6) f g = f ^^ ((p ^ 3 - 1) * (p + 1)).
Proof.
  intros G. unfold first_chunk6. rewrite !frob6_pow by lia.
  pose proof p6_pos. pose proof p6_3.
  rewrite (zpow_pred F6 FK f g) by auto.
  rewrite <- (zpow_mul _ _ M), <- (zpow_add _ _ M) by (first [lia | apply Z.mul_nonneg_nonneg; lia | nia]). f_equal. ring.
Qed.
Lemma exp6_pow x e : ord F6 (p ^ 2 - p + 1) x -> exp_ok e -> fp6_cyclotomic_exp F nr nr nr x e = Ok (x ^^ val e).
Proof.
  intros H (L & Ln & V). unfold zpow. apply (fp6_cyc_exp F q PB nr m Hm N2 N3); auto.
  unfold cyclotomic6. unfold ord, zpow in H. etransitivity; [|exact H]. f_equal.
  pose proof p6_pos. rewrite Z2Nat.inj_add, Z2Nat.inj_sub by nia. unfold p. rewrite <- q_pow_Z by lia.
  now rewrite Nat2Z.id.
Qed.

Lemma six_final w1 w0 (neg : bool) f r c : exp_ok w1 -> exp_ok w0 -> f <> o0 F6 ->
  0 < r -> 0 <= c -> Z.gcd c r = 1 ->
  (val w1 * p + (if neg then - val w0 else val w0)) * r = c * (p ^ 2 - p + 1) ->
  (r | p ^ 6 - 1) /\ exists y, six_final_exponentiation F nr nr nr t31 t32 t6 w1 w0 neg f = Ok y /\
  y = f ^^ (c * ((p ^ 6 - 1) / r)) /\ y ^^ r = o1 F6.
Proof.
  intros W1 W0 H Hr Hc G EL. pose proof p6_pos. pose proof p6_3.
  assert (HN : 0 < p ^ 2 - p + 1) by nia. assert (HE : 0 <= (p ^ 3 - 1) * (p + 1)) by nia.
  assert (HNE : (p ^ 3 - 1) * (p + 1) * (p ^ 2 - p + 1) = p ^ 6 - 1) by ring.
  destruct (chunk_total F6 FK p 6 _ _ w1 w0 neg p6_pos ltac:(lia) HN HE HNE frob6_fix
    f r c H Hr Hc G EL) as (D & E1 & E2).
  split; [exact D|]. eexists. split; [|split; [exact E1|exact E2]].
  unfold six_final_exponentiation.
  apply (chunk_final F6 FK p 6 (p ^ 2 - p + 1) ((p ^ 3 - 1) * (p + 1)));
    auto using frob6_fix, first6_pow, exp6_pow; try lia.
  intros x. rewrite frob6_pow by lia. now rewrite Z.pow_1_r.
Qed.
Lemma six_zero w1 w0 neg : six_final_exponentiation F nr nr nr t31 t32 t6 w1 w0 neg (o0 F6) = AssertFail.
Proof. apply (chunk_zero F6 FK). Qed.
End SixChain.
