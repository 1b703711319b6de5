(** Frobenius maps of the extension fields are powers of q. *)
From Coq Require Import ZArith Znumtheory List Bool Lia Ring Field Arith.
From Verif Require Import Result Algebra NumTheory FieldOps ExtModel ExtSpec ExtProofs.
Import ListNotations.

(** ** Exponents *)
Lemma pow_expand r n : exists T, ((1 + r) ^ n = 1 + r * (n + r * T))%nat.
Proof.
  induction n as [|n [T IH]]; [exists 0%nat; cbn; nia|].
  exists (n + (1 + r) * T)%nat. rewrite Nat.pow_succ_r', IH. ring.
Qed.
Lemma pow_1_mod q d m k : (q = 1 + d * m)%nat -> exists M, (q ^ k = 1 + d * M)%nat.
Proof.
  intros ->. destruct (pow_expand (d * m) k) as [T E]. exists (m * (k + d * m * T))%nat.
  rewrite E. ring.
Qed.
Lemma quo_1 d x : (0 < d)%nat -> ((1 + d * x - 1) / d = x)%nat.
Proof.
  intros. replace (1 + d * x - 1)%nat with (x * d)%nat by lia. apply Nat.div_mul. lia.
Qed.

Section CharP.
Context {K : Type} (F : Fops K) (R : ring_ok F) (p : nat).
Hypothesis Hp : prime (Z.of_nat p).
Hypothesis Hchar : fnmul F (o1 F) p = o0 F.
Let M := rk_monoid F R.

Lemma frob_add k x y : fpow F (oadd F x y) (p ^ k) = oadd F (fpow F x (p ^ k)) (fpow F y (p ^ k)).
Proof.
  revert x y. induction k as [|k IH]; intros x y.
  - cbn [Nat.pow]. now rewrite !(npow_1 _ _ M).
  - rewrite Nat.pow_succ_r', !(npow_mul _ _ M).
    rewrite (frobenius_add _ _ _ _ _ _ (rk_ring F R) p Hp Hchar). apply IH.
Qed.
Lemma frob_mul k x y : fpow F (omul F x y) k = omul F (fpow F x k) (fpow F y k).
Proof. apply (npow_mul_distr _ _ M). apply (rk_mul_comm F R). Qed.
End CharP.

Lemma iter_fermat {K} (F : Fops K) (R : ring_ok F) q k a : (forall a, fpow F a q = a) -> fpow F a (q ^ k) = a.
Proof.
  intros H. induction k; [apply (npow_1 _ _ (rk_monoid F R))|].
  rewrite Nat.pow_succ_r', (npow_mul _ _ (rk_monoid F R)). now rewrite H.
Qed.

(** ** One extension step *)
Section Quad.
Context {K : Type} (F : Fops K) (mnr : K -> K) (nr : K).
Hypothesis R : ring_ok F.
Hypothesis Hmnr : forall x, mnr x = omul F nr x.
Add Ring Kr : (rk_ring F R).
Notation Q := (quad_ops F mnr).
Let RQ : ring_ok Q := quad_ring F mnr nr R Hmnr.
Add Ring Qr : (rk_ring Q RQ).

Lemma quad_emb_pow a n : fpow Q (quad_emb F a) n = quad_emb F (fpow F a n).
Proof.
  induction n; [reflexivity|]. cbn [npow]. rewrite IHn. symmetry. now apply (quad_emb_mul F mnr nr).
Qed.
Lemma quad_nmul a n : fnmul Q (quad_emb F a) n = quad_emb F (fnmul F a n).
Proof.
  induction n; [reflexivity|]. cbn [npow]. rewrite IHn. symmetry. now apply quad_emb_add.
Qed.
Lemma quad_char p : fnmul F (o1 F) p = o0 F -> fnmul Q (o1 Q) p = o0 Q.
Proof. intros H. change (o1 Q) with (quad_emb F (o1 F)). rewrite quad_nmul, H. reflexivity. Qed.
Lemma quad_u_pow m : fpow Q (quad_u F) (2 * m) = quad_emb F (fpow F nr m).
Proof.
  rewrite (npow_mul _ _ (rk_monoid Q RQ)), (npow_2 _ _ (rk_monoid Q RQ)).
  rewrite (quad_u_sqr F mnr nr R Hmnr). apply quad_emb_pow.
Qed.

Lemma quad_frob p k m a b : prime (Z.of_nat p) -> fnmul F (o1 F) p = o0 F -> (p ^ k = 1 + 2 * m)%nat ->
  fpow Q (a, b) (p ^ k) = (fpow F a (p ^ k), omul F (fpow F nr m) (fpow F b (p ^ k))).
Proof.
  intros Hp Hc E. rewrite (quad_basis F mnr nr R Hmnr (a, b)). cbn [fst snd].
  rewrite (frob_add Q RQ p Hp (quad_char p Hc)), (frob_mul Q RQ), !quad_emb_pow.
  assert (Eu : fpow Q (quad_u F) (p ^ k) = omul Q (quad_u F) (quad_emb F (fpow F nr m))).
  { rewrite E, (npow_add _ _ (rk_monoid Q RQ)), quad_u_pow, (npow_1 _ _ (rk_monoid Q RQ)). reflexivity. }
  rewrite Eu. cbn. rewrite !Hmnr. f_equal; ring.
Qed.
End Quad.

Section Cubic.
Context {K : Type} (F : Fops K) (mnr : K -> K) (nr : K).
Hypothesis R : ring_ok F.
Hypothesis Hmnr : forall x, mnr x = omul F nr x.
Add Ring Kr3 : (rk_ring F R).
Notation C := (cubic_ops F mnr).
Let RC : ring_ok C := cubic_ring F mnr nr R Hmnr.

Lemma cubic_emb_pow a n : fpow C (cubic_emb F a) n = cubic_emb F (fpow F a n).
Proof.
  induction n; [reflexivity|]. cbn [npow]. rewrite IHn. symmetry. now apply (cubic_emb_mul F mnr nr).
Qed.
Lemma cubic_nmul a n : fnmul C (cubic_emb F a) n = cubic_emb F (fnmul F a n).
Proof.
  induction n; [reflexivity|]. cbn [npow]. rewrite IHn. symmetry. now apply cubic_emb_add.
Qed.
Lemma cubic_char p : fnmul F (o1 F) p = o0 F -> fnmul C (o1 C) p = o0 C.
Proof. intros H. change (o1 C) with (cubic_emb F (o1 F)). rewrite cubic_nmul, H. reflexivity. Qed.
Lemma cubic_u_pow m : fpow C (cubic_u F) (3 * m) = cubic_emb F (fpow F nr m).
Proof.
  rewrite (npow_mul _ _ (rk_monoid C RC)). rewrite <- cubic_emb_pow. f_equal.
  rewrite <- (cubic_u_cube F mnr nr R Hmnr). cbn [npow]. rewrite (ml_1_r _ _ (rk_monoid C RC)). reflexivity.
Qed.

Lemma cubic_frob p k m a b c : prime (Z.of_nat p) -> fnmul F (o1 F) p = o0 F -> (p ^ k = 1 + 3 * m)%nat ->
  fpow C (a, b, c) (p ^ k) =
  (fpow F a (p ^ k), omul F (fpow F nr m) (fpow F b (p ^ k)), omul F (fpow F nr (2 * m)) (fpow F c (p ^ k))).
Proof.
  intros Hp Hc E. rewrite (cubic_basis F mnr nr R Hmnr (a, b, c)).
  rewrite !(frob_add C RC p Hp (cubic_char p Hc)), !(frob_mul C RC), !cubic_emb_pow.
  assert (Eu : fpow C (cubic_u F) (p ^ k) = omul C (cubic_u F) (cubic_emb F (fpow F nr m))).
  { rewrite E, (npow_add _ _ (rk_monoid C RC)), cubic_u_pow, (npow_1 _ _ (rk_monoid C RC)). reflexivity. }
  rewrite Eu. replace (2 * m)%nat with (m + m)%nat by lia. rewrite (npow_add _ _ (rk_monoid F R)).
  cbn. rewrite !Hmnr. f_equal; [f_equal|]; ring.
Qed.
End Cubic.

(** ** Periodicity of the coefficient tables *)
Section Period.
Context {K : Type} (F : Fops K) (R : ring_ok F) (q d m e : nat) (nr : K).
Let M := rk_monoid F R.
Hypothesis Hd : (0 < d)%nat.
Hypothesis Hq : (q = 1 + d * m)%nat.
(** the base field has q^e elements *)
Hypothesis Hfix : forall a, fpow F a (q ^ e) = a.
Hypothesis Hnr : fpow F nr (q ^ e - 1) = o1 F.

Lemma frob_quo k : exists x, (q ^ k = 1 + d * x)%nat /\ ((q ^ k - 1) / d = x)%nat.
Proof.
  destruct (pow_1_mod q d m k Hq) as [x E]. exists x. split; auto. rewrite E. now apply quo_1.
Qed.

(** nr^((q^(ed) - 1)/d) = 1. *)
Lemma frob_period_1 : fpow F nr ((q ^ (e * d) - 1) / d) = o1 F.
Proof.
  destruct (frob_quo (e * d)) as (x & E & ->).
  destruct (pow_1_mod q d m e Hq) as [y Ey].
  destruct (pow_expand (d * y) d) as [T ET].
  rewrite Nat.pow_mul_r, Ey, ET in E.
  assert (Ex : (x = (q ^ e - 1) * (1 + y * T))%nat).
  { rewrite Ey. replace (1 + d * y - 1)%nat with (d * y)%nat by lia.
    apply (Nat.mul_cancel_l _ _ d); [lia|].
    assert (Ed : (d * x = d * y * (d + d * y * T))%nat) by lia. rewrite Ed. ring. }
  rewrite Ex, (npow_mul _ _ M), Hnr. apply (npow_one _ _ M).
Qed.

Lemma frob_fix_iter i a : fpow F a (q ^ (e * i)) = a.
Proof.
  induction i; [rewrite Nat.mul_0_r; apply (npow_1 _ _ M)|].
  rewrite Nat.mul_succ_r, Nat.pow_add_r, (npow_mul _ _ M), IHi. apply Hfix.
Qed.

Lemma frob_step j k : fpow F nr (j * ((q ^ (k + e * d) - 1) / d)) = fpow F nr (j * ((q ^ k - 1) / d)).
Proof.
  pose proof frob_period_1 as P1.
  destruct (frob_quo (e * d)) as (x & E & Ex). rewrite Ex in P1.
  destruct (frob_quo k) as (y & Ey & ->).
  assert (Ez : (q ^ (k + e * d) = 1 + d * (x + y * q ^ (e * d)))%nat).
  { rewrite Nat.pow_add_r, Ey, E. ring. }
  rewrite Ez, quo_1 by auto.
  rewrite Nat.mul_add_distr_l, (npow_add _ _ M).
  rewrite (Nat.mul_comm j x), (npow_mul _ _ M nr x j), P1, (npow_one _ _ M), (ml_1_l _ _ M).
  rewrite Nat.mul_assoc, (npow_mul _ _ M). apply frob_fix_iter.
Qed.

Lemma frob_periodic j k : (0 < e)%nat ->
  fpow F nr (j * ((q ^ k - 1) / d)) = fpow F nr (j * ((q ^ (k mod (e * d)) - 1) / d)).
Proof.
  intros He. assert (e * d <> 0)%nat by nia. rewrite (Nat.div_mod k (e * d)) at 1 by auto.
  generalize (k / (e * d))%nat as n. generalize (k mod (e * d))%nat as r. intros r n.
  induction n; [now rewrite Nat.mul_0_r|].
  rewrite <- IHn. replace (e * d * S n + r)%nat with (e * d * n + r + e * d)%nat by ring. apply frob_step.
Qed.

Lemma frob_coeff j tbl k : (0 < e)%nat -> (0 <= k)%Z -> frob_table F q d j (e * d) nr tbl ->
  coeff (o0 F) tbl k (Z.of_nat (e * d)) = fpow F nr (j * ((q ^ Z.to_nat k - 1) / d)).
Proof.
  intros He Hk [L T]. unfold coeff. assert (e * d <> 0)%nat by nia.
  assert (E : Z.to_nat (k mod Z.of_nat (e * d)) = (Z.to_nat k mod (e * d))%nat).
  { rewrite <- (Z2Nat.id k) at 1 by auto. rewrite <- Nat2Z.inj_mod. apply Nat2Z.id. }
  rewrite E, T by (now apply Nat.mod_upper_bound). symmetry. now apply frob_periodic.
Qed.
End Period.

(** ** The six maps.  A prime field of q elements: *)
Record prime_base {K} (F : Fops K) (q : nat) : Prop := {
  pb_field : field_ok F;
  pb_prime : prime (Z.of_nat q);
  pb_char : fnmul F (o1 F) q = o0 F;
  pb_fermat : forall a, fpow F a q = a
}.

Lemma fix_pred {K} (F : Fops K) (FK : field_ok F) n a : (1 <= n)%nat -> fpow F a n = a -> a <> o0 F ->
  fpow F a (n - 1) = o1 F.
Proof.
  intros Hn H Na. apply (fk_mul_cancel F FK _ _ a Na).
  rewrite (ml_1_l _ _ (rk_monoid F (fk_ring F FK))).
  rewrite <- (npow_S_r _ _ (rk_monoid F (fk_ring F FK))). replace (S (n - 1)) with n by lia. exact H.
Qed.

Section Maps.
Context {K : Type} (F : Fops K) (q : nat).
Hypothesis PB : prime_base F q.
Let FK := pb_field F q PB.
Let R : ring_ok F := fk_ring F (pb_field F q PB).
Let Hp := pb_prime F q PB.
Let Hc := pb_char F q PB.
Add Ring Krm : (rk_ring F (fk_ring F (pb_field F q PB))).
Notation qk k := (q ^ Z.to_nat k)%nat.

Lemma q_pos : (1 <= q)%nat.
Proof. destruct Hp. lia. Qed.
Lemma base_fix k a : fpow F a (q ^ k) = a.
Proof. apply (iter_fermat F R q k a (pb_fermat F q PB)). Qed.
Lemma base_pred a : a <> o0 F -> fpow F a (q ^ 1 - 1) = o1 F.
Proof.
  intros Na. rewrite Nat.pow_1_r. apply (fix_pred F FK); auto; [apply q_pos|apply (pb_fermat F q PB)].
Qed.
Lemma base_coeff d m nr j tbl k : (0 < d)%nat -> (q = 1 + d * m)%nat -> nr <> o0 F -> (0 <= k)%Z ->
  frob_table F q d j d nr tbl ->
  coeff (o0 F) tbl k (Z.of_nat d) = fpow F nr (j * ((q ^ Z.to_nat k - 1) / d)).
Proof.
  intros Hd Hq Hnr Hk T.
  replace (Z.of_nat d) with (Z.of_nat (1 * d)) by (f_equal; lia).
  apply (frob_coeff F R q d m 1); auto.
  - intros a. apply base_fix.
  - now apply base_pred.
  - replace (1 * d)%nat with d by lia. exact T.
Qed.

Lemma fp2_frob_spec nr t k x : nr <> o0 F -> (exists m, q = 1 + 2 * m)%nat -> (0 <= k)%Z ->
  frob_table F q 2 1 2 nr t -> fp2_frobenius F t k x = fpow (fp2_ops F nr) x (qk k).
Proof.
  intros Hnr [m Hm] Hk T. destruct x as [a b]. unfold fp2_frobenius.
  destruct (frob_quo q 2 m ltac:(lia) Hm (Z.to_nat k)) as (x & E & Ex).
  unfold fp2_ops. rewrite (quad_frob F (omul F nr) nr R (fun _ => eq_refl) q (Z.to_nat k) x a b Hp Hc E).
  rewrite !base_fix. change 2%Z with (Z.of_nat 2). rewrite (base_coeff 2 m nr 1 t k) by (auto; lia).
  rewrite Ex. now rewrite Nat.mul_1_l.
Qed.

Lemma fp3_frob_spec nr t1 t2 k x : nr <> o0 F -> (exists m, q = 1 + 3 * m)%nat -> (0 <= k)%Z ->
  frob_table F q 3 1 3 nr t1 -> frob_table F q 3 2 3 nr t2 ->
  fp3_frobenius F t1 t2 k x = fpow (fp3_ops F nr) x (qk k).
Proof.
  intros Hnr [m Hm] Hk T1 T2. destruct x as [[a b] c]. unfold fp3_frobenius.
  destruct (frob_quo q 3 m ltac:(lia) Hm (Z.to_nat k)) as (x & E & Ex).
  unfold fp3_ops. rewrite (cubic_frob F (omul F nr) nr R (fun _ => eq_refl) q (Z.to_nat k) x a b c Hp Hc E).
  rewrite !base_fix. change 3%Z with (Z.of_nat 3).
  rewrite (base_coeff 3 m nr 1 t1 k), (base_coeff 3 m nr 2 t2 k) by (auto; lia).
  rewrite Ex. now rewrite Nat.mul_1_l.
Qed.

Lemma fp4_frob_spec nr t2 t4 k x : nr <> o0 F -> (exists m, q = 1 + 4 * m)%nat -> (0 <= k)%Z ->
  frob_table F q 2 1 2 nr t2 -> frob_table F q 4 1 4 nr t4 ->
  fp4_frobenius F t2 t4 k x = fpow (fp4_ops F nr nr) x (qk k).
Proof.
  intros Hnr [m Hm] Hk T2 T4. destruct x as [a b]. unfold fp4_frobenius.
  assert (Hm2 : (exists m', q = 1 + 2 * m')%nat) by (exists (2 * m)%nat; lia).
  rewrite !(fp2_frob_spec nr t2 k) by auto.
  destruct (frob_quo q 4 m ltac:(lia) Hm (Z.to_nat k)) as (x & E & Ex).
  assert (R2 : ring_ok (fp2_ops F nr)) by now apply fp2_ring.
  assert (Hc2 : fnmul (fp2_ops F nr) (o1 (fp2_ops F nr)) q = o0 (fp2_ops F nr)).
  { now apply (quad_char F (omul F nr) R). }
  unfold fp4_ops. rewrite (quad_frob (fp2_ops F nr) _ (quad_u F) R2 (fp4_mnr_spec F R nr) q (Z.to_nat k) (2 * x) a b Hp Hc2)
    by lia.
  f_equal. unfold fp2_ops at 4. rewrite (quad_u_pow F (omul F nr) nr R (fun _ => eq_refl)).
  rewrite (quad_scale_spec F (omul F nr) nr R (fun _ => eq_refl)). fold (fp2_ops F nr).
  f_equal. f_equal. change 4%Z with (Z.of_nat 4).
  rewrite (base_coeff 4 m nr 1 t4 k) by (auto; lia). rewrite Ex. now rewrite Nat.mul_1_l.
Qed.

Lemma fp6_2over3_frob_spec nr t31 t32 t6 k x : nr <> o0 F -> (exists m, q = 1 + 6 * m)%nat -> (0 <= k)%Z ->
  frob_table F q 3 1 3 nr t31 -> frob_table F q 3 2 3 nr t32 -> frob_table F q 6 1 6 nr t6 ->
  fp6_2over3_frobenius F t31 t32 t6 k x = fpow (fp6_2over3_ops F nr nr) x (qk k).
Proof.
  intros Hnr [m Hm] Hk T31 T32 T6. destruct x as [a b]. unfold fp6_2over3_frobenius.
  assert (Hm3 : (exists m', q = 1 + 3 * m')%nat) by (exists (2 * m)%nat; lia).
  rewrite !(fp3_frob_spec nr t31 t32 k) by auto.
  destruct (frob_quo q 6 m ltac:(lia) Hm (Z.to_nat k)) as (x & E & Ex).
  assert (R3 : ring_ok (fp3_ops F nr)) by now apply fp3_ring.
  assert (Hc3 : fnmul (fp3_ops F nr) (o1 (fp3_ops F nr)) q = o0 (fp3_ops F nr)).
  { now apply (cubic_char F (omul F nr) R). }
  unfold fp6_2over3_ops.
  rewrite (quad_frob (fp3_ops F nr) _ (cubic_u F) R3 (rot_mnr_spec F R nr) q (Z.to_nat k) (3 * x) a b Hp Hc3)
    by lia.
  f_equal. unfold fp3_ops at 4. rewrite (cubic_u_pow F (omul F nr) nr R (fun _ => eq_refl)).
  rewrite (cubic_scale_spec F (omul F nr) nr R (fun _ => eq_refl)). fold (fp3_ops F nr).
  f_equal. f_equal. change 6%Z with (Z.of_nat 6).
  rewrite (base_coeff 6 m nr 1 t6 k) by (auto; lia). rewrite Ex. now rewrite Nat.mul_1_l.
Qed.

(** Fp2 has q^2 elements. *)
Lemma fp2_fix nr : (forall y, omul F y y <> nr) -> (exists m, q = 1 + 2 * m)%nat ->
  forall a, fpow (fp2_ops F nr) a (q ^ 2) = a.
Proof.
  intros N [m Hm] [a b].
  assert (Hnr : nr <> o0 F) by (intros ->; apply (N (o0 F)); ring).
  destruct (frob_quo q 2 m ltac:(lia) Hm 2) as (x & E & Ex).
  unfold fp2_ops. rewrite (quad_frob F (omul F nr) nr R (fun _ => eq_refl) q 2 x a b Hp Hc E).
  rewrite !base_fix.
  pose proof (frob_period_1 F R q 2 m 1 nr ltac:(lia) Hm (base_pred nr Hnr)) as P1.
  rewrite Nat.mul_1_l, Ex in P1. rewrite P1. f_equal. ring.
Qed.
Lemma fp2_coeff nr2 d m nr j tbl k : (forall y, omul F y y <> nr2) -> (exists m, q = 1 + 2 * m)%nat ->
  (0 < d)%nat -> (q = 1 + d * m)%nat -> nr <> o0 (fp2_ops F nr2) -> (0 <= k)%Z ->
  frob_table (fp2_ops F nr2) q d j (2 * d) nr tbl ->
  coeff (o0 (fp2_ops F nr2)) tbl k (Z.of_nat (2 * d)) = fpow (fp2_ops F nr2) nr (j * ((q ^ Z.to_nat k - 1) / d)).
Proof.
  intros N H2 Hd Hq Hnr Hk T.
  apply (frob_coeff (fp2_ops F nr2) (fp2_ring F R nr2) q d m 2); auto.
  - now apply fp2_fix.
  - apply (fix_pred _ (fp2_field F FK nr2 N)); auto; [|now apply fp2_fix].
    pose proof q_pos. pose proof (Nat.pow_nonzero q 2). lia.
Qed.

Lemma fp6_3over2_frob_spec nr2 nr6 t2 t61 t62 k x :
  (forall y, omul F y y <> nr2) -> nr6 <> o0 (fp2_ops F nr2) -> (exists m, q = 1 + 6 * m)%nat -> (0 <= k)%Z ->
  frob_table F q 2 1 2 nr2 t2 ->
  frob_table (fp2_ops F nr2) q 3 1 6 nr6 t61 -> frob_table (fp2_ops F nr2) q 3 2 6 nr6 t62 ->
  fp6_3over2_frobenius F nr2 t2 t61 t62 k x = fpow (fp6_3over2_ops F nr2 nr6) x (qk k).
Proof.
  intros N Hnr [m Hm] Hk T2 T61 T62. destruct x as [[a b] c]. unfold fp6_3over2_frobenius.
  assert (Hn2 : nr2 <> o0 F) by (intros ->; apply (N (o0 F)); ring).
  assert (Hm2 : (exists m', q = 1 + 2 * m')%nat) by (exists (3 * m)%nat; lia).
  rewrite !(fp2_frob_spec nr2 t2 k) by auto.
  assert (Hm3 : (q = 1 + 3 * (2 * m))%nat) by lia.
  destruct (frob_quo q 3 (2 * m) ltac:(lia) Hm3 (Z.to_nat k)) as (x & E & Ex).
  assert (R2 : ring_ok (fp2_ops F nr2)) by now apply fp2_ring.
  assert (Hc2 : fnmul (fp2_ops F nr2) (o1 (fp2_ops F nr2)) q = o0 (fp2_ops F nr2)).
  { now apply (quad_char F (omul F nr2) R). }
  unfold fp6_3over2_ops, fp3_ops.
  rewrite (cubic_frob (fp2_ops F nr2) _ nr6 R2 (fun _ => eq_refl) q (Z.to_nat k) x a b c Hp Hc2) by lia.
  change 6%Z with (Z.of_nat (2 * 3)).
  rewrite (fp2_coeff nr2 3 (2 * m) nr6 1 t61 k), (fp2_coeff nr2 3 (2 * m) nr6 2 t62 k) by (auto; lia).
  rewrite Ex, Nat.mul_1_l. reflexivity.
Qed.

Lemma fp12_frob_spec nr2 nr6 t2 t61 t62 t12 k x :
  (forall y, omul F y y <> nr2) -> nr6 <> o0 (fp2_ops F nr2) -> (exists m, q = 1 + 6 * m)%nat -> (0 <= k)%Z ->
  frob_table F q 2 1 2 nr2 t2 ->
  frob_table (fp2_ops F nr2) q 3 1 6 nr6 t61 -> frob_table (fp2_ops F nr2) q 3 2 6 nr6 t62 ->
  frob_table (fp2_ops F nr2) q 6 1 12 nr6 t12 ->
  fp12_frobenius F nr2 t2 t61 t62 t12 k x = fpow (fp12_ops F nr2 nr6 nr6) x (qk k).
Proof.
  intros N Hnr [m Hm] Hk T2 T61 T62 T12. destruct x as [a b]. unfold fp12_frobenius.
  assert (Hm2 : (exists m', q = 1 + 2 * m')%nat) by (exists (3 * m)%nat; lia).
  rewrite !(fp6_3over2_frob_spec nr2 nr6 t2 t61 t62 k) by eauto.
  destruct (frob_quo q 6 m ltac:(lia) Hm (Z.to_nat k)) as (x & E & Ex).
  set (F2 := fp2_ops F nr2) in *.
  assert (R2 : ring_ok F2) by now apply fp2_ring.
  assert (R6 : ring_ok (fp3_ops F2 nr6)) by now apply fp3_ring.
  assert (Hc2 : fnmul F2 (o1 F2) q = o0 F2).
  { now apply (quad_char F (omul F nr2) R). }
  assert (Hc6 : fnmul (fp3_ops F2 nr6) (o1 (fp3_ops F2 nr6)) q = o0 (fp3_ops F2 nr6)).
  { now apply (cubic_char F2 (omul F2 nr6) R2). }
  unfold fp12_ops, fp6_3over2_ops. fold F2.
  rewrite (quad_frob (fp3_ops F2 nr6) _ (cubic_u F2) R6 (rot_mnr_spec F2 R2 nr6) q (Z.to_nat k) (3 * x) a b Hp Hc6)
    by lia.
  f_equal. unfold fp3_ops at 4. rewrite (cubic_u_pow F2 (omul F2 nr6) nr6 R2 (fun _ => eq_refl)).
  rewrite (cubic_scale_spec F2 (omul F2 nr6) nr6 R2 (fun _ => eq_refl)). fold (fp3_ops F2 nr6).
  f_equal. f_equal. change 12%Z with (Z.of_nat (2 * 6)).
  unfold F2. rewrite (fp2_coeff nr2 6 m nr6 1 t12 k) by (auto; lia). rewrite Ex. now rewrite Nat.mul_1_l.
Qed.
End Maps.
