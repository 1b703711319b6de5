(** Correctness of power, Tonelli-Shanks, roots of unity and batch inversion. *)
From Coq Require Import ZArith List Lia Bool.
From Verif Require Import Result Limbs LimbsProofs BigintModel BigintProofs UtilsModel UtilsProofs
  Algebra AlgorithmsModel.
Import ListNotations.
Open Scope Z_scope.

Lemma mod_pow2_S v j : 0 <= j ->
  v mod 2 ^ (j + 1) = 2 ^ j * Z.b2z (Z.testbit v j) + v mod 2 ^ j.
Proof.
  intros Hj. rewrite Z.pow_add_r, Z.rem_mul_r by lia.
  rewrite Z.testbit_spec' by lia. change (2 ^ 1) with 2. lia.
Qed.

(** Relational induction over two folds on the same list. *)
Lemma fold_left_rel {A1 A2 B} (I : A1 -> A2 -> Prop) (Q : B -> Prop)
  (f : A1 -> B -> A1) (g : A2 -> B -> A2) :
  (forall a x b, Q b -> I a x -> I (f a b) (g x b)) ->
  forall l, Forall Q l -> forall a x, I a x -> I (fold_left f l a) (fold_left g l x).
Proof. intros H l. induction 1; intros; cbn [fold_left]; auto. Qed.

Section Power.
Context {T : Type} (one : T) (mul : T -> T -> T) (sqr : T -> T).
Hypothesis M : monoid_laws one mul.
Hypothesis Hsqr : forall x, sqr x = mul x x.
Notation pow := (npow one mul).
(** Power with an integer exponent. *)
Definition zpow (b : T) (e : Z) : T := pow b (Z.to_nat e).

Lemma zpow_add b e f : 0 <= e -> 0 <= f -> zpow b (e + f) = mul (zpow b e) (zpow b f).
Proof. intros. unfold zpow. rewrite Z2Nat.inj_add by lia. now apply npow_add. Qed.
Lemma zpow_1 b : zpow b 1 = b. Proof. apply npow_1, M. Qed.
Lemma zpow_0 b : zpow b 0 = one. Proof. reflexivity. Qed.
Lemma zpow_mul b e f : 0 <= e -> 0 <= f -> zpow b (e * f) = zpow (zpow b e) f.
Proof. intros. unfold zpow. rewrite Z2Nat.inj_mul by lia. now apply npow_mul. Qed.
Lemma zpow_one e : zpow one e = one. Proof. now apply npow_one. Qed.

Lemma power_loop_spec sq bit v b : (forall x, sq x = mul x x) ->
  forall i found E r,
  (forall j, 0 <= j < Z.of_nat i -> bit j = Z.testbit v j) ->
  0 <= E -> r = zpow b E -> (found = false -> E = 0) ->
  exists found', power_loop mul sq bit b i found r = (found', zpow b (E * 2 ^ Z.of_nat i + v mod 2 ^ Z.of_nat i))
   /\ (found' = false -> E * 2 ^ Z.of_nat i + v mod 2 ^ Z.of_nat i = 0).
Proof.
  intros Hsq. induction i as [|j IH]; intros found E r Hbit HE Hr Hf; cbn [power_loop].
  - exists found. change (2 ^ Z.of_nat 0) with 1. rewrite Z.mod_1_r, Z.mul_1_r, Z.add_0_r. now subst.
  - set (r1 := if found then sq r else r).
    assert (H1 : r1 = zpow b (2 * E)).
    { unfold r1. destruct found.
      - rewrite Hsq, Hr, <- zpow_add by lia. f_equal. lia.
      - rewrite Hf in * by auto. now rewrite Hr. }
    rewrite Nat2Z.inj_succ, <- Z.add_1_r, mod_pow2_S by lia.
    rewrite Hbit by lia. destruct (Z.testbit v (Z.of_nat j)) eqn:Eb; cbn [Z.b2z].
    + destruct (IH true (2 * E + 1) (mul r1 b)) as (f' & E1 & E2).
      * intros; apply Hbit; lia.
      * lia.
      * rewrite H1, zpow_add, zpow_1 by lia. reflexivity.
      * discriminate.
      * exists f'. rewrite Z.pow_add_r by lia. change (2 ^ 1) with 2.
        replace (E * (2 ^ Z.of_nat j * 2) + (2 ^ Z.of_nat j * 1 + v mod 2 ^ Z.of_nat j))
          with ((2 * E + 1) * 2 ^ Z.of_nat j + v mod 2 ^ Z.of_nat j) by ring. auto.
    + destruct (IH found (2 * E) r1) as (f' & E1 & E2).
      * intros; apply Hbit; lia.
      * lia.
      * auto.
      * intros F. rewrite Hf; auto.
      * exists f'. rewrite Z.pow_add_r by lia. change (2 ^ 1) with 2.
        replace (E * (2 ^ Z.of_nat j * 2) + (2 ^ Z.of_nat j * 0 + v mod 2 ^ Z.of_nat j))
          with (2 * E * 2 ^ Z.of_nat j + v mod 2 ^ Z.of_nat j) by ring. auto.
Qed.

Theorem power_bigint_spec b e : limbs e -> power_bigint one mul b e = pow b (Z.to_nat (val e)).
Proof.
  intros He. unfold power_bigint.
  destruct (power_loop_spec (fun x => mul x x) (bigint_test_bit e) (val e) b (fun x => eq_refl)
     (64 * length e) false 0 one) as (f & E & _).
  - intros j Hj. apply bigint_test_bit_spec; auto; lia.
  - lia.
  - reflexivity.
  - reflexivity.
  - rewrite E. cbn [snd]. unfold zpow. f_equal. f_equal.
    pose proof (val_bound e He) as Hb. unfold Bn in Hb.
    rewrite Nat2Z.inj_mul. change (Z.of_nat 64) with 64. rewrite Z.mod_small by lia. lia.
Qed.

Theorem power_ulong_spec b e : 0 <= e < 2 ^ 64 -> power_ulong one mul b e = pow b (Z.to_nat e).
Proof.
  intros He. unfold power_ulong. destruct (bigint_of_ulong_spec 1 e) as (V & L & _); [lia|exact He|].
  rewrite power_bigint_spec by auto. now rewrite V.
Qed.

Lemma ull_bit_spec e i : 0 <= i -> ull_bit e i = Z.testbit e i.
Proof. intros. now apply land_pow2_testbit. Qed.

Theorem power_ull_spec b e : 0 <= e < 2 ^ 64 -> power_ull one mul sqr b e = pow b (Z.to_nat e).
Proof.
  intros He. unfold power_ull.
  destruct (power_loop_spec sqr (ull_bit e) e b Hsqr 64 false 0 one) as (f & E & _);
    try reflexivity; try lia.
  - intros j Hj. apply ull_bit_spec; lia.
  - rewrite E. cbn [snd]. unfold zpow. f_equal. f_equal.
    change (Z.of_nat 64) with 64. rewrite Z.mod_small by lia. lia.
Qed.

Lemma power_loop_word b w n found E : Z.of_nat n = 64 -> 0 <= w < 2 ^ 64 -> 0 <= E -> (found = false -> E = 0) ->
  exists found', power_loop mul sqr (ull_bit w) b n found (zpow b E) = (found', zpow b (E * 2 ^ 64 + w))
    /\ (found' = false -> E * 2 ^ 64 + w = 0).
Proof.
  intros Hn Hw HE Hf.
  destruct (power_loop_spec sqr (ull_bit w) w b Hsqr n found E (zpow b E)) as (f & E1 & E2); auto.
  - intros j Hj. apply ull_bit_spec; lia.
  - rewrite Hn, (Z.mod_small w) in E1 by lia. rewrite Hn, (Z.mod_small w) in E2 by lia. eauto.
Qed.

(** Integer denoted by a vector of words, most significant first. *)
Definition vec_val (e : list Z) : Z := fold_left (fun acc w => acc * 2 ^ 64 + w) e 0.

Lemma power_vec_step_spec b w found E : 0 <= w < 2 ^ 64 -> 0 <= E -> (found = false -> E = 0) ->
  exists found', power_vec_step mul sqr b (found, zpow b E) w = (found', zpow b (E * 2 ^ 64 + w))
    /\ (found' = false -> E * 2 ^ 64 + w = 0).
Proof. intros. unfold power_vec_step. apply power_loop_word; auto. Qed.

Theorem power_vector_spec b e : Forall (fun w => 0 <= w < 2 ^ 64) e ->
  power_vector one mul sqr b e = pow b (Z.to_nat (vec_val e)).
Proof.
  intros He. unfold power_vector, vec_val.
  assert (G : let r := fold_left (power_vec_step mul sqr b) e (false, one) in
              let E := fold_left (fun acc w => acc * 2 ^ 64 + w) e 0 in
              0 <= E /\ (fst r = false -> E = 0) /\ snd r = zpow b E).
  { cbv zeta.
    apply (fold_left_rel (fun r E => 0 <= E /\ (fst r = false -> E = 0) /\ snd r = zpow b E)
       (fun w => 0 <= w < 2 ^ 64)); auto; [|split; [lia|split; reflexivity]].
    intros [f r] E w Hw (HE & Hf & Hr). cbn [fst snd] in Hf, Hr. subst r.
    destruct (power_vec_step_spec b w f E Hw HE Hf) as (f' & E1 & E2).
    rewrite E1. cbn [fst snd]. split; [lia|auto]. }
  apply G.
Qed.

Lemma sqr_times_spec k x : sqr_times sqr k x = pow x (2 ^ k).
Proof.
  revert x; induction k as [|k IH]; intros x; cbn [sqr_times].
  - now rewrite npow_1.
  - rewrite IH, Hsqr, <- (npow_2 one mul M), <- npow_mul by auto. reflexivity.
Qed.
End Power.

Section Sqrt.
Context {T : Type} (zero one : T) (mul : T -> T -> T) (sqr : T -> T) (eqb : T -> T -> bool).
Hypothesis M : monoid_laws one mul.
Hypothesis Mc : forall x y, mul x y = mul y x.
Hypothesis Hsqr : forall x, sqr x = mul x x.
Hypothesis Heqb : forall x y, eqb x y = true <-> x = y.
Hypothesis Hzero : mul zero zero = zero.
Notation pow := (npow one mul).
Variable S : sqrt_params T.

Lemma mul4 a b c d : mul (mul a b) (mul c d) = mul (mul a c) (mul b d).
Proof.
  rewrite <- !(ml_assoc _ _ M). f_equal. rewrite !(ml_assoc _ _ M). f_equal. apply Mc.
Qed.

(** Partial correctness: whatever the parameters, a returned value is a root. *)
Lemma sqrt_loop_sound a fuel v z b x r : mul x x = mul a b ->
  sqrt_loop one mul sqr eqb fuel v z b x = Ok r -> mul r r = a.
Proof.
  revert v z b x; induction fuel as [|f IH]; intros v z b x Hx; cbn [sqrt_loop]; [discriminate|].
  destruct (eqb b one) eqn:E.
  - apply Heqb in E. subst b. intros H. injection H as <-. now rewrite Hx, (ml_1_r _ _ M).
  - destruct (sqrt_order one sqr eqb (Datatypes.S f) b 0) as [m| | | | |]; cbn [bind]; try discriminate.
    cbv zeta. apply IH. rewrite mul4, Hx, Hsqr. now rewrite <- !(ml_assoc _ _ M).
Qed.

Theorem tonelli_shanks_sound debug fuel a r :
  tonelli_shanks_sqrt zero one mul sqr eqb S debug fuel a = Ok r -> mul r r = a.
Proof.
  unfold tonelli_shanks_sqrt, assert_then.
  destruct (negb (sq_s S =? 0)); [|discriminate].
  destruct (negb (bigint_is_even (sq_t S))); [|discriminate].
  destruct (negb (eqb (sq_nqr S) zero)); [|discriminate].
  destruct (eqb a zero) eqn:E0.
  - intros H. injection H as <-. apply Heqb in E0. now subst.
  - cbv zeta. destruct (_ || _); [|discriminate]. apply sqrt_loop_sound.
    rewrite <- !(ml_assoc _ _ M). f_equal.
    rewrite Mc, <- (ml_assoc _ _ M). reflexivity.
Qed.

(** Termination on squares. *)
Variable minus_one : T.
Hypothesis Hm1 : minus_one <> one.
Hypothesis Hm1sq : mul minus_one minus_one = one.
Hypothesis Hroots : forall x, mul x x = one -> x = one \/ x = minus_one.
Notation p2 k := (2 ^ k)%nat.

Lemma pow_sq x k : pow x (p2 (Datatypes.S k)) = mul (pow x (p2 k)) (pow x (p2 k)).
Proof. cbn [Nat.pow]. rewrite npow_double by auto. reflexivity. Qed.

(** The least m with b^(2^m) = 1. *)
Lemma order_exists b k : pow b (p2 k) = one ->
  exists m, (m <= k)%nat /\ pow b (p2 m) = one /\ forall j, (j < m)%nat -> pow b (p2 j) <> one.
Proof.
  induction k as [k IH] using lt_wf_ind. intros H.
  destruct k as [|k].
  - exists 0%nat. repeat split; auto. intros; lia.
  - destruct (eqb (pow b (p2 k)) one) eqn:E.
    + apply Heqb in E. destruct (IH k) as (m & Hm & H1 & H2); auto. exists m. repeat split; auto.
    + exists (Datatypes.S k). repeat split; auto. intros j Hj Ej.
      assert (N : pow b (p2 k) <> one) by (intros X; apply Heqb in X; congruence).
      apply N. replace (p2 k) with (p2 j * p2 (k - j))%nat.
      2:{ rewrite <- Nat.pow_add_r. f_equal. lia. }
      rewrite npow_mul, Ej by auto. now apply npow_one.
Qed.

Lemma sqrt_order_spec b m : (forall j, (j < m)%nat -> pow b (p2 j) <> one) -> pow b (p2 m) = one ->
  Z.of_nat m < 2 ^ 64 ->
  forall d fuel, (d <= m)%nat -> (m - d < fuel)%nat ->
  sqrt_order one sqr eqb fuel (pow b (p2 d)) (Z.of_nat d) = Ok (Z.of_nat m).
Proof.
  intros Hlt Hm Hb d fuel. revert d. induction fuel as [|f IH]; intros d Hd Hf; [lia|].
  cbn [sqrt_order]. destruct (eqb (pow b (p2 d)) one) eqn:E.
  - apply Heqb in E. destruct (Nat.eq_dec d m) as [->|]; auto. exfalso. apply (Hlt d); auto. lia.
  - destruct (Nat.eq_dec d m) as [->|N].
    { exfalso. assert (eqb (pow b (p2 m)) one = true) by now apply Heqb. congruence. }
    rewrite Hsqr, <- pow_sq. unfold wrap64. rewrite Z.mod_small by (unfold B; lia).
    replace (Z.of_nat d + 1) with (Z.of_nat (Datatypes.S d)) by lia. apply IH; lia.
Qed.

Lemma sqrt_loop_total fuel : forall v z b x, (v < fuel)%nat -> (1 <= v)%nat -> Z.of_nat v < 2 ^ 31 ->
  pow z (p2 (v - 1)) = minus_one -> pow b (p2 (v - 1)) = one ->
  exists r, sqrt_loop one mul sqr eqb fuel (Z.of_nat v) z b x = Ok r.
Proof.
  induction fuel as [|f IH]; intros v z b x Hf Hv Hs Hz Hb; [lia|]. cbn [sqrt_loop].
  destruct (eqb b one) eqn:E; [eauto|].
  assert (Nb : b <> one) by (intros X; apply Heqb in X; congruence).
  destruct (order_exists b (v - 1) Hb) as (m & Hm & Em & Hlt).
  assert (Hm0 : (1 <= m)%nat).
  { destruct m; [|lia]. exfalso. apply Nb. rewrite <- (npow_1 one mul M b). exact Em. }
  assert (So := sqrt_order_spec b m Hlt Em ltac:(lia) 0 (Datatypes.S f) ltac:(lia) ltac:(lia)).
  change (Z.of_nat 0) with 0 in So. change (p2 0) with 1%nat in So. rewrite npow_1 in So by auto.
  rewrite So. cbn [bind]. cbv zeta.
  assert (J : Z.to_nat (to_int32 (wrap64 (Z.of_nat v - Z.of_nat m - 1))) = (v - m - 1)%nat).
  { unfold wrap64. rewrite Z.mod_small by (unfold B; lia). unfold to_int32.
    rewrite (Z.mod_small _ (2 ^ 32)) by lia.
    replace (_ <? 2 ^ 31) with true by (symmetry; apply Z.ltb_lt; lia). lia. }
  rewrite J, (sqr_times_spec one mul sqr) by auto. rewrite Hsqr, <- pow_sq.
  replace (Datatypes.S (v - m - 1)) with (v - m)%nat by lia.
  assert (Hz' : pow (pow z (p2 (v - m))) (p2 (m - 1)) = minus_one).
  { rewrite <- npow_mul, <- Nat.pow_add_r by auto. now replace (v - m + (m - 1))%nat with (v - 1)%nat by lia. }
  apply IH; try lia; auto.
  rewrite npow_mul_distr, Hz' by auto.
  destruct (Hroots (pow b (p2 (m - 1)))) as [R|R].
  - rewrite <- pow_sq. now replace (Datatypes.S (m - 1)) with m by lia.
  - exfalso. apply (Hlt (m - 1)%nat); auto. lia.
  - now rewrite R.
Qed.

(** What makes the static members usable: s, odd t, the exponent (t-1)/2, and
    a 2^s-th root of unity of exact order. *)
Record sqrt_params_ok (order_minus_1 : Z) : Prop := {
  spo_s : 1 <= sq_s S < 2 ^ 31;
  spo_t_limbs : limbs (sq_t S);
  spo_tm1_limbs : limbs (sq_tm1 S);
  spo_t : val (sq_t S) = 2 * val (sq_tm1 S) + 1;
  spo_order : order_minus_1 = 2 ^ sq_s S * val (sq_t S);
  spo_nqr : sq_nqr S <> zero;
  spo_z : pow (sq_nqr_to_t S) (Z.to_nat (2 ^ (sq_s S - 1))) = minus_one
}.

Theorem tonelli_shanks_total q1 debug fuel y :
  sqrt_params_ok q1 -> (forall x, x <> zero -> pow x (Z.to_nat q1) = one) ->
  sq_s S < Z.of_nat fuel ->
  exists r, tonelli_shanks_sqrt zero one mul sqr eqb S debug fuel (mul y y) = Ok r.
Proof.
  intros OK Lag Hfuel. destruct OK as [Hs Lt Ltm Ht Hq Hn Hz].
  unfold tonelli_shanks_sqrt.
  replace (negb (sq_s S =? 0)) with true by (symmetry; apply negb_true_iff, Z.eqb_neq; lia).
  assert (Hodd : bigint_is_even (sq_t S) = false).
  { rewrite bigint_is_even_spec, Ht by auto. rewrite Z.even_add, Z.even_mul. reflexivity. }
  rewrite Hodd. replace (eqb (sq_nqr S) zero) with false.
  2:{ symmetry. destruct (eqb (sq_nqr S) zero) eqn:E; auto. apply Heqb in E. congruence. }
  cbn [negb assert_then]. destruct (eqb (mul y y) zero) eqn:E0; [eauto|].
  set (a := mul y y) in *. cbv zeta.
  assert (Ny : y <> zero).
  { intros ->. assert (eqb (mul zero zero) zero = true) by (apply Heqb; auto). unfold a in E0. congruence. }
  set (w := power_bigint one mul a (sq_tm1 S)).
  set (k := (Z.to_nat (sq_s S))). assert (Hk : (1 <= k)%nat) by (unfold k; lia).
  assert (Ek : Z.of_nat k = sq_s S) by (unfold k; lia).
  pose proof (val_nonneg _ Ltm) as Htm0.
  assert (Hb : pow (mul (mul a w) w) (p2 (k - 1)) = one).
  { assert (Eb : mul (mul a w) w = pow a (Z.to_nat (val (sq_t S)))).
    { unfold w. rewrite power_bigint_spec by auto. rewrite Ht.
      rewrite <- (ml_assoc _ _ M), <- npow_double by auto.
      replace (Z.to_nat (2 * val (sq_tm1 S) + 1)) with (Datatypes.S (2 * Z.to_nat (val (sq_tm1 S))))
        by lia.
      reflexivity. }
    rewrite Eb. unfold a. rewrite <- (npow_2 one mul M), <- !npow_mul by auto.
    transitivity (pow y (Z.to_nat q1)); [f_equal|auto].
    assert (0 < 2 ^ sq_s S) by (apply Z.pow_pos_nonneg; lia).
    rewrite Hq, Z2Nat.inj_mul by lia.
    rewrite Z2Nat.inj_pow by lia. fold k. change (Z.to_nat 2) with 2%nat.
    replace (p2 k) with (2 * p2 (k - 1))%nat; [lia|].
    rewrite <- (Nat.pow_succ_r' 2 (k - 1)). f_equal. lia. }
  rewrite (sqr_times_spec one mul sqr) by auto.
  replace (Z.to_nat (sq_s S - 1)) with (k - 1)%nat by (unfold k; lia).
  rewrite Hb. replace (eqb one one) with true by (symmetry; now apply Heqb).
  rewrite orb_true_r. cbn [assert_then]. rewrite <- Ek.
  apply sqrt_loop_total; auto; try lia.
  rewrite <- Hz, Z2Nat.inj_pow by lia.
  change (Z.to_nat 2) with 2%nat. do 2 f_equal. lia.
Qed.
(** Non-squares: the loop never ends (the source says so; the model runs out
    of any fuel). *)
Lemma sqrt_order_fuel b m : (forall j, (j < m)%nat -> pow b (p2 j) <> one) -> Z.of_nat m < 2 ^ 64 ->
  forall fuel d, (d + fuel <= m)%nat ->
  sqrt_order one sqr eqb fuel (pow b (p2 d)) (Z.of_nat d) = OutOfFuel.
Proof.
  intros Hlt Hb fuel. induction fuel as [|f IH]; intros d Hd; [reflexivity|]. cbn [sqrt_order].
  destruct (eqb (pow b (p2 d)) one) eqn:E.
  - apply Heqb in E. exfalso. apply (Hlt d); auto. lia.
  - rewrite Hsqr, <- pow_sq. unfold wrap64. rewrite Z.mod_small by (unfold B; lia).
    replace (Z.of_nat d + 1) with (Z.of_nat (Datatypes.S d)) by lia. apply IH; lia.
Qed.

Lemma sqrt_loop_diverges v fuel : (1 <= v)%nat -> Z.of_nat v < 2 ^ 31 -> forall z b x,
  pow b (p2 (v - 1)) = minus_one -> mul (pow z (p2 (v - 1))) (pow z (p2 (v - 1))) = one ->
  sqrt_loop one mul sqr eqb fuel (Z.of_nat v) z b x = OutOfFuel.
Proof.
  intros Hv Hs. induction fuel as [|f IH]; intros z b x Hb Hz; [reflexivity|]. cbn [sqrt_loop].
  assert (Hlt : forall j, (j < v)%nat -> pow b (p2 j) <> one).
  { intros j Hj Ej. apply Hm1. rewrite <- Hb. replace (p2 (v - 1)) with (p2 j * p2 (v - 1 - j))%nat.
    2:{ rewrite <- Nat.pow_add_r. f_equal. lia. }
    rewrite npow_mul, Ej by auto. now apply npow_one. }
  destruct (eqb b one) eqn:E.
  { apply Heqb in E. exfalso. apply (Hlt 0%nat); [lia|]. rewrite E. now apply npow_one. }
  assert (Hbv : pow b (p2 v) = one).
  { replace v with (Datatypes.S (v - 1)) by lia. now rewrite pow_sq, Hb. }
  assert (So : sqrt_order one sqr eqb (Datatypes.S f) b 0 =
     if (v <=? f)%nat then Ok (Z.of_nat v) else OutOfFuel).
  { destruct (v <=? f)%nat eqn:L; [apply Nat.leb_le in L|apply Nat.leb_gt in L].
    - pose proof (sqrt_order_spec b v Hlt Hbv ltac:(lia) 0 (Datatypes.S f) ltac:(lia) ltac:(lia)) as G.
      change (p2 0) with 1%nat in G. rewrite npow_1 in G by auto. exact G.
    - pose proof (sqrt_order_fuel b v Hlt ltac:(lia) (Datatypes.S f) 0 ltac:(lia)) as G.
      change (p2 0) with 1%nat in G. rewrite npow_1 in G by auto. exact G. }
  rewrite So. destruct (v <=? f)%nat; [|reflexivity]. cbn [bind]. cbv zeta.
  replace (Z.of_nat v - Z.of_nat v - 1) with (-1) by lia.
  change (Z.to_nat (to_int32 (wrap64 (-1)))) with 0%nat. cbn [sqr_times].
  assert (Hz2 : pow (sqr z) (p2 (v - 1)) = one).
  { rewrite Hsqr, npow_mul_distr by auto. exact Hz. }
  apply IH.
  - rewrite npow_mul_distr, Hz2, Hb by auto. apply (ml_1_r _ _ M).
  - rewrite Hz2. apply (ml_1_r _ _ M).
Qed.

Theorem tonelli_shanks_nonsquare q1 debug fuel a :
  sqrt_params_ok q1 -> (forall x, x <> zero -> pow x (Z.to_nat q1) = one) ->
  (forall y, mul y y <> a) ->
  tonelli_shanks_sqrt zero one mul sqr eqb S debug fuel a = (if debug then AssertFail else OutOfFuel).
Proof.
  intros OK Lag Hns. destruct OK as [Hs Lt Ltm Ht Hq Hn Hz].
  unfold tonelli_shanks_sqrt.
  replace (negb (sq_s S =? 0)) with true by (symmetry; apply negb_true_iff, Z.eqb_neq; lia).
  assert (Hodd : bigint_is_even (sq_t S) = false).
  { rewrite bigint_is_even_spec, Ht by auto. rewrite Z.even_add, Z.even_mul. reflexivity. }
  rewrite Hodd. replace (eqb (sq_nqr S) zero) with false.
  2:{ symmetry. destruct (eqb (sq_nqr S) zero) eqn:E; auto. apply Heqb in E. congruence. }
  cbn [negb assert_then]. destruct (eqb a zero) eqn:E0.
  { apply Heqb in E0. subst a. now destruct (Hns zero). }
  assert (Na : a <> zero) by (intros X; apply Heqb in X; congruence).
  cbv zeta. set (w := power_bigint one mul a (sq_tm1 S)).
  set (k := (Z.to_nat (sq_s S))). assert (Hk : (1 <= k)%nat) by (unfold k; lia).
  assert (Ek : Z.of_nat k = sq_s S) by (unfold k; lia).
  pose proof (val_nonneg _ Ltm) as Htm0.
  rewrite (sqr_times_spec one mul sqr) by auto.
  replace (Z.to_nat (sq_s S - 1)) with (k - 1)%nat by (unfold k; lia).
  set (b := mul (mul a w) w).
  assert (Eb : b = pow a (Z.to_nat (val (sq_t S)))).
  { unfold b, w. rewrite power_bigint_spec by auto. rewrite Ht.
    rewrite <- (ml_assoc _ _ M), <- npow_double by auto.
    replace (Z.to_nat (2 * val (sq_tm1 S) + 1)) with (Datatypes.S (2 * Z.to_nat (val (sq_tm1 S))))
      by lia.
    reflexivity. }
  assert (Hzk : pow (sq_nqr_to_t S) (p2 (k - 1)) = minus_one).
  { rewrite <- Hz, Z2Nat.inj_pow by lia.
    change (Z.to_nat 2) with 2%nat. do 2 f_equal. unfold k. lia. }
  assert (Hb2 : mul (pow b (p2 (k - 1))) (pow b (p2 (k - 1))) = one).
  { rewrite <- pow_sq, Eb, <- npow_mul by auto.
    transitivity (pow a (Z.to_nat q1)); [f_equal|auto].
    assert (0 < 2 ^ sq_s S) by (apply Z.pow_pos_nonneg; lia).
    rewrite Hq, Z2Nat.inj_mul by lia. rewrite Z2Nat.inj_pow by lia. fold k.
    change (Z.to_nat 2) with 2%nat. replace (Datatypes.S (k - 1)) with k by lia. lia. }
  assert (Hx : mul (mul a w) (mul a w) = mul a b).
  { unfold b. rewrite <- !(ml_assoc _ _ M). f_equal.
    rewrite Mc, <- (ml_assoc _ _ M). reflexivity. }
  destruct (Hroots _ Hb2) as [Hb|Hb].
  - exfalso. destruct (sqrt_loop_total (Datatypes.S k) k (sq_nqr_to_t S) b (mul a w)) as [r Er];
      auto; try lia.
    apply (Hns r). eapply sqrt_loop_sound; eauto.
  - rewrite Hb. replace (eqb minus_one one) with false.
    2:{ symmetry. destruct (eqb minus_one one) eqn:E; auto. apply Heqb in E. congruence. }
    destruct debug; cbn [negb orb assert_then]; auto.
    rewrite <- Ek. apply sqrt_loop_diverges; auto; try lia. now rewrite Hzk.
Qed.
End Sqrt.

Section Roots.
Context {T : Type} (one : T) (mul : T -> T -> T).
Hypothesis M : monoid_laws one mul.
Notation pow := (npow one mul).
Variable minus_one : T.
Hypothesis Hm1sq : mul minus_one minus_one = one.

Lemma log2_pow2 k : 0 <= k < 64 -> log2 (2 ^ k) = Ok k.
Proof.
  intros Hk. assert (0 < 2 ^ k) by (apply Z.pow_pos_nonneg; lia).
  assert (2 ^ k < 2 ^ 64) by (apply Z.pow_lt_mono_r; lia).
  rewrite log2_spec by (unfold B; lia).
  replace (2 ^ k =? 0) with false by (symmetry; apply Z.eqb_neq; lia).
  now rewrite Z.log2_up_pow2 by lia.
Qed.

Theorem root_of_unity_spec s rou k : 0 <= k <= s -> k < 32 ->
  pow rou (Z.to_nat (2 ^ (s - 1))) = minus_one -> 1 <= s ->
  exists w, get_root_of_unity mul s rou (2 ^ k) = Ok w /\
    pow w (Z.to_nat (2 ^ k)) = one /\ (1 <= k -> pow w (Z.to_nat (2 ^ (k - 1))) = minus_one).
Proof.
  intros Hk Hk32 Hr Hs. unfold get_root_of_unity. rewrite log2_pow2 by lia. cbn [bind].
  replace (k <? 32) with true by (symmetry; apply Z.ltb_lt; lia). cbn [negb].
  rewrite Z.shiftl_1_l, Z.eqb_refl. cbn [negb].
  replace (s <? k) with false by (symmetry; apply Z.ltb_ge; lia).
  eexists. split; [reflexivity|].
  rewrite (sqr_times_spec one mul (fun x => mul x x) M (fun x => eq_refl)).
  rewrite <- !npow_mul by auto. rewrite !Z2Nat.inj_pow in * by lia.
  change (Z.to_nat 2) with 2%nat in *. rewrite <- !Nat.pow_add_r.
  split.
  - replace (Z.to_nat (s - k) + Z.to_nat k)%nat with (Datatypes.S (Z.to_nat (s - 1))) by lia.
    cbn [Nat.pow]. rewrite Nat.mul_comm, npow_mul, Hr, npow_2 by auto. auto.
  - intros Hk1. rewrite !Z2Nat.inj_pow by lia. change (Z.to_nat 2) with 2%nat.
    rewrite <- Nat.pow_add_r. rewrite <- Hr. do 2 f_equal. lia.
Qed.

(** Everything else is rejected: not a power of two, too large for the field,
    or (n > 2^31) an oversized shift. *)
Theorem root_of_unity_reject s rou n : 0 <= n < 2 ^ 64 ->
  (forall k, 0 <= k <= s -> n <> 2 ^ k) ->
  get_root_of_unity mul s rou n = (if n <=? 2 ^ 31 then Throw else UB).
Proof.
  intros Hn Hnot. unfold get_root_of_unity. rewrite log2_spec by auto. cbn [bind].
  destruct (n =? 0) eqn:E0.
  { apply Z.eqb_eq in E0. subst n. reflexivity. }
  apply Z.eqb_neq in E0. pose proof (Z.log2_up_nonneg n) as Hlg.
  destruct (n <=? 2 ^ 31) eqn:E1.
  - apply Z.leb_le in E1.
    assert (Z.log2_up n <= 31).
    { apply Z.log2_up_le_mono in E1. now rewrite Z.log2_up_pow2 in E1 by lia. }
    replace (_ <? 32) with true by (symmetry; apply Z.ltb_lt; lia). cbn [negb].
    rewrite Z.shiftl_1_l. destruct (n =? 2 ^ Z.log2_up n) eqn:E2; cbn [negb]; auto.
    apply Z.eqb_eq in E2. destruct (s <? Z.log2_up n) eqn:E3; auto.
    apply Z.ltb_ge in E3. exfalso. apply (Hnot (Z.log2_up n)); auto.
  - apply Z.leb_gt in E1.
    assert (31 < Z.log2_up n).
    { apply Z.log2_up_lt_pow2; lia. }
    replace (_ <? 32) with false by (symmetry; apply Z.ltb_ge; lia). reflexivity.
Qed.

Theorem root_of_unity_ub s rou n : 2 ^ 31 < n < 2 ^ 64 -> get_root_of_unity mul s rou n = UB.
Proof.
  intros Hn. unfold get_root_of_unity. rewrite log2_spec by (unfold B; lia). cbn [bind].
  replace (n =? 0) with false by (symmetry; apply Z.eqb_neq; lia).
  assert (31 < Z.log2_up n) by (apply Z.log2_up_lt_pow2; lia).
  replace (_ <? 32) with false by (symmetry; apply Z.ltb_ge; lia). reflexivity.
Qed.
End Roots.

Section Batch.
Context {T : Type} (zero one : T) (mul : T -> T -> T) (eqb : T -> T -> bool) (inverse : T -> result T).
Hypothesis M : monoid_laws one mul.
Hypothesis Mc : forall x y, mul x y = mul y x.
Hypothesis Heqb : forall x y, eqb x y = true <-> x = y.
Hypothesis Hinv : forall x, x <> zero -> exists y, inverse x = Ok y /\ mul x y = one.
Hypothesis Hdom : forall x y, x <> zero -> y <> zero -> mul x y <> zero.
Hypothesis H10 : one <> zero.

Lemma batch_prods_spec vec : Forall (fun x => x <> zero) vec -> forall acc, acc <> zero ->
  exists prod last, batch_prods zero mul eqb vec acc = Ok (prod, last) /\ last <> zero /\
    length prod = length vec /\
    forall ai, mul last ai = one ->
      forall out a', batch_back mul vec prod ai = (out, a') ->
        mul acc a' = one /\ length out = length vec /\
        forall i d, (i < length vec)%nat -> mul (nth i vec d) (nth i out d) = one.
Proof.
  induction 1 as [|x vec Hx Hvec IH]; intros acc Ha; cbn [batch_prods].
  - exists [], acc. repeat split; auto. cbn in H0. injection H0 as <- <-. auto.
    cbn in H0. injection H0 as <- <-. reflexivity. intros i d Hi; cbn in Hi; lia.
  - replace (eqb x zero) with false.
    2:{ symmetry. destruct (eqb x zero) eqn:E; auto. apply Heqb in E. congruence. }
    cbn [negb assert_then]. destruct (IH (mul acc x) (Hdom _ _ Ha Hx)) as (prod & last & E & Hl & Len & Hb).
    rewrite E. cbn [bind]. exists (acc :: prod), last. split; [reflexivity|]. split; auto.
    split; [cbn; lia|]. intros ai Hai out a' Eb. cbn [batch_back] in Eb.
    destruct (batch_back mul vec prod ai) as [out' a1] eqn:E1.
    destruct (Hb ai Hai out' a1 E1) as (H1 & H2 & H3).
    injection Eb as <- <-. split; [|split].
    + rewrite (Mc a1 x), (ml_assoc _ _ M). exact H1.
    + cbn. lia.
    + intros [|i] d Hi; cbn [nth].
      * rewrite (Mc acc x), <- (ml_assoc _ _ M), (Mc acc a1) in H1. exact H1.
      * apply H3. cbn in Hi. lia.
Qed.

Theorem batch_invert_spec vec : Forall (fun x => x <> zero) vec ->
  exists out, batch_invert zero one mul eqb inverse vec = Ok out /\ length out = length vec /\
    forall i d, (i < length vec)%nat -> mul (nth i vec d) (nth i out d) = one.
Proof.
  intros H. unfold batch_invert.
  destruct (batch_prods_spec vec H one H10) as (prod & last & E & Hl & Len & Hb).
  rewrite E. cbn [bind]. destruct (Hinv last Hl) as (ai & Ei & Hai). rewrite Ei. cbn [bind].
  destruct (batch_back mul vec prod ai) as [out a'] eqn:Eb. cbn [fst].
  destruct (Hb ai Hai out a' Eb) as (_ & H2 & H3). eauto.
Qed.

Theorem batch_invert_zero vec : In zero vec -> batch_invert zero one mul eqb inverse vec = AssertFail.
Proof.
  intros H. unfold batch_invert.
  assert (G : forall acc, batch_prods zero mul eqb vec acc = AssertFail).
  { induction vec as [|x vec IH]; [destruct H|]. intros acc. cbn [batch_prods].
    destruct (eqb x zero) eqn:E; auto. cbn [negb assert_then].
    destruct H as [->|H]; [|now rewrite IH].
    assert (eqb zero zero = true) by now apply Heqb. congruence. }
  now rewrite G.
Qed.
End Batch.
