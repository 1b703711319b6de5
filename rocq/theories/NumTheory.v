(** Number theory used to discharge hypotheses about concrete parameters:
    the Frobenius endomorphism of a ring of prime characteristic, Fermat's
    little theorem, and Pocklington primality certificates with a checker. *)
From Coq Require Import ZArith List Lia Bool Znumtheory Zpow_facts Ring_theory Ring Eqdep_dec.
From Verif Require Import Algebra.
Import ListNotations.
Open Scope Z_scope.

Lemma prime_divides_binom p k : prime (Z.of_nat p) -> (0 < k < p)%nat ->
  (Z.of_nat p | Z.of_nat (binom p k)).
Proof.
  intros Hp Hk. destruct p as [|p]; [lia|]. destruct k as [|k]; [lia|].
  pose proof (binom_absorb p k) as E. apply (f_equal Z.of_nat) in E.
  rewrite !Nat2Z.inj_mul in E.
  apply Gauss with (Z.of_nat (S k)).
  - rewrite E. apply Z.divide_factor_l.
  - apply rel_prime_sym, rel_prime_le_prime; auto. lia.
Qed.

Section CharP.
Context {K : Type} (k0 k1 : K) (kadd kmul ksub : K -> K -> K) (kopp : K -> K).
Hypothesis Kth : ring_theory k0 k1 kadd kmul ksub kopp eq.
Add Ring Kring2 : Kth.
Variable p : nat.
Hypothesis Hp : prime (Z.of_nat p).
Hypothesis Hchar : npow k0 kadd k1 p = k0.
Notation pow := (npow k1 kmul).
Notation nat_mul := (npow k0 kadd).

Lemma nat_mul_char x : nat_mul x p = k0.
Proof.
  transitivity (kmul (nat_mul k1 p) x).
  - rewrite (nmul_mul_l _ _ _ _ _ _ Kth). f_equal. ring.
  - rewrite Hchar. ring.
Qed.

Lemma nat_mul_divisible x n : (Z.of_nat p | Z.of_nat n) -> nat_mul x n = k0.
Proof.
  intros [z Hz]. assert (0 < Z.of_nat p) by (destruct Hp; lia).
  assert (0 <= z) by nia.
  replace n with (p * Z.to_nat z)%nat by nia.
  rewrite npow_mul by (eapply ring_add_monoid; eauto).
  rewrite nat_mul_char. apply (nmul_zero _ _ _ _ _ _ Kth).
Qed.

Theorem frobenius_add x y : pow (kadd x y) p = kadd (pow x p) (pow y p).
Proof.
  assert (0 < p)%nat by (destruct Hp; lia).
  rewrite (binomial _ _ _ _ _ _ Kth). cbn [sum_upto].
  rewrite binom_diag, Nat.sub_diag. destruct p as [|p'] eqn:E; [lia|].
  rewrite (sum_shift _ _ _ _ _ _ Kth). rewrite binom_0.
  rewrite (sum_zero _ _ _ _ _ _ Kth).
  - cbn [npow Nat.sub]. ring.
  - intros k Hk. rewrite <- E in *. apply nat_mul_divisible.
    apply prime_divides_binom; auto. lia.
Qed.

Lemma frobenius_nat n : pow (nat_mul k1 n) p = nat_mul k1 n.
Proof.
  assert (0 < p)%nat by (destruct Hp; lia).
  induction n; cbn [npow].
  - apply (npow_zero _ _ _ _ _ _ Kth); auto.
  - rewrite frobenius_add, IHn. f_equal. apply npow_one. eapply ring_mul_monoid; eauto.
Qed.

Lemma frobenius_mul x y : pow (kmul x y) p = kmul (pow x p) (pow y p).
Proof.
  apply npow_mul_distr; [eapply ring_mul_monoid; eauto|].
  eapply ring_mul_comm; eauto.
Qed.

Lemma frobenius_opp x : pow (kopp x) p = kopp (pow x p).
Proof.
  assert (E : kadd (pow (kopp x) p) (pow x p) = k0).
  { rewrite <- frobenius_add. replace (kadd (kopp x) x) with k0 by ring.
    apply (npow_zero _ _ _ _ _ _ Kth). destruct Hp; lia. }
  replace (pow (kopp x) p) with (kadd (kadd (pow (kopp x) p) (pow x p)) (kopp (pow x p))) by ring.
  rewrite E. ring.
Qed.
End CharP.

(** *** The ring Z/m *)
Section Zm.
Variable m : Z.
Hypothesis Hm : 1 < m.

Definition Zm : Type := { z : Z | (z mod m =? z) = true }.
Definition zval (x : Zm) : Z := proj1_sig x.
Lemma zm_ok z : ((z mod m) mod m =? z mod m) = true.
Proof. apply Z.eqb_eq, Z.mod_mod. lia. Qed.
Definition mkzm (z : Z) : Zm := exist _ (z mod m) (zm_ok z).
Lemma zval_mod x : zval x mod m = zval x.
Proof. apply Z.eqb_eq. exact (proj2_sig x). Qed.
Lemma zval_range x : 0 <= zval x < m.
Proof. rewrite <- zval_mod. apply Z.mod_pos_bound. lia. Qed.
Lemma zval_inj x y : zval x = zval y -> x = y.
Proof.
  destruct x as [x Hx], y as [y Hy]. cbn. intros ->. f_equal. apply UIP_dec, bool_dec.
Qed.
Lemma zval_mk z : zval (mkzm z) = z mod m. Proof. reflexivity. Qed.
Lemma mkzm_eq a b : mkzm a = mkzm b <-> a mod m = b mod m.
Proof.
  split.
  - intros E. exact (f_equal zval E).
  - intros E. apply zval_inj. exact E.
Qed.
Lemma mkzm_zval x : mkzm (zval x) = x.
Proof. apply zval_inj. apply zval_mod. Qed.

Definition zadd (x y : Zm) := mkzm (zval x + zval y).
Definition zmul (x y : Zm) := mkzm (zval x * zval y).
Definition zsub (x y : Zm) := mkzm (zval x - zval y).
Definition zopp (x : Zm) := mkzm (- zval x).

Lemma mkzm_add a b : mkzm (a + b) = zadd (mkzm a) (mkzm b).
Proof. apply mkzm_eq. cbn. apply Z.add_mod. lia. Qed.
Lemma mkzm_mul a b : mkzm (a * b) = zmul (mkzm a) (mkzm b).
Proof. apply mkzm_eq. cbn. apply Z.mul_mod. lia. Qed.
Lemma mkzm_sub a b : mkzm (a - b) = zsub (mkzm a) (mkzm b).
Proof. apply mkzm_eq. cbn. apply Zminus_mod. Qed.
Lemma mkzm_opp a : mkzm (- a) = zopp (mkzm a).
Proof.
  apply mkzm_eq. cbn. replace (- a) with (0 - a) by lia. replace (- (a mod m)) with (0 - a mod m) by lia.
  symmetry. apply Zminus_mod_idemp_r.
Qed.

Lemma zm_ring : ring_theory (mkzm 0) (mkzm 1) zadd zmul zsub zopp eq.
Proof.
  constructor; intros;
    repeat match goal with x : Zm |- _ => rewrite <- (mkzm_zval x); generalize (zval x); clear x; intros x end;
    rewrite <- ?mkzm_opp;
    repeat rewrite <- ?mkzm_add, <- ?mkzm_mul, <- ?mkzm_sub, <- ?mkzm_opp;
    apply mkzm_eq; f_equal; ring.
Qed.

Lemma zm_npow a n : npow (mkzm 1) zmul (mkzm a) n = mkzm (a ^ Z.of_nat n).
Proof.
  induction n; [reflexivity|]. cbn [npow]. rewrite IHn, <- mkzm_mul.
  f_equal. rewrite Nat2Z.inj_succ, Z.pow_succ_r by lia. auto.
Qed.
Lemma zm_nmul a n : npow (mkzm 0) zadd (mkzm a) n = mkzm (Z.of_nat n * a).
Proof.
  induction n; [reflexivity|]. cbn [npow]. rewrite IHn, <- mkzm_add.
  f_equal. lia.
Qed.
End Zm.

(** Fermat's little theorem. *)
Theorem fermat p a : prime p -> a ^ p mod p = a mod p.
Proof.
  intros Hp. assert (Hp1 : 1 < p) by (destruct Hp; lia).
  pose proof (frobenius_nat _ _ _ _ _ _ (zm_ring p Hp1) (Z.to_nat p)) as F.
  rewrite Z2Nat.id in F by lia. specialize (F Hp).
  rewrite (zm_nmul p Hp1) in F. rewrite Z2Nat.id in F by lia.
  assert (C : mkzm p Hp1 (p * 1) = mkzm p Hp1 0).
  { apply mkzm_eq. rewrite Z.mul_1_r, Z.mod_same, Z.mod_0_l; lia. }
  specialize (F C (Z.to_nat (a mod p))).
  rewrite (zm_nmul p Hp1), (zm_npow p Hp1) in F.
  pose proof (Z.mod_pos_bound a p ltac:(lia)).
  rewrite !Z2Nat.id in F by lia. rewrite Z.mul_1_r in F.
  apply mkzm_eq in F. rewrite <- Zpower_mod in F by lia.
  rewrite F. apply Z.mod_mod. lia.
Qed.

Lemma fermat_pred p a : prime p -> a mod p <> 0 -> a ^ (p - 1) mod p = 1.
Proof.
  intros Hp Ha. assert (Hp1 : 1 < p) by (destruct Hp; lia).
  pose proof (fermat p a Hp) as F.
  assert (D : (p | a * (a ^ (p - 1) - 1))).
  { apply Z.mod_divide; [lia|]. rewrite Z.mul_sub_distr_l, Z.mul_1_r.
    rewrite <- Z.pow_succ_r by lia. replace (Z.succ (p - 1)) with p by lia.
    rewrite Zminus_mod, F, Z.sub_diag. apply Z.mod_0_l; lia. }
  apply prime_mult in D as [D|D]; auto.
  - apply Z.mod_divide in D; lia.
  - destruct D as [k D]. replace (a ^ (p - 1)) with (1 + k * p) by lia.
    rewrite Z_mod_plus_full. apply Z.mod_small. lia.
Qed.

(** *** Orders and gcd of exponents *)
Lemma pow1_sub p a x y : 1 < p -> 0 <= y <= x ->
  a ^ x mod p = 1 -> a ^ y mod p = 1 -> a ^ (x - y) mod p = 1.
Proof.
  intros Hp H Hx Hy. replace x with (x - y + y) in Hx by lia.
  rewrite Z.pow_add_r, Z.mul_mod, Hy, Z.mul_1_r, Z.mod_mod in Hx by lia. auto.
Qed.
Lemma pow1_mul p a x k : 1 < p -> 0 <= x -> 0 <= k ->
  a ^ x mod p = 1 -> a ^ (x * k) mod p = 1.
Proof.
  intros Hp Hx Hk H. rewrite Z.pow_mul_r, Zpower_mod, H, Z.pow_1_l by lia.
  apply Z.mod_small. lia.
Qed.
Lemma pow1_mod p a x y : 1 < p -> 0 <= x -> 0 < y ->
  a ^ x mod p = 1 -> a ^ y mod p = 1 -> a ^ (x mod y) mod p = 1.
Proof.
  intros Hp Hx Hy Ex Ey. rewrite (Z.mod_eq x y) by lia.
  pose proof (Z.div_pos x y Hx Hy). pose proof (Z.mul_div_le x y Hy).
  apply pow1_sub; auto; [nia|]. apply pow1_mul; auto; lia.
Qed.
Lemma pow1_gcd p a : 1 < p -> forall x y, 0 <= x -> 0 <= y ->
  a ^ x mod p = 1 -> a ^ y mod p = 1 -> a ^ Z.gcd x y mod p = 1.
Proof.
  intros Hp x y Hx Hy. revert x Hx. pattern y. apply Z_lt_induction; [|exact Hy].
  clear y Hy. intros y IH x Hx Ex Ey. destruct (Z_le_gt_dec y 0).
  - destruct (Z.eq_dec y 0) as [->|].
    + now rewrite Z.gcd_0_r, Z.abs_eq.
    + rewrite Z.pow_neg_r in Ey by lia. rewrite Z.mod_0_l in Ey; lia.
  - pose proof (Z.mod_pos_bound x y ltac:(lia)).
    rewrite Z.gcd_comm, <- Z.gcd_mod, Z.gcd_comm by lia.
    apply IH; try lia. apply pow1_mod; auto; lia.
Qed.

Lemma has_prime_divisor n : 1 < n -> exists p, prime p /\ (p | n).
Proof.
  intros Hn. assert (H0 : 0 <= n) by lia. revert Hn. pattern n.
  apply Z_lt_induction; auto. clear n H0. intros n IH Hn.
  destruct (prime_dec n) as [Hp|Hp]; [exists n; split; auto; apply Z.divide_refl|].
  apply not_prime_divide in Hp as (d & Hd & D); auto.
  destruct (IH d) as (p & Pp & Dp); try lia. exists p; split; auto.
  eapply Z.divide_trans; eauto.
Qed.

Lemma composite_small_divisor n : 1 < n -> ~ prime n ->
  exists p, prime p /\ (p | n) /\ p * p <= n.
Proof.
  intros Hn Np. apply not_prime_divide in Np as (d & Hd & [e E]); auto.
  assert (1 < e < n) by nia.
  destruct (Z_le_gt_dec (d * d) n).
  - destruct (has_prime_divisor d) as (p & Pp & Dp); [lia|]. exists p.
    assert (p <= d) by (apply Z.divide_pos_le; auto; lia).
    split; auto. split; [eapply Z.divide_trans; eauto; exists e; auto|].
    assert (1 < p) by (destruct Pp; lia). nia.
  - destruct (has_prime_divisor e) as (p & Pp & Dp); [lia|]. exists p.
    assert (p <= e) by (apply Z.divide_pos_le; auto; lia).
    split; auto. split; [eapply Z.divide_trans; eauto; exists d; lia|].
    assert (1 < p) by (destruct Pp; lia).
    assert (e < d) by nia. assert (p * p <= e * e) by nia. nia.
Qed.

(** *** Pocklington's criterion *)

(** A factored part of n-1: distinct primes with exponents. *)
Definition fac_prod (l : list (Z * Z)) : Z := fold_right (fun qe acc => fst qe ^ snd qe * acc) 1 l.

Lemma fac_prod_divides l x : NoDup (map fst l) ->
  (forall qe, In qe l -> prime (fst qe) /\ 0 <= snd qe /\ (fst qe ^ snd qe | x)) ->
  (fac_prod l | x).
Proof.
  induction l as [|[q e] l IH]; intros ND H; cbn [fac_prod fold_right fst snd].
  - apply Z.divide_1_l.
  - inversion ND as [|? ? Nin ND']; subst.
    fold (fac_prod l).
    destruct (H (q, e)) as (Pq & He & Dq); [now left|]. cbn in *.
    assert (D : (fac_prod l | x)) by (apply IH; auto; intros; apply H; now right).
    assert (RP : rel_prime (fac_prod l) (q ^ e)).
    { clear IH D ND. revert ND' Nin H. induction l as [|[q' e'] l IHl]; intros ND' Nin H; cbn.
      - apply rel_prime_1.
      - inversion ND'; subst. cbn in Nin.
        apply rel_prime_sym, rel_prime_mult; apply rel_prime_sym.
        + destruct (H (q', e')) as (Pq' & He' & _); [right; now left|]. cbn in *.
          apply rel_prime_Zpower; auto.
          apply prime_rel_prime; auto. intros D.
          apply prime_div_prime in D; auto.
        + apply IHl; auto. intros qe Hin. apply H. destruct Hin; [left|right; right]; auto. }
    destruct D as [y ->]. apply Z.mul_divide_mono_r.
    apply rel_prime_sym in RP. rewrite Z.mul_comm in Dq. eapply Gauss; eauto.
Qed.

Theorem pocklington n l : 1 < n -> NoDup (map fst l) -> (fac_prod l | n - 1) ->
  n < fac_prod l * fac_prod l -> 0 < fac_prod l ->
  (forall qe, In qe l -> prime (fst qe) /\ 0 <= snd qe /\
     exists a, a ^ (n - 1) mod n = 1 /\ Z.gcd (a ^ ((n - 1) / fst qe) - 1) n = 1) ->
  prime n.
Proof.
  intros Hn ND DF Hsq Hpos H.
  destruct (prime_dec n) as [|Np]; auto. exfalso.
  destruct (composite_small_divisor n Hn Np) as (p & Pp & Dp & Hpp).
  assert (Hp1 : 1 < p) by (destruct Pp; lia).
  assert (D : (fac_prod l | p - 1)).
  { apply fac_prod_divides; auto. intros [q e] Hin.
    destruct (H _ Hin) as (Pq & He & a & A1 & A2). cbn [fst snd] in *.
    assert (Hq1 : 1 < q) by (destruct Pq; lia).
    split; auto. split; auto.
    assert (De : (q ^ e | n - 1)).
    { eapply Z.divide_trans; [|exact DF]. clear - Hin.
      induction l as [|[q' e'] l IH]; [easy|]. cbn. destruct Hin as [E|Hin].
      - injection E as -> ->. apply Z.divide_factor_l.
      - apply Z.divide_mul_r. auto. }
    assert (A1p : a ^ (n - 1) mod p = 1).
    { pose proof (Z.div_mod (a ^ (n - 1)) n ltac:(lia)) as DM. rewrite A1 in DM.
      destruct Dp as [k Ek]. rewrite DM. rewrite Ek at 1.
      replace (k * p * (a ^ (n - 1) / n) + 1) with (1 + (k * (a ^ (n - 1) / n)) * p) by ring.
      rewrite Z_mod_plus_full. apply Z.mod_small. lia. }
    assert (Ha : a mod p <> 0).
    { intros E. rewrite Zpower_mod, E, Z.pow_0_l in A1p by lia.
      rewrite Z.mod_0_l in A1p; lia. }
    pose proof (fermat_pred p a Pp Ha) as Fp.
    set (g := Z.gcd (p - 1) (n - 1)).
    assert (G : a ^ g mod p = 1) by (apply pow1_gcd; auto; lia).
    assert (G0 : 0 <= g) by apply Z.gcd_nonneg.
    destruct (Z.gcd_divide_r (p - 1) (n - 1)) as [k Hk]. fold g in Hk.
    destruct (Zdivide_dec q k) as [[k' ->]|Nq].
    - exfalso. replace ((n - 1) / q) with (g * k') in A2.
      2:{ rewrite Hk. replace (k' * q * g) with (g * k' * q) by ring. now rewrite Z.div_mul by lia. }
      assert (0 <= k') by nia.
      assert (A3 : a ^ (g * k') mod p = 1) by (apply pow1_mul; auto).
      assert (D1 : (p | a ^ (g * k') - 1)).
      { apply Z.mod_divide; [lia|]. rewrite Zminus_mod, A3, (Z.mod_small 1) by lia.
        reflexivity. }
      assert (D2 : (p | 1)) by (rewrite <- A2; apply Z.gcd_greatest; auto).
      apply Z.divide_pos_le in D2; lia.
    - assert (RP : rel_prime (q ^ e) k).
      { apply rel_prime_sym. apply rel_prime_Zpower_r; auto.
        apply rel_prime_sym. now apply prime_rel_prime. }
      assert (Dg : (q ^ e | g)).
      { eapply Gauss; [|exact RP]. now rewrite <- Hk. }
      eapply Z.divide_trans; [exact Dg|]. apply Z.gcd_divide_l. }
  apply Z.divide_pos_le in D; nia.
Qed.
