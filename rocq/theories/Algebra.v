(** Small algebraic specification layer: powers in a monoid (used both as
    b*b*...*b and, additively, as P+P+...+P), and their laws. *)
From Coq Require Import ZArith List Lia Bool Ring_theory Ring.
Import ListNotations.

(** [npow one mul b n] is b multiplied by itself n times. *)
Fixpoint npow {T : Type} (one : T) (mul : T -> T -> T) (b : T) (n : nat) : T :=
  match n with
  | O => one
  | S n' => mul b (npow one mul b n')
  end.

(** Product (or sum) of a list. *)
Fixpoint nprod {T : Type} (one : T) (mul : T -> T -> T) (l : list T) : T :=
  match l with
  | [] => one
  | x :: l' => mul x (nprod one mul l')
  end.

(** Commutative monoid laws. *)
Record monoid_laws {T : Type} (one : T) (mul : T -> T -> T) : Prop := {
  ml_1_l : forall x, mul one x = x;
  ml_1_r : forall x, mul x one = x;
  ml_assoc : forall x y z, mul x (mul y z) = mul (mul x y) z
}.

Section Monoid.
Context {T : Type} (one : T) (mul : T -> T -> T).
Hypothesis M : monoid_laws one mul.
Notation pow := (npow one mul).

Lemma npow_0 b : pow b 0 = one. Proof. reflexivity. Qed.
Lemma npow_1 b : pow b 1 = b. Proof. apply (ml_1_r _ _ M). Qed.
Lemma npow_2 b : pow b 2 = mul b b. Proof. cbn. now rewrite (ml_1_r _ _ M). Qed.
Lemma npow_one n : pow one n = one.
Proof. induction n; cbn; auto. rewrite IHn. apply (ml_1_l _ _ M). Qed.
Lemma npow_add b n m : pow b (n + m) = mul (pow b n) (pow b m).
Proof.
  induction n; cbn [npow Nat.add]; [now rewrite (ml_1_l _ _ M)|].
  rewrite IHn. apply (ml_assoc _ _ M).
Qed.
Lemma npow_S_r b n : pow b (S n) = mul (pow b n) b.
Proof. replace (S n) with (n + 1) by lia. rewrite npow_add. now rewrite npow_1. Qed.
Lemma npow_mul b n m : pow b (n * m) = pow (pow b n) m.
Proof.
  induction m; [now rewrite Nat.mul_0_r|].
  rewrite Nat.mul_succ_r, Nat.add_comm, npow_add, IHm. reflexivity.
Qed.
Lemma npow_double b n : pow b (2 * n) = mul (pow b n) (pow b n).
Proof. replace (2 * n) with (n + n) by lia. apply npow_add. Qed.
Lemma npow_comm b n m : mul (pow b n) (pow b m) = mul (pow b m) (pow b n).
Proof. rewrite <- !npow_add. f_equal. lia. Qed.

Lemma nprod_app l l' : nprod one mul (l ++ l') = mul (nprod one mul l) (nprod one mul l').
Proof.
  induction l; cbn; [now rewrite (ml_1_l _ _ M)|]. rewrite IHl. apply (ml_assoc _ _ M).
Qed.

Hypothesis C : forall x y, mul x y = mul y x.

Lemma npow_mul_distr x y n : pow (mul x y) n = mul (pow x n) (pow y n).
Proof.
  induction n; cbn; [now rewrite (ml_1_l _ _ M)|]. rewrite IHn.
  rewrite <- !(ml_assoc _ _ M). f_equal.
  rewrite !(ml_assoc _ _ M). f_equal. apply C.
Qed.
End Monoid.

(** Commutative rings: transport of [ring_theory]. *)
Section Ring.
Context {K : Type} (k0 k1 : K) (kadd kmul ksub : K -> K -> K) (kopp : K -> K).
Hypothesis Kth : ring_theory k0 k1 kadd kmul ksub kopp eq.
Add Ring Kring : Kth.

Notation "0" := k0. Notation "1" := k1.
Notation "x + y" := (kadd x y). Notation "x * y" := (kmul x y).
Notation "x - y" := (ksub x y). Notation "- x" := (kopp x).

Lemma ring_mul_monoid : monoid_laws k1 kmul.
Proof. constructor; intros; ring. Qed.
Lemma ring_add_monoid : monoid_laws k0 kadd.
Proof. constructor; intros; ring. Qed.
Lemma ring_mul_comm x y : x * y = y * x. Proof. ring. Qed.
Lemma ring_add_comm x y : x + y = y + x. Proof. ring. Qed.

Notation pow := (npow k1 kmul).
(** n . x = x + ... + x *)
Notation nat_mul := (npow k0 kadd).

Lemma nmul_mul_l n x y : nat_mul x n * y = nat_mul (x * y) n.
Proof. induction n; cbn [npow]; [ring|]. rewrite <- IHn. ring. Qed.
Lemma nmul_add n x y : nat_mul (x + y) n = nat_mul x n + nat_mul y n.
Proof. induction n; cbn [npow]; [ring|]. rewrite IHn. ring. Qed.
Lemma nmul_zero n : nat_mul 0 n = 0.
Proof. apply npow_one, ring_add_monoid. Qed.
Lemma npow_zero n : (0 < n)%nat -> pow 0 n = 0.
Proof. destruct n; [lia|]. intros _. cbn. ring. Qed.

(** Binomial theorem. *)
Fixpoint binom (n k : nat) : nat :=
  match n, k with
  | _, O => 1
  | O, S _ => 0
  | S n', S k' => binom n' k' + binom n' (S k')
  end%nat.

Lemma binom_0 n : binom n O = 1%nat. Proof. destruct n; auto. Qed.
Lemma binom_gt n : forall k, (n < k)%nat -> binom n k = O.
Proof.
  induction n; intros [|k] H; cbn; try lia; auto.
  rewrite !IHn by lia. auto.
Qed.
Lemma binom_diag n : binom n n = 1%nat.
Proof. induction n; cbn; auto. rewrite IHn, binom_gt by lia. auto. Qed.
(** Absorption: (k+1) C(n+1,k+1) = (n+1) C(n,k). *)
Lemma binom_absorb n : forall k, (S k * binom (S n) (S k) = S n * binom n k)%nat.
Proof.
  induction n; intros k.
  - destruct k; cbn; lia.
  - change (binom (S (S n)) (S k)) with (binom (S n) k + binom (S n) (S k))%nat.
    destruct k as [|k].
    + rewrite !binom_0. specialize (IHn O). rewrite binom_0 in IHn. lia.
    + pose proof (IHn k) as H1. pose proof (IHn (S k)) as H2.
      change (binom (S n) (S k)) with (binom n k + binom n (S k))%nat in *. nia.
Qed.

Fixpoint sum_upto (f : nat -> K) (n : nat) : K :=
  match n with O => 0 | S n' => sum_upto f n' + f n' end.

Lemma sum_ext f g n : (forall k, (k < n)%nat -> f k = g k) -> sum_upto f n = sum_upto g n.
Proof. induction n; intros H; cbn; auto. rewrite IHn, H by (intros; try apply H; lia). auto. Qed.
Lemma sum_add f g n : sum_upto (fun k => f k + g k) n = sum_upto f n + sum_upto g n.
Proof. induction n; cbn; [ring|]. rewrite IHn. ring. Qed.
Lemma sum_scale c f n : c * sum_upto f n = sum_upto (fun k => c * f k) n.
Proof. induction n; cbn; [ring|]. rewrite <- IHn. ring. Qed.
Lemma sum_shift f n : sum_upto f (S n) = f O + sum_upto (fun k => f (S k)) n.
Proof. induction n; cbn; [ring|]. cbn in IHn. rewrite IHn. ring. Qed.
Lemma sum_zero f n : (forall k, (k < n)%nat -> f k = 0) -> sum_upto f n = 0.
Proof. induction n; intros H; cbn; auto. rewrite IHn, H by (intros; try apply H; lia). ring. Qed.

Theorem binomial x y n :
  pow (x + y) n = sum_upto (fun k => nat_mul (pow x k * pow y (n - k)) (binom n k)) (S n).
Proof.
  induction n.
  - cbn. ring.
  - cbn [npow]. rewrite IHn.
    replace ((x + y) * sum_upto (fun k => nat_mul (pow x k * pow y (n - k)) (binom n k)) (S n))
      with (sum_upto (fun k => nat_mul (pow x (S k) * pow y (n - k)) (binom n k)) (S n)
          + sum_upto (fun k => nat_mul (pow x k * pow y (S n - k)) (binom n k)) (S n)).
    2:{ transitivity (x * sum_upto (fun k => nat_mul (pow x k * pow y (n - k)) (binom n k)) (S n)
                    + y * sum_upto (fun k => nat_mul (pow x k * pow y (n - k)) (binom n k)) (S n)); [|ring].
        rewrite !sum_scale. f_equal; apply sum_ext; intros k Hk.
        - rewrite (ring_mul_comm x), nmul_mul_l. f_equal. cbn. ring.
        - rewrite (ring_mul_comm y), nmul_mul_l. f_equal.
          replace (S n - k)%nat with (S (n - k)) by lia. cbn. ring. }
    rewrite (sum_shift _ (S n)).
    replace (sum_upto (fun k => nat_mul (pow x (S k) * pow y (S n - S k)) (binom (S n) (S k))) (S n))
      with (sum_upto (fun k => nat_mul (pow x (S k) * pow y (n - k)) (binom n k)) (S n)
          + sum_upto (fun k => nat_mul (pow x (S k) * pow y (n - k)) (binom n (S k))) (S n)).
    2:{ rewrite <- sum_add. apply sum_ext. intros k Hk. cbn [Nat.sub binom].
        rewrite npow_add; auto using ring_add_monoid. }
    rewrite (sum_shift (fun k => nat_mul (pow x k * pow y (S n - k)) (binom n k)) n).
    cbn [sum_upto]. rewrite (binom_gt n (S n)) by lia.
    rewrite !binom_0. cbn [Nat.sub npow].
    ring.
Qed.

End Ring.
Arguments binom : simpl never.
