(** Pocklington primality certificates and their checker. *)
From Coq Require Import ZArith List Lia Bool Znumtheory Zpow_facts.
From Verif Require Import Algebra NumTheory Mod63.
Import ListNotations.
Open Scope Z_scope.

(** Modular exponentiation: the primitive-integer version, with a plain version
    for the (never met) case in which its run-time checks fail. *)
Fixpoint powmod_slow (a : Z) (e : positive) (m : Z) : Z :=
  match e with
  | xH => a mod m
  | xO e' => let x := powmod_slow a e' m in (x * x) mod m
  | xI e' => let x := powmod_slow a e' m in (a * ((x * x) mod m)) mod m
  end.
Definition powmod (a : Z) (e : positive) (m : Z) : Z :=
  match powmod63 a e m with Some r => r | None => powmod_slow a e m end.

Lemma powmod_slow_spec a e m : 1 < m -> powmod_slow a e m = a ^ Zpos e mod m.
Proof.
  intros Hm. induction e; cbn [powmod_slow]; cbv zeta.
  - rewrite IHe, Z.mul_mod_idemp_r, <- Z.mul_mod_idemp_r by lia.
    rewrite <- (Z.mul_mod (a ^ _)), Z.mul_mod_idemp_r by lia. f_equal.
    rewrite Pos2Z.inj_xI, Z.add_1_r, Z.pow_succ_r, Z.pow_twice_r by lia. ring.
  - rewrite IHe, <- Z.mul_mod by lia.
    now rewrite Pos2Z.inj_xO, Z.pow_twice_r by lia.
  - f_equal. lia.
Qed.

Lemma powmod_spec a e m : 1 < m -> powmod a e m = a ^ Zpos e mod m.
Proof.
  intros Hm. unfold powmod. destruct (powmod63 a e m) eqn:E.
  - now apply powmod63_spec.
  - now apply powmod_slow_spec.
Qed.

Fixpoint trial_from (d : Z) (fuel : nat) (n : Z) : bool :=
  match fuel with
  | O => false
  | S f => if n <? d * d then true
           else negb (n mod d =? 0) && trial_from (d + 1) f n
  end.

Lemma trial_from_spec fuel : forall d n, 1 < d -> trial_from d fuel n = true ->
  forall p, d <= p -> p * p <= n -> n mod p <> 0.
Proof.
  induction fuel as [|f IH]; intros d n Hd E p Hp Hpp; cbn in E; [discriminate|].
  destruct (n <? d * d) eqn:L.
  - apply Z.ltb_lt in L. nia.
  - apply andb_true_iff in E as [E1 E2]. apply negb_true_iff, Z.eqb_neq in E1.
    destruct (Z.eq_dec p d) as [->|]; auto. apply (IH (d + 1) n); auto; lia.
Qed.

Definition trial_prime (n : Z) : bool := (1 <? n) && trial_from 2 2000 n.

Lemma trial_prime_spec n : trial_prime n = true -> prime n.
Proof.
  unfold trial_prime. rewrite andb_true_iff, Z.ltb_lt. intros [Hn T].
  destruct (prime_dec n) as [|Np]; auto. exfalso.
  destruct (composite_small_divisor n Hn Np) as (p & Pp & Dp & Hpp).
  assert (1 < p) by (destruct Pp; lia).
  apply (trial_from_spec _ 2 n ltac:(lia) T p); auto; [lia|].
  now apply Z.mod_divide; [lia|].
Qed.

Inductive cert : Type :=
| Small (n : Z)
| Pock (n a : Z) (fs : list (cert * Z)).   (* base; (certificate of q, exponent) *)

Definition cert_num (c : cert) : Z := match c with Small n => n | Pock n _ _ => n end.

(** Checks a^(n-1) = 1 and gcd(a^((n-1)/q) - 1, n) = 1 for all q of a list
    together: x is a^((n-1)/(product of the list)), raised to one more factor
    at each step. *)
Definition zpowmod (a e n : Z) : Z := powmod a (Z.to_pos e) n.
Definition zprod (l : list Z) : Z := fold_right Z.mul 1 l.
Fixpoint peel (n x : Z) (qs : list Z) : bool :=
  match qs with
  | [] => x =? 1
  | q :: l => (0 <? q) && (Z.gcd (zpowmod x (zprod l) n - 1) n =? 1)
              && peel n (zpowmod x q n) l
  end.
Definition check_bases (n a : Z) (qs : list Z) : bool :=
  ((n - 1) mod zprod qs =? 0) && (0 <? (n - 1) / zprod qs) &&
  peel n (zpowmod a ((n - 1) / zprod qs) n) qs.

Fixpoint nodupb (l : list Z) : bool :=
  match l with [] => true | x :: l' => negb (existsb (Z.eqb x) l') && nodupb l' end.

Fixpoint check (c : cert) : bool :=
  match c with
  | Small n => trial_prime n
  | Pock n a fs =>
      let l := map (fun t => (cert_num (fst t), snd t)) fs in
      (1 <? n) && nodupb (map fst l) && ((n - 1) mod fac_prod l =? 0) &&
      (0 <? fac_prod l) && (n <? fac_prod l * fac_prod l) &&
      check_bases n a (map fst l) &&
      forallb (fun t => check (fst t) && (0 <=? snd t)) fs
  end.

Lemma nodupb_spec l : nodupb l = true -> NoDup l.
Proof.
  induction l; cbn; intros H; constructor; apply andb_true_iff in H as [H1 H2]; auto.
  intros Hin. apply negb_true_iff in H1. assert (existsb (Z.eqb a) l = true).
  { apply existsb_exists. exists a. split; auto. apply Z.eqb_refl. } congruence.
Qed.

Lemma zpowmod_spec a e n : 1 < n -> 0 < e -> zpowmod a e n = a ^ e mod n.
Proof. intros Hn He. unfold zpowmod. rewrite powmod_spec, Z2Pos.id by auto. auto. Qed.

Lemma gcd_mod_sub1 a n : 1 < n -> Z.gcd (a mod n - 1) n = Z.gcd (a - 1) n.
Proof.
  intros Hn. rewrite !(Z.gcd_comm _ n).
  rewrite <- (Z.gcd_mod (a - 1) n), <- (Z.gcd_mod (a mod n - 1) n) by lia.
  f_equal. now rewrite Zminus_mod_idemp_l.
Qed.

Lemma peel_spec n a : 1 < n -> forall qs k, 0 < k -> peel n (a ^ k mod n) qs = true ->
  0 < zprod qs /\ a ^ (k * zprod qs) mod n = 1 /\
  forall q, In q qs -> Z.gcd (a ^ (k * zprod qs / q) - 1) n = 1.
Proof.
  intros Hn. induction qs as [|q l IH]; intros k Hk H; cbn [peel] in H.
  - apply Z.eqb_eq in H. cbn. rewrite Z.mul_1_r. split; [lia|]. split; auto; easy.
  - rewrite !andb_true_iff in H. destruct H as [[Hq Hg] Hp].
    apply Z.ltb_lt in Hq. apply Z.eqb_eq in Hg.
    assert (Ex : zpowmod (a ^ k mod n) q n = a ^ (k * q) mod n).
    { rewrite zpowmod_spec, <- Zpower_mod, <- Z.pow_mul_r by lia. auto. }
    rewrite Ex in Hp. apply IH in Hp as (P0 & P1 & P2); [|nia].
    change (zprod (q :: l)) with (q * zprod l).
    replace (k * (q * zprod l)) with (k * q * zprod l) by ring.
    split; [nia|]. split; auto.
    intros q' [<-|Hin]; [|apply P2; auto].
    rewrite zpowmod_spec, <- Zpower_mod, <- Z.pow_mul_r in Hg by lia.
    rewrite gcd_mod_sub1 in Hg by auto.
    replace (k * q * zprod l / q) with (k * zprod l); auto.
    replace (k * q * zprod l) with (k * zprod l * q) by ring. now rewrite Z.div_mul by lia.
Qed.

Lemma check_bases_spec n a qs : 1 < n -> check_bases n a qs = true ->
  a ^ (n - 1) mod n = 1 /\
  forall q, In q qs -> Z.gcd (a ^ ((n - 1) / q) - 1) n = 1.
Proof.
  unfold check_bases. rewrite !andb_true_iff, Z.eqb_eq, Z.ltb_lt. intros Hn [[Hm H0] Hp].
  rewrite zpowmod_spec in Hp by auto. apply peel_spec in Hp as (P0 & P1 & P2); auto.
  assert (E : (n - 1) / zprod qs * zprod qs = n - 1).
  { rewrite Z.mul_comm. symmetry. apply Z.div_exact; lia. }
  rewrite E in *. auto.
Qed.

Section cert_ind.
Variable Q : cert -> Prop.
Hypothesis HS : forall n, Q (Small n).
Hypothesis HP : forall n a fs, Forall (fun t => Q (fst t)) fs -> Q (Pock n a fs).
Fixpoint cert_ind' (c : cert) : Q c :=
  match c with
  | Small n => HS n
  | Pock n a fs => HP n a fs
      ((fix go l : Forall (fun t => Q (fst t)) l :=
         match l with [] => Forall_nil _
         | t :: l' => Forall_cons t (cert_ind' (fst t)) (go l') end) fs)
  end.
End cert_ind.

Theorem check_sound c : check c = true -> prime (cert_num c).
Proof.
  induction c as [n|n a fs IH] using cert_ind'; intros H.
  - now apply trial_prime_spec.
  - cbn [check cert_num] in *. cbv zeta in H.
    repeat (apply andb_true_iff in H as [H ?]).
    apply Z.ltb_lt in H. rename H0 into HF, H1 into Hfe, H2 into Hsq, H3 into Hpos, H4 into Hdiv, H5 into Hnd.
    apply Z.ltb_lt in Hsq, Hpos. apply Z.eqb_eq in Hdiv.
    rewrite forallb_forall in HF. rewrite Forall_forall in IH.
    eapply pocklington; eauto using nodupb_spec.
    + apply Z.mod_divide; [lia|auto].
    + intros qe Hin. apply in_map_iff in Hin as (t & <- & Ht). cbn [fst snd].
      specialize (HF t Ht). specialize (IH t Ht).
      apply andb_true_iff in HF as [HC He].
      apply Z.leb_le in He. split; auto. split; auto.
      exists a. apply check_bases_spec in Hfe as [F1 F2]; auto. split; auto.
      apply F2. apply in_map_iff. exists (cert_num (fst t), snd t). split; auto.
      apply in_map_iff. now exists t.
Qed.

Theorem check_prime c n : check c = true -> cert_num c = n -> prime n.
Proof. intros H <-. now apply check_sound. Qed.
