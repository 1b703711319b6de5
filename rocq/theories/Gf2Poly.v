(** Polynomials over GF(2) as binary numbers (bit i is the coefficient of
    x^i): the carry-less product, and congruence modulo a polynomial.  This is
    the specification side of the binary fields gf32 .. gf256. *)
From Coq Require Import NArith List Bool Lia Ring_theory Ring.
Open Scope N_scope.

(** Addition of polynomials is exclusive or. *)
Notation padd := N.lxor (only parsing).

(** Carry-less product. *)
Fixpoint pmul_pos (a : N) (b : positive) : N :=
  match b with
  | xH => a
  | xO b' => N.double (pmul_pos a b')
  | xI b' => N.lxor a (N.double (pmul_pos a b'))
  end.
Definition pmul (a b : N) : N := match b with 0 => 0 | Npos p => pmul_pos a p end.

(** a = b modulo the polynomial f. *)
Definition pcong (f a b : N) : Prop := exists c, N.lxor a b = pmul c f.

(** [r] is the product of a and b in GF(2)[x]/(f), where f = x^k + (lower
    terms m): the representative below x^k. *)
Definition is_prod (k m a b r : N) : Prop := r < 2 ^ k /\ pcong (N.lxor (2 ^ k) m) (pmul a b) r.

(** * Ring structure *)
Lemma double_lxor a b : N.double (N.lxor a b) = N.lxor (N.double a) (N.double b).
Proof. destruct a, b; reflexivity. Qed.
Lemma double_lor a b : N.double (N.lor a b) = N.lor (N.double a) (N.double b).
Proof. destruct a, b; reflexivity. Qed.
Lemma sdouble_lxor a : N.succ_double a = N.lxor 1 (N.double a).
Proof. destruct a; reflexivity. Qed.
Lemma N_bin_ind (P : N -> Prop) : P 0 -> (forall n, P n -> P (N.double n)) -> (forall n, P n -> P (N.succ_double n)) ->
  forall n, P n.
Proof. intros. apply N.binary_ind; auto. Qed.

Lemma pmul_0_r a : pmul a 0 = 0. Proof. reflexivity. Qed.
Lemma pmul_1_r a : pmul a 1 = a. Proof. reflexivity. Qed.
Lemma pmul_double_r a b : pmul a (N.double b) = N.double (pmul a b).
Proof. destruct b; reflexivity. Qed.
Lemma pmul_sdouble_r a b : pmul a (N.succ_double b) = N.lxor a (N.double (pmul a b)).
Proof. destruct b; cbn; auto. now rewrite N.lxor_0_r. Qed.
Lemma pmul_0_l b : pmul 0 b = 0.
Proof.
  induction b using N_bin_ind; auto.
  - now rewrite pmul_double_r, IHb.
  - now rewrite pmul_sdouble_r, IHb.
Qed.
Lemma lxor_swap a b c d : N.lxor (N.lxor a b) (N.lxor c d) = N.lxor (N.lxor a c) (N.lxor b d).
Proof.
  rewrite !N.lxor_assoc. f_equal. rewrite <- !N.lxor_assoc. f_equal. apply N.lxor_comm.
Qed.
Lemma pmul_lxor_l a b c : pmul (N.lxor a b) c = N.lxor (pmul a c) (pmul b c).
Proof.
  induction c using N_bin_ind; auto.
  - now rewrite !pmul_double_r, IHc, double_lxor.
  - rewrite !pmul_sdouble_r, IHc, double_lxor. apply lxor_swap.
Qed.
Lemma pmul_double_l a b : pmul (N.double a) b = N.double (pmul a b).
Proof.
  induction b using N_bin_ind; auto.
  - now rewrite !pmul_double_r, IHb.
  - now rewrite !pmul_sdouble_r, IHb, double_lxor.
Qed.
Lemma pmul_1_l b : pmul 1 b = b.
Proof.
  induction b using N_bin_ind; auto.
  - now rewrite pmul_double_r, IHb.
  - now rewrite pmul_sdouble_r, IHb, sdouble_lxor.
Qed.
Lemma pmul_comm a b : pmul a b = pmul b a.
Proof.
  induction a using N_bin_ind.
  - now rewrite pmul_0_l.
  - now rewrite pmul_double_l, pmul_double_r, IHa.
  - now rewrite sdouble_lxor, pmul_lxor_l, pmul_1_l, pmul_double_l, <- sdouble_lxor, pmul_sdouble_r, IHa.
Qed.
Lemma pmul_lxor_r a b c : pmul a (N.lxor b c) = N.lxor (pmul a b) (pmul a c).
Proof. now rewrite pmul_comm, pmul_lxor_l, (pmul_comm b), (pmul_comm c). Qed.
Lemma pmul_assoc a b c : pmul a (pmul b c) = pmul (pmul a b) c.
Proof.
  induction c using N_bin_ind; auto.
  - now rewrite !pmul_double_r, IHc.
  - now rewrite !pmul_sdouble_r, pmul_lxor_r, pmul_double_r, IHc.
Qed.

Lemma poly_ring : ring_theory 0 1 N.lxor pmul N.lxor (fun x => x) (@eq N).
Proof.
  constructor; intros.
  - apply N.lxor_0_l.
  - apply N.lxor_comm.
  - symmetry. apply N.lxor_assoc.
  - apply pmul_1_l.
  - apply pmul_comm.
  - apply pmul_assoc.
  - apply pmul_lxor_l.
  - reflexivity.
  - apply N.lxor_nilpotent.
Qed.
(** Coefficients are computed modulo 2. *)
Definition b2p (b : bool) : N := if b then 1 else 0.
Lemma poly_morph :
  ring_morph 0 1 N.lxor pmul N.lxor (fun x => x) (@eq N) false true xorb andb xorb (fun b => b) Bool.eqb b2p.
Proof.
  constructor; auto; try (intros [] []; reflexivity).
  intros [] []; cbn; congruence.
Qed.
Ltac poly_cst t := match t with 0%N => constr:(false) | 1%N => constr:(true) | _ => constr:(InitialRing.NotConstant) end.
Add Ring PolyRing : poly_ring (morphism poly_morph, constants [poly_cst]).

Example frobenius_add : forall a b, pmul (N.lxor a b) (N.lxor a b) = N.lxor (pmul a a) (pmul b b).
Proof. intros. ring. Qed.

(** * Powers of x and degrees *)
Lemma pow2_S n : 2 ^ N.succ n = N.double (2 ^ n).
Proof. rewrite N.double_spec. apply N.pow_succ_r'. Qed.
Lemma pow2_S2 n : 2 ^ N.succ n = 2 * 2 ^ n. Proof. apply N.pow_succ_r'. Qed.
Lemma dbl n : N.double n = 2 * n. Proof. apply N.double_spec. Qed.
Lemma pmul_pow2 a n : pmul a (2 ^ n) = N.shiftl a n.
Proof.
  induction n using N.peano_ind.
  - cbn. now rewrite N.shiftl_0_r.
  - rewrite pow2_S, pmul_double_r, IHn, N.shiftl_succ_r. reflexivity.
Qed.
Lemma pmul_pow2_mul a n : pmul a (2 ^ n) = a * 2 ^ n.
Proof. rewrite pmul_pow2. apply N.shiftl_mul_pow2. Qed.
Lemma pmul_2 a : pmul a 2 = 2 * a.
Proof. change 2 with (N.double 1) at 1. rewrite pmul_double_r, pmul_1_r. apply N.double_spec. Qed.

Lemma lt_pow2_bits a n : a < 2 ^ n <-> (forall i, n <= i -> N.testbit a i = false).
Proof.
  split.
  - intros H i Hi. destruct (N.eq_dec a 0) as [->|NZ]; [apply N.bits_0|].
    apply N.bits_above_log2. apply N.log2_lt_pow2 in H; lia.
  - intros H. destruct (N.eq_dec a 0) as [->|NZ]; [lia|].
    apply N.log2_lt_pow2; [lia|]. destruct (N.lt_ge_cases (N.log2 a) n) as [L|L]; auto.
    specialize (H _ L). now rewrite N.bit_log2 in H.
Qed.
Lemma lxor_lt a b n : a < 2 ^ n -> b < 2 ^ n -> N.lxor a b < 2 ^ n.
Proof. rewrite !lt_pow2_bits. intros A B i Hi. rewrite N.lxor_spec, A, B; auto. Qed.
Lemma lxor_lt_l a b n : N.lxor a b < 2 ^ n -> b < 2 ^ n -> a < 2 ^ n.
Proof.
  intros H B. replace a with (N.lxor (N.lxor a b) b) by ring. now apply lxor_lt.
Qed.
Lemma pmul_lt a b n k : a < 2 ^ n -> b < 2 ^ k -> pmul a b < 2 ^ (n + k).
Proof.
  intros A. revert k. induction b using N_bin_ind; intros k B.
  - cbn. apply N.neq_0_lt_0, N.pow_nonzero. lia.
  - rewrite pmul_double_r. destruct b as [|p].
    + cbn. apply N.neq_0_lt_0, N.pow_nonzero. lia.
    + destruct k as [|k] using N.peano_ind; [change (2 ^ 0) with 1 in B; lia|].
      rewrite pow2_S2, dbl in B. rewrite dbl.
      specialize (IHb k). rewrite N.add_succ_r, pow2_S2. lia.
  - rewrite pmul_sdouble_r. destruct k as [|k] using N.peano_ind; [rewrite N.succ_double_spec in B; change (2 ^ 0) with 1 in B; lia|].
    rewrite pow2_S2, N.succ_double_spec in B. specialize (IHb k).
    rewrite N.add_succ_r. apply lxor_lt.
    + rewrite <- N.add_succ_r. eapply N.lt_le_trans; [apply A|]. apply N.pow_le_mono_r; lia.
    + rewrite pow2_S2, dbl. lia.
Qed.
(** One bit sharper, for non-zero degrees. *)
Lemma pmul_lt1 a b n k : a < 2 ^ n -> b < 2 ^ (N.succ k) -> pmul a b < 2 ^ (n + k).
Proof.
  intros A. revert k. induction b using N_bin_ind; intros k B.
  - cbn. apply N.neq_0_lt_0, N.pow_nonzero. lia.
  - rewrite pmul_double_r. destruct (N.eq_dec b 0) as [->|NZ].
    + cbn. apply N.neq_0_lt_0, N.pow_nonzero. lia.
    + rewrite pow2_S2, dbl in B. rewrite dbl.
      destruct k as [|k] using N.peano_ind; [change (2 ^ 0) with 1 in B; lia|].
      specialize (IHb k). rewrite N.add_succ_r, pow2_S2. lia.
  - rewrite pmul_sdouble_r. rewrite pow2_S2, N.succ_double_spec in B. apply lxor_lt.
    + eapply N.lt_le_trans; [apply A|]. apply N.pow_le_mono_r; lia.
    + destruct k as [|k] using N.peano_ind.
      * change (2 ^ 0) with 1 in B. assert (b = 0) by lia. subst b. cbn. apply N.neq_0_lt_0, N.pow_nonzero. lia.
      * specialize (IHb k). rewrite N.add_succ_r, pow2_S2, dbl. lia.
Qed.
(** Degrees add. *)
Lemma pmul_log2 f c : f <> 0 -> c <> 0 -> N.log2 (pmul f c) = N.log2 f + N.log2 c /\ pmul f c <> 0.
Proof.
  intros F0.
  induction c using N_bin_ind; intros NZ.
  - contradiction.
  - destruct (N.eq_dec c 0) as [->|C0]; [contradiction|].
    destruct (IHc C0) as [L Z]. rewrite pmul_double_r, !dbl. split; [|lia].
    rewrite !N.log2_double by lia. lia.
  - rewrite pmul_sdouble_r. destruct (N.eq_dec c 0) as [->|C0].
    { cbn [N.succ_double pmul N.double]. rewrite N.lxor_0_r. cbn. split; [lia|auto]. }
    destruct (IHc C0) as [L Z].
    assert (Hlt : N.log2 f < N.log2 (N.double (pmul f c))).
    { rewrite dbl, N.log2_double by lia. lia. }
    assert (E : N.log2 (N.lxor f (N.double (pmul f c))) = N.log2 (N.double (pmul f c))).
    { apply N.log2_bits_unique.
      - rewrite N.lxor_spec, N.bit_log2, N.bits_above_log2; auto. rewrite dbl. lia.
      - intros m Hm. rewrite N.lxor_spec, !N.bits_above_log2; auto. lia. }
    split.
    + rewrite E, dbl, N.log2_double by lia.
      rewrite N.succ_double_spec, N.log2_succ_double by lia. lia.
    + intros H. rewrite H in E. rewrite <- E in Hlt. cbn in Hlt. lia.
Qed.
(** A multiple of a monic polynomial of degree k has degree at least k. *)
Lemma pmul_ge c f k : 2 ^ k <= f -> c <> 0 -> 2 ^ k <= pmul f c.
Proof.
  intros F NZ. assert (2 ^ k <> 0) by (apply N.pow_nonzero; lia).
  destruct (pmul_log2 f c) as [L Z]; [lia|auto|].
  apply N.log2_le_pow2; [lia|]. rewrite L. apply N.log2_le_pow2 in F; lia.
Qed.

(** * Congruence *)
Section Cong.
Variable f : N.
Notation "a == b" := (pcong f a b) (at level 70).
Lemma pcong_refl a : a == a. Proof. exists 0. ring. Qed.
Lemma pcong_sym a b : a == b -> b == a.
Proof. intros [c H]. exists c. rewrite <- H. ring. Qed.
Lemma pcong_trans a b c : a == b -> b == c -> a == c.
Proof. intros [d H] [e G]. exists (N.lxor d e). rewrite pmul_lxor_l, <- H, <- G. ring. Qed.
Lemma pcong_add a b c d : a == b -> c == d -> N.lxor a c == N.lxor b d.
Proof. intros [u H] [v G]. exists (N.lxor u v). rewrite pmul_lxor_l, <- H, <- G. ring. Qed.
Lemma pcong_mul a b c d : a == b -> c == d -> pmul a c == pmul b d.
Proof.
  intros [u H] [v G]. exists (N.lxor (pmul u c) (pmul b v)).
  replace (pmul (N.lxor (pmul u c) (pmul b v)) f) with (N.lxor (pmul (pmul u f) c) (pmul b (pmul v f))) by ring.
  rewrite <- H, <- G. ring.
Qed.
Lemma pcong_f : f == 0. Proof. exists 1. ring. Qed.
Lemma pcong_eq a b : a = b -> a == b. Proof. intros ->. apply pcong_refl. Qed.
Lemma pcong_unique k a b : 2 ^ k <= f -> a < 2 ^ k -> b < 2 ^ k -> a == b -> a = b.
Proof.
  intros F A B [c H]. destruct (N.eq_dec c 0) as [->|NZ].
  - rewrite pmul_0_l in H. now apply N.lxor_eq.
  - pose proof (pmul_ge c f k F NZ) as G. rewrite pmul_comm, <- H in G.
    pose proof (lxor_lt a b k A B). lia.
Qed.
End Cong.

(** x^k + m is monic of degree k. *)
Lemma monic_ge k m : m < 2 ^ k -> 2 ^ k <= N.lxor (2 ^ k) m.
Proof.
  intros M. assert (T : N.testbit (N.lxor (2 ^ k) m) k = true).
  { rewrite N.lxor_spec, N.pow2_bits_true, (proj1 (lt_pow2_bits m k) M k); auto. lia. }
  destruct (N.lt_ge_cases (N.lxor (2 ^ k) m) (2 ^ k)) as [L|L]; auto.
  rewrite (proj1 (lt_pow2_bits _ k) L k) in T; [discriminate|lia].
Qed.
Lemma is_prod_unique k m a b r s : m < 2 ^ k -> is_prod k m a b r -> is_prod k m a b s -> r = s.
Proof.
  intros M [R1 R2] [S1 S2]. eapply pcong_unique; [apply monic_ge, M|auto|auto|].
  eapply pcong_trans; [apply pcong_sym, R2|apply S2].
Qed.

(** Halves: a = lo + x^n * hi. *)
Lemma split_pow2 a n : a = N.lxor (a mod 2 ^ n) (pmul (a / 2 ^ n) (2 ^ n)).
Proof.
  rewrite pmul_pow2, <- N.land_ones, <- N.shiftr_div_pow2. apply N.bits_inj. intros i.
  rewrite N.lxor_spec, N.land_spec. destruct (N.lt_ge_cases i n) as [L|L].
  - rewrite N.ones_spec_low, N.shiftl_spec_low by auto. now rewrite andb_true_r, xorb_false_r.
  - rewrite N.ones_spec_high, N.shiftl_spec_high', N.shiftr_spec' by auto.
    rewrite andb_false_r, xorb_false_l. f_equal. lia.
Qed.

(** * What the carry-less product means: coefficient n of the product is the
    sum modulo 2 of a_i * b_(n-i). *)
Fixpoint conv (a b : N) (n : N) (i : nat) : bool :=
  match i with
  | O => false
  | S j => xorb (conv a b n j) (N.testbit a (N.of_nat j) && (N.of_nat j <=? n) && N.testbit b (n - N.of_nat j))
  end.
Lemma conv_0_l b n i : conv 0 b n i = false.
Proof. induction i; cbn [conv]; auto. now rewrite IHi, N.bits_0. Qed.
Lemma conv_double a b n i : conv (N.double a) b n (S i) = (0 <? n) && conv a b (N.pred n) i.
Proof.
  induction i.
  - cbn [conv]. rewrite dbl. change (N.of_nat 0) with 0. rewrite N.testbit_even_0.
    now rewrite andb_false_r.
  - cbn [conv] in *. rewrite IHi. clear IHi.
    replace (N.of_nat (S i)) with (N.succ (N.of_nat i)) by lia.
    rewrite dbl, N.testbit_even_succ by lia.
    destruct (N.ltb_spec 0 n) as [L|L]; cbn [andb].
    + f_equal. replace (n - N.succ (N.of_nat i)) with (N.pred n - N.of_nat i) by lia.
      do 2 f_equal. apply eq_true_iff_eq. rewrite !N.leb_le. lia.
    + assert (n = 0) by lia. subst n. replace (N.succ (N.of_nat i) <=? 0) with false by (symmetry; apply N.leb_gt; lia).
      now rewrite andb_false_r.
Qed.
Lemma conv_sdouble a b n i :
  conv (N.succ_double a) b n (S i) = xorb (N.testbit b n) ((0 <? n) && conv a b (N.pred n) i).
Proof.
  induction i.
  - cbn [conv]. change (N.of_nat 0) with 0. rewrite N.succ_double_spec, N.testbit_odd_0, N.sub_0_r.
    replace (0 <=? n) with true by (symmetry; apply N.leb_le; lia).
    rewrite andb_false_r. now destruct (N.testbit b n).
  - cbn [conv] in *. rewrite IHi. clear IHi.
    replace (N.of_nat (S i)) with (N.succ (N.of_nat i)) by lia.
    rewrite N.succ_double_spec, N.testbit_odd_succ by lia.
    rewrite xorb_assoc. f_equal.
    destruct (N.ltb_spec 0 n) as [L|L]; cbn [andb].
    + f_equal. replace (n - N.succ (N.of_nat i)) with (N.pred n - N.of_nat i) by lia.
      do 2 f_equal. apply eq_true_iff_eq. rewrite !N.leb_le. lia.
    + assert (n = 0) by lia. subst n. replace (N.succ (N.of_nat i) <=? 0) with false by (symmetry; apply N.leb_gt; lia).
      now rewrite andb_false_r.
Qed.
Theorem pmul_testbit a b n i : n < N.of_nat i -> N.testbit (pmul a b) n = conv a b n i.
Proof.
  revert n i. induction a using N_bin_ind; intros n i L.
  - now rewrite pmul_0_l, N.bits_0, conv_0_l.
  - destruct i as [|i]; [lia|]. rewrite conv_double, pmul_double_l.
    destruct n as [|n] using N.peano_ind.
    + cbn [N.ltb N.compare andb]. now rewrite dbl, N.testbit_even_0.
    + rewrite dbl, N.testbit_even_succ by lia.
      rewrite (IHa n i) by lia. rewrite N.pred_succ.
      replace (0 <? N.succ n) with true by (symmetry; apply N.ltb_lt; lia). reflexivity.
  - destruct i as [|i]; [lia|]. rewrite conv_sdouble, sdouble_lxor, pmul_lxor_l, pmul_1_l, pmul_double_l, N.lxor_spec.
    f_equal. destruct n as [|n] using N.peano_ind.
    + cbn [N.ltb N.compare andb]. now rewrite dbl, N.testbit_even_0.
    + rewrite dbl, N.testbit_even_succ by lia.
      rewrite (IHa n i) by lia. rewrite N.pred_succ.
      replace (0 <? N.succ n) with true by (symmetry; apply N.ltb_lt; lia). reflexivity.
Qed.
