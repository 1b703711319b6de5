(** The binary fields as commutative rings and as fields: irreducibility of
    the field polynomials by checked certificates, inverse and square root,
    order of the multiplicative generator. *)
From Coq Require Import NArith ZArith List Bool Lia Ring Arith Znumtheory Eqdep_dec.
From Verif Require Import Result Limbs LimbsProofs BigintModel AlgorithmsModel AlgorithmsProofs Algebra NumTheory
  FieldOps Gf2Poly BinaryModel BinaryProofs.
Import ListNotations.
Open Scope N_scope.

Add Ring PolyRing3 : poly_ring (morphism poly_morph, constants [poly_cst]).

(** * Facts about GF(2)[x]/(f) decided by computation *)

(** Square of a polynomial: the bits are spread out. *)
Fixpoint psq_pos (p : positive) : positive :=
  match p with xH => xH | xO q => xO (xO (psq_pos q)) | xI q => xI (xO (psq_pos q)) end.
Definition psq (a : N) : N := match a with 0 => 0 | Npos p => Npos (psq_pos p) end.
Lemma psq_double a : psq (N.double a) = N.double (N.double (psq a)). Proof. now destruct a. Qed.
Lemma psq_sdouble a : psq (N.succ_double a) = N.succ_double (N.double (psq a)). Proof. now destruct a. Qed.
Lemma psq_spec a : psq a = pmul a a.
Proof.
  induction a using N_bin_ind; auto.
  - now rewrite psq_double, IHa, pmul_double_l, pmul_double_r.
  - rewrite psq_sdouble, IHa, !sdouble_lxor.
    transitivity (N.lxor 1 (pmul (N.double a) (N.double a))); [|ring].
    now rewrite pmul_double_l, pmul_double_r.
Qed.

Section Red.
Variables k m : N.
Let f := N.lxor (2 ^ k) m.
Notation "a == b" := (pcong f a b) (at level 70).

(** One round of replacing x^k by m. *)
Definition red1 (v : N) : N := N.lxor (N.land v (N.ones k)) (pmul (N.shiftr v k) m).
Lemma red1_cong v : red1 v == v.
Proof.
  exists (N.shiftr v k). unfold red1, f. rewrite (split_pow2 v k) at 3.
  rewrite N.land_ones, N.shiftr_div_pow2. ring.
Qed.
Definition red (v : N) : N := red1 (red1 (red1 (red1 v))).
Lemma red_cong v : red v == v.
Proof. unfold red. do 3 (eapply pcong_trans; [apply red1_cong|]). apply red1_cong. Qed.
Definition rsq (a : N) : N := red (psq a).
Lemma rsq_cong a : rsq a == pmul a a.
Proof. unfold rsq. rewrite <- psq_spec. apply red_cong. Qed.

(** a^(2^n), unreduced and reduced. *)
Fixpoint sq_iter (n : nat) (a : N) : N := match n with O => a | S j => sq_iter j (pmul a a) end.
Fixpoint rsq_iter (n : nat) (a : N) : N := match n with O => a | S j => rsq_iter j (rsq a) end.
Lemma sq_iter_cong n : forall a b, a == b -> sq_iter n a == sq_iter n b.
Proof. induction n; intros a b H; cbn [sq_iter]; auto. apply IHn. now apply pcong_mul. Qed.
Lemma rsq_iter_cong n : forall a, rsq_iter n a == sq_iter n a.
Proof.
  induction n; intros a; cbn [sq_iter rsq_iter]; [apply pcong_refl|].
  eapply pcong_trans; [apply IHn|]. apply sq_iter_cong, rsq_cong.
Qed.
Lemma sq_iter_add n : forall a b, sq_iter n (N.lxor a b) = N.lxor (sq_iter n a) (sq_iter n b).
Proof.
  induction n; intros a b; cbn [sq_iter]; auto. rewrite <- IHn. f_equal. ring.
Qed.
Lemma sq_iter_mul n : forall a b, sq_iter n (pmul a b) = pmul (sq_iter n a) (sq_iter n b).
Proof.
  induction n; intros a b; cbn [sq_iter]; auto. rewrite <- IHn. f_equal. ring.
Qed.
Lemma sq_iter_1 n : sq_iter n 1 = 1. Proof. induction n; auto. Qed.
Lemma sq_iter_0 n : sq_iter n 0 = 0. Proof. induction n; auto. Qed.

(** If Frobenius^n fixes x then it fixes every element. *)
Lemma frob_all n : sq_iter n 2 == 2 -> forall a, sq_iter n a == a.
Proof.
  intros H a. assert (D : forall b, N.double b = pmul 2 b).
  { intros b. change 2 with (N.double 1). now rewrite pmul_double_l, pmul_1_l. }
  induction a using N_bin_ind.
  - rewrite sq_iter_0. apply pcong_refl.
  - rewrite D, sq_iter_mul. now apply pcong_mul.
  - rewrite sdouble_lxor, sq_iter_add, sq_iter_1, D, sq_iter_mul.
    apply pcong_add; [apply pcong_refl|]. now apply pcong_mul.
Qed.

(** ** Idempotents *)
(** Linear map given by its columns. *)
Fixpoint lin (cols : list N) (z : N) : N :=
  match cols with
  | [] => 0
  | c :: r => N.lxor (if N.odd z then c else 0) (lin r (N.div2 z))
  end.
Lemma odd_lxor a b : N.odd (N.lxor a b) = xorb (N.odd a) (N.odd b).
Proof. rewrite <- !N.bit0_odd. apply N.lxor_spec. Qed.
Lemma div2_lxor a b : N.div2 (N.lxor a b) = N.lxor (N.div2 a) (N.div2 b).
Proof. rewrite !N.div2_spec. apply N.shiftr_lxor. Qed.
Lemma lin_lxor cols : forall a b, lin cols (N.lxor a b) = N.lxor (lin cols a) (lin cols b).
Proof.
  induction cols as [|c r IH]; intros a b; cbn [lin]; auto.
  rewrite odd_lxor, div2_lxor, IH. destruct (N.odd a), (N.odd b); cbn [xorb]; ring.
Qed.
Lemma lin_0 cols : lin cols 0 = 0.
Proof. induction cols; cbn [lin]; auto. Qed.
Lemma lin_comp M cols : forall z, lin M (lin cols z) = lin (map (lin M) cols) z.
Proof.
  induction cols as [|c r IH]; intros z; cbn [lin map]; [apply lin_0|].
  rewrite lin_lxor, IH. f_equal. destruct (N.odd z); [reflexivity|apply lin_0].
Qed.
Lemma lin_lt n cols : Forall (fun c => c < 2 ^ n) cols -> forall z, lin cols z < 2 ^ n.
Proof.
  induction 1; intros z; cbn [lin]; [pose proof (pow2_nz n); lia|].
  apply lxor_lt; auto. destruct (N.odd z); auto. pose proof (pow2_nz n); lia.
Qed.
Lemma odd_split z : z = N.lxor (if N.odd z then 1 else 0) (pmul 2 (N.div2 z)).
Proof.
  rewrite (split_pow2 z 1) at 1. f_equal.
  - rewrite <- N.bit0_mod, N.bit0_odd. now destruct (N.odd z).
  - rewrite pmul_comm. f_equal. now rewrite N.div2_div, N.pow_1_r.
Qed.

(** Columns of z |-> z + z^2, for x^s .. x^(s+n-1); [p] is x^s. *)
Fixpoint lcols (n : nat) (p : N) : list N :=
  match n with O => [] | S j => N.lxor p (rsq p) :: lcols j (N.double p) end.
Lemma lcols_spec n : forall p z, z < 2 ^ N.of_nat n ->
  lin (lcols n p) z == N.lxor (pmul p z) (pmul (pmul p z) (pmul p z)).
Proof.
  induction n as [|n IH]; intros p z Hz.
  - cbn in Hz. assert (z = 0) by lia. subst z. cbn [lin lcols]. apply pcong_eq. rewrite pmul_0_r. ring.
  - cbn [lin lcols]. assert (Hd : N.div2 z < 2 ^ N.of_nat n).
    { rewrite N.div2_div. apply N.div_lt_upper_bound; [lia|]. rewrite <- pow2_S2. now rewrite <- Nnat.Nat2N.inj_succ. }
    eapply pcong_trans.
    { apply pcong_add; [|apply IH, Hd]. instantiate (1 := if N.odd z then N.lxor p (pmul p p) else 0).
      destruct (N.odd z); [|apply pcong_refl]. apply pcong_add; [apply pcong_refl|apply rsq_cong]. }
    apply pcong_eq. pose proof (odd_split z) as Ez. revert Ez. clear. generalize (N.odd z) (N.div2 z). intros o z' ->.
    assert (D : N.double p = pmul 2 p). { change 2 with (N.double 1). now rewrite pmul_double_l, pmul_1_l. }
    rewrite D. destruct o; ring.
Qed.

(** [M] undoes z + z^2 up to a constant on the listed columns. *)
Fixpoint check_cols (M : list N) (n : nat) (p : N) : bool :=
  match n with
  | O => true
  | S j => let c := N.lxor p (rsq p) in
           (c <? 2 ^ k) && (N.lxor (lin M c) p <=? 1) && check_cols M j (N.double p)
  end.
Lemma check_cols_lt M n : forall p, check_cols M n p = true -> Forall (fun c => c < 2 ^ k) (lcols n p).
Proof.
  induction n; intros p H; cbn [lcols check_cols] in *; constructor.
  - cbv zeta in H. apply andb_true_iff in H as [H _]. apply andb_true_iff in H as [H _]. now apply N.ltb_lt.
  - apply IHn. cbv zeta in H. now apply andb_true_iff in H.
Qed.
Lemma check_cols_inv M n : forall p z, check_cols M n p = true -> z < 2 ^ N.of_nat n ->
  N.lxor (lin (map (lin M) (lcols n p)) z) (pmul p z) <= 1.
Proof.
  induction n as [|n IH]; intros p z H Hz.
  - cbn in Hz. assert (z = 0) by lia. subst z. cbn. lia.
  - cbn [lcols check_cols map lin] in *. cbv zeta in H. apply andb_true_iff in H as [H H2].
    apply andb_true_iff in H as [_ H1]. apply N.leb_le in H1.
    assert (Hd : N.div2 z < 2 ^ N.of_nat n).
    { rewrite N.div2_div. apply N.div_lt_upper_bound; [lia|]. rewrite <- pow2_S2. now rewrite <- Nnat.Nat2N.inj_succ. }
    specialize (IH _ _ H2 Hd). pose proof (odd_split z) as Ez.
    assert (D : N.double p = pmul 2 p). { change 2 with (N.double 1). now rewrite pmul_double_l, pmul_1_l. }
    rewrite D in IH at 2.
    set (v := lin _ (N.div2 z)) in *. set (c := lin M _) in *. clearbody v c. revert Ez IH. generalize (N.div2 z). intros z' Ez IH.
    assert (Hor : forall a b, a <= 1 -> b <= 1 -> N.lxor a b <= 1).
    { intros a b Ha Hb. assert (a = 0 \/ a = 1) as [-> | ->] by lia; assert (b = 0 \/ b = 1) as [-> | ->] by lia; cbn; lia. }
    destruct (N.odd z).
    + rewrite Ez. replace (N.lxor (N.lxor c v) (pmul p (N.lxor 1 (pmul 2 z'))))
        with (N.lxor (N.lxor c p) (N.lxor v (pmul (pmul 2 p) z'))) by ring. auto.
    + rewrite Ez. replace (N.lxor (N.lxor 0 v) (pmul p (N.lxor 0 (pmul 2 z'))))
        with (N.lxor v (pmul (pmul 2 p) z')) by ring. auto.
Qed.
Theorem idempotents M : m < 2 ^ k -> check_cols M (N.to_nat k) 1 = true ->
  forall z, z < 2 ^ k -> pmul z z == z -> z = 0 \/ z = 1.
Proof.
  intros Hm H z Hz E.
  assert (Hz' : z < 2 ^ N.of_nat (N.to_nat k)) by now rewrite Nnat.N2Nat.id.
  assert (L0 : lin (lcols (N.to_nat k) 1) z = 0).
  { apply (pcong_unique f k); [apply monic_ge, Hm| |pose proof (pow2_nz k); lia|].
    - apply lin_lt, (check_cols_lt M), H.
    - eapply pcong_trans; [now apply lcols_spec|]. rewrite !pmul_1_l.
      eapply pcong_trans; [apply pcong_add; [apply pcong_refl|apply E]|]. apply pcong_eq. ring. }
  pose proof (check_cols_inv M _ _ _ H Hz') as C. rewrite <- lin_comp, L0, lin_0, pmul_1_l, N.lxor_0_l in C. lia.
Qed.

(** x^e modulo f, by squaring and doubling. *)
Fixpoint xpow (e : positive) : N :=
  match e with
  | xH => 2
  | xO e' => rsq (xpow e')
  | xI e' => red (N.double (rsq (xpow e')))
  end.
(** a^e modulo f. *)
Fixpoint apow (a : N) (e : positive) : N :=
  match e with
  | xH => a
  | xO e' => rsq (apow a e')
  | xI e' => red (pmul (rsq (apow a e')) a)
  end.
End Red.

(** * Additive-chain lemmas in a commutative monoid *)
Section Chain.
Context {T : Type} (one : T) (mul : T -> T -> T).
Hypothesis M : monoid_laws one mul.
Hypothesis Mc : forall x y, mul x y = mul y x.
Notation sqr := (fun x => mul x x).
Notation sg := (sqr_times sqr).

Lemma mass x y z : mul x (mul y z) = mul (mul x y) z. Proof. apply (ml_assoc _ _ M). Qed.
Lemma mswap a b c d : mul (mul a b) (mul c d) = mul (mul a c) (mul b d).
Proof. rewrite <- !mass. f_equal. rewrite !mass. f_equal. apply Mc. Qed.
Lemma sg_mul n : forall x y, sg n (mul x y) = mul (sg n x) (sg n y).
Proof. induction n; intros x y; cbn [sqr_times]; auto. rewrite <- IHn. f_equal. apply mswap. Qed.
Lemma sg_add n : forall i x, sg n (sg i x) = sg (i + n) x.
Proof. intros i. induction i; intros x; cbn [sqr_times Nat.add]; auto. Qed.
Lemma sg_S n x : sg (S n) x = sg n (mul x x). Proof. reflexivity. Qed.
Lemma sg_S_r n x : sg (S n) x = mul (sg n x) (sg n x).
Proof. cbn [sqr_times]. apply sg_mul. Qed.
Lemma mul_cong x y x' y' : x = x' -> y = y' -> mul x y = mul x' y'. Proof. congruence. Qed.

(** Invariant of the doubling loop. *)
Lemma inv_loop_spec el : forall cnt i a r p,
  mul a el = sg (2 ^ i) el ->
  (i = O -> a = el) -> (i <> O -> mul r (mul el el) = sg (2 ^ i) el) ->
  (1 <= cnt)%nat ->
  let '(r', p') := inv_loop mul cnt i a r p in
  mul r' (mul el el) = sg (2 ^ (i + cnt)) el /\
  ((1 < i + cnt)%nat -> mul p' (mul el el) = sg (2 ^ (i + cnt - 1)) el).
Proof.
  induction cnt as [|cnt IH]; intros i a r p Ha H0 Hr Hc; [lia|].
  cbn [inv_loop]. set (b := sg (2 ^ i) a). set (r1 := match i with O => b | S _ => mul r b end).
  assert (P2 : (2 ^ S i = 2 ^ i + 2 ^ i)%nat) by (cbn; lia).
  assert (Hab : mul (mul a b) el = sg (2 ^ S i) el).
  { transitivity (mul (mul a el) b).
    - rewrite <- !mass. f_equal. apply Mc.
    - rewrite Ha. unfold b. rewrite <- sg_mul, (Mc el a), Ha, sg_add. now rewrite P2. }
  assert (Hr1 : mul r1 (mul el el) = sg (2 ^ S i) el).
  { unfold r1. destruct i as [|i].
    - unfold b. rewrite (H0 eq_refl). change (sg (2 ^ 0) el) with (mul el el). reflexivity.
    - transitivity (mul (mul r (mul el el)) b).
      + rewrite <- (mass r b), <- (mass r (mul el el)). f_equal. apply Mc.
      + rewrite Hr by lia. unfold b. rewrite <- sg_mul, (Mc el a), Ha, sg_add. now rewrite P2. }
  destruct cnt as [|cnt].
  - cbn [inv_loop]. replace (i + 1)%nat with (S i) by lia. split; auto.
    intros G. replace (S i - 1)%nat with i by lia. apply Hr. lia.
  - specialize (IH (S i) (mul a b) r1 r Hab).
    destruct (inv_loop mul (S cnt) (S i) (mul a b) r1 r) as [r' p'].
    replace (i + S (S cnt))%nat with (S i + S cnt)%nat by lia.
    apply IH; [lia|auto|lia].
Qed.

Lemma inv_pow2_spec imax zero el : mul (inv_pow2 mul imax zero el) (mul el el) = sg (2 ^ S imax) el.
Proof.
  unfold inv_pow2. pose proof (inv_loop_spec el (S imax) 0 el zero zero) as H.
  destruct (inv_loop mul (S imax) 0 el zero zero) as [r p]. cbn [fst].
  apply H; auto; [lia|lia].
Qed.
Lemma inv_192_spec zero el : mul (inv_192 mul zero el) (mul el el) = sg 192 el.
Proof.
  unfold inv_192. pose proof (inv_loop_spec el 7 0 el zero zero) as H.
  destruct (inv_loop mul 7 0 el zero zero) as [r p].
  destruct H as [Hr Hp]; auto; [lia|lia|]. specialize (Hp ltac:(lia)).
  change (2 ^ (0 + 7))%nat with 128%nat in Hr. change (2 ^ (0 + 7 - 1))%nat with 64%nat in Hp.
  transitivity (mul (sg 64 r) (mul (mul p (mul el el)) (mul p (mul el el)))).
  - rewrite (mswap p (mul el el) p (mul el el)). now rewrite !mass.
  - rewrite Hp, <- sg_S_r, (sg_S 64 el), <- sg_mul, Hr, sg_add. reflexivity.
Qed.
Lemma inv_64_spec el : mul (inv_64 mul el) (mul el el) = sg 64 el.
Proof.
  unfold inv_64.
  set (t1a := mul el el). set (t2a := mul t1a el).
  assert (A2 : mul t2a el = sg 2 el).
  { cbn [sqr_times]. unfold t2a, t1a. now rewrite !mass. }
  assert (A1 : mul t1a (mul el el) = sg 2 el) by reflexivity.
  (* one doubling block: with n squarings of t2 *)
  assert (Step : forall n t1 t2, mul t2 el = sg n el -> mul t1 (mul el el) = sg n el ->
     mul (mul t2 (sg n t2)) el = sg (n + n) el /\ mul (mul t1 (sg n t2)) (mul el el) = sg (n + n) el).
  { intros n t1 t2 H2 H1. split.
    - transitivity (mul (mul t2 el) (sg n t2)).
      + rewrite <- !mass. f_equal. apply Mc.
      + rewrite H2, <- sg_mul, (Mc el t2), H2. apply sg_add.
    - transitivity (mul (mul t1 (mul el el)) (sg n t2)).
      + rewrite <- (mass t1 (sg n t2)), <- (mass t1 (mul el el)). f_equal. apply Mc.
      + rewrite H1, <- sg_mul, (Mc el t2), H2. apply sg_add. }
  cbv zeta. fold t1a. fold t2a.
  destruct (Step 2%nat t1a t2a A2 A1) as [B2 B1].
  change (sg 1 (mul t2a t2a)) with (sg 2 t2a).
  set (t1b := mul t1a (sg 2 t2a)) in *. set (t2b := mul t2a (sg 2 t2a)) in *.
  destruct (Step 4%nat t1b t2b B2 B1) as [C2 C1].
  change (sg 3 (mul t2b t2b)) with (sg 4 t2b).
  set (t1c := mul t1b (sg 4 t2b)) in *. set (t2c := mul t2b (sg 4 t2b)) in *.
  destruct (Step 8%nat t1c t2c C2 C1) as [D2 D1].
  change (sg 7 (mul t2c t2c)) with (sg 8 t2c).
  set (t1d := mul t1c (sg 8 t2c)) in *. set (t2d := mul t2c (sg 8 t2c)) in *.
  destruct (Step 16%nat t1d t2d D2 D1) as [E2 E1].
  change (sg 15 (mul t2d t2d)) with (sg 16 t2d).
  rewrite (Mc (sg 16 t2d) t2d).
  set (t1e := mul t1d (sg 16 t2d)) in *. set (t2e := mul t2d (sg 16 t2d)) in *.
  destruct (Step 32%nat t1e t2e E2 E1) as [_ F1]. rewrite (Mc (sg 32 t2e) t1e). exact F1.
Qed.
Lemma inv_chain_sg g zero el : mul (inv_chain g mul zero el) (mul el el) = sg (N.to_nat (gk (gf_of g))) el.
Proof.
  destruct g; cbn [inv_chain].
  - exact (inv_pow2_spec 4 zero el).
  - exact (inv_64_spec el).
  - exact (inv_pow2_spec 6 zero el).
  - exact (inv_192_spec zero el).
  - exact (inv_pow2_spec 7 zero el).
Qed.
End Chain.
