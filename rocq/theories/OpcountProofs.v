(** Proofs about the operation counters. *)
From Coq Require Import ZArith Znumtheory List Bool Lia Ring.
From Verif Require Import Result Limbs LimbsProofs BigintModel BigintProofs Algebra GroupOps GroupProofs WnafModel WnafProofs FieldOps AlgorithmsModel BinaryModel ExtModel CurveModel CurveSpec CurveGroup CurveProofs
  CurveEdwOps ExtInst ExtExtra CurveExtra Bn128Model Bn128Proofs ProfilingModel ProfilingProofs OpcountModel.
Import ListNotations.
Open Scope Z_scope.

(** * Fields *)
(** [c] plus the given numbers of operations. *)
Definition after (c : counts) (a s m q i : Z) : counts :=
  mkCounts (add_cnt c + a) (sub_cnt c + s) (mul_cnt c + m) (sqr_cnt c + q) (inv_cnt c + i).
(** Every operation returns its value and adds one to the counter of its kind
    and nothing to the others. *)
Record counts_once {T} (add sub mul : T -> T -> T) (sqr inv : T -> T) (O : opclass T) : Prop := {
  co_addeq : forall x y c, c_addeq O x y c = (add x y, after c 1 0 0 0 0);
  co_subeq : forall x y c, c_subeq O x y c = (sub x y, after c 0 1 0 0 0);
  co_muleq : forall x y c, c_muleq O x y c = (mul x y, after c 0 0 1 0 0);
  co_add : forall x y c, c_add O x y c = (add x y, after c 1 0 0 0 0);
  co_sub : forall x y c, c_sub O x y c = (sub x y, after c 0 1 0 0 0);
  co_mul : forall x y c, c_mul O x y c = (mul x y, after c 0 0 1 0 0);
  co_square : forall x c, c_square O x c = (sqr x, after c 0 0 0 1 0);
  co_squared : forall x c, c_squared O x c = (sqr x, after c 0 0 0 1 0);
  co_invert : forall x c, c_invert O x c = (inv x, after c 0 0 0 0 1);
  co_inverse : forall x c, c_inverse O x c = (inv x, after c 0 0 0 0 1) }.

Lemma counts_ext a s m q i a' s' m' q' i' :
  a = a' -> s = s' -> m = m' -> q = q' -> i = i' -> mkCounts a s m q i = mkCounts a' s' m' q' i'.
Proof. intros; subst; auto. Qed.
Ltac cnt := unfold after, plus_counts; cbn [add_cnt sub_cnt mul_cnt sqr_cnt inv_cnt];
  try (apply f_equal); apply counts_ext; lia.
Lemma after_after c a s m q i a' s' m' q' i' :
  after (after c a s m q i) a' s' m' q' i' = after c (a + a') (s + s') (m + m') (q + q') (i + i').
Proof. cnt. Qed.
Lemma after_0 c : after c 0 0 0 0 0 = c.
Proof. destruct c. cnt. Qed.

Theorem fp_counts_once {T} (add sub mul : T -> T -> T) neg inv asm n : asm = false \/ n <> 3 ->
  counts_once add sub mul (fun x => mul x x) inv (fp_class add sub mul neg inv asm n).
Proof.
  intros H. assert (E : asm && (n =? 3) = false).
  { destruct H as [->| H]; auto. apply Z.eqb_neq in H. rewrite H. apply andb_false_r. }
  split; intros; cbn; unfold fp_addeq, fp_subeq, fp_muleq, fp_plus, fp_minus, fp_times, fp_square, fp_squared,
    fp_invert, fp_inverse, cbind, bump, cret; rewrite ?E; unfold fp_muleq, cbind, bump, cret; cnt.
Qed.
(** Unary minus of a prime field counts as a subtraction. *)
Theorem fp_negate_count {T} (add sub mul : T -> T -> T) neg inv asm n x c :
  c_neg (fp_class add sub mul neg inv asm n) x c = (neg x, after c 0 1 0 0 0).
Proof. cbn. unfold fp_negate, cbind, bump, cret. cnt. Qed.
(** With USE_ASM and three limbs a squaring takes one off mul_cnt. *)
Theorem fp_squared_asm3 {T} (add sub mul : T -> T -> T) neg inv x c :
  c_squared (fp_class add sub mul neg inv true 3) x c = (mul x x, after c 0 0 (-1) 1 0).
Proof. cbn. unfold fp_squared, cbind, bump, cret. cbn. cnt. Qed.

Section BinaryProofs.
Context {T : Type} (add mul : T -> T -> T) (zero : T).
Local Notation sqr := (fun x => mul x x).
Lemma gf_square_at x c : gf_square mul x c = (mul x x, after c 0 0 0 1 0).
Proof. unfold gf_square, gf_muleq, cbind, bump, cret. cnt. Qed.
Lemma gf_muleq_at x y c : gf_muleq mul x y c = (mul x y, after c 0 0 1 0 0).
Proof. unfold gf_muleq, cbind, bump, cret. cnt. Qed.
Lemma gf_squares_at k : forall x c, gf_squares mul k x c = (sqr_times sqr k x, after c 0 0 0 (Z.of_nat k) 0).
Proof.
  induction k as [|k IH]; intros x c.
  - cbn [gf_squares sqr_times]. unfold cret. change (Z.of_nat 0) with 0. now rewrite after_0.
  - cbn [gf_squares sqr_times]. unfold cbind. rewrite gf_square_at. rewrite IH. rewrite after_after.
    f_equal. f_equal; lia.
Qed.
(** Number of multiplications and squarings of [cnt] rounds from round [i]. *)
Fixpoint loop_muls (cnt i : nat) : Z :=
  match cnt with O => 0 | S c => (match i with O => 1 | S _ => 2 end) + loop_muls c (S i) end.
Fixpoint loop_sqrs (cnt i : nat) : Z :=
  match cnt with O => 0 | S c => Z.of_nat (2 ^ i) + loop_sqrs c (S i) end.
Lemma gf_inv_loop_at cnt : forall i a r p c, gf_inv_loop mul cnt i a r p c =
  (inv_loop mul cnt i a r p, after c 0 0 (loop_muls cnt i) (loop_sqrs cnt i) 0).
Proof.
  induction cnt as [|k IH]; intros i a r p c.
  - cbn [gf_inv_loop inv_loop loop_muls loop_sqrs]. unfold cret. now rewrite after_0.
  - cbn [gf_inv_loop inv_loop loop_muls loop_sqrs]. unfold cbind. rewrite gf_squares_at, gf_muleq_at.
    destruct i; cbn match; [unfold cret|rewrite gf_muleq_at]; rewrite IH, ?after_after; cbv zeta; f_equal; f_equal; lia.
Qed.
Theorem gf_counts_once g :
  counts_once add add mul (fun x => mul x x) (inv_chain g mul zero) (gf_class_ops add mul zero g).
Proof.
  assert (IV : forall x c, gf_inverse_c mul zero g x c = (inv_chain g mul zero x, after c 0 0 0 0 1)).
  { intros x c. unfold gf_inverse_c, inv_chain. destruct g; unfold gf_inverse_corrections.
    1,3,5: unfold gf_inv_pow2, inv_pow2, cbind, bump; rewrite gf_inv_loop_at; unfold cret; f_equal;
      change (plus_counts c (mkCounts ?a ?s ?m ?q ?i)) with (after c a s m q i); rewrite after_after; reflexivity.
    - unfold gf_inv_64, inv_64, gf_times, cbind, bump. repeat rewrite ?gf_muleq_at, ?gf_squares_at. cbv zeta. f_equal.
      change (plus_counts c (mkCounts ?a ?s ?m ?q ?i)) with (after c a s m q i). rewrite !after_after. reflexivity.
    - unfold gf_inv_192, inv_192, gf_times, gf_squared_c, cbind, bump. rewrite gf_inv_loop_at.
      destruct (inv_loop mul 7 0 x zero zero) as [r p]. cbn [fst snd].
      repeat rewrite ?gf_muleq_at, ?gf_squares_at, ?gf_square_at. cbv zeta. f_equal.
      change (plus_counts c (mkCounts ?a ?s ?m ?q ?i)) with (after c a s m q i). rewrite !after_after. reflexivity. }
  split; intros; cbn [gf_class_ops c_addeq c_subeq c_muleq c_add c_sub c_mul c_square c_squared c_invert c_inverse];
    unfold gf_squared_c, gf_plus, gf_minus, gf_times, gf_invert;
    rewrite ?gf_square_at, ?gf_muleq_at, ?IV; auto; unfold gf_addeq, gf_subeq, cbind, bump, cret; cnt.
Qed.
End BinaryProofs.

Theorem ext_counts_once {T} (add sub mul : T -> T -> T) neg sqr inv :
  counts_once add sub mul sqr inv (ext_class add sub mul neg sqr inv).
Proof.
  split; intros; cbn; unfold ext_addeq, ext_subeq, ext_muleq, ext_plus, ext_minus, ext_times, ext_square, ext_squared,
    ext_invert, ext_inverse, cbind, bump, cret; cnt.
Qed.

(** Unary minus of the other fields counts nothing of its own. *)
Theorem gf_negate_count {T} (add mul : T -> T -> T) zero g x c : c_neg (gf_class_ops add mul zero g) x c = (x, c).
Proof. reflexivity. Qed.
Theorem ext_negate_count {T} (add sub mul : T -> T -> T) neg sqr inv x c :
  c_neg (ext_class add sub mul neg sqr inv) x c = (neg x, c).
Proof. reflexivity. Qed.

(** The numbers the test of the repository expects. *)
Theorem op_profiling_exact {T} (add sub mul : T -> T -> T) sqr inv O : counts_once add sub mul sqr inv O ->
  forall one x y x2, snd (op_profiling_test O one x y x2 counts0) = mkCounts 4 3 5 3 2.
Proof.
  intros [H1 H2 H3 H4 H5 H6 H7 H8 H9 H10] one x y x2. unfold op_profiling_test, cbind.
  repeat rewrite ?H1, ?H2, ?H3, ?H4, ?H5, ?H6, ?H7, ?H8, ?H9, ?H10. cbn [snd]. rewrite !after_after. reflexivity.
Qed.
Theorem op_profiling_asm3 {T} (add sub mul : T -> T -> T) neg inv one x y x2 :
  snd (op_profiling_test (fp_class add sub mul neg inv true 3) one x y x2 counts0) = mkCounts 4 3 2 3 2.
Proof. reflexivity. Qed.

(** Base field operations of Fp2. *)
Section Fp2Proofs.
Context {T : Type} (F : Fops T) (inv : T -> T) (O : opclass T) (nr : T).
Hypothesis H : counts_once (oadd F) (osub F) (omul F) (osqr F) inv O.
Hypothesis HN : forall x c, c_neg O x c = (oopp F x, after c 0 1 0 0 0).
Local Notation mnr := (omul F nr).
Ltac fp2 := destruct H as [H1 H2 H3 H4 H5 H6 H7 H8 H9 H10]; unfold cbind;
  repeat rewrite ?H1, ?H2, ?H3, ?H4, ?H5, ?H6, ?H7, ?H8, ?H9, ?H10, ?HN; unfold cret; cbn [fst snd];
  rewrite ?after_after; reflexivity.
Theorem fp2_plus_at x y c : fp2_plus O x y c = (quad_add F x y, after c 2 0 0 0 0).
Proof. destruct x, y. unfold fp2_plus. fp2. Qed.
Theorem fp2_minus_at x y c : fp2_minus O x y c = (quad_sub F x y, after c 0 2 0 0 0).
Proof. destruct x, y. unfold fp2_minus. fp2. Qed.
Theorem fp2_negate_at x c : fp2_negate O x c = (quad_opp F x, after c 0 2 0 0 0).
Proof. destruct x. unfold fp2_negate. fp2. Qed.
Theorem fp2_scale_at s x c : fp2_scale O s x c = (quad_scale (omul F) s x, after c 0 0 2 0 0).
Proof. destruct x. unfold fp2_scale. fp2. Qed.
Theorem fp2_times_at x y c : fp2_times O nr x y c = (quad_mul F mnr x y, after c 3 2 4 0 0).
Proof. destruct x, y. unfold fp2_times. fp2. Qed.
Theorem fp2_karatsuba_at x c : fp2_squared_karatsuba O nr x c = (quad_sqr_karatsuba F mnr x, after c 2 2 1 3 0).
Proof. destruct x. unfold fp2_squared_karatsuba. fp2. Qed.
Theorem fp2_squared_at x c : fp2_squared O nr x c = (quad_sqr_complex F mnr x, after c 3 2 4 0 0).
Proof. destruct x. unfold fp2_squared. fp2. Qed.
Theorem fp2_inverse_at x c :
  (forall t, t <> o0 F -> oinv F t = Ok (inv t)) ->
  osub F (osqr F (fst x)) (mnr (osqr F (snd x))) <> o0 F ->
  Ok (fst (fp2_inverse O nr x c)) = quad_inv F mnr x /\ snd (fp2_inverse O nr x c) = after c 0 2 3 2 1.
Proof.
  destruct x as [a b]. cbn [fst snd]. intros HI HN0. unfold quad_inv, fp2_inverse. cbv zeta. rewrite (HI _ HN0).
  cbn [bind]. destruct H as [H1 H2 H3 H4 H5 H6 H7 H8 H9 H10]; unfold cbind.
  repeat rewrite ?H5, ?H6, ?H8, ?H10, ?HN. unfold cret. cbn [fst snd]. rewrite ?after_after. split; reflexivity.
Qed.
End Fp2Proofs.

(** * Groups *)
(** What an addition should do to the counters: nothing when an operand is
    the neutral element, one doubling for equal points, one addition
    otherwise. *)
Definition counted_addition (inf_p inf_q same : Prop) (g g' : gcounts) : Prop :=
  (inf_p \/ inf_q -> g' = g) /\
  (~ inf_p -> ~ inf_q -> same -> g' = mkGcounts (gadd_cnt g) (gdbl_cnt g + 1)) /\
  (~ inf_p -> ~ inf_q -> ~ same -> g' = mkGcounts (gadd_cnt g + 1) (gdbl_cnt g)).
Lemma counted_by (zp zq eq : bool) (inf_p inf_q same : Prop) g :
  (zp = true <-> inf_p) -> (zq = true <-> inf_q) -> (zp = false -> zq = false -> eq = true <-> same) ->
  counted_addition inf_p inf_q same g (if zp then g else if zq then g else if eq then tick_dbl g else tick_add g).
Proof.
  intros P Q E. unfold counted_addition, tick_dbl, tick_add. split; [|split].
  - intros [I|I].
    + apply P in I. now rewrite I.
    + apply Q in I. rewrite I. now destruct zp.
  - intros NP NQ S. destruct zp; [now destruct NP; apply P|]. destruct zq; [now destruct NQ; apply Q|].
    apply E in S; auto. now rewrite S.
  - intros NP NQ S. destruct zp; [now destruct NP; apply P|]. destruct zq; [now destruct NQ; apply Q|].
    destruct eq; auto. destruct S. now apply E.
Qed.

Section GroupProofs.
Context {K : Type} (F : Fops K).
Hypothesis FK : field_ok F.
Let R : ring_ok F := fk_ring F FK.
Add Ring OCring : (rk_ring F (fk_ring F FK)).
Local Notation "0" := (o0 F).
Local Notation "1" := (o1 F).
Local Notation "x * y" := (omul F x y).

Lemma jac_same_test p q : jac_is_zero F p = false -> jac_is_zero F q = false ->
  (let '(X1, Y1, Z1) := p in let '(X2, Y2, Z2) := q in
   oeqb F (X1 * osqr F Z2) (X2 * osqr F Z1) && oeqb F (Y1 * (Z2 * osqr F Z2)) (Y2 * (Z1 * osqr F Z1))) = jac_eqb F p q.
Proof.
  intros P Q. destruct p as [[X1 Y1] Z1], q as [[X2 Y2] Z2]. unfold jac_eqb. rewrite P, Q. cbv zeta.
  destruct (oeqb F (X1 * osqr F Z2) (X2 * osqr F Z1)); cbn [negb andb]; auto. now rewrite negb_involutive.
Qed.
Theorem jac_add_counted p q g :
  counted_addition (jac_den F p = Inf) (jac_den F q = Inf) (jac_den F p = jac_den F q) g (jac_add_count F true p q g).
Proof.
  assert (E : jac_add_count F true p q g = if jac_is_zero F p then g else if jac_is_zero F q then g
      else if jac_eqb F p q then tick_dbl g else tick_add g).
  { destruct (jac_is_zero F p) eqn:ZP; [|destruct (jac_is_zero F q) eqn:ZQ].
    - destruct p as [[X1 Y1] Z1], q as [[X2 Y2] Z2]. unfold jac_add_count. now rewrite ZP.
    - destruct p as [[X1 Y1] Z1], q as [[X2 Y2] Z2]. unfold jac_add_count. now rewrite ZP, ZQ.
    - rewrite <- (jac_same_test p q ZP ZQ). destruct p as [[X1 Y1] Z1], q as [[X2 Y2] Z2]. unfold jac_add_count.
      rewrite ZP, ZQ. reflexivity. }
  rewrite E. apply counted_by; try apply jac_is_zero_spec. intros _ _. apply (jac_eqb_den F FK).
Qed.
(** bls12_381: the addition itself is not counted. *)
Theorem jac_add_uncounted p q g : jac_den F p <> jac_den F q -> jac_add_count F false p q g = g.
Proof.
  intros N. destruct (jac_is_zero F p) eqn:ZP; [|destruct (jac_is_zero F q) eqn:ZQ].
  - destruct p as [[X1 Y1] Z1], q as [[X2 Y2] Z2]. unfold jac_add_count. now rewrite ZP.
  - destruct p as [[X1 Y1] Z1], q as [[X2 Y2] Z2]. unfold jac_add_count. now rewrite ZP, ZQ.
  - pose proof (jac_same_test p q ZP ZQ) as S. destruct (jac_eqb F p q) eqn:E.
    { apply (jac_eqb_den F FK) in E. contradiction. }
    destruct p as [[X1 Y1] Z1], q as [[X2 Y2] Z2]. unfold jac_add_count. rewrite ZP, ZQ. cbv zeta. rewrite S. reflexivity.
Qed.
Theorem jac_mixed_counted p q g : jac_is_special F q = true ->
  counted_addition (jac_den F p = Inf) (jac_den F q = Inf) (jac_den F p = jac_den F q) g (jac_mixed_count F p q g).
Proof.
  intros SP.
  assert (E : jac_mixed_count F p q g = if jac_is_zero F p then g else if jac_is_zero F q then g
      else if jac_eqb F p q then tick_dbl g else tick_add g).
  { destruct (jac_is_zero F p) eqn:ZP; [|destruct (jac_is_zero F q) eqn:ZQ].
    - destruct p as [[X1 Y1] Z1], q as [[X2 Y2] Z2]. unfold jac_mixed_count. now rewrite ZP.
    - destruct p as [[X1 Y1] Z1], q as [[X2 Y2] Z2]. unfold jac_mixed_count. now rewrite ZP, ZQ.
    - rewrite <- (jac_same_test p q ZP ZQ). destruct p as [[X1 Y1] Z1], q as [[X2 Y2] Z2].
      unfold jac_is_special in SP. rewrite ZQ in SP. cbn [orb] in SP. apply (rk_eqb F R) in SP. subst Z2.
      unfold jac_mixed_count. rewrite ZP, ZQ. cbv zeta. rewrite !(rk_sqr F R).
      replace (X1 * (1 * 1)) with X1 by ring. replace (Y1 * (1 * (1 * 1))) with Y1 by ring. reflexivity. }
  rewrite E. apply counted_by; try apply jac_is_zero_spec. intros _ _. apply (jac_eqb_den F FK).
Qed.
Theorem bn_add_counted p q g :
  counted_addition (jac_den F p = Inf) (jac_den F q = Inf) (jac_den F p = jac_den F q) g (bn_add_count F p q g).
Proof.
  unfold bn_add_count, bn_add_member_count, dbl_count. rewrite !bn_is_zero_jac, (bn_eqb_jac F FK).
  apply counted_by; try apply jac_is_zero_spec. intros _ _. apply (jac_eqb_den F FK).
Qed.
Theorem bn_mixed_counted p q g : bn_is_special F q = true ->
  counted_addition (jac_den F p = Inf) (jac_den F q = Inf) (jac_den F p = jac_den F q) g (bn_mixed_count F p q g).
Proof.
  intros SP. rewrite bn_is_special_jac in SP.
  replace (bn_mixed_count F p q g) with (jac_mixed_count F p q g); [now apply jac_mixed_counted|].
  destruct p as [[X1 Y1] Z1], q as [[X2 Y2] Z2]. reflexivity.
Qed.
Theorem prj_member_counted a b p q g : prj_ok F a b p -> prj_ok F a b q ->
  counted_addition (prj_den F p = Inf) (prj_den F q = Inf) (prj_den F p = prj_den F q) g (prj_add_member_count F p q g).
Proof.
  intros OP OQ. unfold prj_add_member_count, dbl_count.
  apply counted_by; [eapply prj_is_zero_spec; eauto|eapply prj_is_zero_spec; eauto|].
  intros _ _. eapply prj_eqb_den; eauto.
Qed.
(** mnt mixed_add: one addition always, and a doubling as well for equal
    points. *)
Theorem prj_mixed_count_at a b p q g : prj_ok F a b p -> prj_ok F a b q -> prj_is_special F q = true ->
  (prj_den F p = Inf \/ prj_den F q = Inf -> prj_mixed_count F p q g = mkGcounts (gadd_cnt g + 1) (gdbl_cnt g)) /\
  (prj_den F p <> Inf -> prj_den F q <> Inf -> prj_den F p = prj_den F q ->
     prj_mixed_count F p q g = mkGcounts (gadd_cnt g + 1) (gdbl_cnt g + 1)) /\
  (prj_den F p <> Inf -> prj_den F q <> Inf -> prj_den F p <> prj_den F q ->
     prj_mixed_count F p q g = mkGcounts (gadd_cnt g + 1) (gdbl_cnt g)).
Proof.
  intros OP OQ SP.
  assert (E : prj_mixed_count F p q g = if prj_is_zero F p then tick_add g else if prj_is_zero F q then tick_add g
      else if prj_eqb F p q then tick_dbl (tick_add g) else tick_add g).
  { destruct (prj_is_zero F p) eqn:ZP; [|destruct (prj_is_zero F q) eqn:ZQ].
    - destruct p as [[X1 Y1] Z1], q as [[X2 Y2] Z2]. unfold prj_mixed_count. now rewrite ZP.
    - destruct p as [[X1 Y1] Z1], q as [[X2 Y2] Z2]. unfold prj_mixed_count. now rewrite ZP, ZQ.
    - destruct p as [[X1 Y1] Z1], q as [[X2 Y2] Z2].
      unfold prj_is_special in SP. rewrite ZQ in SP. cbn [orb] in SP. apply (rk_eqb F R) in SP. subst Z2.
      unfold prj_mixed_count, prj_eqb. rewrite ZP, ZQ. cbv zeta.
      replace (X1 * 1) with X1 by ring. replace (Y1 * 1) with Y1 by ring.
      replace (Z1 * X2) with (X2 * Z1) by ring. replace (Z1 * Y2) with (Y2 * Z1) by ring.
      destruct (oeqb F X1 (X2 * Z1)); cbn [negb andb]; auto. destruct (oeqb F Y1 (Y2 * Z1)); auto. }
  pose proof (prj_is_zero_spec F FK a b p OP) as P. pose proof (prj_is_zero_spec F FK a b q OQ) as Q.
  pose proof (prj_eqb_den F FK a b p q OP OQ) as EB. rewrite E. unfold tick_dbl, tick_add in *. split; [|split].
  - intros [I|I]; [apply P in I|apply Q in I]; rewrite I; auto. now destruct (prj_is_zero F p).
  - intros NP NQ S. destruct (prj_is_zero F p); [now destruct NP; apply P|].
    destruct (prj_is_zero F q); [now destruct NQ; apply Q|]. apply EB in S. now rewrite S.
  - intros NP NQ S. destruct (prj_is_zero F p); [now destruct NP; apply P|].
    destruct (prj_is_zero F q); [now destruct NQ; apply Q|]. destruct (prj_eqb F p q); auto. destruct S. now apply EB.
Qed.
(** edwards: operator+ counts one addition unless an operand is neutral; it
    has no doubling case. *)
Theorem edw_add_counted a d p q g : edw_ok F a d p -> edw_ok F a d q ->
  counted_addition (edw_den F p = te_zero F) (edw_den F q = te_zero F) False g (edw_add_count F p q g).
Proof.
  intros OP OQ. pose proof (edw_is_zero_spec F FK a d p OP) as P. pose proof (edw_is_zero_spec F FK a d q OQ) as Q.
  unfold edw_add_count, edw_add_member_count.
  apply (counted_by (edw_is_zero F p) (edw_is_zero F q) false); auto. intros _ _. split; [discriminate|tauto].
Qed.

(** ** Where the counts are wrong *)
Lemma tick_add_neq g : mkGcounts (gadd_cnt g + 1) (gdbl_cnt g) <> g.
Proof. destruct g as [a d]. cbn. intros E. injection E. lia. Qed.
Lemma tick_both_neq g : mkGcounts (gadd_cnt g + 1) (gdbl_cnt g + 1) <> mkGcounts (gadd_cnt g) (gdbl_cnt g + 1).
Proof. intros E. injection E. lia. Qed.
Lemma tick_dbl_neq g : mkGcounts (gadd_cnt g) (gdbl_cnt g + 1) <> g.
Proof. destruct g as [a d]. cbn. intros E. injection E. lia. Qed.
Theorem jac_add_wrong p q g : jac_den F p <> Inf -> jac_den F q <> Inf -> jac_den F p <> jac_den F q ->
  ~ counted_addition (jac_den F p = Inf) (jac_den F q = Inf) (jac_den F p = jac_den F q) g (jac_add_count F false p q g).
Proof.
  intros NP NQ N (_ & _ & H). rewrite (jac_add_uncounted p q g N) in H.
  apply (tick_add_neq g). symmetry. now apply H.
Qed.
(** Doublings reached from bls12_381's operator+ are counted. *)
Theorem jac_add_equal counts_add p q g : jac_den F p <> Inf -> jac_den F p = jac_den F q ->
  jac_add_count F counts_add p q g = mkGcounts (gadd_cnt g) (gdbl_cnt g + 1).
Proof.
  intros N E. assert (ZP : jac_is_zero F p = false).
  { destruct (jac_is_zero F p) eqn:Z; auto. apply jac_is_zero_spec in Z. contradiction. }
  assert (ZQ : jac_is_zero F q = false).
  { destruct (jac_is_zero F q) eqn:Z; auto. apply jac_is_zero_spec in Z. rewrite <- E in Z. contradiction. }
  pose proof (jac_same_test p q ZP ZQ) as S. apply (jac_eqb_den F FK) in E. rewrite E in S.
  destruct p as [[X1 Y1] Z1], q as [[X2 Y2] Z2]. unfold jac_add_count. rewrite ZP, ZQ. cbv zeta. rewrite S. reflexivity.
Qed.
Theorem prj_add_wrong p q g : prj_den F p <> Inf -> prj_den F q <> Inf ->
  ~ counted_addition (prj_den F p = Inf) (prj_den F q = Inf) (prj_den F p = prj_den F q) g (prj_add_count p q g).
Proof.
  intros NP NQ (_ & H1 & H2). unfold prj_add_count in *.
  assert (D : ~ ~ (prj_den F p = prj_den F q \/ prj_den F p <> prj_den F q)) by tauto.
  apply D. intros [E|E].
  - apply (tick_dbl_neq g). symmetry. now apply H1.
  - apply (tick_add_neq g). symmetry. now apply H2.
Qed.
Theorem prj_mixed_wrong a b p q g : prj_ok F a b p -> prj_ok F a b q -> prj_is_special F q = true ->
  prj_den F p = Inf \/ prj_den F q = Inf \/ prj_den F p = prj_den F q ->
  ~ counted_addition (prj_den F p = Inf) (prj_den F q = Inf) (prj_den F p = prj_den F q) g (prj_mixed_count F p q g).
Proof.
  intros OP OQ SP Hc. destruct (prj_mixed_count_at a b p q g OP OQ SP) as (M1 & M2 & M3).
  assert (W : prj_den F p = Inf \/ prj_den F q = Inf ->
    ~ counted_addition (prj_den F p = Inf) (prj_den F q = Inf) (prj_den F p = prj_den F q) g (prj_mixed_count F p q g)).
  { intros I (H1 & _). rewrite (M1 I) in H1. apply (tick_add_neq g). now apply H1. }
  destruct Hc as [I|[I|E]]; auto. intros CA.
  assert (D : ~ ~ (prj_den F p = Inf \/ prj_den F p <> Inf)) by tauto. apply D. intros [I|I].
  - apply W; auto.
  - assert (I2 : prj_den F q <> Inf) by (rewrite <- E; auto). destruct CA as (_ & H2 & _).
    rewrite (M2 I I2 E) in H2. apply (tick_both_neq g). now apply H2.
Qed.
Theorem edw_mixed_wrong p q g : edw_den F p = te_zero F \/ edw_den F q = te_zero F ->
  ~ counted_addition (edw_den F p = te_zero F) (edw_den F q = te_zero F) False g (edw_mixed_count p q g).
Proof. intros I (H & _). apply (tick_add_neq g). exact (H I). Qed.
End GroupProofs.

(** * Scalar multiplication *)
(** Number of ones among the bits below [n]. *)
Fixpoint ones (n : nat) (k : Z) : Z :=
  match n with 0%nat => 0 | S m => Z.b2z (Z.testbit k (Z.of_nat m)) + ones m k end.
Section ScalarMulProofs.
Context {T G : Type} (O : gops T) (ok : T -> Prop) (dn : T -> G) (z : G) (add : G -> G -> G) (opp : G -> G).
Hypothesis GO : gops_ok O ok dn z add opp.
Variable cnt : T -> T -> gcounts -> gcounts.
(** [d] is what an addition of different points adds to add_cnt. *)
Variable d : Z.
Hypothesis CN : forall a b g, ok a -> ok b -> (dn a = z -> cnt a b g = g) /\
  (dn a <> z -> dn b <> z -> dn a <> dn b -> cnt a b g = mkGcounts (gadd_cnt g + d) (gdbl_cnt g)).
Let AG := go_group _ _ _ _ _ _ GO.
Local Notation mul := (gmul z add opp).
Variables (k : list Z) (base : T).
Hypothesis L : limbs k.
Hypothesis Hb : ok base.
Hypothesis NZ : forall j, 0 < j <= val k -> mul j (dn base) <> z.

Lemma count_loop_value i : forall found r g,
  fst (scalar_mul_count_loop O cnt i k base found r g) = scalar_mul_loop O i k base found r.
Proof.
  induction i as [|i IH]; intros found r g; cbn [scalar_mul_count_loop scalar_mul_loop]; auto.
  destruct found; destruct (bigint_test_bit k (Z.of_nat i)); apply IH.
Qed.
Lemma prefix_step i : val k / 2 ^ Z.of_nat i =
  2 * (val k / 2 ^ Z.of_nat (S i)) + Z.b2z (Z.testbit (val k) (Z.of_nat i)).
Proof.
  rewrite Nat2Z.inj_succ. pose proof (testbit_div (val k) (Z.of_nat i) ltac:(lia)) as E.
  now rewrite Z.add_1_r in E.
Qed.
Lemma prefix_le i : val k / 2 ^ Z.of_nat i <= val k.
Proof.
  pose proof (val_nonneg k L). assert (P : 0 < 2 ^ Z.of_nat i) by (apply Z.pow_pos_nonneg; lia).
  apply Z.div_le_upper_bound; auto. rewrite <- (Z.mul_1_l (val k)) at 1. apply Z.mul_le_mono_nonneg_r; lia.
Qed.
Lemma count_loop_found i : forall r g, ok r -> dn r = mul (val k / 2 ^ Z.of_nat i) (dn base) ->
  0 < val k / 2 ^ Z.of_nat i ->
  snd (scalar_mul_count_loop O cnt i k base true r g) =
    mkGcounts (gadd_cnt g + d * ones i (val k)) (gdbl_cnt g + Z.of_nat i).
Proof.
  induction i as [|i IH]; intros r g Hr D Q.
  - cbn [scalar_mul_count_loop ones snd]. destruct g as [a b]. cbn [gadd_cnt gdbl_cnt]. f_equal; lia.
  - cbn [scalar_mul_count_loop ones]. rewrite bigint_test_bit_spec by (auto; lia).
    pose proof (prefix_step i) as Ep. pose proof (prefix_le i) as Le.
    set (q := val k / 2 ^ Z.of_nat (S i)) in *.
    destruct (go_dbl _ _ _ _ _ _ GO r Hr) as [O1 D1].
    assert (D2 : dn (g_dbl O r) = mul (2 * q) (dn base)).
    { rewrite D1, D. replace (2 * q) with (q + q) by lia. now rewrite (gmul_add z add opp AG). }
    destruct (Z.testbit (val k) (Z.of_nat i)) eqn:Eb; cbn [Z.b2z] in *.
    + destruct (go_add _ _ _ _ _ _ GO (g_dbl O r) base O1 Hb) as [O3 D3].
      rewrite IH; auto; [|rewrite Ep, D3, D2; now rewrite (gmul_succ z add opp AG)|lia].
      destruct (CN (g_dbl O r) base (dbl_count g) O1 Hb) as [_ C].
      rewrite C.
      * unfold dbl_count, tick_dbl. cbn [gadd_cnt gdbl_cnt]. f_equal; lia.
      * rewrite D2. apply NZ. lia.
      * rewrite <- (gmul_1 z add opp AG (dn base)). apply NZ. lia.
      * intros E. apply (NZ (2 * q - 1)); [lia|]. rewrite (gmul_sub z add opp AG), <- D2, E, (gmul_1 z add opp AG).
        apply (ag_opp z add opp AG).
    + rewrite IH; auto; [|rewrite Ep, Z.add_0_r; auto|lia].
      unfold dbl_count, tick_dbl. cbn [gadd_cnt gdbl_cnt]. f_equal; lia.
Qed.
Lemma count_loop_start i : forall r g, ok r -> dn r = z -> val k / 2 ^ Z.of_nat i = 0 ->
  snd (scalar_mul_count_loop O cnt i k base false r g) =
    if val k =? 0 then g else mkGcounts (gadd_cnt g + d * (ones i (val k) - 1)) (gdbl_cnt g + Z.log2 (val k)).
Proof.
  induction i as [|i IH]; intros r g Hr D Q.
  - change (2 ^ Z.of_nat 0) with 1 in Q. rewrite Z.div_1_r in Q. rewrite Q. reflexivity.
  - cbn [scalar_mul_count_loop ones]. rewrite bigint_test_bit_spec by (auto; lia).
    pose proof (prefix_step i) as Ep. rewrite Q in Ep.
    destruct (Z.testbit (val k) (Z.of_nat i)) eqn:Eb; cbn [Z.b2z] in *.
    + destruct (go_add _ _ _ _ _ _ GO r base Hr Hb) as [O3 D3].
      destruct (CN r base g Hr Hb) as [C _]. rewrite (C D).
      rewrite count_loop_found; auto; [| |lia].
      * assert (K0 : val k <> 0) by (intros E; rewrite E, Z.bits_0 in Eb; discriminate).
        apply Z.eqb_neq in K0. rewrite K0.
        replace (Z.log2 (val k)) with (Z.of_nat i); [f_equal; lia|].
        symmetry. apply Z.log2_unique; [lia|]. rewrite <- Z.add_1_r in *.
        assert (P : 0 < 2 ^ Z.of_nat i) by (apply Z.pow_pos_nonneg; lia).
        pose proof (Z.div_mod (val k) (2 ^ Z.of_nat i) ltac:(lia)) as DM.
        pose proof (Z.mod_pos_bound (val k) (2 ^ Z.of_nat i) P).
        rewrite Ep in DM. rewrite Z.pow_add_r by lia. lia.
      * rewrite Ep, D3, D. change (2 * 0 + 1) with 1. rewrite (gmul_1 z add opp AG). apply (ag_0_l z add opp AG).
    + rewrite IH; auto.
Qed.
Theorem scalar_mul_counts g : scalar_mul_count O cnt base k g =
  (scalar_mul O base k,
   if val k =? 0 then g
   else mkGcounts (gadd_cnt g + d * (ones (64 * length k) (val k) - 1)) (gdbl_cnt g + Z.log2 (val k))).
Proof.
  unfold scalar_mul_count, scalar_mul. rewrite (surjective_pairing (scalar_mul_count_loop _ _ _ _ _ _ _ _)).
  rewrite count_loop_value. f_equal. destruct (go_zero _ _ _ _ _ _ GO) as [Oz Dz].
  apply count_loop_start; auto. pose proof (val_bound k L) as VB. unfold Bn in VB.
  apply Z.div_small. rewrite Nat2Z.inj_mul. change (Z.of_nat 64) with 64. exact VB.
Qed.
End ScalarMulProofs.
(** A point of prime order r and a scalar below r. *)
Theorem scalar_mul_counts_order {T G} (O : gops T) ok (dn : T -> G) z add opp cnt d r k base g :
  gops_ok O ok dn z add opp ->
  (forall a b g, ok a -> ok b -> (dn a = z -> cnt a b g = g) /\
    (dn a <> z -> dn b <> z -> dn a <> dn b -> cnt a b g = mkGcounts (gadd_cnt g + d) (gdbl_cnt g))) ->
  limbs k -> ok base -> prime r -> gmul z add opp r (dn base) = z -> dn base <> z -> 0 < val k < r ->
  scalar_mul_count O cnt base k g = (scalar_mul O base k,
    mkGcounts (gadd_cnt g + d * (ones (64 * length k) (val k) - 1)) (gdbl_cnt g + Z.log2 (val k))).
Proof.
  intros GO CN L Hb Pp T1 N K. rewrite (scalar_mul_counts O ok dn z add opp GO cnt d CN k base L Hb).
  - destruct (Z.eqb_spec (val k) 0); [lia|reflexivity].
  - intros j Hj Z0. pose proof (go_group _ _ _ _ _ _ GO) as AG.
    assert (RP : rel_prime j r) by (apply rel_prime_sym, prime_rel_prime; [assumption|]; intros V; apply Z.divide_pos_le in V; lia).
    destruct (rel_prime_bezout _ _ RP) as [u v UV]. apply N.
    rewrite <- (gmul_1 z add opp AG (dn base)), <- UV, (gmul_add z add opp AG), !(gmul_mul z add opp AG), T1, Z0.
    rewrite !(gmul_zero z add opp AG). apply (ag_0_r z add opp AG).
Qed.

(** The groups. *)
Lemma sp_same {K} (F : Fops K) a b (P Q : sw_pt F a b) : P = Q <-> proj1_sig P = proj1_sig Q.
Proof. split; [now intros ->|]. apply sw_pt_eq. Qed.
Lemma dent_counts {K} (F : Fops K) b (FK : field_ok F) cnt d :
  (forall p q g, (jac_den F p = Inf -> cnt p q g = g) /\
    (jac_den F p <> Inf -> jac_den F q <> Inf -> jac_den F p <> jac_den F q -> cnt p q g = mkGcounts (gadd_cnt g + d) (gdbl_cnt g))) ->
  forall p q g, jac_ok F b p -> jac_ok F b q -> (jac_dent F b p = sp_zero F (o0 F) b -> cnt p q g = g) /\
    (jac_dent F b p <> sp_zero F (o0 F) b -> jac_dent F b q <> sp_zero F (o0 F) b -> jac_dent F b p <> jac_dent F b q ->
     cnt p q g = mkGcounts (gadd_cnt g + d) (gdbl_cnt g)).
Proof.
  intros H p q g OP OQ. destruct (H p q g) as [A Bc]. rewrite !sp_same, !(jac_dent_val F FK b) by auto. split; auto.
Qed.
Theorem jac_scalar_mul_counts {K} (F : Fops K) (FK : field_ok F) b (H2 : oadd F (o1 F) (o1 F) <> o0 F)
  (HD : sw_disc F (o0 F) b <> o0 F) r k base g counts_add : limbs k -> jac_ok F b base -> prime r ->
  gmul (sp_zero F (o0 F) b) (sp_add F (o0 F) b) (sp_opp F (o0 F) b) r (jac_dent F b base) = sp_zero F (o0 F) b ->
  jac_den F base <> Inf -> 0 < val k < r ->
  scalar_mul_count (jac_gops F) (jac_add_count F counts_add) base k g = (scalar_mul (jac_gops F) base k,
    mkGcounts (gadd_cnt g + (if counts_add then ones (64 * length k) (val k) - 1 else 0)) (gdbl_cnt g + Z.log2 (val k))).
Proof.
  intros L OB Pp T1 N K1.
  rewrite (scalar_mul_counts_order (jac_gops F) (jac_ok F b) (jac_dent F b) (sp_zero F (o0 F) b) (sp_add F (o0 F) b)
    (sp_opp F (o0 F) b) (jac_add_count F counts_add) (if counts_add then 1 else 0) r k base g); auto.
  - f_equal. destruct counts_add; f_equal; lia.
  - now apply jac_gops_ok.
  - apply dent_counts; auto. intros p q g0. split.
    + intros E. apply jac_is_zero_spec in E. destruct p as [[X1 Y1] Z1], q as [[X2 Y2] Z2]. unfold jac_add_count.
      now rewrite E.
    + intros NP NQ E. destruct counts_add.
      * destruct (jac_add_counted F FK p q g0) as (_ & _ & C). now apply C.
      * rewrite (jac_add_uncounted F FK p q g0 E). destruct g0. cbn. f_equal; lia.
  - rewrite sp_same, (jac_dent_val F FK b base OB). exact N.
Qed.

Theorem bn_scalar_mul_counts {K} (F : Fops K) (FK : field_ok F) b (H2 : oadd F (o1 F) (o1 F) <> o0 F)
  (HD : sw_disc F (o0 F) b <> o0 F) ec_add ec_dbl
  (DBL : forall p, jac_ok F b p -> jac_den F (ec_dbl p) = sw_add F (o0 F) (jac_den F p) (jac_den F p))
  (ADD : forall p q, jac_ok F b p -> jac_ok F b q -> jac_den F p <> Inf -> jac_den F q <> Inf ->
     jac_den F p <> jac_den F q -> jac_den F (ec_add p q) = sw_add F (o0 F) (jac_den F p) (jac_den F q))
  r k base g : limbs k -> jac_ok F b base -> prime r ->
  gmul (sp_zero F (o0 F) b) (sp_add F (o0 F) b) (sp_opp F (o0 F) b) r (jac_dent F b base) = sp_zero F (o0 F) b ->
  jac_den F base <> Inf -> 0 < val k < r ->
  scalar_mul_count (bn_gops F ec_add ec_dbl) (bn_add_count F) base k g = (scalar_mul (bn_gops F ec_add ec_dbl) base k,
    mkGcounts (gadd_cnt g + (ones (64 * length k) (val k) - 1)) (gdbl_cnt g + Z.log2 (val k))).
Proof.
  intros L OB Pp T1 N K1.
  rewrite (scalar_mul_counts_order (bn_gops F ec_add ec_dbl) (jac_ok F b) (jac_dent F b) (sp_zero F (o0 F) b)
    (sp_add F (o0 F) b) (sp_opp F (o0 F) b) (bn_add_count F) 1 r k base g); auto.
  - now rewrite Z.mul_1_l.
  - now apply bn_gops_ok.
  - apply dent_counts; auto. intros p q g0. destruct (bn_add_counted F FK p q g0) as (C1 & _ & C3). split; auto.
  - rewrite sp_same, (jac_dent_val F FK b base OB). exact N.
Qed.
Theorem prj_scalar_mul_counts {K} (F : Fops K) (FK : field_ok F) a b mul_a (MA : forall x, mul_a x = omul F a x)
  (H2 : oadd F (o1 F) (o1 F) <> o0 F) (HD : sw_disc F a b <> o0 F) r k base g : limbs k -> prj_ok F a b base -> prime r ->
  gmul (sp_zero F a b) (sp_add F a b) (sp_opp F a b) r (prj_dent F a b base) = sp_zero F a b ->
  prj_den F base <> Inf -> 0 < val k < r ->
  scalar_mul_count (prj_gops F mul_a) prj_add_count base k g = (scalar_mul (prj_gops F mul_a) base k,
    mkGcounts (gadd_cnt g) (gdbl_cnt g + Z.log2 (val k))).
Proof.
  intros L OB Pp T1 N K1.
  rewrite (scalar_mul_counts_order (prj_gops F mul_a) (prj_ok F a b) (prj_dent F a b) (sp_zero F a b)
    (sp_add F a b) (sp_opp F a b) prj_add_count 0 r k base g); auto.
  - now rewrite Z.mul_0_l, Z.add_0_r.
  - now apply prj_gops_ok.
  - intros p q g0 _ _. unfold prj_add_count. destruct g0 as [x y]. cbn [gadd_cnt gdbl_cnt]. rewrite Z.add_0_r. auto.
  - rewrite sp_same, (prj_dent_val F FK a b base OB). exact N.
Qed.
(** edwards, for any of the groups of points the addition formulas are right on. *)
Theorem edw_scalar_mul_counts {K G} (F : Fops K) (FK : field_ok F) a d O ok (dn : pt K -> G) z add opp r k base g :
  gops_ok O ok dn z add opp -> (forall p, ok p -> edw_ok F a d p) ->
  (forall p, ok p -> dn p = z <-> edw_den F p = te_zero F) ->
  limbs k -> ok base -> prime r -> gmul z add opp r (dn base) = z -> edw_den F base <> te_zero F -> 0 < val k < r ->
  scalar_mul_count O (edw_add_count F) base k g = (scalar_mul O base k,
    mkGcounts (gadd_cnt g + (ones (64 * length k) (val k) - 1)) (gdbl_cnt g + Z.log2 (val k))).
Proof.
  intros GO OK ZE L OB Pp T1 N K1.
  rewrite (scalar_mul_counts_order O ok dn z add opp (edw_add_count F) 1 r k base g); auto.
  - now rewrite Z.mul_1_l.
  - intros p q g0 OP OQ. destruct (edw_add_counted F FK a d p q g0 (OK p OP) (OK q OQ)) as (C1 & _ & C3).
    rewrite (ZE p OP), (ZE q OQ). split; auto.
  - now rewrite (ZE base OB).
Qed.

(** * Profiling blocks *)
(** The calls of a forest of blocks; the clock readings of the forest are here
    the values of the counter. *)
Fixpoint op_history (f : forest) : list op_event :=
  match f with
  | FNil => []
  | FBlock n _ v0 _ k v1 _ a => OpEnter n v0 :: op_history k ++ OpLeave n v1 :: op_history a
  end.
(** Sum over the completed blocks of name [n] of the counter at the end less [v]. *)
Fixpoint ends (n : name) (v : Z) (f : forest) : Z :=
  match f with
  | FNil => 0
  | FBlock m _ _ _ k v1 _ a => (if name_eqb m n then v1 - v else 0) + ends n v k + ends n v a
  end.

Lemma op_run_app C h1 : forall h2 s, op_run C (h1 ++ h2) s = bind (op_run C h1 s) (op_run C h2).
Proof.
  induction h1 as [|e h1 IH]; intros h2 s; cbn [op_run app]; auto.
  destruct (op_step C s e); cbn [bind]; auto.
Qed.

Section BlockProofs.
Variable C : prof_cfg.
Hypothesis Hc : inhibit_counters C = false.
Hypothesis Hi : inhibit_info C = false.
Variable T : Z.
Hypothesis T0 : 0 <= T.

Lemma op_nested : forall f s, within T f -> no_self_nesting f ->
  (forall n, Z.abs (cumulative_op_counts s n) + blocks f * T < 2 ^ 63) -> T < 2 ^ 63 ->
  exists s', op_run C (op_history f) s = Ok s' /\
    (forall n, occurs n f = false -> op_counts s' n = op_counts s n) /\
    (forall n, Z.abs (cumulative_op_counts s' n - cumulative_op_counts s n) <= blocks f * T) /\
    (forall n, cumulative_op_counts s' n = cumulative_op_counts s n + total n f).
Proof.
  induction f as [|n i t0 c0 k IHk t1 c1 a IHa]; intros s W NS Bd TT.
  - exists s. cbn [op_history op_run blocks total]. repeat split; auto; intros; lia.
  - cbn [within] in W. cbn [no_self_nesting] in NS. destruct NS as (N1 & N2 & N3).
    cbn [op_history op_run op_step]. unfold op_enter at 1. rewrite Hc, Hi. cbn [bind].
    set (s1 := mkOpprof _ _). rewrite op_run_app.
    pose proof (blocks_nonneg k) as BK. pose proof (blocks_nonneg a) as BA.
    assert (EB : blocks (FBlock n i t0 c0 k t1 c1 a) * T = T + blocks k * T + blocks a * T) by (cbn [blocks]; ring).
    assert (PK : 0 <= blocks k * T) by (apply Z.mul_nonneg_nonneg; auto).
    assert (PA : 0 <= blocks a * T) by (apply Z.mul_nonneg_nonneg; auto).
    assert (Wk : within T k) by tauto. assert (Wa : within T a) by tauto.
    assert (Wt : 0 <= t0 <= T /\ 0 <= t1 <= T) by tauto. rewrite EB in Bd.
    destruct (IHk s1 Wk N2) as (s2 & R2 & O2 & A2 & C2); auto.
    { intros m. pose proof (Bd m). unfold s1. cbn [cumulative_op_counts]. lia. }
    rewrite R2. cbn [bind op_run op_step]. unfold op_leave. rewrite Hc, (O2 n N1).
    replace (op_counts s1 n) with t0 by (unfold s1; cbn [op_counts]; unfold update; now rewrite name_eqb_refl).
    rewrite ll_ok by lia. cbn [bind].
    pose proof (A2 n) as A2n. pose proof (Bd n) as Bdn. unfold s1 in A2n. cbn [cumulative_op_counts] in A2n.
    rewrite ll_ok by lia. cbn [bind].
    set (s3 := mkOpprof _ _).
    assert (D3 : forall m, Z.abs (cumulative_op_counts s3 m - cumulative_op_counts s m) <= T + blocks k * T).
    { intros m. unfold s3. cbn [cumulative_op_counts]. unfold update. destruct (name_eqb_spec m n) as [->|Nm].
      - lia.
      - pose proof (A2 m) as A2m. unfold s1 in A2m. cbn [cumulative_op_counts] in A2m. lia. }
    destruct (IHa s3 Wa N3) as (s4 & R4 & O4 & A4 & C4); auto.
    { intros m. pose proof (D3 m). pose proof (Bd m). lia. }
    exists s4. split; auto. split; [|split].
    + intros m Om. cbn [occurs] in Om. apply orb_false_iff in Om. destruct Om as [Om Oa].
      apply orb_false_iff in Om. destruct Om as [On Ok'].
      rewrite (O4 m Oa). unfold s3. cbn [op_counts]. rewrite (O2 m Ok'). unfold s1. cbn [op_counts]. unfold update.
      rewrite name_eqb_sym in On. now rewrite On.
    + intros m. rewrite EB. pose proof (A4 m). pose proof (D3 m). lia.
    + intros m. rewrite (C4 m). unfold s3. cbn [cumulative_op_counts total]. unfold update.
      rewrite (name_eqb_sym n m). destruct (name_eqb_spec m n) as [->|Nm].
      * rewrite (C2 n). unfold s1. cbn [cumulative_op_counts]. lia.
      * rewrite (C2 m). unfold s1. cbn [cumulative_op_counts]. lia.
Qed.
End BlockProofs.

Theorem op_blocks_exact C T f s : inhibit_counters C = false -> inhibit_info C = false -> 0 <= T < 2 ^ 63 ->
  within T f -> no_self_nesting f -> (forall n, Z.abs (cumulative_op_counts s n) + blocks f * T < 2 ^ 63) ->
  exists s', op_run C (op_history f) s = Ok s' /\
    forall n, cumulative_op_counts s' n = cumulative_op_counts s n + total n f.
Proof.
  intros Hc Hi [T0 T1] W NS Bd. destruct (op_nested C Hc Hi T T0 f s W NS Bd T1) as (s' & R & _ & _ & E).
  exists s'. auto.
Qed.
Theorem op_blocks_inhibited C h s : inhibit_counters C = true -> op_run C h s = Ok s.
Proof.
  intros H. induction h as [|e h IH]; cbn [op_run]; auto.
  destruct e; cbn [op_step]; unfold op_enter, op_leave; rewrite H; cbn [bind]; auto.
Qed.
(** With inhibit_profiling_info the value at entry is not stored: every block
    is measured from the value last stored, whenever that was. *)
Theorem op_blocks_info C : inhibit_counters C = false -> inhibit_info C = true -> forall f s s',
  op_run C (op_history f) s = Ok s' -> op_counts s' = op_counts s /\
  forall n, cumulative_op_counts s' n = cumulative_op_counts s n + ends n (op_counts s n) f.
Proof.
  intros Hc Hi. induction f as [|n i t0 c0 k IHk t1 c1 a IHa]; intros s s' Rn.
  - cbn in Rn. injection Rn as <-. split; auto. intros. cbn [ends]. lia.
  - cbn [op_history op_run op_step] in Rn. unfold op_enter in Rn at 1. rewrite Hc, Hi in Rn. cbn [bind] in Rn.
    rewrite op_run_app in Rn. destruct (op_run C (op_history k) s) as [s2| | | | |] eqn:E2; try discriminate.
    cbn [bind op_run op_step] in Rn. unfold op_leave in Rn. rewrite Hc in Rn.
    destruct (IHk _ _ E2) as [O2 C2].
    unfold ll in Rn. destruct (_ && _) eqn:L1 in Rn; cbn [bind] in Rn; [|discriminate].
    destruct (_ && _) eqn:L2 in Rn; cbn [bind] in Rn; [|discriminate].
    destruct (IHa _ _ Rn) as [O4 C4]. split; [now rewrite O4, <- O2|].
    intros m. rewrite (C4 m). cbn [op_counts cumulative_op_counts ends]. rewrite O2. unfold update.
    rewrite (name_eqb_sym n m). destruct (name_eqb_spec m n) as [->|Nm]; rewrite C2; lia.
Qed.
Definition opprof0 : opprof := mkOpprof (fun _ => 0) (fun _ => 0).
Definition cfg_quiet : prof_cfg := {| inhibit_info := true; inhibit_counters := false; multicore := false |}.
(** One block, entered at 100 operations and left at 103. *)
Definition three_ops : forest := FBlock [102] true 100 0 FNil 103 0 FNil.
Theorem op_blocks_info_wrong : exists f s', within 103 f /\ no_self_nesting f /\
  op_run cfg_quiet (op_history f) opprof0 = Ok s' /\ exists n, cumulative_op_counts s' n <> total n f.
Proof.
  exists three_ops. eexists. split; [cbn; lia|]. split; [cbn; auto|]. split; [reflexivity|]. exists [102]. discriminate.
Qed.
Theorem op_blocks_recursive_wrong : exists f s', within 30 f /\
  op_run cfg0 (op_history f) opprof0 = Ok s' /\ exists n, cumulative_op_counts s' n <> total n f.
Proof.
  exists recursive. eexists. split; [cbn; lia|]. split; [reflexivity|]. exists [102]. discriminate.
Qed.

(** Points of the toy curves. *)
Lemma toy_jac : jac_den F13 jp <> Inf /\ jac_den F13 jq <> Inf /\ jac_den F13 jp <> jac_den F13 jq.
Proof.
  destruct jac13_den as (A & B & _). split; [|split]; intros E.
  - rewrite E in A. discriminate.
  - rewrite E in B. discriminate.
  - rewrite E, B in A. discriminate.
Qed.
Lemma toy_prj : prj_den F13 pp <> Inf /\ prj_den F13 pq <> Inf /\ prj_den F13 pp <> prj_den F13 pq.
Proof.
  destruct prj13_den as (A & B & _). split; [|split]; intros E.
  - rewrite E in A. discriminate.
  - rewrite E in B. discriminate.
  - rewrite E, B in A. discriminate.
Qed.
