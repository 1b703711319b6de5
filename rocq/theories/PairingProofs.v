(** Miller loops: number of coefficients, double_miller_loop. *)
From Coq Require Import ZArith List Bool Lia Arith.
From Verif Require Import Result Limbs LimbsProofs BigintModel BigintProofs Algebra FieldOps ExtModel ExtProofs WnafModel
  CurveModel PairingModel PairingSpec.
Import ListNotations.
Open Scope result_scope.

(** ** The loop over the bits *)
Fixpoint mfold {S} (body : bool -> S -> result S) (bs : list bool) (s : S) : result S :=
  match bs with [] => Ok s | b :: bs' => s' <- body b s ;; mfold body bs' s' end.
Lemma mfold_app {S} (body : bool -> S -> result S) a b s :
  mfold body (a ++ b) s = (s' <- mfold body a s ;; mfold body b s').
Proof.
  revert s; induction a as [|x a IH]; intros s; [reflexivity|].
  cbn [app mfold]. destruct (body x s); cbn [bind]; auto.
Qed.

Definition low_bits (v : Z) (n : nat) : list bool := map (fun i => Z.testbit v (Z.of_nat i)) (rev (seq 0 n)).
Lemma low_bits_S v n : low_bits v (S n) = Z.testbit v (Z.of_nat n) :: low_bits v n.
Proof. unfold low_bits. rewrite seq_S, rev_app_distr. reflexivity. Qed.
Definition below (v : Z) : list bool := low_bits v (Z.to_nat (Z.log2 v)).

Lemma bit_loop_found {S} lc (body : bool -> S -> result S) n s : limbs lc ->
  bit_loop lc body n true s = mfold body (low_bits (val lc) n) s.
Proof.
  intros Hl. revert s. induction n as [|n IH]; intros s; [reflexivity|].
  rewrite low_bits_S. cbn [bit_loop mfold negb]. rewrite bigint_test_bit_spec by (auto; lia).
  destruct (body _ s); cbn [bind]; auto.
Qed.
Lemma bit_loop_skip {S} lc (body : bool -> S -> result S) n s : limbs lc -> (0 <= val lc < 2 ^ Z.of_nat n)%Z ->
  bit_loop lc body n false s = mfold body (below (val lc)) s.
Proof.
  intros Hl. induction n as [|n IH]; intros Hv.
  - change (2 ^ Z.of_nat 0)%Z with 1%Z in Hv. unfold below. replace (val lc) with 0%Z by lia. reflexivity.
  - cbn [bit_loop negb]. rewrite bigint_test_bit_spec by (auto; lia). rewrite orb_false_l.
    destruct (Z.testbit (val lc) (Z.of_nat n)) eqn:E.
    + rewrite bit_loop_found by auto. unfold below. f_equal. f_equal.
      assert (Hlo : (2 ^ Z.of_nat n <= val lc)%Z).
      { destruct (Z.lt_ge_cases (val lc) (2 ^ Z.of_nat n)) as [H|H]; auto.
        destruct (Z.eq_dec (val lc) 0) as [H0|H0]; [rewrite H0, Z.testbit_0_l in E; congruence|].
        rewrite Z.bits_above_log2 in E; try lia. apply Z.log2_lt_pow2; lia. }
      rewrite (Z.log2_unique (val lc) (Z.of_nat n)); lia.
    + apply IH. split; [lia|]. destruct (Z.lt_ge_cases (val lc) (2 ^ Z.of_nat n)) as [H|H]; auto.
      replace (Z.of_nat (Datatypes.S n)) with (Z.succ (Z.of_nat n)) in Hv by lia.
      assert (Z.log2 (val lc) = Z.of_nat n) as L by (apply Z.log2_unique; lia).
      assert (0 < val lc)%Z by (pose proof (Z.pow_pos_nonneg 2 (Z.of_nat n)); lia).
      rewrite <- L, Z.bit_log2 in E; [congruence|lia].
Qed.
Lemma loop_bound lc k : limbs lc -> (max_bits lc <= k)%nat -> (0 <= val lc < 2 ^ Z.of_nat k)%Z.
Proof.
  intros Hl Hk. pose proof (val_bound lc Hl) as B. split; [lia|].
  eapply Z.lt_le_trans; [apply B|]. unfold max_bits in Hk.
  unfold Bn. apply Z.pow_le_mono_r; lia.
Qed.

(** ** Counting *)
Definition trues (bs : list bool) : nat := length (filter (fun b => b) bs).
Lemma trues_cons b bs : trues (b :: bs) = (Nat.b2n b + trues bs)%nat.
Proof. now destruct b. Qed.
Lemma trues_app a b : trues (a ++ b) = (trues a + trues b)%nat.
Proof. unfold trues. now rewrite filter_app, app_length. Qed.
Lemma low_bits_double v b n : low_bits (2 * v + Z.b2z b) (S n) = low_bits v n ++ [b].
Proof.
  induction n as [|n IH].
  - rewrite low_bits_S. cbn [low_bits seq rev map app]. f_equal. change (Z.of_nat 0) with 0%Z.
    rewrite Z.add_comm, Z.add_b2z_double_bit0. reflexivity.
  - rewrite low_bits_S, IH, low_bits_S. cbn [app]. f_equal.
    rewrite Nat2Z.inj_succ, <- Z.div2_bits, Z.add_comm, Z.mul_comm, Z.div_add by lia.
    now destruct b.
Qed.
Lemma below_double p b : below (2 * Z.pos p + Z.b2z b) = below (Z.pos p) ++ [b].
Proof.
  unfold below. rewrite <- low_bits_double. f_equal.
  replace (Z.log2 (2 * Z.pos p + Z.b2z b)) with (Z.succ (Z.log2 (Z.pos p))).
  - pose proof (Z.log2_nonneg (Z.pos p)). now rewrite Z2Nat.inj_succ by lia.
  - destruct b; cbn [Z.b2z].
    + now rewrite <- Z.log2_succ_double by lia.
    + now rewrite Z.add_0_r, <- Z.log2_double by lia.
Qed.
Lemma below_length v : length (below v) = dbl_count v.
Proof. unfold below, low_bits, dbl_count. now rewrite map_length, rev_length, seq_length. Qed.
Lemma pos_ones_pos p : (1 <= pos_ones p)%nat. Proof. induction p; cbn; lia. Qed.
Lemma below_trues v : (0 <= v)%Z -> trues (below v) = add_count v.
Proof.
  intros Hv. unfold add_count. destruct v as [|p|p]; [reflexivity| |lia]. cbn [ones].
  induction p as [p IH|p IH|]; [| |reflexivity].
  - change (Z.pos p~1) with (2 * Z.pos p + Z.b2z true)%Z. rewrite below_double, trues_app, IH by lia.
    cbn [pos_ones]. unfold trues. cbn. pose proof (pos_ones_pos p). lia.
  - change (Z.pos p~0) with (2 * Z.pos p + Z.b2z false)%Z. rewrite below_double, trues_app, IH by lia.
    cbn [pos_ones]. unfold trues. cbn. lia.
Qed.

Lemma at_idx_ok {A} (l : list A) i : (i < length l)%nat -> exists x, at_idx l i = Ok x /\ nth_error l i = Some x.
Proof.
  intros H. unfold at_idx. destruct (nth_error l i) eqn:E; eauto. apply nth_error_None in E. lia.
Qed.

(** ** Loops with one list of coefficients *)
Section One.
Context {T A : Type} (F : Fops T) (R : ring_ok F).
Add Ring Tring : (rk_ring F R).
Local Notation "x * y" := (omul F x y).
(** One Miller loop with lines ln1 (doubling) and ln2 (addition). *)
Definition one_body (ln1 ln2 : A -> T) (cs : list A) (bit : bool) (s : T * nat) : result (T * nat) :=
  let '(f, idx) := s in
  c <- at_idx cs idx ;;
  let f := f * f * ln1 c in
  if bit then
    c <- at_idx cs (S idx) ;;
    Ok (f * ln2 c, S (S idx))
  else Ok (f, S idx).
Definition two_body (a1 a2 b1 b2 : A -> T) (cs ds : list A) (bit : bool) (s : T * nat) : result (T * nat) :=
  let '(f, idx) := s in
  c <- at_idx cs idx ;;
  d <- at_idx ds idx ;;
  let f := f * f * a1 c * b1 d in
  if bit then
    c <- at_idx cs (S idx) ;;
    d <- at_idx ds (S idx) ;;
    Ok (f * a2 c * b2 d, S (S idx))
  else Ok (f, S idx).
Lemma one_run ln1 ln2 cs bs : forall f idx, (idx + length bs + trues bs <= length cs)%nat ->
  exists g, mfold (one_body ln1 ln2 cs) bs (f, idx) = Ok (g, (idx + length bs + trues bs)%nat).
Proof.
  induction bs as [|b bs IH]; intros f idx H.
  - exists f. cbn. repeat f_equal. lia.
  - cbn [length] in H. cbn [mfold one_body].
    destruct (at_idx_ok cs idx) as (c & Ec & _); [destruct b; cbn in H; lia|]. rewrite Ec. cbn [bind].
    destruct b.
    + unfold trues in *. cbn [filter length] in H.
      destruct (at_idx_ok cs (S idx)) as (c' & Ec' & _); [lia|]. rewrite Ec'. cbn [bind].
      destruct (IH (f * f * ln1 c * ln2 c') (S (S idx))) as [g E]; [lia|]. exists g. rewrite E. cbn [filter length].
      do 2 f_equal. lia.
    + cbn [bind]. unfold trues in *. cbn [filter length] in H.
      destruct (IH (f * f * ln1 c) (S idx)) as [g E]; [lia|]. exists g. rewrite E. cbn [filter length].
      do 2 f_equal. lia.
Qed.
(** The double loop computes the product. *)
Lemma two_run a1 a2 b1 b2 cs ds bs : forall f g idx,
  (idx + length bs + trues bs <= length cs)%nat -> (idx + length bs + trues bs <= length ds)%nat ->
  exists f' g', let idx' := (idx + length bs + trues bs)%nat in
    mfold (one_body a1 a2 cs) bs (f, idx) = Ok (f', idx') /\
    mfold (one_body b1 b2 ds) bs (g, idx) = Ok (g', idx') /\
    mfold (two_body a1 a2 b1 b2 cs ds) bs (f * g, idx) = Ok (f' * g', idx').
Proof.
  cbv zeta. induction bs as [|b bs IH]; intros f g idx H1 H2.
  - exists f, g. cbn. rewrite !Nat.add_0_r. auto.
  - cbn [length] in H1, H2. cbn [mfold one_body two_body].
    destruct (at_idx_ok cs idx) as (c & Ec & _); [destruct b; cbn in H1; lia|].
    destruct (at_idx_ok ds idx) as (d & Ed & _); [destruct b; cbn in H2; lia|].
    rewrite Ec, Ed. cbn [bind].
    destruct b; unfold trues in *; cbn [filter length] in H1, H2 |- *.
    + destruct (at_idx_ok cs (S idx)) as (c' & Ec' & _); [lia|].
      destruct (at_idx_ok ds (S idx)) as (d' & Ed' & _); [lia|].
      rewrite Ec', Ed'. cbn [bind].
      destruct (IH (f * f * a1 c * a2 c') (g * g * b1 d * b2 d') (S (S idx))) as (f' & g' & E1 & E2 & E3); [lia|lia|].
      exists f', g'.
      replace (f * g * (f * g) * a1 c * b1 d * a2 c' * b2 d') with ((f * f * a1 c * a2 c') * (g * g * b1 d * b2 d')) by ring.
      replace (idx + S (length bs) + S (length (filter (fun b => b) bs)))%nat
        with (S (S idx) + length bs + length (filter (fun b => b) bs))%nat by lia. auto.
    + cbn [bind].
      destruct (IH (f * f * a1 c) (g * g * b1 d) (S idx)) as (f' & g' & E1 & E2 & E3); [lia|lia|].
      exists f', g'.
      replace (f * g * (f * g) * a1 c * b1 d) with ((f * f * a1 c) * (g * g * b1 d)) by ring.
      replace (idx + S (length bs) + length (filter (fun b => b) bs))%nat
        with (S idx + length bs + length (filter (fun b => b) bs))%nat by lia. auto.
Qed.
End One.
Lemma mfold_ext {S} (b1 b2 : bool -> S -> result S) bs s : (forall b s, b1 b s = b2 b s) -> mfold b1 bs s = mfold b2 bs s.
Proof. intros E. revert s. induction bs as [|b bs IH]; intros s; [reflexivity|]. cbn. rewrite E. destruct (b2 b s); cbn; auto. Qed.

(** Precomputation: a body that pushes one coefficient per doubling and one per addition. *)
Section Push.
Context {P A : Type} (dbl add : P -> P * A).
Definition push_body (bit : bool) (s : P * list A) : result (P * list A) :=
  let '(R, cs) := s in
  let '(R, c) := dbl R in
  let cs := cs ++ [c] in
  if bit then let '(R, c) := add R in Ok (R, cs ++ [c]) else Ok (R, cs).
Lemma push_run bs : forall R cs, exists R' cs', mfold push_body bs (R, cs) = Ok (R', cs') /\
  length cs' = (length cs + length bs + trues bs)%nat.
Proof.
  induction bs as [|b bs IH]; intros R cs.
  - exists R, cs. split; [reflexivity|]. cbn. lia.
  - cbn [mfold push_body]. destruct (dbl R) as [R1 c]. destruct b.
    + destruct (add R1) as [R2 c2]. cbn [bind]. destruct (IH R2 ((cs ++ [c]) ++ [c2])) as (R' & cs' & E & L).
      exists R', cs'. split; [exact E|]. rewrite L, !app_length. unfold trues. cbn. lia.
    + cbn [bind]. destruct (IH R1 (cs ++ [c])) as (R' & cs' & E & L).
      exists R', cs'. split; [exact E|]. rewrite L, !app_length. unfold trues. cbn. lia.
Qed.
End Push.

(** ** Inverses *)
Section Inv.
Context {K : Type} (F : Fops K) (FK : field_ok F).
Add Ring Kring : (rk_ring F (fk_ring F FK)).
Lemma oinv_mul x y : oinv F (omul F x y) = (a <- oinv F x ;; b <- oinv F y ;; Ok (omul F a b)).
Proof.
  destruct (rk_dec F (fk_ring F FK) x (o0 F)) as [->|Nx].
  - replace (omul F (o0 F) y) with (o0 F) by ring. now rewrite (fk_inv_0 F FK).
  - destruct (fk_inv F FK x Nx) as (a & Ea & Ha). rewrite Ea. cbn [bind].
    destruct (rk_dec F (fk_ring F FK) y (o0 F)) as [->|Ny].
    + replace (omul F x (o0 F)) with (o0 F) by ring. now rewrite (fk_inv_0 F FK).
    + destruct (fk_inv F FK y Ny) as (b & Eb & Hb). rewrite Eb. cbn [bind].
      assert (Nxy : omul F x y <> o0 F) by (now apply (fk_mul_neq_0 F FK)).
      destruct (fk_inv F FK _ Nxy) as (c & Ec & Hc). rewrite Ec. f_equal.
      replace c with (omul F (omul F (omul F x a) (omul F y b)) c) by (rewrite Ha, Hb; ring).
      transitivity (omul F (omul F (omul F x y) c) (omul F a b)); [ring|]. rewrite Hc. ring.
Qed.
Lemma oinv_cases x : (exists y, oinv F x = Ok y) \/ oinv F x = AssertFail.
Proof.
  destruct (rk_dec F (fk_ring F FK) x (o0 F)) as [->|N].
  - right. apply (fk_inv_0 F FK).
  - destruct (fk_inv F FK x N) as (y & E & _). eauto.
Qed.
End Inv.

Lemma product_value {T} (F : Fops T) (r1 r2 : result (T * nat)) :
  miller_value (product_idx F r1 r2) = product F (miller_value r1) (miller_value r2).
Proof. unfold product_idx, product, miller_value. destruct r1 as [[f i]| | | | |]; cbn [bind]; auto. destruct r2 as [[g j]| | | | |]; cbn [bind]; auto. Qed.
Lemma product_consumes {T} (F : Fops T) neg n r1 r2 : consumes neg n r1 -> consumes neg n r2 -> consumes neg n (product_idx F r1 r2).
Proof.
  intros [[f ->]|[-> ->]] H; [|now right]. destruct H as [[g ->]|[-> ->]]; [left; eexists; reflexivity|now right].
Qed.

(** ** alt_bn128 and bls12_381 *)
Section Twelve.
Context {K : Type} (F : Fops K) (RF : ring_ok F) (nr2 : K) (nr6 : K * K).
Notation F2 := (fp2_ops F nr2).
Notation F12 := (fp12_ops F nr2 nr6 nr6).
Notation E := (K * K)%type.
Notation T := ((E * E * E) * (E * E * E))%type.
Hypothesis FK : field_ok F12.
Let R12 := fk_ring F12 FK.
Add Ring T12 : (rk_ring F12 (fk_ring F12 FK)).
Variables (lc : bigint) (neg : bool) (Hlc : limbs lc).
Let v := val lc.
Let z := o0 F2.
Definition line024 (P : K * K) (c : E * E * E) : T :=
  let '(l0, lvw, lvv) := c in ((l0, z, quad_scale (omul F) (fst P) lvv), (z, quad_scale (omul F) (snd P) lvw, z)).
Definition line045 (P : K * K) (c : E * E * E) : T :=
  let '(l0, lvw, lvv) := c in ((quad_scale (omul F) (snd P) lvw, z, z), (z, l0, quad_scale (omul F) (fst P) lvv)).
Lemma mul_line_024 f c P : mul_line F (fp12_mul_by_024 F2 nr6) f c P = omul F12 f (line024 P c).
Proof.
  destruct c as [[l0 lvw] lvv]. unfold mul_line, line024.
  exact (fp12_mul_by_024_spec F2 (fp2_ring F RF nr2) nr6 f l0 _ _).
Qed.
Lemma mul_line_045 f c P : mul_line F (fp12_mul_by_045 F2 nr6) f c P = omul F12 f (line045 P c).
Proof.
  destruct c as [[l0 lvw] lvv]. unfold mul_line, line045.
  exact (fp12_mul_by_045_spec F2 (fp2_ring F RF nr2) nr6 f l0 _ _).
Qed.

Section Generic.
Variables (mul_by : T -> E -> E -> E -> T) (line : K * K -> E * E * E -> T).
Hypothesis ML : forall f c P, mul_line F mul_by f c P = omul F12 f (line P c).
Lemma body_one P cs b s : bn_miller_body F nr2 nr6 nr6 mul_by P cs b s = one_body F12 (line P) (line P) cs b s.
Proof.
  destruct s as [f idx]. unfold bn_miller_body, one_body. destruct (at_idx cs idx); cbn [bind]; auto.
  rewrite ML, (rk_sqr F12 R12). destruct b; auto. destruct (at_idx cs (S idx)); cbn [bind]; auto. now rewrite ML.
Qed.
Lemma body_two P1 P2 cs ds b s : bn_double_miller_body F nr2 nr6 nr6 mul_by P1 P2 cs ds b s =
  two_body F12 (line P1) (line P1) (line P2) (line P2) cs ds b s.
Proof.
  destruct s as [f idx]. unfold bn_double_miller_body, two_body.
  destruct (at_idx cs idx); cbn [bind]; auto. destruct (at_idx ds idx); cbn [bind]; auto.
  rewrite !ML, (rk_sqr F12 R12). destruct b; auto.
  destruct (at_idx cs (S idx)); cbn [bind]; auto. destruct (at_idx ds (S idx)); cbn [bind]; auto. now rewrite !ML.
Qed.
Lemma loop_one P cs s : bit_loop lc (bn_miller_body F nr2 nr6 nr6 mul_by P cs) (S (max_bits lc)) false s =
  mfold (one_body F12 (line P) (line P) cs) (below v) s.
Proof.
  rewrite bit_loop_skip by (auto; apply loop_bound; auto). apply mfold_ext. apply body_one.
Qed.
Lemma loop_two P1 P2 cs ds s : bit_loop lc (bn_double_miller_body F nr2 nr6 nr6 mul_by P1 P2 cs ds) (S (max_bits lc)) false s =
  mfold (two_body F12 (line P1) (line P1) (line P2) (line P2) cs ds) (below v) s.
Proof.
  rewrite bit_loop_skip by (auto; apply loop_bound; auto). apply mfold_ext. apply body_two.
Qed.
Lemma v_nonneg : (0 <= v)%Z. Proof. unfold v. now apply val_nonneg. Qed.
Definition bls_count : nat := (dbl_count v + add_count v)%nat.
Definition alt_count : nat := (dbl_count v + add_count v + 2)%nat.

Lemma bls_consumes P cs : length cs = bls_count ->
  consumes neg bls_count (bls_miller_loop_idx F nr2 nr6 nr6 lc neg mul_by P cs).
Proof.
  intros L. unfold bls_miller_loop_idx. rewrite loop_one.
  destruct (one_run F12 (line P) (line P) cs (below v) (o1 F12) 0) as [g E].
  { rewrite below_length, below_trues by apply v_nonneg. unfold bls_count in L. lia. }
  rewrite E, below_length, below_trues by apply v_nonneg. cbn [bind]. fold bls_count. cbn [Nat.add].
  destruct neg.
  - destruct (oinv_cases F12 FK g) as [[y ->]| ->]; cbn [bind]; [left; eauto|now right].
  - left; cbn [bind]; eauto.
Qed.
Lemma bls_double P1 cs P2 ds : length cs = bls_count -> length ds = bls_count ->
  bls_double_miller_loop_idx F nr2 nr6 nr6 lc neg mul_by P1 cs P2 ds =
  product_idx F12 (bls_miller_loop_idx F nr2 nr6 nr6 lc neg mul_by P1 cs)
    (bls_miller_loop_idx F nr2 nr6 nr6 lc neg mul_by P2 ds).
Proof.
  intros L1 L2. unfold bls_double_miller_loop_idx, bls_miller_loop_idx. rewrite loop_two, !loop_one.
  destruct (two_run F12 R12 (line P1) (line P1) (line P2) (line P2) cs ds (below v) (o1 F12) (o1 F12) 0)
    as (f & g & E1 & E2 & E3);
    try (rewrite below_length, below_trues by apply v_nonneg; unfold bls_count in *; lia).
  rewrite E1, E2. replace (omul F12 (o1 F12) (o1 F12)) with (o1 F12) in E3 by ring. rewrite E3. cbn [bind].
  unfold product_idx. destruct neg; cbn [bind]; [|reflexivity].
  rewrite (oinv_mul F12 FK). destruct (oinv F12 f); cbn [bind]; auto. destruct (oinv F12 g); cbn [bind]; auto.
Qed.
Lemma alt_consumes P cs : length cs = alt_count ->
  consumes neg alt_count (alt_miller_loop_idx F nr2 nr6 nr6 lc neg mul_by P cs).
Proof.
  intros L. unfold alt_miller_loop_idx. rewrite loop_one.
  destruct (one_run F12 (line P) (line P) cs (below v) (o1 F12) 0) as [g E].
  { rewrite below_length, below_trues by apply v_nonneg. unfold alt_count in L. lia. }
  rewrite E, below_length, below_trues by apply v_nonneg. cbn [bind]. cbn [Nat.add].
  assert (G : forall g, consumes neg alt_count (c <- at_idx cs (dbl_count v + add_count v) ;;
    let f := mul_line F mul_by g c P in
    c <- at_idx cs (S (dbl_count v + add_count v)) ;;
    let f := mul_line F mul_by f c P in Ok (f, S (S (dbl_count v + add_count v))))).
  { intros h. unfold alt_count in *.
    destruct (at_idx_ok cs (dbl_count v + add_count v)) as (c & -> & _); [lia|]. cbn [bind].
    destruct (at_idx_ok cs (S (dbl_count v + add_count v))) as (d & -> & _); [lia|]. cbn [bind].
    left. eexists. do 2 f_equal. lia. }
  destruct neg.
  - destruct (oinv_cases F12 FK g) as [[y ->]| ->]; cbn [bind]; [apply G|now right].
  - apply G.
Qed.
Lemma alt_double P1 cs P2 ds : length cs = alt_count -> length ds = alt_count ->
  alt_double_miller_loop_idx F nr2 nr6 nr6 lc neg mul_by P1 cs P2 ds =
  product_idx F12 (alt_miller_loop_idx F nr2 nr6 nr6 lc neg mul_by P1 cs)
    (alt_miller_loop_idx F nr2 nr6 nr6 lc neg mul_by P2 ds).
Proof.
  intros L1 L2. unfold alt_double_miller_loop_idx, alt_miller_loop_idx. rewrite loop_two, !loop_one.
  destruct (two_run F12 R12 (line P1) (line P1) (line P2) (line P2) cs ds (below v) (o1 F12) (o1 F12) 0)
    as (f & g & E1 & E2 & E3);
    try (rewrite below_length, below_trues by apply v_nonneg; unfold alt_count in *; lia).
  rewrite E1, E2. replace (omul F12 (o1 F12) (o1 F12)) with (o1 F12) in E3 by ring. rewrite E3. cbn [bind].
  unfold product_idx. rewrite below_length, below_trues by apply v_nonneg. cbn [Nat.add].
  unfold alt_count in *.
  destruct (at_idx_ok cs (dbl_count v + add_count v)) as (c & Ec & _); [lia|].
  destruct (at_idx_ok cs (S (dbl_count v + add_count v))) as (c' & Ec' & _); [lia|].
  destruct (at_idx_ok ds (dbl_count v + add_count v)) as (d & Ed & _); [lia|].
  destruct (at_idx_ok ds (S (dbl_count v + add_count v))) as (d' & Ed' & _); [lia|].
  assert (X : forall f g, omul F12 (omul F12 (omul F12 (omul F12 (omul F12 f g) (line P1 c)) (line P2 d)) (line P1 c')) (line P2 d') =
    omul F12 (omul F12 (omul F12 f (line P1 c)) (line P1 c')) (omul F12 (omul F12 g (line P2 d)) (line P2 d'))) by (intros; ring).
  destruct neg; cbn [bind].
  - rewrite (oinv_mul F12 FK). destruct (oinv F12 f); cbn [bind]; auto.
    rewrite Ec, Ec'. cbn [bind].
    destruct (oinv F12 g); cbn [bind]; auto. rewrite Ed, Ed'. cbn [bind]. rewrite !ML. now rewrite X.
  - rewrite Ec, Ec', Ed, Ed'. cbn [bind]. rewrite !ML. now rewrite X.
Qed.
End Generic.

Section Precompute.
Variables (twist twist_b : E).
Lemma bn_precompute_loop dbl_line add_line two_inv Q R cs :
  exists R' cs', bit_loop lc (bn_precompute_body F nr2 twist_b dbl_line add_line two_inv Q) (S (max_bits lc)) false (R, cs) =
    Ok (R', cs') /\ length cs' = (length cs + dbl_count v + add_count v)%nat.
Proof.
  rewrite bit_loop_skip by (auto; apply loop_bound; auto).
  destruct (push_run (fun R => let '(R, l) := bn_doubling_step F nr2 twist_b two_inv R in (R, dbl_line l))
    (fun R => let '(R, l) := bn_mixed_addition_step F nr2 Q R in (R, add_line l)) (below v) R cs) as (R' & cs' & Er & L).
  exists R', cs'. rewrite L, below_length, below_trues by apply v_nonneg. split; [|reflexivity].
  rewrite <- Er. apply mfold_ext. intros b [R0 cs0]. unfold bn_precompute_body, push_body.
  destruct (bn_doubling_step F nr2 twist_b two_inv R0) as [R1 l1].
  destruct b; [|reflexivity]. destruct (bn_mixed_addition_step F nr2 Q R1) as [R2 l2]. reflexivity.
Qed.
Lemma bls_precompute_length Q cs : bls_precompute_G2 F nr2 twist twist_b lc Q = Ok cs -> length cs = bls_count.
Proof.
  unfold bls_precompute_G2. destruct (jac_to_affine F2 Q) as [[[QX QY] QZ]| | | | |]; cbn [bind]; try discriminate.
  destruct (oinv F (Fq_two F)); cbn [bind]; try discriminate.
  destruct (bn_precompute_loop (bls_dbl_line F nr2 twist) (bls_add_line F nr2 twist) a (QX, QY, QZ) (QX, QY, o1 F2) [])
    as (R' & cs' & -> & L). cbn [bind]. intros H. injection H as <-. rewrite L. reflexivity.
Qed.
Lemma alt_precompute_length t2 qX qY Q cs :
  alt_precompute_G2 F nr2 twist twist_b lc neg t2 qX qY Q = Ok cs -> length cs = alt_count.
Proof.
  unfold alt_precompute_G2. destruct (jac_to_affine F2 Q) as [[[QX QY] QZ]| | | | |]; cbn [bind]; try discriminate.
  destruct (oinv F (Fq_two F)); cbn [bind]; try discriminate.
  destruct (bn_precompute_loop (alt_dbl_line F nr2 twist) (alt_add_line F nr2 twist) a (QX, QY, QZ) (QX, QY, o1 F2) [])
    as (R' & cs' & -> & L). cbn [bind].
  destruct R' as [[RX RY] RZ].
  destruct (bn_mul_by_q F nr2 t2 qX qY (QX, QY, QZ)) as [[Q1X Q1Y] Q1Z].
  unfold assert_then. destruct (oeqb _ _ _); [|discriminate].
  destruct (bn_mul_by_q F nr2 t2 qX qY (Q1X, Q1Y, Q1Z)) as [[Q2X Q2Y] Q2Z].
  destruct (oeqb _ _ _); [|discriminate].
  set (R1 := if neg then _ else _). destruct (bn_mixed_addition_step F nr2 (Q1X, Q1Y, Q1Z) R1) as [R2 l1].
  destruct (bn_mixed_addition_step F nr2 _ R2) as [R3 l2]. intros H. injection H as <-.
  rewrite !app_length, L. unfold alt_count. cbn. lia.
Qed.
End Precompute.
End Twelve.

Lemma product_value2 {T} (F : Fops T) (r1 r2 : result (T * nat * nat)) :
  (' (f, _, _) <- product_idx2 F r1 r2 ;; Ok f) = product F (' (f, _, _) <- r1 ;; Ok f) (' (f, _, _) <- r2 ;; Ok f).
Proof. unfold product_idx2, product. destruct r1 as [[[f i] j]| | | | |]; cbn [bind]; auto. destruct r2 as [[[g i'] j']| | | | |]; cbn [bind]; auto. Qed.
Lemma product_consumes2 {T} (F : Fops T) neg n m r1 r2 : consumes2 neg n m r1 -> consumes2 neg n m r2 ->
  consumes2 neg n m (product_idx2 F r1 r2).
Proof.
  intros [[f ->]|[-> ->]] H; [|now right]. destruct H as [[g ->]|[-> ->]]; [left; eexists; reflexivity|now right].
Qed.

(** ** edwards, ate and Tate *)
Section Edwards.
Context {K L : Type} (F : Fops K) (FE : Fops L) (scale : K -> L -> L) (FK : Fops (L * L)).
Hypothesis RK : ring_ok FK.
Add Ring EdwK : (rk_ring FK RK).
Variables (mul_a : L -> L) (lc : bigint).
Hypothesis Hlc : limbs lc.
Let v := val lc.
Lemma edw_v : (0 <= v)%Z. Proof. unfold v. now apply val_nonneg. Qed.
Lemma edw_body_one {A} (g1 g2 : A -> L * L) cs b s :
  edw_miller_body FK g1 g2 cs b s = one_body FK g1 g2 cs b s.
Proof.
  destruct s as [f idx]. unfold edw_miller_body, one_body. destruct (at_idx cs idx); cbn [bind]; auto.
  now rewrite (rk_sqr FK RK).
Qed.
Lemma edw_body_two P1 P2 cs ds b s : edw_double_miller_body FE scale FK P1 P2 cs ds b s =
  two_body FK (edw_g_RR FE scale P1) (edw_g_RQ FE scale P1) (edw_g_RR FE scale P2) (edw_g_RQ FE scale P2) cs ds b s.
Proof.
  destruct s as [f idx]. unfold edw_double_miller_body, two_body.
  destruct (at_idx cs idx); cbn [bind]; auto. destruct (at_idx ds idx); cbn [bind]; auto.
  now rewrite (rk_sqr FK RK).
Qed.
Definition edw_count : nat := (dbl_count v + add_count v)%nat.
Lemma edw_push {M} (G : Fops M) ma dbl Q n R cs : (v < 2 ^ Z.of_nat n)%Z ->
  exists R' cs', bit_loop lc (edw_precompute_body G ma dbl Q) n false (R, cs) = Ok (R', cs') /\
    length cs' = (length cs + dbl_count v + add_count v)%nat.
Proof.
  intros B. assert (B' : (0 <= val lc < 2 ^ Z.of_nat n)%Z) by (split; [apply edw_v|exact B]).
  rewrite bit_loop_skip by auto.
  destruct (push_run dbl (edw_mixed_addition_step G ma Q) (below v) R cs) as (R' & cs' & E & Ln).
  exists R', cs'. rewrite Ln, below_length, below_trues by apply edw_v. split; [|reflexivity].
  rewrite <- E. apply mfold_ext. intros b [R0 cs0]. unfold edw_precompute_body, push_body.
  destruct (dbl R0) as [R1 l1]. destruct b; reflexivity.
Qed.
Lemma edw_precompute_length Q cs : edw_precompute_G2 FE mul_a lc Q = Ok cs -> length cs = edw_count.
Proof.
  unfold edw_precompute_G2. destruct (edw_to_affine FE Q) as [[[X Y] Z]| | | | |]; cbn [bind]; try discriminate.
  destruct (edw_push FE mul_a (edw_doubling_step FE mul_a) (X, Y, Z, omul FE X Y) (max_bits lc) (X, Y, Z, omul FE X Y) [])
    as (R' & cs' & -> & Ln). { now apply (loop_bound lc (max_bits lc)). }
  cbn [bind]. intros H. injection H as <-. now rewrite Ln.
Qed.
Lemma edw_loop_consumes {A} (g1 g2 : A -> L * L) cs : length cs = edw_count ->
  exists f, bit_loop lc (edw_miller_body FK g1 g2 cs) (max_bits lc) false (o1 FK, O) = Ok (f, edw_count).
Proof.
  intros Ln. rewrite bit_loop_skip by (auto; now apply loop_bound). fold v.
  destruct (one_run FK g1 g2 cs (below v) (o1 FK) 0) as [g E].
  { rewrite below_length, below_trues by apply edw_v. unfold edw_count in Ln. lia. }
  exists g. rewrite (mfold_ext _ (one_body FK g1 g2 cs)) by (intros; apply edw_body_one).
  rewrite E, below_length, below_trues by apply edw_v. reflexivity.
Qed.
Lemma edw_double P1 cs P2 ds : length cs = edw_count -> length ds = edw_count ->
  edw_double_miller_loop_idx FE scale FK lc P1 cs P2 ds =
  product_idx FK (edw_miller_loop_idx FE scale FK lc P1 cs) (edw_miller_loop_idx FE scale FK lc P2 ds).
Proof.
  intros L1 L2. unfold edw_double_miller_loop_idx, edw_miller_loop_idx.
  rewrite !bit_loop_skip by (auto; now apply loop_bound). fold v.
  rewrite (mfold_ext _ _ _ _ (edw_body_two P1 P2 cs ds)).
  rewrite (mfold_ext _ _ _ _ (edw_body_one (edw_g_RR FE scale P1) (edw_g_RQ FE scale P1) cs)).
  rewrite (mfold_ext _ _ _ _ (edw_body_one (edw_g_RR FE scale P2) (edw_g_RQ FE scale P2) ds)).
  destruct (two_run FK RK (edw_g_RR FE scale P1) (edw_g_RQ FE scale P1) (edw_g_RR FE scale P2) (edw_g_RQ FE scale P2)
    cs ds (below v) (o1 FK) (o1 FK) 0) as (f & g & E1 & E2 & E3);
    try (rewrite below_length, below_trues by apply edw_v; unfold edw_count in *; lia).
  rewrite E1, E2. replace (omul FK (o1 FK) (o1 FK)) with (o1 FK) in E3 by ring. rewrite E3. reflexivity.
Qed.
Lemma tate_precompute_length P cs : tate_precompute_G1 F lc P = Ok cs -> length cs = edw_count.
Proof.
  unfold tate_precompute_G1. destruct (edw_to_affine F P) as [[[X Y] Z]| | | | |]; cbn [bind]; try discriminate.
  destruct (edw_push F (fun x => x) (edw_fq_doubling_step F) (X, Y, Z, omul F X Y) (S (max_bits lc)) (X, Y, Z, omul F X Y) [])
    as (R' & cs' & -> & Ln). { apply (loop_bound lc (S (max_bits lc))); auto. }
  cbn [bind]. intros H. injection H as <-. now rewrite Ln.
Qed.
End Edwards.

(** ** mnt4 and mnt6 *)
Section Mnt.
Context {K L : Type} (F : Fops K) (FE : Fops L) (scale : K -> L -> L) (emb : K -> L) (F2 : Fops (L * L)).
Hypothesis FK : field_ok F2.
Add Ring MntK : (rk_ring F2 (fk_ring F2 FK)).
Variables (twist twist_a : L) (lc : bigint) (neg : bool).
Hypothesis Hlc : limbs lc.
Let v := val lc.
Lemma mnt_v : (0 <= v)%Z. Proof. unfold v. now apply val_nonneg. Qed.
Notation gRR := (mnt_g_RR FE).
Notation gRQ := (mnt_g_RQ FE emb).

Lemma mnt_one_run P Q : forall bs f i j, (i + length bs <= length (dbl_coeffs Q))%nat ->
  (j + trues bs <= length (add_coeffs Q))%nat ->
  exists g, mfold (mnt_miller_body FE emb F2 P Q) bs (f, i, j) = Ok (g, (i + length bs)%nat, (j + trues bs)%nat).
Proof.
  induction bs as [|b bs IH]; intros f i j Hi Hj; cbn [mfold length] in *.
  - exists f. change (trues []) with O. now rewrite !Nat.add_0_r.
  - rewrite trues_cons in *. unfold mnt_miller_body at 1. destruct (at_idx_ok (dbl_coeffs Q) i) as (c & -> & _); [lia|]. cbn [bind].
    destruct b; cbn [Nat.b2n] in *.
    + destruct (at_idx_ok (add_coeffs Q) j) as (d & -> & _); [lia|]. cbn [bind].
      edestruct (IH (omul F2 (omul F2 (osqr F2 f) (gRR P c)) (gRQ P Q d)) (S i) (S j)) as [g E]; [lia|lia|]. exists g. rewrite E.
      replace (i + S (length bs))%nat with (S i + length bs)%nat by lia.
      now replace (j + (1 + trues bs))%nat with (S j + trues bs)%nat by lia.
    + edestruct (IH (omul F2 (osqr F2 f) (gRR P c)) (S i) j) as [g E]; [lia|lia|]. exists g. cbn [bind]. rewrite E.
      replace (i + S (length bs))%nat with (S i + length bs)%nat by lia.
      now replace (j + (0 + trues bs))%nat with (j + trues bs)%nat by lia.
Qed.
Lemma mnt_two_run P1 Q1 P2 Q2 : forall bs f1 f2 i j,
  (i + length bs <= length (dbl_coeffs Q1))%nat -> (j + trues bs <= length (add_coeffs Q1))%nat ->
  (i + length bs <= length (dbl_coeffs Q2))%nat -> (j + trues bs <= length (add_coeffs Q2))%nat ->
  exists g1 g2, mfold (mnt_miller_body FE emb F2 P1 Q1) bs (f1, i, j) = Ok (g1, (i + length bs)%nat, (j + trues bs)%nat) /\
   mfold (mnt_miller_body FE emb F2 P2 Q2) bs (f2, i, j) = Ok (g2, (i + length bs)%nat, (j + trues bs)%nat) /\
   mfold (mnt_double_miller_body FE emb F2 P1 Q1 P2 Q2) bs (omul F2 f1 f2, i, j) =
     Ok (omul F2 g1 g2, (i + length bs)%nat, (j + trues bs)%nat).
Proof.
  induction bs as [|b bs IH]; intros f1 f2 i j H1 H2 H3 H4; cbn [mfold length] in *.
  - exists f1, f2. change (trues []) with O. rewrite !Nat.add_0_r. auto.
  - rewrite trues_cons in *. unfold mnt_miller_body at 1 3. unfold mnt_double_miller_body at 1.
    destruct (at_idx_ok (dbl_coeffs Q1) i) as (c1 & -> & _); [lia|].
    destruct (at_idx_ok (dbl_coeffs Q2) i) as (c2 & -> & _); [lia|]. cbn [bind].
    rewrite !(rk_sqr F2 (fk_ring F2 FK)).
    destruct b; cbn [Nat.b2n] in *.
    + destruct (at_idx_ok (add_coeffs Q1) j) as (d1 & -> & _); [lia|].
      destruct (at_idx_ok (add_coeffs Q2) j) as (d2 & -> & _); [lia|]. cbn [bind].
      edestruct (IH (omul F2 (omul F2 (omul F2 f1 f1) (gRR P1 c1)) (gRQ P1 Q1 d1))
        (omul F2 (omul F2 (omul F2 f2 f2) (gRR P2 c2)) (gRQ P2 Q2 d2)) (S i) (S j))
        as (g1 & g2 & E1 & E2 & E3); [lia|lia|lia|lia|].
      exists g1, g2. rewrite E1, E2.
      replace (i + S (length bs))%nat with (S i + length bs)%nat by lia.
      replace (j + (1 + trues bs))%nat with (S j + trues bs)%nat by lia.
      split; [reflexivity|]. split; [reflexivity|]. rewrite <- E3. do 3 f_equal. ring.
    + edestruct (IH (omul F2 (omul F2 f1 f1) (gRR P1 c1))
        (omul F2 (omul F2 f2 f2) (gRR P2 c2)) (S i) j)
        as (g1 & g2 & E1 & E2 & E3); [lia|lia|lia|lia|].
      exists g1, g2. cbn [bind]. rewrite E1, E2.
      replace (i + S (length bs))%nat with (S i + length bs)%nat by lia.
      replace (j + (0 + trues bs))%nat with (j + trues bs)%nat by lia.
      split; [reflexivity|]. split; [reflexivity|]. rewrite <- E3. do 3 f_equal. ring.
Qed.
Lemma mnt_push qX qY qY2 : forall bs R dcs acs, exists R' dcs' acs',
  mfold (mnt_precompute_body F FE scale twist_a qX qY qY2) bs (R, dcs, acs) = Ok (R', dcs', acs') /\
  length dcs' = (length dcs + length bs)%nat /\ length acs' = (length acs + trues bs)%nat.
Proof.
  induction bs as [|b bs IH]; intros R dcs acs; cbn [mfold length].
  - exists R, dcs, acs. change (trues []) with O. rewrite !Nat.add_0_r. auto.
  - rewrite trues_cons. unfold mnt_precompute_body at 1. destruct (mnt_doubling_step F FE scale twist_a R) as [R1 c].
    destruct b; [destruct (mnt_mixed_addition_step FE qX qY qY2 R1) as [R2 d]|]; cbn [bind Nat.b2n].
    + destruct (IH R2 (dcs ++ [c]) (acs ++ [d])) as (R' & dcs' & acs' & E & E1 & E2).
      exists R', dcs', acs'. rewrite E, E1, E2, !app_length. cbn. split; [reflexivity|lia].
    + destruct (IH R1 (dcs ++ [c]) acs) as (R' & dcs' & acs' & E & E1 & E2).
      exists R', dcs', acs'. rewrite E, E1, E2, !app_length. cbn. split; [reflexivity|lia].
Qed.
Definition mnt_adds : nat := (add_count v + if neg then 1 else 0)%nat.
Lemma mnt_precompute_length Q q : mnt_precompute_G2 F FE scale twist twist_a lc neg Q = Ok q ->
  length (dbl_coeffs q) = dbl_count v /\ length (add_coeffs q) = mnt_adds.
Proof.
  unfold mnt_precompute_G2, mnt_adds. destruct (prj_to_affine FE Q) as [[[X Y] Z]| | | | |]; cbn [bind]; try discriminate.
  destruct (oinv FE twist); cbn [bind]; try discriminate.
  rewrite bit_loop_skip by (auto; now apply loop_bound). fold v.
  destruct (mnt_push X Y (osqr FE Y) (below v) (X, Y, o1 FE, o1 FE) [] []) as (R' & dcs & acs & -> & L1 & L2).
  rewrite below_length in L1 by apply mnt_v. rewrite below_trues in L2 by apply mnt_v. cbn [bind].
  destruct neg.
  - destruct R' as [[[RX RY] RZ] RT]. destruct (oinv FE RZ); cbn [bind]; try discriminate.
    match goal with |- context [mnt_mixed_addition_step ?a ?b ?c ?d ?e] => destruct (mnt_mixed_addition_step a b c d e) as [R2 d2] end.
    cbn [bind]. intros H. injection H as <-. cbn [dbl_coeffs add_coeffs]. rewrite app_length, L1, L2. split; reflexivity.
  - cbn [bind]. intros H. injection H as <-. cbn [dbl_coeffs add_coeffs]. rewrite L1, L2. split; [reflexivity|]. cbn. lia.
Qed.
Definition mnt_fits (q : @mnt_G2_precomp L) : Prop := length (dbl_coeffs q) = dbl_count v /\ length (add_coeffs q) = mnt_adds.
Lemma mnt_consumes P Q : mnt_fits Q ->
  consumes2 neg (dbl_count v) mnt_adds (mnt_miller_loop_idx FE emb F2 lc neg P Q).
Proof.
  intros [H1 H2]. unfold mnt_miller_loop_idx.
  rewrite bit_loop_skip by (auto; now apply loop_bound). fold v.
  destruct (mnt_one_run P Q (below v) (o1 F2) 0 0) as [g E];
    [rewrite below_length by apply mnt_v; lia|rewrite below_trues by apply mnt_v; unfold mnt_adds in H2; lia|].
  rewrite E, below_length, below_trues by apply mnt_v. cbn [bind Nat.add]. unfold mnt_adds in *. destruct neg.
  - destruct (at_idx_ok (add_coeffs Q) (add_count v)) as (d & -> & _); [lia|]. cbn [bind].
    destruct (oinv_cases F2 FK (omul F2 g (gRQ P Q d))) as [[y ->]| ->]; cbn [bind]; [left|now right].
    exists y. now rewrite Nat.add_1_r.
  - left. exists g. now rewrite Nat.add_0_r.
Qed.
Lemma mnt_double P1 Q1 P2 Q2 : mnt_fits Q1 -> mnt_fits Q2 ->
  mnt_double_miller_loop_idx FE emb F2 lc neg P1 Q1 P2 Q2 =
  product_idx2 F2 (mnt_miller_loop_idx FE emb F2 lc neg P1 Q1) (mnt_miller_loop_idx FE emb F2 lc neg P2 Q2).
Proof.
  intros [H1 H2] [H3 H4]. unfold mnt_double_miller_loop_idx, mnt_miller_loop_idx.
  rewrite !bit_loop_skip by (auto; now apply loop_bound). fold v.
  destruct (mnt_two_run P1 Q1 P2 Q2 (below v) (o1 F2) (o1 F2) 0 0) as (f & g & E1 & E2 & E3);
    try (rewrite ?below_length, ?below_trues by apply mnt_v; unfold mnt_adds in *; lia).
  rewrite E1, E2. replace (omul F2 (o1 F2) (o1 F2)) with (o1 F2) in E3 by ring. rewrite E3.
  rewrite below_length, below_trues by apply mnt_v. cbn [bind Nat.add]. unfold mnt_adds, product_idx2 in *. destruct neg; [|reflexivity].
  destruct (at_idx_ok (add_coeffs Q1) (add_count v)) as (d1 & -> & _); [lia|].
  destruct (at_idx_ok (add_coeffs Q2) (add_count v)) as (d2 & -> & _); [lia|]. cbn [bind].
  transitivity (h <- oinv F2 (omul F2 (omul F2 f (gRQ P1 Q1 d1)) (omul F2 g (gRQ P2 Q2 d2))) ;;
     Ok (h, dbl_count v, S (add_count v))).
  { do 2 f_equal. ring. }
  rewrite (oinv_mul F2 FK). destruct (oinv F2 _); cbn [bind]; auto. destruct (oinv F2 _); cbn [bind]; auto.
Qed.

(** *** Affine variant *)
Fixpoint zfold {S} (body : Z -> S -> result S) (ds : list Z) (s : S) : result S :=
  match ds with [] => Ok s | d :: ds' => s' <- body d s ;; zfold body ds' s' end.
Fixpoint after_top (ds : list Z) : list Z :=
  match ds with [] => [] | d :: ds' => if (d =? 0)%Z then after_top ds' else ds' end.
Lemma naf_loop_true {S} (body : Z -> S -> result S) ds s : naf_loop body ds true s = zfold body ds s.
Proof.
  revert s. induction ds as [|d ds IH]; intros s; cbn; [reflexivity|].
  destruct (body d s); cbn; auto.
Qed.
Lemma naf_loop_zfold {S} (body : Z -> S -> result S) ds s : naf_loop body ds false s = zfold body (after_top ds) s.
Proof.
  induction ds as [|d ds IH]; cbn; [reflexivity|]. destruct (d =? 0)%Z; cbn; [exact IH|apply naf_loop_true].
Qed.
Definition steps (ds : list Z) : nat := (length ds + length (filter (fun d => negb (d =? 0)%Z) ds))%nat.
Lemma steps_cons d ds : steps (d :: ds) = ((if negb (d =? 0)%Z then 2 else 1) + steps ds)%nat.
Proof. unfold steps. cbn. destruct (d =? 0)%Z; cbn; lia. Qed.
Lemma affine_push qX qY : forall ds RX RY cs RX' RY' cs',
  zfold (affine_precompute_body FE twist twist_a qX qY) ds (RX, RY, cs) = Ok (RX', RY', cs') ->
  length cs' = (length cs + steps ds)%nat.
Proof.
  induction ds as [|d ds IH]; intros RX RY cs RX' RY' cs'; cbn [zfold].
  - intros H. injection H as <- <- <-. unfold steps. cbn. lia.
  - rewrite steps_cons. unfold affine_precompute_body at 1. destruct (oinv FE (oadd FE RY RY)); cbn [bind]; try discriminate.
    destruct (negb (d =? 0)%Z).
    + match goal with |- context [oinv FE ?x] => destruct (oinv FE x) end; cbn [bind]; try discriminate.
      intros H. apply IH in H. rewrite H, !app_length. cbn. lia.
    + cbn [bind]. intros H. apply IH in H. rewrite H, !app_length. cbn. lia.
Qed.
Variable mul_by : L * L -> L * L -> result (L * L).
Variables (px py : K) (pyt2 : L).
Hypothesis mul_by_ok : forall x y, exists z, mul_by x (pyt2, y) = Ok z.
Notation P := (px, py, pyt2).
Lemma affine_run qX qY cs : forall ds f i, (i + steps ds <= length cs)%nat ->
  exists g, zfold (affine_miller_body F FE scale F2 mul_by P (qX, qY, cs)) ds (f, i) = Ok (g, (i + steps ds)%nat).
Proof.
  induction ds as [|d ds IH]; intros f i H; cbn [zfold].
  - exists f. unfold steps. cbn. now rewrite Nat.add_0_r.
  - rewrite steps_cons in *. unfold affine_miller_body at 1.
    destruct (at_idx_ok cs i) as (c & -> & _); [destruct (negb _); lia|]. cbn [bind].
    match goal with |- context [mul_by ?x (_, ?y)] => destruct (mul_by_ok x y) as [f1 ->] end. cbn [bind].
    destruct (negb (d =? 0)%Z).
    + destruct (at_idx_ok cs (S i)) as (c' & -> & _); [lia|]. cbn [bind].
      match goal with |- context [mul_by ?x (_, ?y)] => destruct (mul_by_ok x y) as [f2 ->] end. cbn [bind].
      replace (i + (2 + steps ds))%nat with (S (S i) + steps ds)%nat by lia. apply IH. lia.
    + cbn [bind]. replace (i + (1 + steps ds))%nat with (S i + steps ds)%nat by lia. apply IH. lia.
Qed.
Lemma affine_consumes Q q : affine_precompute_G2 FE twist twist_a lc Q = Ok q ->
  consumes false (length (snd q)) (affine_miller_loop_idx F FE scale F2 lc mul_by P q).
Proof.
  unfold affine_precompute_G2, affine_miller_loop_idx.
  destruct (prj_to_affine FE Q) as [[[X Y] Z]| | | | |]; cbn [bind]; try discriminate.
  destruct (find_wnaf 1 lc) as [naf| | | | |]; cbn [bind]; try discriminate.
  rewrite naf_loop_zfold. destruct (zfold _ _ _) as [[[RX RY] cs]| | | | |] eqn:E; cbn [bind]; try discriminate.
  intros H. injection H as <-. cbn [snd]. apply affine_push in E. cbn [length Nat.add] in E.
  rewrite naf_loop_zfold. destruct (affine_run X Y cs (after_top (rev naf)) (o1 F2) 0) as [g Eg]; [cbn; lia|].
  left. exists g. rewrite Eg. cbn [Nat.add]. now rewrite <- E.
Qed.
End Mnt.

(** ** The property for each curve *)
Lemma bls_c40 {K} (F : Fops K) nr2 nr6 twist twist_b lc neg : ring_ok F -> field_ok (fp12_ops F nr2 nr6 nr6) -> limbs lc ->
  let n := (dbl_count (val lc) + add_count (val lc))%nat in let by_ := fp12_mul_by_045 (fp2_ops F nr2) nr6 in
  (forall Q cs, bls_precompute_G2 F nr2 twist twist_b lc Q = Ok cs -> length cs = n) /\
  (forall P cs, length cs = n -> consumes neg n (bls_miller_loop_idx F nr2 nr6 nr6 lc neg by_ P cs)) /\
  (forall P1 cs P2 ds, length cs = n -> length ds = n ->
     consumes neg n (bls_double_miller_loop_idx F nr2 nr6 nr6 lc neg by_ P1 cs P2 ds) /\
     bls_double_miller_loop F nr2 nr6 nr6 lc neg P1 cs P2 ds =
     product (fp12_ops F nr2 nr6 nr6) (bls_miller_loop F nr2 nr6 nr6 lc neg P1 cs) (bls_miller_loop F nr2 nr6 nr6 lc neg P2 ds)).
Proof.
  intros R FK Hl n by_. split; [|split].
  - intros Q cs. now apply bls_precompute_length.
  - intros P cs. exact (bls_consumes F nr2 nr6 FK lc neg Hl by_ _ (mul_line_045 F R nr2 nr6) P cs).
  - intros P1 cs P2 ds L1 L2.
    pose proof (bls_double F nr2 nr6 FK lc neg Hl by_ _ (mul_line_045 F R nr2 nr6) P1 cs P2 ds L1 L2) as D. split.
    + rewrite D. apply product_consumes; eapply bls_consumes; eauto using mul_line_045.
    + unfold bls_double_miller_loop, bls_miller_loop. rewrite <- product_value. f_equal. exact D.
Qed.
Lemma alt_c40 {K} (F : Fops K) nr2 nr6 twist twist_b t2 qX qY lc neg : ring_ok F -> field_ok (fp12_ops F nr2 nr6 nr6) -> limbs lc ->
  let n := (dbl_count (val lc) + add_count (val lc) + 2)%nat in let by_ := fp12_mul_by_024 (fp2_ops F nr2) nr6 in
  (forall Q cs, alt_precompute_G2 F nr2 twist twist_b lc neg t2 qX qY Q = Ok cs -> length cs = n) /\
  (forall P cs, length cs = n -> consumes neg n (alt_miller_loop_idx F nr2 nr6 nr6 lc neg by_ P cs)) /\
  (forall P1 cs P2 ds, length cs = n -> length ds = n ->
     consumes neg n (alt_double_miller_loop_idx F nr2 nr6 nr6 lc neg by_ P1 cs P2 ds) /\
     alt_double_miller_loop F nr2 nr6 nr6 lc neg P1 cs P2 ds =
     product (fp12_ops F nr2 nr6 nr6) (alt_miller_loop F nr2 nr6 nr6 lc neg P1 cs) (alt_miller_loop F nr2 nr6 nr6 lc neg P2 ds)).
Proof.
  intros R FK Hl n by_. split; [|split].
  - intros Q cs. now apply alt_precompute_length.
  - intros P cs. exact (alt_consumes F nr2 nr6 FK lc neg Hl by_ _ (mul_line_024 F R nr2 nr6) P cs).
  - intros P1 cs P2 ds L1 L2.
    pose proof (alt_double F nr2 nr6 FK lc neg Hl by_ _ (mul_line_024 F R nr2 nr6) P1 cs P2 ds L1 L2) as D. split.
    + rewrite D. apply product_consumes; eapply alt_consumes; eauto using mul_line_024.
    + unfold alt_double_miller_loop, alt_miller_loop. rewrite <- product_value. f_equal. exact D.
Qed.
Lemma edw_c40 {K L} (FE : Fops L) (scale : K -> L -> L) FK mul_a lc : ring_ok FK -> limbs lc ->
  let n := (dbl_count (val lc) + add_count (val lc))%nat in
  (forall Q cs, edw_precompute_G2 FE mul_a lc Q = Ok cs -> length cs = n) /\
  (forall P cs, length cs = n -> consumes false n (edw_miller_loop_idx FE scale FK lc P cs)) /\
  (forall P1 cs P2 ds, length cs = n -> length ds = n ->
     consumes false n (edw_double_miller_loop_idx FE scale FK lc P1 cs P2 ds) /\
     edw_double_miller_loop FE scale FK lc P1 cs P2 ds =
     product FK (edw_miller_loop FE scale FK lc P1 cs) (edw_miller_loop FE scale FK lc P2 ds)).
Proof.
  intros R Hl n. split; [|split].
  - intros Q cs. now apply edw_precompute_length.
  - intros P cs Ln. left. now apply edw_loop_consumes.
  - intros P1 cs P2 ds L1 L2. pose proof (edw_double FE scale FK R lc Hl P1 cs P2 ds L1 L2) as D. split.
    + rewrite D. apply product_consumes; left; now apply edw_loop_consumes.
    + unfold edw_double_miller_loop, edw_miller_loop. rewrite <- product_value. f_equal. exact D.
Qed.
Lemma tate_c40 {K L} (F : Fops K) (FE : Fops L) (scale : K -> L -> L) FK (emb : K -> L) r : ring_ok FK -> limbs r ->
  let n := (dbl_count (val r) + add_count (val r))%nat in
  (forall P cs, tate_precompute_G1 F r P = Ok cs -> length cs = n) /\
  (forall Q cs, length cs = n -> consumes false n (tate_miller_loop_idx FE scale FK r emb cs Q)).
Proof.
  intros R Hl n. split.
  - intros Q cs. now apply tate_precompute_length.
  - intros P cs Ln. left. now apply edw_loop_consumes.
Qed.
Lemma mnt_c40 {K L} (F : Fops K) (FE : Fops L) (scale : K -> L -> L) (emb : K -> L) F2 twist twist_a lc (neg : bool) : field_ok F2 -> limbs lc ->
  let n := dbl_count (val lc) in let m := (add_count (val lc) + if neg then 1 else 0)%nat in
  let fits (q : @mnt_G2_precomp L) := length (dbl_coeffs q) = n /\ length (add_coeffs q) = m in
  (forall Q q, mnt_precompute_G2 F FE scale twist twist_a lc neg Q = Ok q -> fits q) /\
  (forall P q, fits q -> consumes2 neg n m (mnt_miller_loop_idx FE emb F2 lc neg P q)) /\
  (forall P1 q1 P2 q2, fits q1 -> fits q2 ->
     consumes2 neg n m (mnt_double_miller_loop_idx FE emb F2 lc neg P1 q1 P2 q2) /\
     mnt_double_miller_loop FE emb F2 lc neg P1 q1 P2 q2 =
     product F2 (mnt_miller_loop FE emb F2 lc neg P1 q1) (mnt_miller_loop FE emb F2 lc neg P2 q2)).
Proof.
  intros FK Hl n m fits. split; [|split].
  - intros Q q. now apply mnt_precompute_length.
  - intros P q. now apply mnt_consumes.
  - intros P1 q1 P2 q2 L1 L2. pose proof (mnt_double FE emb F2 FK lc neg Hl P1 q1 P2 q2 L1 L2) as D. split.
    + rewrite D. apply product_consumes2; now apply mnt_consumes.
    + unfold mnt_double_miller_loop, mnt_miller_loop. rewrite <- product_value2. f_equal. exact D.
Qed.
Section Affine.
Context {K : Type} (F : Fops K) (R : ring_ok F).
Add Ring AffK : (rk_ring F R).
Lemma affine4_c40 nr2 nr4 twist_a lc P p Q q :
  let FE := fp2_ops F nr2 in let twist := (o0 F, o1 F) in
  affine_precompute_G1 F FE (quad_scale (omul F)) twist P = Ok p ->
  affine_precompute_G2 FE twist twist_a lc Q = Ok q ->
  consumes false (length (snd q)) (affine_miller_loop_idx F FE (quad_scale (omul F)) (fp4_ops F nr2 nr4) lc (fp4_mul_by_023 F nr2 nr4) p q).
Proof.
  intros FE twist. unfold affine_precompute_G1. destruct (prj_to_affine F P) as [[[X Y] Z]| | | | |]; cbn [bind]; try discriminate.
  intros H HQ. injection H as <-. eapply affine_consumes; [|exact HQ].
  intros x y. eexists. apply (fp4_mul_by_023_spec F R). cbn. ring.
Qed.
Lemma affine6_c40 nr twist_a lc P p Q q :
  let FE := fp3_ops F nr in let twist := (o0 F, o1 F, o0 F) in
  affine_precompute_G1 F FE (cubic_scale (omul F)) twist P = Ok p ->
  affine_precompute_G2 FE twist twist_a lc Q = Ok q ->
  consumes false (length (snd q)) (affine_miller_loop_idx F FE (cubic_scale (omul F)) (fp6_2over3_ops F nr nr) lc (fp6_mul_by_2345 F nr nr) p q).
Proof.
  intros FE twist. unfold affine_precompute_G1. destruct (prj_to_affine F P) as [[[X Y] Z]| | | | |]; cbn [bind]; try discriminate.
  intros H HQ. injection H as <-. eapply affine_consumes; [|exact HQ].
  intros x [[y0 y1] y2]. subst FE twist.
  match goal with |- context [fp6_mul_by_2345 _ _ _ _ (?s, _)] =>
    assert (E : s = (o0 F, o0 F, snd s)) by (cbn; repeat match goal with |- (_, _) = (_, _) => f_equal end; try reflexivity; rewrite ?(rk_sqr F R); ring) end.
  rewrite E. eexists. apply (fp6_mul_by_2345_spec F R).
Qed.
End Affine.
