(** Boolean checks on the constants of a tower, computed with plain integers,
    and proofs that they imply the specification of TowerSpec.v. *)
From Coq Require Import ZArith List Bool Lia Arith.
From Verif Require Import Result Limbs LimbsProofs Algebra NumTheory FieldOps FpModel FpSpec FpProofs FpField FpInst
  ParamsModel ParamsProofs AlgorithmsModel AlgorithmsProofs AlgorithmsField ExtModel ExtSpec ExtProofs ExtFrob ExtInst
  CurveSpec CurveModel Mul63 Hom TowerModel TowerSpec.
Import ListNotations.
Open Scope Z_scope.

(** ** Exponents *)
Definition zbpow {B} (G : Fops B) (x : B) (e : Z) : B := bpow G x (Z.to_pos e).
Lemma hom_zpow {A B} (F : Fops A) (G : Fops B) h lift rng (R : ring_ok F) (H : hom F G h lift rng) x e : 0 < e ->
  h (fpow F x (Z.to_nat e)) = zbpow G (h x) e.
Proof.
  intros He. unfold zbpow. rewrite <- (hom_pow F G h lift rng R H). f_equal. f_equal.
  destruct e; try lia.
Qed.

Lemma nat_split p r : 1 < p -> 0 < r -> p mod r = 1 ->
  (Z.to_nat p = 1 + Z.to_nat r * Z.to_nat ((p - 1) / r))%nat.
Proof.
  intros Hp Hr E. pose proof (Z.div_mod p r ltac:(lia)) as D.
  assert (Eq : (p - 1) / r = p / r).
  { symmetry. apply Z.div_unique with (r := 0); lia. }
  assert (0 <= p / r) by (apply Z.div_pos; lia).
  rewrite Eq, <- Z2Nat.inj_mul by lia. lia.
Qed.

(** ** One field at a time *)
Section Gen.
Context {A B : Type} (F : Fops A) (G : Fops B) (h : A -> B) (lift : B -> A) (rng : B -> bool).
Hypothesis R : ring_ok F.
Hypothesis H : hom F G h lift rng.

Lemma eq_by x y : oeqb G (h x) (h y) = true -> x = y.
Proof. intros E. apply (hm_inj H). now apply (hm_eqb _ _ _ _ _ H). Qed.
Lemma neq_by x y : oeqb G (h x) (h y) = false -> x <> y.
Proof. intros E ->. assert (oeqb G (h y) (h y) = true) by now apply (hm_eqb _ _ _ _ _ H). congruence. Qed.

(** A table of Frobenius coefficients: each entry is c times the q-th power of
    the one before; [cnj] computes q-th powers. *)
Fixpoint chain_check (cnj : B -> B) (c x : B) (l : list B) : bool :=
  match l with [] => true | y :: l' => rng y && oeqb G y (omul G c (cnj x)) && chain_check cnj c y l' end.
Definition table_check (cnj : B -> B) (c : B) (tbl : list B) : bool :=
  match tbl with [] => false | x :: l => rng x && oeqb G x (o1 G) && chain_check cnj c x l end.

Lemma table_ok q d j m nr cnj c tbl len : (0 < d)%nat -> (q = 1 + d * m)%nat ->
  (forall x, h (fpow F x q) = cnj (h x)) -> h (fpow F nr (j * m)) = c -> length tbl = len ->
  table_check cnj c tbl = true -> frob_table F q d j len nr (map lift tbl).
Proof.
  intros Hd Hq Hc Hn Hl T. pose proof (rk_monoid F R) as M. split; [now rewrite map_length|].
  assert (Q : forall i, ((q ^ S i - 1) / d = m + ((q ^ i - 1) / d) * q)%nat).
  { intros i. destruct (pow_1_mod q d m i Hq) as [y Ey].
    assert (E2 : (q ^ S i = 1 + d * (m + y * q))%nat).
    { cbn [Nat.pow]. rewrite Ey. rewrite Hq at 1. ring_simplify. rewrite Hq. ring. }
    rewrite E2, Ey, !quo_1 by auto. reflexivity. }
  assert (S : forall l x n, h (lift x) = x -> lift x = fpow F nr (j * ((q ^ n - 1) / d)) -> chain_check cnj c x l = true ->
     forall i, (i < length l)%nat -> nth i (map lift l) (o0 F) = fpow F nr (j * ((q ^ (n + 1 + i) - 1) / d))).
  { induction l as [|y l IH]; intros x n Hx Ex Ck i Hi; [cbn in Hi; lia|].
    cbn [chain_check] in Ck. apply andb_true_iff in Ck as [Ck Ck2]. apply andb_true_iff in Ck as [Ry Ey].
    apply (hm_eqb _ _ _ _ _ H) in Ey.
    assert (Ely : lift y = fpow F nr (j * ((q ^ S n - 1) / d))).
    { apply (hm_inj H). rewrite (hm_lift H Ry), Ey, <- Hx, <- Hc, <- Hn, <- (hm_mul _ _ _ _ _ H). f_equal.
      rewrite Ex, <- (npow_mul _ _ M), <- (npow_add _ _ M). f_equal. rewrite Q. ring. }
    destruct i as [|i].
    - cbn [map nth]. rewrite Ely. do 2 f_equal. do 3 f_equal. lia.
    - cbn [map nth]. rewrite (IH y (Datatypes.S n) (hm_lift H Ry) Ely Ck2 i) by (cbn in Hi; lia).
      do 2 f_equal. do 3 f_equal. lia. }
  intros i Hi. destruct tbl as [|x l]; [discriminate|]. cbn [table_check] in T.
  apply andb_true_iff in T as [T Ck]. apply andb_true_iff in T as [Rx Ex]. apply (hm_eqb _ _ _ _ _ H) in Ex.
  assert (E0 : lift x = fpow F nr (j * ((q ^ 0 - 1) / d))).
  { replace ((q ^ 0 - 1) / d)%nat with 0%nat by (cbn; destruct d; [lia|now rewrite Nat.div_0_l by lia]).
    rewrite Nat.mul_0_r. cbn. apply (hm_inj H). now rewrite (hm_lift H Rx), Ex, (hm_1 _ _ _ _ _ H). }
  destruct i as [|i].
  - exact E0.
  - cbn [map nth]. rewrite (S l x 0%nat (hm_lift H Rx) E0 Ck i) by (cbn in Hl; lia). reflexivity.
Qed.

(** The members used by tonelli_shanks_sqrt in a field of Q elements. *)
Definition sqrt_check (n : nat) (Q : Z) (S : sqrt_consts B) : bool :=
  (1 <=? sc_s S) && (sc_s S <? 2 ^ 31) && (0 <=? sc_tm1 S) && (sc_t S <? Bn n) &&
  (sc_t S =? 2 * sc_tm1 S + 1) && (Q - 1 =? 2 ^ sc_s S * sc_t S) && (Q =? 2 * sc_euler S + 1) &&
  rng (sc_nqr S) && rng (sc_nqr_to_t S) && negb (oeqb G (sc_nqr S) (o0 G)) &&
  oeqb G (zbpow G (sc_nqr_to_t S) (2 ^ (sc_s S - 1))) (oopp G (o1 G)).

Lemma sqrt_check_ok n Q S : sqrt_check n Q S = true ->
  sqrt_ok F (sqrt_of lift n S) Q /\ Q = 2 * sc_euler S + 1.
Proof.
  unfold sqrt_check. rewrite !andb_true_iff.
  intros [[[[[[[[[[H1 H2] H3] H4] H5] H6] H7] H8] H9] H10] H11].
  apply Z.leb_le in H1, H3. apply Z.ltb_lt in H2, H4. apply Z.eqb_eq in H5, H6, H7.
  split; [|exact H7].
  unfold sqrt_ok. constructor; unfold sqrt_of; cbn [sq_s sq_t sq_tm1 sq_nqr sq_nqr_to_t].
  - split; assumption.
  - apply limbs_of_limbs.
  - apply limbs_of_limbs.
  - rewrite !val_limbs_of_small by lia. exact H5.
  - rewrite !val_limbs_of_small by lia. exact H6.
  - apply neq_by. rewrite (hm_lift H H8), (hm_0 _ _ _ _ _ H). now apply negb_true_iff.
  - apply eq_by. change (npow (o1 F) (omul F)) with (fpow F). rewrite (hom_zpow F G h lift rng R H) by (apply Z.pow_pos_nonneg; lia).
    rewrite (hm_lift H H9), (hm_opp _ _ _ _ _ H), (hm_1 _ _ _ _ _ H). exact H11.
Qed.

(** nr is no r-th power: r divides Q-1 and nr^((Q-1)/r) <> 1. *)
Definition nonres_check (Q r : Z) (nr : B) : bool :=
  rng nr && negb (oeqb G nr (o0 G)) && negb (oeqb G (zbpow G nr ((Q - 1) / r)) (o1 G)) && (Q mod r =? 1) && (r <? Q) && (1 <? r).
Lemma nonres_check_ok Q r nr : nonres_check Q r nr = true -> nonresidue F (Z.to_nat Q) (Z.to_nat r) (lift nr).
Proof.
  unfold nonres_check. rewrite !andb_true_iff, !negb_true_iff. intros [[[[[H1 H2] H3] H4] H5] H6].
  apply Z.eqb_eq in H4. apply Z.ltb_lt in H5, H6. split.
  - apply neq_by. now rewrite (hm_lift H H1), (hm_0 _ _ _ _ _ H).
  - rewrite (nat_split Q r) by lia. rewrite quo_1 by lia. apply neq_by.
    assert (0 < (Q - 1) / r).
    { pose proof (Z.div_mod Q r ltac:(lia)). assert (0 < Q / r) by (apply Z.div_str_pos; lia).
      replace ((Q - 1) / r) with (Q / r) by (apply Z.div_unique with (r := 0); lia). auto. }
    now rewrite (hom_zpow F G h lift rng R H), (hm_lift H H1), (hm_1 _ _ _ _ _ H).
Qed.

(** Curve equations. *)
Definition sw_check (a b x y : B) : bool :=
  rng x && rng y && oeqb G (omul G y y) (oadd G (oadd G (omul G (omul G x x) x) (omul G a x)) b).
Lemma sw_check_ok a b x y : sw_check (h a) (h b) x y = true -> sw_on F a b (Aff (lift x) (lift y)).
Proof.
  unfold sw_check. rewrite !andb_true_iff. intros [[Rx Ry] E]. apply eq_by.
  rewrite !(hm_add _ _ _ _ _ H), !(hm_mul _ _ _ _ _ H), (hm_lift H Rx), (hm_lift H Ry). exact E.
Qed.
Definition te_check (a d x y : B) : bool :=
  rng x && rng y && oeqb G (oadd G (omul G a (omul G x x)) (omul G y y))
    (oadd G (o1 G) (omul G d (omul G (omul G x x) (omul G y y)))).
Lemma te_check_ok a d x y : te_check (h a) (h d) x y = true -> te_on F a d (lift x, lift y).
Proof.
  unfold te_check. rewrite !andb_true_iff. intros [[Rx Ry] E]. apply eq_by.
  rewrite !(hm_add _ _ _ _ _ H), !(hm_mul _ _ _ _ _ H), (hm_lift H Rx), (hm_lift H Ry), (hm_1 _ _ _ _ _ H). exact E.
Qed.
End Gen.

Lemma in_base_pow C CO x : fpow (cF C CO) x (cq C) = x.
Proof. exact (pb_fermat _ _ (fp_prime_base (fc_P C) (fco_ok C CO) (fco_inv C CO)) x). Qed.

(** ** q-th powers in the quadratic and cubic extensions *)
Section Small.
Context {K : Type} (F : Fops K) (R : ring_ok F).
Add Ring Ksm : (rk_ring F R).
Lemma rk_m1_mul x : omul F (oopp F (o1 F)) x = oopp F x.
Proof. ring. Qed.
Lemma scale_emb nr b x :
  quad_scale (omul F) b x = omul (fp2_ops F nr) (quad_emb F b) x.
Proof. destruct x as [x0 x1]. unfold quad_scale, quad_emb. cbn. f_equal; ring. Qed.
Lemma rk_opp_0 : oopp F (o0 F) = o0 F.
Proof. ring. Qed.
End Small.
Section SmallField.
Context {K : Type} (F : Fops K) (FK : field_ok F).
Let R := fk_ring F FK.
Add Ring Ksf : (rk_ring F (fk_ring F FK)).
Lemma sw_scaled b t x y : t <> o0 F -> omul F t (osub F (omul F y y) (omul F (omul F x x) x)) = b ->
  sw_on F (o0 F) (omul F b (tinv F t)) (Aff x y).
Proof.
  intros N <-. cbn. destruct (tinv_spec F FK t N) as [_ E].
  transitivity (oadd F (omul F (omul F x x) x)
    (omul F (omul F (tinv F t) t) (osub F (omul F y y) (omul F (omul F x x) x)))); [|ring].
  rewrite E. ring.
Qed.
Lemma sw_scaled' b t x y : osub F (omul F y y) (omul F (omul F x x) x) = omul F b t ->
  sw_on F (o0 F) (omul F b t) (Aff x y).
Proof. intros <-. cbn. ring. Qed.
Lemma q_scaled b t s n : t <> o0 F -> omul F s t = fpow F t n ->
  omul F s (omul F b (fpow F (tinv F t) n)) = omul F b (tinv F t).
Proof.
  intros N E. destruct (tinv_spec F FK t N) as [_ Et].
  assert (En : omul F (fpow F (tinv F t) n) (fpow F t n) = o1 F).
  { rewrite <- (frob_mul F R), Et. apply (npow_one _ _ (rk_monoid F R)). }
  rewrite <- E in En.
  transitivity (omul F (omul F (omul F (fpow F (tinv F t) n) (omul F s t)) b) (tinv F t)).
  - transitivity (omul F (omul F (omul F (fpow F (tinv F t) n) s) b) (omul F (tinv F t) t)); [|ring]. rewrite Et. ring.
  - rewrite En. ring.
Qed.
Lemma q_scaled' b t s n : omul F s (fpow F t n) = t -> omul F s (omul F b (fpow F t n)) = omul F b t.
Proof. intros E. transitivity (omul F b (omul F s (fpow F t n))); [ring|]. now rewrite E. Qed.
End SmallField.
Lemma fp2_conj {K} (F : Fops K) q (PB : prime_base F q) nr m a b : (q = 1 + 2 * m)%nat -> nonresidue F q 2 nr ->
  fpow (fp2_ops F nr) (a, b) q = (a, oopp F b).
Proof.
  intros Hm N. pose proof (pb_field F q PB) as FK. pose proof (fk_ring F FK) as R.
  destruct (nonresidue_2 F FK q (pb_fermat F q PB) m nr Hm N) as [Em _].
  pose proof (quad_frob F (omul F nr) nr R (fun _ => eq_refl) q 1 m a b (pb_prime F q PB) (pb_char F q PB)) as E.
  rewrite Nat.pow_1_r in E. specialize (E Hm). unfold fp2_ops. etransitivity; [exact E|].
  rewrite !(pb_fermat F q PB), Em. f_equal. apply (rk_m1_mul F R).
Qed.
Lemma fp3_frob1 {K} (F : Fops K) q (PB : prime_base F q) nr m a b c : (q = 1 + 3 * m)%nat ->
  fpow (fp3_ops F nr) (a, b, c) q = (a, omul F (fpow F nr m) b, omul F (fpow F nr (2 * m)) c).
Proof.
  intros Hm. pose proof (pb_field F q PB) as FK. pose proof (fk_ring F FK) as R.
  pose proof (cubic_frob F (omul F nr) nr R (fun _ => eq_refl) q 1 m a b c (pb_prime F q PB) (pb_char F q PB)) as E.
  rewrite Nat.pow_1_r in E. specialize (E Hm). unfold fp3_ops. etransitivity; [exact E|].
  now rewrite !(pb_fermat F q PB).
Qed.
(** nr^((q^2-1)/d) is the norm of nr^((q-1)/d). *)
Lemma norm_power {K} (F : Fops K) (R : ring_ok F) q d m x : (0 < d)%nat -> (q = 1 + d * m)%nat ->
  fpow F x ((q ^ 2 - 1) / d) = omul F (fpow F x m) (fpow F (fpow F x m) q).
Proof.
  intros Hd Hq. pose proof (rk_monoid F R) as M.
  assert (E : (q ^ 2 = 1 + d * (m + m * q))%nat).
  { replace (q ^ 2)%nat with (q * q)%nat by (cbn; lia). rewrite Hq at 1. lia. }
  rewrite E, quo_1 by auto. now rewrite (npow_add _ _ M), (npow_mul _ _ M).
Qed.

Definition cnj2 {B} (G : Fops B) (x : B * B) : B * B := (fst x, oopp G (snd x)).
Definition len_is {A} (l : list A) (n : nat) : bool := Nat.eqb (length l) n.
Definition eqZ2 (x y : Z * Z) : bool := (fst x =? fst y) && (snd x =? snd y).
Lemma eqZ2_eq x y : eqZ2 x y = true -> x = y.
Proof.
  destruct x, y. unfold eqZ2. cbn. rewrite andb_true_iff, !Z.eqb_eq. now intros [-> ->].
Qed.

(** ** alt_bn128 and bls12_381 *)
Definition twelve_check (D : twelve_consts) : bool :=
  let p := fc_p (bt_Fq D) in
  let n := cn (bt_Fq D) in
  let G := zq p in
  let r1 := rngZ p in
  let r2 := rng2 r1 in
  let G2 := fp2_ops G (bt_nr2 D) in
  let G6 := fp6_3over2_ops G (bt_nr2 D) (bt_nr6 D) in
  let G12 := fp12_ops G (bt_nr2 D) (bt_nr6 D) (bt_nr12 D) in
  let c := zbpow G2 (bt_nr6 D) ((p - 1) / 6) in
  let c2 := omul G2 c c in
  let c3 := omul G2 c c2 in
  let cj := cnj2 G in
  let tw := bt_twist D in
  let '(x, y) := bt_G2 D in
  let bb := (bt_b D, 0) in
  let qY2 := omul G2 (bt_qY D) (bt_qY D) in
  ctx_check p && (p mod 6 =? 1) && (7 <=? p) &&
  nonres_check G r1 p 2 (bt_nr2 D) &&
  table_check G r1 (fun x => x) (zbpow G (bt_nr2 D) ((p - 1) / 2)) (bt_c2 D) && len_is (bt_c2 D) 2 &&
  r2 (bt_nr6 D) && negb (oeqb G2 (bt_nr6 D) (o0 G2)) &&
  negb (oeqb G2 (omul G2 c3 (cj c3)) (o1 G2)) && negb (oeqb G2 (omul G2 c2 (cj c2)) (o1 G2)) &&
  table_check G2 r2 cj c2 (bt_c61 D) && len_is (bt_c61 D) 6 &&
  table_check G2 r2 cj (omul G2 c2 c2) (bt_c62 D) && len_is (bt_c62 D) 6 &&
  eqZ2 (bt_nr12 D) (bt_nr6 D) &&
  table_check G2 r2 cj c (bt_c12 D) && len_is (bt_c12 D) 12 &&
  sqrt_check G2 r2 (2 * n) (p ^ 2) (bt_s2 D) &&
  sqrt_check G6 (rng3 r2) (6 * n) (p ^ 6) (bt_s6 D) &&
  sqrt_check G12 (rng2 (rng3 r2)) (12 * n) (p ^ 12) (bt_s12 D) &&
  r1 (bt_b D) && r2 tw && negb (oeqb G2 tw (o0 G2)) &&
  sw_check G r1 0 (bt_b D) (fst (bt_G1 D)) (snd (bt_G1 D)) &&
  r2 x && r2 y && r2 (bt_qX D) && r2 (bt_qY D) &&
  (if bt_twist_b_inv D
   then oeqb G2 (omul G2 tw (osub G2 (omul G2 y y) (omul G2 (omul G2 x x) x))) bb
   else oeqb G2 (osub G2 (omul G2 y y) (omul G2 (omul G2 x x) x)) (omul G2 bb tw)) &&
  oeqb G2 (omul G2 (bt_qX D) (omul G2 (bt_qX D) (bt_qX D))) qY2 &&
  (if bt_twist_b_inv D then oeqb G2 (omul G2 qY2 tw) (cj tw) else oeqb G2 (omul G2 qY2 (cj tw)) tw).

Lemma six_split p : 7 <= p -> p mod 6 = 1 ->
  exists m, (Z.to_nat p = 1 + 6 * m)%nat /\ m = Z.to_nat ((p - 1) / 6) /\
    Z.to_nat ((p - 1) / 2) = (3 * m)%nat /\ Z.to_nat ((p - 1) / 3) = (2 * m)%nat /\
    0 < (p - 1) / 6 /\ 0 < (p - 1) / 3 /\ 0 < (p - 1) / 2.
Proof.
  intros Hp E. pose proof (Z.div_mod p 6 ltac:(lia)) as D. exists (Z.to_nat (p / 6)).
  assert (0 < p / 6) by (apply Z.div_str_pos; lia).
  assert (E6 : (p - 1) / 6 = p / 6) by (symmetry; apply Z.div_unique with (r := 0); lia).
  assert (E2 : (p - 1) / 2 = 3 * (p / 6)) by (symmetry; apply Z.div_unique with (r := 0); lia).
  assert (E3 : (p - 1) / 3 = 2 * (p / 6)) by (symmetry; apply Z.div_unique with (r := 0); lia).
  rewrite E6, E2, E3. repeat split; lia.
Qed.

Section TwelveCheck.
Context {K : Type} (F : Fops K) (h : K -> Z) (e : Z -> K) (D : twelve_consts).
Let p := fc_p (bt_Fq D).
Let q := cq (bt_Fq D).
Hypothesis PB : prime_base F q.
Hypothesis H1 : ctx_check p = true -> hom F (zq p) h e (rngZ p).
Hypothesis Ck : twelve_check D = true.

Lemma twelve_check_ok : twelve_ok F e D.
Proof.
  pose proof Ck as Hk. unfold twelve_check in Hk.
  destruct (bt_G2 D) as [gx gy] eqn:EG2. cbv zeta in Hk.
  rewrite !andb_true_iff in Hk.
  destruct Hk as [[[[[[[[[[[[[[[[[[[[[[[[[[[[[[K1 K2] K3] K4] K5] K6] K7] K8] K9] K10] K11] K12] K13] K14] K15] K16] K17]
    K18] K19] K20] K21] K22] K23] K24] K25] K26] K27] K28] K29] K30] K31].
  apply Z.eqb_eq in K2. apply Z.leb_le in K3.
  specialize (H1 K1).
  pose proof (pb_field F q PB) as FK. pose proof (fk_ring F FK) as R.
  fold p in K1, K2, K3, K4, K5, K7, K8, K9, K10, K11, K13, K16, K18, K19, K20, K21, K22, K23, K24, K25, K26, K27, K28, K29, K30, K31. fold p.
  destruct (six_split p K3 K2) as (m & Em & Emz & E2z & E3z & P6 & P3 & P2). change (Z.to_nat p) with q in Em.
  assert (N2 : nonresidue F q 2 (e (bt_nr2 D))).
  { exact (nonres_check_ok F (zq p) h e (rngZ p) R H1 p 2 (bt_nr2 D) K4). }
  assert (Rn2 : rngZ p (bt_nr2 D) = true).
  { unfold nonres_check in K4. now rewrite !andb_true_iff in K4. }
  pose proof (hom_fp2 F (zq p) h e (rngZ p) H1 (bt_nr2 D) Rn2) as H2.
  assert (FK2 : field_ok (fp2_ops F (e (bt_nr2 D)))).
  { apply (fp2_is_field F q PB); auto. exists (3 * m)%nat. lia. }
  pose proof (fk_ring _ FK2) as R2.
  pose proof (hom_fp6_3over2 F (zq p) h e (rngZ p) H1 (bt_nr2 D) (bt_nr6 D) Rn2 K7) as H6.
  pose proof (eqZ2_eq _ _ K15) as E12.
  assert (Cj : forall x, map2 h (fpow (fp2_ops F (e (bt_nr2 D))) x q) = cnj2 (zq p) (map2 h x)).
  { intros [a b]. rewrite (fp2_conj F q PB (e (bt_nr2 D)) (3 * m) a b) by (auto; lia).
    unfold map2, cnj2. cbn [fst snd]. now rewrite (hm_opp _ _ _ _ _ H1). }
  set (F2 := fp2_ops F (e (bt_nr2 D))) in *. set (G2 := fp2_ops (zq p) (bt_nr2 D)) in *.
  set (nr6 := map2 e (bt_nr6 D)) in *.
  assert (En6 : map2 h nr6 = bt_nr6 D) by exact (hm_lift H2 K7).
  assert (En2 : h (e (bt_nr2 D)) = bt_nr2 D) by exact (hm_lift H1 Rn2). pose proof (rk_monoid F2 R2) as M2.
  set (c := zbpow G2 (bt_nr6 D) ((p - 1) / 6)) in *.
  assert (Ec : map2 h (fpow F2 nr6 m) = c).
  { rewrite Emz. rewrite (hom_zpow F2 G2 (map2 h) (map2 e) _ R2 H2) by auto.
    now rewrite En6. }
  assert (Ec2 : map2 h (fpow F2 nr6 (2 * m)) = omul G2 c c).
  { rewrite (npow_double _ _ M2), (hm_mul _ _ _ _ _ H2), Ec. reflexivity. }
  assert (Ec3 : map2 h (fpow F2 nr6 (3 * m)) = omul G2 c (omul G2 c c)).
  { replace (3 * m)%nat with (m + 2 * m)%nat by lia.
    now rewrite (npow_add _ _ M2), (hm_mul _ _ _ _ _ H2), Ec, Ec2. }
  assert (Ec4 : map2 h (fpow F2 nr6 (2 * (2 * m))) = omul G2 (omul G2 c c) (omul G2 c c)).
  { rewrite (npow_double _ _ M2), (hm_mul _ _ _ _ _ H2), Ec2. reflexivity. }
  assert (N0 : nr6 <> o0 F2).
  { apply (neq_by F2 G2 (map2 h) (map2 e) _ H2). rewrite (hm_0 _ _ _ _ _ H2). rewrite En6. now apply negb_true_iff. }
  assert (N62 : nonresidue F2 (q ^ 2) 2 nr6).
  { split; auto. rewrite (norm_power F2 R2 q 2 (3 * m)) by lia.
    apply (neq_by F2 G2 (map2 h) (map2 e) _ H2).
    rewrite (hm_mul _ _ _ _ _ H2), Cj, Ec3, (hm_1 _ _ _ _ _ H2). now apply negb_true_iff. }
  assert (N63 : nonresidue F2 (q ^ 2) 3 nr6).
  { split; auto. rewrite (norm_power F2 R2 q 3 (2 * m)) by lia.
    apply (neq_by F2 G2 (map2 h) (map2 e) _ H2).
    rewrite (hm_mul _ _ _ _ _ H2), Cj, Ec2, (hm_1 _ _ _ _ _ H2). now apply negb_true_iff. }
  pose proof (fk_ring _ (fp6_3over2_is_field F q PB (e (bt_nr2 D)) m Em N2 nr6 N63)) as R6.
  pose proof (fk_ring _ (fp12_is_field F q PB (e (bt_nr2 D)) m Em N2 nr6 N62 N63)) as R12.
  rewrite E12 in K20.
  pose proof (hom_fp12 F (zq p) h e (rngZ p) H1 (bt_nr2 D) (bt_nr6 D) (bt_nr6 D) Rn2 K7 K7) as H12.
  destruct (sqrt_check_ok F2 G2 _ _ _ R2 H2 _ _ _ K18) as [S2 E2].
  destruct (sqrt_check_ok _ _ _ _ _ R6 H6 _ _ _ K19) as [S6 E6].
  destruct (sqrt_check_ok _ _ _ _ _ R12 H12 _ _ _ K20) as [S12 E12'].
  apply Nat.eqb_eq in K6, K12, K14, K17.
  set (tw := map2 e (bt_twist D)) in *.
  assert (Et : map2 h tw = bt_twist D) by exact (hm_lift H2 K22).
  assert (Ebz : h (e (bt_b D)) = bt_b D) by exact (hm_lift H1 K21).
  assert (Ntw : tw <> o0 F2).
  { apply (neq_by F2 G2 (map2 h) (map2 e) _ H2). rewrite (hm_0 _ _ _ _ _ H2). rewrite Et. now apply negb_true_iff. }
  assert (Eb : map2 h (quad_emb F (e (bt_b D))) = (bt_b D, 0)).
  { unfold map2, quad_emb. cbn [fst snd]. now rewrite Ebz, (hm_0 _ _ _ _ _ H1). }
  assert (EqX : map2 h (map2 e (bt_qX D)) = bt_qX D) by exact (hm_lift H2 K27).
  assert (EqY : map2 h (map2 e (bt_qY D)) = bt_qY D) by exact (hm_lift H2 K28).
  constructor.
  - exists m. exact Em.
  - exact N2.
  - apply (table_ok F (zq p) h e (rngZ p) R H1 q 2 1 (3 * m) (e (bt_nr2 D)) (fun x => x)
      (zbpow (zq p) (bt_nr2 D) ((p - 1) / 2)) (bt_c2 D) 2); auto; try lia.
    + intros x. f_equal. apply (pb_fermat F q PB).
    + rewrite Nat.mul_1_l, <- E2z, (hom_zpow F (zq p) h e (rngZ p) R H1) by auto. now rewrite En2.
  - exact N62.
  - exact N63.
  - apply (table_ok F2 G2 (map2 h) (map2 e) _ R2 H2 q 3 1 (2 * m) nr6 (cnj2 (zq p)) (omul G2 c c)); auto; try lia.
    rewrite Nat.mul_1_l. exact Ec2.
  - apply (table_ok F2 G2 (map2 h) (map2 e) _ R2 H2 q 3 2 (2 * m) nr6 (cnj2 (zq p)) (omul G2 (omul G2 c c) (omul G2 c c)));
      auto; lia.
  - exact E12.
  - apply (table_ok F2 G2 (map2 h) (map2 e) _ R2 H2 q 6 1 m nr6 (cnj2 (zq p)) c); auto; try lia.
    rewrite Nat.mul_1_l. exact Ec.
  - exact E2.
  - exact E6.
  - exact E12'.
  - exact S2.
  - exact S6.
  - unfold twF12. rewrite E12. exact S12.
  - apply (sw_check_ok F (zq p) h e (rngZ p) H1).
    rewrite (hm_0 _ _ _ _ _ H1). change (tw_b e D) with (e (bt_b D)).
    rewrite Ebz. exact K24.
  - unfold tw_twist_b. change (twF2 F e D) with F2. fold tw. rewrite (scale_emb F R (e (bt_nr2 D))). fold F2.
    set (x := map2 e (fst (bt_G2 D))). set (y := map2 e (snd (bt_G2 D))).
    assert (Ex : map2 h x = gx) by (unfold x; rewrite EG2; exact (hm_lift H2 K25)).
    assert (Ey : map2 h y = gy) by (unfold y; rewrite EG2; exact (hm_lift H2 K26)).
    unfold tw_b. destruct (bt_twist_b_inv D).
    + apply (sw_scaled F2 FK2); auto. apply (eq_by F2 G2 (map2 h) (map2 e) _ H2).
      rewrite (hm_mul _ _ _ _ _ H2), (hm_sub _ _ _ _ _ H2), !(hm_mul _ _ _ _ _ H2), Ex, Ey, Et, Eb. exact K29.
    + apply (sw_scaled' F2 FK2); auto. apply (eq_by F2 G2 (map2 h) (map2 e) _ H2).
      rewrite (hm_sub _ _ _ _ _ H2), !(hm_mul _ _ _ _ _ H2), Ex, Ey, Et, Eb. exact K29.
  - apply (eq_by F2 G2 (map2 h) (map2 e) _ H2). change (twF2 F e D) with F2. cbn [npow].
    rewrite !(ml_1_r _ _ M2), !(hm_mul _ _ _ _ _ H2), EqX, EqY. exact K30.
  - unfold tw_twist_b. change (twF2 F e D) with F2. change (twq D) with q. fold tw. rewrite (scale_emb F R (e (bt_nr2 D))). fold F2.
    assert (Eq2 : map2 h (fpow F2 (map2 e (bt_qY D)) 2) = omul G2 (bt_qY D) (bt_qY D)).
    { rewrite (npow_2 _ _ M2), (hm_mul _ _ _ _ _ H2), EqY. reflexivity. }
    assert (Fb : fpow F2 (quad_emb F (tw_b e D)) q = quad_emb F (tw_b e D)).
    { unfold quad_emb. unfold F2. rewrite (fp2_conj F q PB (e (bt_nr2 D)) (3 * m)) by (auto; lia).
      f_equal. apply (rk_opp_0 F R). }
    rewrite (frob_mul F2 R2), Fb. destruct (bt_twist_b_inv D).
    + apply (q_scaled F2 FK2); auto. apply (eq_by F2 G2 (map2 h) (map2 e) _ H2).
      rewrite Cj, (hm_mul _ _ _ _ _ H2), Eq2, Et. exact K31.
    + apply (q_scaled' F2 FK2). apply (eq_by F2 G2 (map2 h) (map2 e) _ H2).
      rewrite (hm_mul _ _ _ _ _ H2), Cj, Eq2, Et. exact K31.
Qed.
End TwelveCheck.

(** ** mnt4 *)
Definition scl2 {B} (G : Fops B) (s : B) (x : B * B) : B * B := (omul G s (fst x), omul G s (snd x)).
Definition scl3 {B} (G : Fops B) (s : B) (x : B * B * B) : B * B * B :=
  (omul G s (fst (fst x)), omul G s (snd (fst x)), omul G s (snd x)).

Definition four_check (D : four_consts) : bool :=
  let p := fc_p (ft_Fq D) in
  let n := cn (ft_Fq D) in
  let G := zq p in
  let r1 := rngZ p in
  let r2 := rng2 r1 in
  let nr := ft_nr2 D in
  let G2 := fp2_ops G nr in
  let G4 := fp4_ops G nr nr in
  let c := zbpow G nr ((p - 1) / 4) in
  let ta := mnt4_twist_a G (ft_a D) nr in
  let tb := mnt4_twist_b G (ft_b D) nr in
  let qY2 := omul G (ft_qY D) (ft_qY D) in
  ctx_check p && (p mod 4 =? 1) && (5 <=? p) &&
  nonres_check G r1 p 2 nr && (ft_nr4 D =? nr) &&
  table_check G r1 (fun x => x) (omul G c c) (ft_c2 D) && len_is (ft_c2 D) 2 &&
  table_check G r1 (fun x => x) c (ft_c4 D) && len_is (ft_c4 D) 4 &&
  sqrt_check G2 r2 (2 * n) (p ^ 2) (ft_s2 D) &&
  sqrt_check G4 (rng2 r2) (4 * n) (p ^ 4) (ft_s4 D) &&
  r1 (ft_a D) && r1 (ft_b D) && r1 (ft_qX D) && r1 (ft_qY D) &&
  sw_check G r1 (ft_a D) (ft_b D) (fst (ft_G1 D)) (snd (ft_G1 D)) &&
  sw_check G2 r2 ta tb (fst (ft_G2 D)) (snd (ft_G2 D)) &&
  oeqb G (omul G (ft_qX D) (omul G (ft_qX D) (ft_qX D))) qY2 &&
  oeqb G2 (scl2 G qY2 (cnj2 G ta)) (scl2 G (ft_qX D) ta) &&
  oeqb G2 (scl2 G qY2 (cnj2 G tb)) tb.

Lemma four_split p : 5 <= p -> p mod 4 = 1 ->
  exists m, (Z.to_nat p = 1 + 4 * m)%nat /\ m = Z.to_nat ((p - 1) / 4) /\ 0 < (p - 1) / 4.
Proof.
  intros Hp E. pose proof (Z.div_mod p 4 ltac:(lia)) as D. exists (Z.to_nat (p / 4)).
  assert (0 < p / 4) by (apply Z.div_str_pos; lia).
  assert (E6 : (p - 1) / 4 = p / 4) by (symmetry; apply Z.div_unique with (r := 0); lia).
  rewrite E6. repeat split; lia.
Qed.

Lemma map2_scale {A B} (F : Fops A) (G : Fops B) h lift rng (H : hom F G h lift rng) s x :
  map2 h (quad_scale (omul F) s x) = scl2 G (h s) (map2 h x).
Proof. destruct x. unfold quad_scale, map2, scl2. cbn [fst snd]. now rewrite !(hm_mul _ _ _ _ _ H). Qed.
Lemma map3_scale {A B} (F : Fops A) (G : Fops B) h lift rng (H : hom F G h lift rng) s x :
  map3 h (cubic_scale (omul F) s x) = scl3 G (h s) (map3 h x).
Proof. destruct x as [[? ?] ?]. unfold cubic_scale, map3, scl3. cbn [fst snd]. now rewrite !(hm_mul _ _ _ _ _ H). Qed.

Section FourCheck.
Context {K : Type} (F : Fops K) (h : K -> Z) (e : Z -> K) (D : four_consts).
Let p := fc_p (ft_Fq D).
Let q := cq (ft_Fq D).
Hypothesis PB : prime_base F q.
Hypothesis H1 : ctx_check p = true -> hom F (zq p) h e (rngZ p).
Hypothesis Ck : four_check D = true.

Lemma four_check_ok : four_ok F e D.
Proof.
  pose proof Ck as Hk. unfold four_check in Hk. cbv zeta in Hk. rewrite !andb_true_iff in Hk.
  destruct Hk as [[[[[[[[[[[[[[[[[[[K1 K2] K3] K4] K5] K6] K7] K8] K9] K10] K11] K12] K13] K14] K15] K16] K17]
    K18] K19] K20].
  apply Z.eqb_eq in K2, K5. apply Z.leb_le in K3. apply Nat.eqb_eq in K7, K9. specialize (H1 K1).
  pose proof (pb_field F q PB) as FK. pose proof (fk_ring F FK) as R.
  fold p in K1, K2, K3, K4, K6, K8, K10, K11, K12, K13, K14, K15, K16, K17, K18, K19, K20.
  destruct (four_split p K3 K2) as (m & Em & Emz & P4). change (Z.to_nat p) with q in Em.
  set (nr := ft_nr2 D) in *.
  assert (N2 : nonresidue F q 2 (e nr)).
  { exact (nonres_check_ok F (zq p) h e (rngZ p) R H1 p 2 nr K4). }
  assert (Rn2 : rngZ p nr = true).
  { unfold nonres_check in K4. now rewrite !andb_true_iff in K4. }
  assert (En : h (e nr) = nr) by exact (hm_lift H1 Rn2).
  pose proof (hom_fp2 F (zq p) h e (rngZ p) H1 nr Rn2) as H2.
  pose proof (hom_fp4 F (zq p) h e (rngZ p) H1 nr nr Rn2 Rn2) as H4.
  pose proof (fk_ring _ (fp2_is_field F q PB (e nr) ltac:(exists (2 * m)%nat; lia) N2)) as R2.
  pose proof (fk_ring _ (fp4_is_field F q PB (e nr) ltac:(exists m; lia) N2)) as R4.
  pose proof (rk_monoid F R) as M.
  set (c := zbpow (zq p) nr ((p - 1) / 4)) in *.
  assert (Ec : h (fpow F (e nr) m) = c).
  { rewrite Emz, (hom_zpow F (zq p) h e _ R H1) by auto. now rewrite En. }
  assert (Ec2 : h (fpow F (e nr) (2 * m)) = omul (zq p) c c).
  { now rewrite (npow_double _ _ M), (hm_mul _ _ _ _ _ H1), Ec. }
  assert (Cj : forall x, map2 h (fpow (fp2_ops F (e nr)) x q) = cnj2 (zq p) (map2 h x)).
  { intros [a b]. rewrite (fp2_conj F q PB (e nr) (2 * m) a b) by (auto; lia).
    unfold map2, cnj2. cbn [fst snd]. now rewrite (hm_opp _ _ _ _ _ H1). }
  assert (Ea : h (e (ft_a D)) = ft_a D) by exact (hm_lift H1 K12).
  assert (Eb : h (e (ft_b D)) = ft_b D) by exact (hm_lift H1 K13).
  assert (EX : h (e (ft_qX D)) = ft_qX D) by exact (hm_lift H1 K14).
  assert (EY : h (e (ft_qY D)) = ft_qY D) by exact (hm_lift H1 K15).
  assert (Eta : map2 h (fo_twist_a F e D) = mnt4_twist_a (zq p) (ft_a D) nr).
  { unfold fo_twist_a, mnt4_twist_a, map2. cbn [fst snd]. fold nr.
    now rewrite (hm_mul _ _ _ _ _ H1), Ea, En, (hm_0 _ _ _ _ _ H1). }
  assert (Etb : map2 h (fo_twist_b F e D) = mnt4_twist_b (zq p) (ft_b D) nr).
  { unfold fo_twist_b, mnt4_twist_b, map2. cbn [fst snd]. fold nr.
    now rewrite (hm_mul _ _ _ _ _ H1), Eb, En, (hm_0 _ _ _ _ _ H1). }
  assert (EY2 : h (fpow F (e (ft_qY D)) 2) = omul (zq p) (ft_qY D) (ft_qY D)).
  { now rewrite (npow_2 _ _ M), (hm_mul _ _ _ _ _ H1), EY. }
  destruct (sqrt_check_ok _ _ _ _ _ R2 H2 _ _ _ K10) as [S2 E2].
  destruct (sqrt_check_ok _ _ _ _ _ R4 H4 _ _ _ K11) as [S4 E4].
  constructor; fold nr.
  - exists m. exact Em.
  - exact N2.
  - exact K5.
  - apply (table_ok F (zq p) h e (rngZ p) R H1 q 2 1 (2 * m) (e nr) (fun x => x) (omul (zq p) c c)); auto; try lia.
    + intros x. f_equal. apply (pb_fermat F q PB).
    + rewrite Nat.mul_1_l. exact Ec2.
  - apply (table_ok F (zq p) h e (rngZ p) R H1 q 4 1 m (e nr) (fun x => x) c); auto; try lia.
    + intros x. f_equal. apply (pb_fermat F q PB).
    + rewrite Nat.mul_1_l. exact Ec.
  - exact E2.
  - exact E4.
  - exact S2.
  - unfold foF4. rewrite K5. exact S4.
  - apply (sw_check_ok F (zq p) h e (rngZ p) H1). rewrite Ea, Eb. exact K16.
  - apply (sw_check_ok (fp2_ops F (e nr)) (fp2_ops (zq p) nr) (map2 h) (map2 e) _ H2). rewrite Eta, Etb. exact K17.
  - apply (eq_by F (zq p) h e _ H1). rewrite EY2. cbn [npow].
    rewrite !(ml_1_r _ _ M), !(hm_mul _ _ _ _ _ H1), EX. exact K18.
  - apply (eq_by (fp2_ops F (e nr)) (fp2_ops (zq p) nr) (map2 h) (map2 e) _ H2).
    rewrite !(map2_scale F (zq p) h e _ H1), EY2, EX. unfold foF2. fold nr. change (foq D) with q.
    rewrite Cj, Eta. exact K19.
  - apply (eq_by (fp2_ops F (e nr)) (fp2_ops (zq p) nr) (map2 h) (map2 e) _ H2).
    rewrite !(map2_scale F (zq p) h e _ H1), EY2. unfold foF2. fold nr. change (foq D) with q.
    rewrite Cj, Etb. exact K20.
Qed.
End FourCheck.

(** ** mnt6 and edwards *)
Definition frb3 {B} (G : Fops B) (c : B) (x : B * B * B) : B * B * B :=
  (fst (fst x), omul G c (snd (fst x)), omul G (omul G c c) (snd x)).

Definition six_check (D : six_consts) : bool :=
  let p := fc_p (st_Fq D) in
  let n := cn (st_Fq D) in
  let G := zq p in
  let r1 := rngZ p in
  let r3 := rng3 r1 in
  let nr := st_nr3 D in
  let G3 := fp3_ops G nr in
  let G6 := fp6_2over3_ops G nr nr in
  let c := zbpow G nr ((p - 1) / 6) in
  let c2 := omul G c c in
  ctx_check p && (p mod 6 =? 1) && (7 <=? p) &&
  nonres_check G r1 p 2 nr && nonres_check G r1 p 3 nr && (st_nr6 D =? nr) &&
  table_check G r1 (fun x => x) c2 (st_c31 D) && len_is (st_c31 D) 3 &&
  table_check G r1 (fun x => x) (omul G c2 c2) (st_c32 D) && len_is (st_c32 D) 3 &&
  table_check G r1 (fun x => x) c (st_c6 D) && len_is (st_c6 D) 6 &&
  sqrt_check G3 r3 (3 * n) (p ^ 3) (st_s3 D) &&
  sqrt_check G6 (rng2 r3) (6 * n) (p ^ 6) (st_s6 D).
Definition six_sw_check (D : six_consts) : bool :=
  let p := fc_p (st_Fq D) in
  let G := zq p in
  let r1 := rngZ p in
  let r3 := rng3 r1 in
  let nr := st_nr3 D in
  let G3 := fp3_ops G nr in
  let c := zbpow G nr ((p - 1) / 6) in
  let c2 := omul G c c in
  let '(a, b) := st_ad D in
  let ta := mnt6_twist_a G a in
  let tb := mnt6_twist_b G b nr in
  let s := omul G (st_q2 D) (st_q2 D) in
  r1 a && r1 b && r1 (st_q1 D) && r1 (st_q2 D) &&
  sw_check G r1 a b (fst (st_G1 D)) (snd (st_G1 D)) &&
  sw_check G3 r3 ta tb (fst (st_G2 D)) (snd (st_G2 D)) &&
  oeqb G (omul G (st_q1 D) (omul G (st_q1 D) (st_q1 D))) s &&
  oeqb G3 (scl3 G s (frb3 G c2 ta)) (scl3 G (st_q1 D) ta) &&
  oeqb G3 (scl3 G s (frb3 G c2 tb)) tb.
Definition six_te_check (D : six_consts) : bool :=
  let p := fc_p (st_Fq D) in
  let G := zq p in
  let r1 := rngZ p in
  let r3 := rng3 r1 in
  let nr := st_nr3 D in
  let G3 := fp3_ops G nr in
  let c := zbpow G nr ((p - 1) / 6) in
  let c2 := omul G c c in
  let '(a, d) := st_ad D in
  let ta := edwards_twist_a G a in
  let td := edwards_twist_d G d in
  let s := omul G (st_q2 D) (st_q2 D) in
  r1 a && r1 d && r1 (st_q2 D) && (st_q1 D =? st_q2 D) &&
  te_check G r1 a d (fst (st_G1 D)) (snd (st_G1 D)) &&
  te_check G3 r3 ta td (fst (st_G2 D)) (snd (st_G2 D)) &&
  oeqb G3 (scl3 G s ta) (frb3 G c2 ta) &&
  oeqb G3 (scl3 G s td) (frb3 G c2 td).

Section SixCheck.
Context {K : Type} (F : Fops K) (h : K -> Z) (e : Z -> K) (D : six_consts).
Let p := fc_p (st_Fq D).
Let q := cq (st_Fq D).
Hypothesis PB : prime_base F q.
Hypothesis H1 : ctx_check p = true -> hom F (zq p) h e (rngZ p).
Hypothesis Ck : six_check D = true.
Let nr := st_nr3 D.
Let c := zbpow (zq p) nr ((p - 1) / 6).

Lemma six_facts : exists m, (q = 1 + 6 * m)%nat /\ hom F (zq p) h e (rngZ p) /\ rngZ p nr = true /\
  nonresidue F q 2 (e nr) /\ nonresidue F q 3 (e nr) /\
  h (fpow F (e nr) m) = c /\ h (fpow F (e nr) (2 * m)) = omul (zq p) c c.
Proof.
  pose proof Ck as Hk. unfold six_check in Hk. cbv zeta in Hk. rewrite !andb_true_iff in Hk.
  destruct Hk as [[[[[[[[[[[[[K1 K2] K3] K4] K5] K6] K7] K8] K9] K10] K11] K12] K13] K14].
  apply Z.eqb_eq in K2. apply Z.leb_le in K3. specialize (H1 K1).
  pose proof (pb_field F q PB) as FK. pose proof (fk_ring F FK) as R. pose proof (rk_monoid F R) as M.
  destruct (six_split p K3 K2) as (m & Em & Emz & E2z & E3z & P6 & P3 & P2). change (Z.to_nat p) with q in Em.
  assert (Rn2 : rngZ p nr = true).
  { unfold nonres_check in K4. now rewrite !andb_true_iff in K4. }
  assert (En : h (e nr) = nr) by exact (hm_lift H1 Rn2).
  assert (Ec : h (fpow F (e nr) m) = c).
  { rewrite Emz, (hom_zpow F (zq p) h e _ R H1) by auto. now rewrite En. }
  exists m. split; [exact Em|]. split; [exact H1|]. split; [exact Rn2|].
  split; [exact (nonres_check_ok F (zq p) h e (rngZ p) R H1 p 2 nr K4)|].
  split; [exact (nonres_check_ok F (zq p) h e (rngZ p) R H1 p 3 nr K5)|].
  split; [exact Ec|]. now rewrite (npow_double _ _ M), (hm_mul _ _ _ _ _ H1), Ec.
Qed.

Lemma six_check_ok : six_ok F e D.
Proof.
  destruct six_facts as (m & Em & H & Rn & N2 & N3 & Ec & Ec2).
  pose proof Ck as Hk. unfold six_check in Hk. cbv zeta in Hk. rewrite !andb_true_iff in Hk.
  destruct Hk as [[[[[[[[[[[[[K1 K2] K3] K4] K5] K6] K7] K8] K9] K10] K11] K12] K13] K14].
  apply Z.eqb_eq in K6. apply Nat.eqb_eq in K8, K10, K12.
  fold p in K7, K9, K11, K13, K14. fold nr in K7, K9, K11, K13, K14, K6. fold c in K7, K9, K11.
  pose proof (pb_field F q PB) as FK. pose proof (fk_ring F FK) as R. pose proof (rk_monoid F R) as M.
  pose proof (fk_ring _ (fp3_is_field F q PB (e nr) ltac:(exists (2 * m)%nat; lia) N3)) as R3.
  pose proof (fk_ring _ (fp6_2over3_is_field F q PB (e nr) ltac:(exists m; lia) N2 N3)) as R6.
  pose proof (hom_fp3 F (zq p) h e (rngZ p) H nr Rn) as H3.
  pose proof (hom_fp6_2over3 F (zq p) h e (rngZ p) H nr nr Rn Rn) as H6.
  destruct (sqrt_check_ok _ _ _ _ _ R3 H3 _ _ _ K13) as [S3 E3].
  destruct (sqrt_check_ok _ _ _ _ _ R6 H6 _ _ _ K14) as [S6 E6].
  assert (Fx : forall x : K, h (fpow F x q) = h x) by (intros x; f_equal; apply (pb_fermat F q PB)).
  constructor; fold nr.
  - exists m. exact Em.
  - exact N2.
  - exact N3.
  - exact K6.
  - apply (table_ok F (zq p) h e (rngZ p) R H q 3 1 (2 * m) (e nr) (fun x => x) (omul (zq p) c c)); auto; try lia.
    rewrite Nat.mul_1_l. exact Ec2.
  - apply (table_ok F (zq p) h e (rngZ p) R H q 3 2 (2 * m) (e nr) (fun x => x)
      (omul (zq p) (omul (zq p) c c) (omul (zq p) c c))); auto; try lia.
    now rewrite (npow_double _ _ M), (hm_mul _ _ _ _ _ H), Ec2.
  - apply (table_ok F (zq p) h e (rngZ p) R H q 6 1 m (e nr) (fun x => x) c); auto; try lia.
    rewrite Nat.mul_1_l. exact Ec.
  - exact E3.
  - exact E6.
  - exact S3.
  - unfold siF6. rewrite K6. exact S6.
Qed.

Lemma six_frb : forall x, map3 h (fpow (fp3_ops F (e nr)) x q) = frb3 (zq p) (omul (zq p) c c) (map3 h x).
Proof.
  destruct six_facts as (m & Em & H & Rn & N2 & N3 & Ec & Ec2).
  pose proof (pb_field F q PB) as FK. pose proof (fk_ring F FK) as R. pose proof (rk_monoid F R) as M.
  intros [[x0 x1] x2]. rewrite (fp3_frob1 F q PB (e nr) (2 * m) x0 x1 x2) by lia.
  unfold map3, frb3. cbn [fst snd].
  rewrite !(hm_mul _ _ _ _ _ H), (npow_double _ _ M (e nr) (2 * m)), (hm_mul _ _ _ _ _ H), Ec2. reflexivity.
Qed.

Lemma six_sw_check_ok : six_sw_check D = true -> six_sw_ok F e D.
Proof.
  intros Hk. destruct six_facts as (m & Em & H & Rn & N2 & N3 & Ec & Ec2).
  pose proof six_frb as Fr.
  unfold six_sw_check in Hk. destruct (st_ad D) as [a b] eqn:Ead. cbv zeta in Hk. rewrite !andb_true_iff in Hk.
  destruct Hk as [[[[[[[[K1 K2] K3] K4] K5] K6] K7] K8] K9].
  fold p in K1, K2, K3, K4, K5, K6, K7, K8, K9. fold nr in K6, K8, K9. fold c in K8, K9.
  pose proof (pb_field F q PB) as FK. pose proof (fk_ring F FK) as R. pose proof (rk_monoid F R) as M.
  pose proof (hom_fp3 F (zq p) h e (rngZ p) H nr Rn) as H3.
  assert (En : h (e nr) = nr) by exact (hm_lift H Rn).
  assert (Ea : h (e a) = a) by exact (hm_lift H K1).
  assert (Eb : h (e b) = b) by exact (hm_lift H K2).
  assert (EX : h (e (st_q1 D)) = st_q1 D) by exact (hm_lift H K3).
  assert (EY : h (e (st_q2 D)) = st_q2 D) by exact (hm_lift H K4).
  assert (Eta : map3 h (si_twist_a F e D) = mnt6_twist_a (zq p) a).
  { unfold si_twist_a, mnt6_twist_a, map3. rewrite Ead. cbn [fst snd].
    now rewrite Ea, (hm_0 _ _ _ _ _ H). }
  assert (Etb : map3 h (si_twist_b F e D) = mnt6_twist_b (zq p) b nr).
  { unfold si_twist_b, mnt6_twist_b, map3. rewrite Ead. cbn [fst snd]. fold nr.
    now rewrite (hm_mul _ _ _ _ _ H), Eb, En, (hm_0 _ _ _ _ _ H). }
  assert (EY2 : h (fpow F (e (st_q2 D)) 2) = omul (zq p) (st_q2 D) (st_q2 D)).
  { now rewrite (npow_2 _ _ M), (hm_mul _ _ _ _ _ H), EY. }
  constructor; fold nr.
  - rewrite Ead. apply (sw_check_ok F (zq p) h e (rngZ p) H). cbn [fst snd]. rewrite Ea, Eb. exact K5.
  - apply (sw_check_ok (fp3_ops F (e nr)) (fp3_ops (zq p) nr) (map3 h) (map3 e) _ H3). rewrite Eta, Etb. exact K6.
  - apply (eq_by F (zq p) h e _ H). rewrite EY2. cbn [npow].
    rewrite !(ml_1_r _ _ M), !(hm_mul _ _ _ _ _ H), EX. exact K7.
  - apply (eq_by (fp3_ops F (e nr)) (fp3_ops (zq p) nr) (map3 h) (map3 e) _ H3).
    rewrite !(map3_scale F (zq p) h e _ H), EY2, EX. unfold siF3. fold nr. change (siq D) with q.
    rewrite Fr, Eta. exact K8.
  - apply (eq_by (fp3_ops F (e nr)) (fp3_ops (zq p) nr) (map3 h) (map3 e) _ H3).
    rewrite !(map3_scale F (zq p) h e _ H), EY2. unfold siF3. fold nr. change (siq D) with q.
    rewrite Fr, Etb. exact K9.
Qed.

Lemma six_te_check_ok : six_te_check D = true -> six_te_ok F e D.
Proof.
  intros Hk. destruct six_facts as (m & Em & H & Rn & N2 & N3 & Ec & Ec2).
  pose proof six_frb as Fr.
  unfold six_te_check in Hk. destruct (st_ad D) as [a d] eqn:Ead. cbv zeta in Hk. rewrite !andb_true_iff in Hk.
  destruct Hk as [[[[[[[K1 K2] K4] K3] K5] K6] K8] K9]. apply Z.eqb_eq in K3.
  fold p in K1, K2, K4, K5, K6, K8, K9. fold nr in K6, K8, K9. fold c in K8, K9.
  pose proof (pb_field F q PB) as FK. pose proof (fk_ring F FK) as R. pose proof (rk_monoid F R) as M.
  pose proof (hom_fp3 F (zq p) h e (rngZ p) H nr Rn) as H3.
  assert (Ea : h (e a) = a) by exact (hm_lift H K1).
  assert (Eb : h (e d) = d) by exact (hm_lift H K2).
  assert (EY : h (e (st_q2 D)) = st_q2 D) by exact (hm_lift H K4).
  assert (Eta : map3 h (si_tw_a F e D) = edwards_twist_a (zq p) a).
  { unfold si_tw_a, edwards_twist_a, map3. rewrite Ead. cbn [fst snd].
    now rewrite !(hm_mul _ _ _ _ _ H), Ea, (hm_0 _ _ _ _ _ H), (hm_1 _ _ _ _ _ H). }
  assert (Etb : map3 h (si_tw_d F e D) = edwards_twist_d (zq p) d).
  { unfold si_tw_d, edwards_twist_d, map3. rewrite Ead. cbn [fst snd].
    now rewrite !(hm_mul _ _ _ _ _ H), Eb, (hm_0 _ _ _ _ _ H), (hm_1 _ _ _ _ _ H). }
  assert (EY2 : h (fpow F (e (st_q2 D)) 2) = omul (zq p) (st_q2 D) (st_q2 D)).
  { now rewrite (npow_2 _ _ M), (hm_mul _ _ _ _ _ H), EY. }
  constructor; fold nr.
  - rewrite Ead. apply (te_check_ok F (zq p) h e (rngZ p) H). cbn [fst snd]. rewrite Ea, Eb. exact K5.
  - apply (te_check_ok (fp3_ops F (e nr)) (fp3_ops (zq p) nr) (map3 h) (map3 e) _ H3). rewrite Eta, Etb. exact K6.
  - exact K3.
  - apply (eq_by (fp3_ops F (e nr)) (fp3_ops (zq p) nr) (map3 h) (map3 e) _ H3).
    rewrite !(map3_scale F (zq p) h e _ H), EY2. unfold siF3. fold nr. change (siq D) with q.
    rewrite Fr, Eta. exact K8.
  - apply (eq_by (fp3_ops F (e nr)) (fp3_ops (zq p) nr) (map3 h) (map3 e) _ H3).
    rewrite !(map3_scale F (zq p) h e _ H), EY2. unfold siF3. fold nr. change (siq D) with q.
    rewrite Fr, Etb. exact K9.
Qed.
End SixCheck.
