(** Square roots and Frobenius maps in the shipped extension fields. *)
From Coq Require Import ZArith List Bool Lia Arith.
From Verif Require Import Result Limbs LimbsProofs Algebra NumTheory FieldOps FpModel FpSpec FpProofs FpField FpInst
  ParamsModel ParamsProofs ParamsAll AlgorithmsModel AlgorithmsProofs AlgorithmsField ExtModel ExtSpec ExtProofs ExtFrob ExtInst
  FinalExpProofs Hom TowerModel TowerSpec TowerProofs TowerShipped.
Import ListNotations.
Open Scope Z_scope.

(** A field in which x^Q = x for all x, with usable square-root members. *)
Record big_field_ok {K} (F : Fops K) (S : sqrt_params K) (Q : Z) : Prop := {
  bf_field : field_ok F;
  bf_order : order_divides F Q;
  bf_char : char_not_2 F;
  bf_sqrt : sqrt_ok F S Q
}.
Lemma big_field_sqrt {K} (F : Fops K) S Q debug y : big_field_ok F S Q ->
  exists r, field_sqrt F S debug (Z.to_nat (sq_s S) + 1) (omul F y y) = Ok r /\ (r = y \/ r = oopp F y).
Proof.
  intros [A B C D]. apply (field_sqrt_square F S Q); auto. destruct D as [Hs _ _ _ _ _ _]. lia.
Qed.

Lemma order_of_fix {K} (F : Fops K) (FK : field_ok F) n Q : (1 <= n)%nat -> Z.of_nat n = Q ->
  (forall x, fpow F x n = x) -> order_divides F Q.
Proof.
  intros Hn <- H x N. replace (Z.to_nat (Z.of_nat n - 1)) with (n - 1)%nat by lia. now apply (fix_pred F FK).
Qed.
Lemma order_of_zfix {K} (F : Fops K) (FK : field_ok F) Q : 1 <= Q ->
  (forall x, zpow (o1 F) (omul F) x Q = x) -> order_divides F Q.
Proof.
  intros HQ H. apply (order_of_fix F FK (Z.to_nat Q)); [lia|lia|]. exact H.
Qed.

Lemma quad_char2 {K} (F : Fops K) m : char_not_2 F -> char_not_2 (quad_ops F m).
Proof. unfold char_not_2. cbn. intros N E. inversion E. auto. Qed.
Lemma cubic_char2 {K} (F : Fops K) m : char_not_2 F -> char_not_2 (cubic_ops F m).
Proof. unfold char_not_2. cbn. intros N E. inversion E. auto. Qed.

Lemma base_char2 C CO : char_not_2 (cF C CO).
Proof. exact (prime_char C CO). Qed.

Section Twelve.
Context {K : Type} (F : Fops K) (e : Z -> K) (D : twelve_consts).
Let p := fc_p (bt_Fq D).
Let n := cn (bt_Fq D).
Let q := cq (bt_Fq D).
Hypothesis PB : prime_base F q.
Hypothesis C2 : char_not_2 F.
Hypothesis T : twelve_ok F e D.
Let Qv : Z.of_nat q = p := q_val F D PB.

Lemma twelve_2 : big_field_ok (twF2 F e D) (sqrt_of (map2 e) (2 * n) (bt_s2 D)) (p ^ 2).
Proof.
  destruct T as [[m Em] A2 _ _ _ _ _ _ _ _ _ _ A13 _ _ _ _ _ _]. change (twq D) with q in *.
  constructor.
  - exact (two_field F q PB (e (bt_nr2 D)) m Em A2).
  - apply (order_of_fix _ (two_field F q PB (e (bt_nr2 D)) m Em A2) (q ^ 2)).
    + pose proof (q_pos F q PB). pose proof (Nat.pow_nonzero q 2). lia.
    + now rewrite Nat2Z.inj_pow, Qv.
    + exact (two_fix F q PB (e (bt_nr2 D)) m Em A2).
  - now apply quad_char2.
  - exact A13.
Qed.
Lemma twelve_6 : big_field_ok (twF6 F e D) (sqrt_of (map3 (map2 e)) (6 * n) (bt_s6 D)) (p ^ 6).
Proof.
  destruct T as [[m Em] A2 A3 A4 A5 A6 A7 _ _ _ _ _ _ A14 _ _ _ _ _]. change (twq D) with q in *.
  pose proof (fp6_3over2_is_field F q PB (e (bt_nr2 D)) m Em A2 (map2 e (bt_nr6 D)) A5) as FK6.
  pose proof (fp2_ring F (fk_ring F (pb_field F q PB)) (e (bt_nr2 D))) as R2.
  constructor.
  - exact FK6.
  - apply (order_of_fix _ FK6 (q ^ 6)).
    + pose proof (q_pos F q PB). pose proof (Nat.pow_nonzero q 6). lia.
    + now rewrite Nat2Z.inj_pow, Qv.
    + intros x.
      pose proof (fp6_3over2_frob_spec F q PB (e (bt_nr2 D)) (map2 e (bt_nr6 D)) _ _ _ 6 x
        (two_square F q PB (e (bt_nr2 D)) m Em A2) (proj1 A5) (ex_intro _ m Em) ltac:(lia) A3 A6 A7) as E.
      change (Z.to_nat 6) with 6%nat in E. unfold twF6. rewrite <- E.
      destruct A3 as [_ E3], A6 as [_ E6], A7 as [_ E7].
      destruct x as [[[a b] [c d]] [f g]]. unfold fp6_3over2_frobenius, fp2_frobenius, coeff.
      change (Z.to_nat (6 mod 2)) with 0%nat. change (Z.to_nat (6 mod 6)) with 0%nat.
      rewrite E3, E6, E7 by lia. cbn [Nat.pow Nat.sub Nat.div Nat.divmod fst Nat.mul npow].
      pose proof (fk_ring F (pb_field F q PB)) as RF.
      now rewrite !(ml_1_l _ _ (rk_monoid F RF)), !(ml_1_l _ _ (rk_monoid _ R2)).
  - now apply cubic_char2, quad_char2.
  - exact A14.
Qed.
Lemma twelve_12 : big_field_ok (twF12 F e D) (sqrt_of (map2 (map3 (map2 e))) (12 * n) (bt_s12 D)) (p ^ 12).
Proof.
  destruct T as [[m Em] A2 A3 A4 A5 A6 A7 A8 A9 _ _ _ _ _ A15 _ _ _ _]. change (twq D) with q in *.
  pose proof (fp12_is_field F q PB (e (bt_nr2 D)) m Em A2 (map2 e (bt_nr6 D)) A4 A5) as FK.
  pose proof (pb_prime F q PB) as [P1 _]. rewrite Qv in P1.
  constructor.
  - unfold twF12. rewrite A8. exact FK.
  - unfold twF12. rewrite A8. apply (order_of_zfix _ FK).
    + pose proof (Z.pow_pos_nonneg p 12). lia.
    + intros f. rewrite <- Qv.
      exact (fp12_fix F q PB (e (bt_nr2 D)) m Em A2 (map2 e (bt_nr6 D)) A4 A5 [] true f).
  - now apply quad_char2, cubic_char2, quad_char2.
  - exact A15.
Qed.
(** The Frobenius maps of the tower. *)
Definition tw_frob2 := fp2_frobenius F (map e (bt_c2 D)).
Definition tw_frob6 := fp6_3over2_frobenius F (e (bt_nr2 D)) (map e (bt_c2 D)) (map (map2 e) (bt_c61 D)) (map (map2 e) (bt_c62 D)).
Definition tw_frob12 := fp12_frobenius F (e (bt_nr2 D)) (map e (bt_c2 D)) (map (map2 e) (bt_c61 D)) (map (map2 e) (bt_c62 D))
  (map (map2 e) (bt_c12 D)).
Lemma twelve_frob k : 0 <= k ->
  (forall x, tw_frob2 k x = fpow (twF2 F e D) x (q ^ Z.to_nat k)) /\
  (forall x, tw_frob6 k x = fpow (twF6 F e D) x (q ^ Z.to_nat k)) /\
  (forall x, tw_frob12 k x = fpow (twF12 F e D) x (q ^ Z.to_nat k)).
Proof.
  intros Hk. destruct T as [[m Em] A2 A3 A4 A5 A6 A7 A8 A9 _ _ _ _ _ _ _ _ _ _]. change (twq D) with q in *.
  assert (H2 : (exists m', q = 1 + 2 * m')%nat) by (exists (3 * m)%nat; lia).
  split; [|split]; intros x.
  - exact (fp2_frob_spec F q PB (e (bt_nr2 D)) _ k x (proj1 A2) H2 Hk A3).
  - exact (fp6_3over2_frob_spec F q PB (e (bt_nr2 D)) (map2 e (bt_nr6 D)) _ _ _ k x
        (two_square F q PB (e (bt_nr2 D)) m Em A2) (proj1 A5) (ex_intro _ m Em) Hk A3 A6 A7).
  - unfold twF12. rewrite A8. exact (fp12_frob_spec F q PB (e (bt_nr2 D)) (map2 e (bt_nr6 D)) _ _ _ _ k x
        (two_square F q PB (e (bt_nr2 D)) m Em A2) (proj1 A5) (ex_intro _ m Em) Hk A3 A6 A7 A9).
Qed.
End Twelve.

Section Four.
Context {K : Type} (F : Fops K) (e : Z -> K) (D : four_consts).
Let p := fc_p (ft_Fq D).
Let n := cn (ft_Fq D).
Let q := cq (ft_Fq D).
Hypothesis PB : prime_base F q.
Hypothesis C2 : char_not_2 F.
Hypothesis T : four_ok F e D.
Lemma four_Qv : Z.of_nat q = p.
Proof. pose proof (pb_prime F q PB) as [H _]. unfold q, cq in *. fold p in H |- *. rewrite Z2Nat.id; [reflexivity|]. lia. Qed.
Lemma four_2 : big_field_ok (foF2 F e D) (sqrt_of (map2 e) (2 * n) (ft_s2 D)) (p ^ 2).
Proof.
  destruct T as [[m Em] A2 _ _ _ _ _ A8 _ _ _ _ _ _]. change (foq D) with q in *.
  assert (H2 : (exists m', q = 1 + 2 * m')%nat) by (exists (2 * m)%nat; lia).
  pose proof (fp2_is_field F q PB (e (ft_nr2 D)) H2 A2) as FK.
  constructor.
  - exact FK.
  - apply (order_of_fix _ FK (q ^ 2)).
    + pose proof (q_pos F q PB). pose proof (Nat.pow_nonzero q 2). lia.
    + now rewrite Nat2Z.inj_pow, four_Qv.
    + apply (fp2_fix F q PB); auto.
      apply (nonresidue_2 F (pb_field F q PB) q (pb_fermat F q PB) (2 * m)); auto. lia.
  - now apply quad_char2.
  - exact A8.
Qed.
Lemma four_4 : big_field_ok (foF4 F e D) (sqrt_of (map2 (map2 e)) (4 * n) (ft_s4 D)) (p ^ 4).
Proof.
  destruct T as [[m Em] A2 A3 A4 A5 _ _ _ A9 _ _ _ _ _]. change (foq D) with q in *.
  pose proof (fp4_is_field F q PB (e (ft_nr2 D)) (ex_intro _ m Em) A2) as FK.
  pose proof (pb_prime F q PB) as [P1 _]. rewrite four_Qv in P1.
  constructor.
  - unfold foF4. rewrite A3. exact FK.
  - unfold foF4. rewrite A3. apply (order_of_zfix _ FK).
    + pose proof (Z.pow_pos_nonneg p 4). lia.
    + intros f. rewrite <- four_Qv. exact (frob4_fix F q PB (e (ft_nr2 D)) m Em A2 _ _ A4 A5 f).
  - now apply quad_char2, quad_char2.
  - exact A9.
Qed.
Definition fo_frob2 := fp2_frobenius F (map e (ft_c2 D)).
Definition fo_frob4 := fp4_frobenius F (map e (ft_c2 D)) (map e (ft_c4 D)).
Lemma four_frob k : 0 <= k ->
  (forall x, fo_frob2 k x = fpow (foF2 F e D) x (q ^ Z.to_nat k)) /\
  (forall x, fo_frob4 k x = fpow (foF4 F e D) x (q ^ Z.to_nat k)).
Proof.
  intros Hk. destruct T as [[m Em] A2 A3 A4 A5 _ _ _ _ _ _ _ _ _]. change (foq D) with q in *.
  assert (H2 : (exists m', q = 1 + 2 * m')%nat) by (exists (2 * m)%nat; lia).
  split; intros x.
  - exact (fp2_frob_spec F q PB (e (ft_nr2 D)) _ k x (proj1 A2) H2 Hk A4).
  - unfold foF4. rewrite A3. exact (fp4_frob_spec F q PB (e (ft_nr2 D)) _ _ k x (proj1 A2) (ex_intro _ m Em) Hk A4 A5).
Qed.
End Four.

Section Six.
Context {K : Type} (F : Fops K) (e : Z -> K) (D : six_consts).
Let p := fc_p (st_Fq D).
Let n := cn (st_Fq D).
Let q := cq (st_Fq D).
Hypothesis PB : prime_base F q.
Hypothesis C2 : char_not_2 F.
Hypothesis T : six_ok F e D.
Lemma six_Qv : Z.of_nat q = p.
Proof. pose proof (pb_prime F q PB) as [H _]. unfold q, cq in *. fold p in H |- *. rewrite Z2Nat.id; [reflexivity|]. lia. Qed.
Lemma six_3 : big_field_ok (siF3 F e D) (sqrt_of (map3 e) (3 * n) (st_s3 D)) (p ^ 3).
Proof.
  destruct T as [[m Em] A2 A3 A4 A5 A6 A7 _ _ A10 _]. change (siq D) with q in *.
  assert (H3 : (exists m', q = 1 + 3 * m')%nat) by (exists (2 * m)%nat; lia).
  pose proof (fp3_is_field F q PB (e (st_nr3 D)) H3 A3) as FK.
  constructor.
  - exact FK.
  - apply (order_of_fix _ FK (q ^ 3)).
    + pose proof (q_pos F q PB). pose proof (Nat.pow_nonzero q 3). lia.
    + now rewrite Nat2Z.inj_pow, six_Qv.
    + intros x. pose proof (fp3_frob_spec F q PB (e (st_nr3 D)) _ _ 3 x (proj1 A3) H3 ltac:(lia) A5 A6) as E.
      change (Z.to_nat 3) with 3%nat in E. unfold siF3. rewrite <- E.
      destruct A5 as [_ E5], A6 as [_ E6]. destruct x as [[a b] c].
      unfold fp3_frobenius, coeff. change (Z.to_nat (3 mod 3)) with 0%nat.
      rewrite E5, E6 by lia. cbn [Nat.pow Nat.sub Nat.div Nat.divmod fst Nat.mul npow].
      pose proof (fk_ring F (pb_field F q PB)) as RF.
      now rewrite !(ml_1_l _ _ (rk_monoid F RF)).
  - now apply cubic_char2.
  - exact A10.
Qed.
Lemma six_6 : big_field_ok (siF6 F e D) (sqrt_of (map2 (map3 e)) (6 * n) (st_s6 D)) (p ^ 6).
Proof.
  destruct T as [[m Em] A2 A3 A4 A5 A6 A7 _ _ _ A11]. change (siq D) with q in *.
  pose proof (fp6_2over3_is_field F q PB (e (st_nr3 D)) (ex_intro _ m Em) A2 A3) as FK.
  pose proof (pb_prime F q PB) as [P1 _]. rewrite six_Qv in P1.
  constructor.
  - unfold siF6. rewrite A4. exact FK.
  - unfold siF6. rewrite A4. apply (order_of_zfix _ FK).
    + pose proof (Z.pow_pos_nonneg p 6). lia.
    + intros f. rewrite <- six_Qv. exact (frob6_fix F q PB (e (st_nr3 D)) m Em A2 _ _ _ A5 A6 A7 f).
  - now apply quad_char2, cubic_char2.
  - exact A11.
Qed.
Definition si_frob3 := fp3_frobenius F (map e (st_c31 D)) (map e (st_c32 D)).
Definition si_frob6 := fp6_2over3_frobenius F (map e (st_c31 D)) (map e (st_c32 D)) (map e (st_c6 D)).
Lemma six_frob k : 0 <= k ->
  (forall x, si_frob3 k x = fpow (siF3 F e D) x (q ^ Z.to_nat k)) /\
  (forall x, si_frob6 k x = fpow (siF6 F e D) x (q ^ Z.to_nat k)).
Proof.
  intros Hk. destruct T as [[m Em] A2 A3 A4 A5 A6 A7 _ _ _ _]. change (siq D) with q in *.
  assert (H3 : (exists m', q = 1 + 3 * m')%nat) by (exists (2 * m)%nat; lia).
  split; intros x.
  - exact (fp3_frob_spec F q PB (e (st_nr3 D)) _ _ k x (proj1 A3) H3 Hk A5 A6).
  - unfold siF6. rewrite A4.
    exact (fp6_2over3_frob_spec F q PB (e (st_nr3 D)) _ _ _ k x (proj1 A3) (ex_intro _ m Em) Hk A5 A6 A7).
Qed.
End Six.

(** ** The shipped fields *)
Lemma shipped_twelve_fields D CO : In D shipped_twelve -> let F := cF (bt_Fq D) CO in let e := ce (bt_Fq D) CO in
  let n := cn (bt_Fq D) in let p := fc_p (bt_Fq D) in
  big_field_ok (twF2 F e D) (sqrt_of (map2 e) (2 * n) (bt_s2 D)) (p ^ 2) /\
  big_field_ok (twF6 F e D) (sqrt_of (map3 (map2 e)) (6 * n) (bt_s6 D)) (p ^ 6) /\
  big_field_ok (twF12 F e D) (sqrt_of (map2 (map3 (map2 e))) (12 * n) (bt_s12 D)) (p ^ 12).
Proof.
  intros H. cbv zeta. pose proof (base_prime _ CO) as PB. pose proof (base_char2 _ CO) as C2.
  pose proof (shipped_twelve_ok D CO H) as T.
  exact (conj (twelve_2 _ _ D PB C2 T) (conj (twelve_6 _ _ D PB C2 T) (twelve_12 _ _ D PB C2 T))).
Qed.
Lemma shipped_four_fields D CO : In D shipped_four -> let F := cF (ft_Fq D) CO in let e := ce (ft_Fq D) CO in
  let n := cn (ft_Fq D) in let p := fc_p (ft_Fq D) in
  big_field_ok (foF2 F e D) (sqrt_of (map2 e) (2 * n) (ft_s2 D)) (p ^ 2) /\
  big_field_ok (foF4 F e D) (sqrt_of (map2 (map2 e)) (4 * n) (ft_s4 D)) (p ^ 4).
Proof.
  intros H. cbv zeta. pose proof (base_prime _ CO) as PB. pose proof (base_char2 _ CO) as C2.
  pose proof (shipped_four_ok D CO H) as T. exact (conj (four_2 _ _ D PB C2 T) (four_4 _ _ D PB C2 T)).
Qed.
Lemma shipped_six_fields D CO : In D shipped_six -> let F := cF (st_Fq D) CO in let e := ce (st_Fq D) CO in
  let n := cn (st_Fq D) in let p := fc_p (st_Fq D) in
  big_field_ok (siF3 F e D) (sqrt_of (map3 e) (3 * n) (st_s3 D)) (p ^ 3) /\
  big_field_ok (siF6 F e D) (sqrt_of (map2 (map3 e)) (6 * n) (st_s6 D)) (p ^ 6).
Proof.
  intros H. cbv zeta. pose proof (base_prime _ CO) as PB. pose proof (base_char2 _ CO) as C2.
  pose proof (shipped_six_ok D CO H) as T. exact (conj (six_3 _ _ D PB C2 T) (six_6 _ _ D PB C2 T)).
Qed.
Lemma shipped_twelve_frob D CO k : In D shipped_twelve -> 0 <= k -> let F := cF (bt_Fq D) CO in let e := ce (bt_Fq D) CO in
  let q := cq (bt_Fq D) in
  (forall x, tw_frob2 F e D k x = fpow (twF2 F e D) x (q ^ Z.to_nat k)) /\
  (forall x, tw_frob6 F e D k x = fpow (twF6 F e D) x (q ^ Z.to_nat k)) /\
  (forall x, tw_frob12 F e D k x = fpow (twF12 F e D) x (q ^ Z.to_nat k)).
Proof. intros H Hk. exact (twelve_frob _ _ D (base_prime _ CO) (shipped_twelve_ok D CO H) k Hk). Qed.
Lemma shipped_four_frob D CO k : In D shipped_four -> 0 <= k -> let F := cF (ft_Fq D) CO in let e := ce (ft_Fq D) CO in
  let q := cq (ft_Fq D) in
  (forall x, fo_frob2 F e D k x = fpow (foF2 F e D) x (q ^ Z.to_nat k)) /\
  (forall x, fo_frob4 F e D k x = fpow (foF4 F e D) x (q ^ Z.to_nat k)).
Proof. intros H Hk. exact (four_frob _ _ D (base_prime _ CO) (shipped_four_ok D CO H) k Hk). Qed.
Lemma shipped_six_frob D CO k : In D shipped_six -> 0 <= k -> let F := cF (st_Fq D) CO in let e := ce (st_Fq D) CO in
  let q := cq (st_Fq D) in
  (forall x, si_frob3 F e D k x = fpow (siF3 F e D) x (q ^ Z.to_nat k)) /\
  (forall x, si_frob6 F e D k x = fpow (siF6 F e D) x (q ^ Z.to_nat k)).
Proof. intros H Hk. exact (six_frob _ _ D (base_prime _ CO) (shipped_six_ok D CO H) k Hk). Qed.
