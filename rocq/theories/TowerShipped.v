(** The shipped towers satisfy the specification, and what follows for them. *)
From Coq Require Import ZArith List Bool Lia Arith.
From Verif Require Import Result Limbs LimbsProofs Algebra NumTheory FieldOps FpModel FpSpec FpProofs FpField FpInst
  ParamsModel ParamsProofs ParamsAll AlgorithmsModel AlgorithmsProofs AlgorithmsField ExtModel ExtSpec ExtProofs ExtFrob ExtInst
  FinalExpModel FinalExpSpec FinalExpProofs CurveSpec CurveModel Mul63 Hom TowerModel TowerSpec TowerProofs.
Import ListNotations.
Open Scope Z_scope.

(** ** Checks *)
Lemma alt_bn128_check : twelve_check alt_bn128_tower = true. Proof. vm_compute. reflexivity. Qed.
Lemma bls12_381_check : twelve_check bls12_381_tower = true. Proof. vm_compute. reflexivity. Qed.
Lemma mnt4_check : four_check mnt4_tower = true. Proof. vm_compute. reflexivity. Qed.
Lemma mnt6_check : six_check mnt6_tower = true. Proof. vm_compute. reflexivity. Qed.
Lemma mnt6_sw_check : six_sw_check mnt6_tower = true. Proof. vm_compute. reflexivity. Qed.
Lemma edwards_check : six_check edwards_tower = true. Proof. vm_compute. reflexivity. Qed.
Lemma edwards_te_check : six_te_check edwards_tower = true. Proof. vm_compute. reflexivity. Qed.

Lemma base_prime C CO : prime_base (cF C CO) (cq C).
Proof. exact (fp_prime_base (fc_P C) (fco_ok C CO) (fco_inv C CO)). Qed.
Lemma base_hom C CO : ctx_check (fc_p C) = true ->
  hom (cF C CO) (zq (fc_p C)) (toZ (fc_P C)) (ce C CO) (rngZ (fc_p C)).
Proof. exact (hom_fp (fc_P C) (fco_ok C CO) (fco_inv C CO)). Qed.

Definition shipped_twelve : list twelve_consts := [alt_bn128_tower; bls12_381_tower].
Definition shipped_four : list four_consts := [mnt4_tower].
Definition shipped_six : list six_consts := [mnt6_tower; edwards_tower].

Lemma shipped_twelve_check D : In D shipped_twelve -> twelve_check D = true.
Proof. intros [<-|[<-|[]]]; [exact alt_bn128_check|exact bls12_381_check]. Qed.
Lemma shipped_four_check D : In D shipped_four -> four_check D = true.
Proof. intros [<-|[]]. exact mnt4_check. Qed.
Lemma shipped_six_check D : In D shipped_six -> six_check D = true.
Proof. intros [<-|[<-|[]]]; [exact mnt6_check|exact edwards_check]. Qed.

Lemma shipped_twelve_ok D CO : In D shipped_twelve -> twelve_ok (cF (bt_Fq D) CO) (ce (bt_Fq D) CO) D.
Proof.
  intros H. exact (twelve_check_ok _ _ _ D (base_prime (bt_Fq D) CO) (base_hom (bt_Fq D) CO) (shipped_twelve_check D H)).
Qed.
Lemma shipped_four_ok D CO : In D shipped_four -> four_ok (cF (ft_Fq D) CO) (ce (ft_Fq D) CO) D.
Proof.
  intros H. exact (four_check_ok _ _ _ D (base_prime (ft_Fq D) CO) (base_hom (ft_Fq D) CO) (shipped_four_check D H)).
Qed.
Lemma shipped_six_ok D CO : In D shipped_six -> six_ok (cF (st_Fq D) CO) (ce (st_Fq D) CO) D.
Proof.
  intros H. exact (six_check_ok _ _ _ D (base_prime (st_Fq D) CO) (base_hom (st_Fq D) CO) (shipped_six_check D H)).
Qed.
Lemma mnt6_sw_ok CO : six_sw_ok (cF (st_Fq mnt6_tower) CO) (ce (st_Fq mnt6_tower) CO) mnt6_tower.
Proof.
  exact (six_sw_check_ok _ _ _ mnt6_tower (base_prime (st_Fq mnt6_tower) CO) (base_hom (st_Fq mnt6_tower) CO)
    mnt6_check mnt6_sw_check).
Qed.
Lemma edwards_te_ok CO : six_te_ok (cF (st_Fq edwards_tower) CO) (ce (st_Fq edwards_tower) CO) edwards_tower.
Proof.
  exact (six_te_check_ok _ _ _ edwards_tower (base_prime (st_Fq edwards_tower) CO) (base_hom (st_Fq edwards_tower) CO)
    edwards_check edwards_te_check).
Qed.

(** ** Final exponentiations *)
Definition bn_exp (p z : Z) : Z :=
  p ^ 3 * (12 * z ^ 3 + 6 * z ^ 2 + 4 * z - 1) + p ^ 2 * (12 * z ^ 3 + 6 * z ^ 2 + 6 * z) +
  p * (12 * z ^ 3 + 6 * z ^ 2 + 4 * z) + (12 * z ^ 3 + 12 * z ^ 2 + 6 * z + 1).
Definition bls_exp (p z : Z) : Z :=
  p ^ 3 * (z ^ 2 - 2 * z + 1) + p ^ 2 * (z ^ 3 - 2 * z ^ 2 + z) +
  p * (z ^ 4 - 2 * z ^ 3 + 2 * z - 1) + (z ^ 5 - 2 * z ^ 4 + 2 * z ^ 2 - z + 3).
Definition signed (neg : bool) (z : Z) : Z := if neg then - z else z.
(** The last chunk's exponent L satisfies L r = c N with c coprime to r. *)
Definition cofactor_check (L r N : Z) : bool :=
  let c := L * r / N in
  (0 <=? c) && (0 <? r) && (Z.gcd c r =? 1) && (L * r =? c * N).
Lemma cofactor_check_ok L r N : cofactor_check L r N = true ->
  exists c, 0 <= c /\ 0 < r /\ Z.gcd c r = 1 /\ L * r = c * N.
Proof.
  unfold cofactor_check. rewrite !andb_true_iff, !Z.eqb_eq, Z.leb_le, Z.ltb_lt. intros [[[H1 H2] H3] H4].
  eexists. eauto.
Qed.
Definition small_check (n : nat) (z : Z) : bool := (0 <=? z) && (z <? Bn n - 1) && (1 <=? Z.of_nat n).
Lemma small_check_ok n z : small_check n z = true -> val (limbs_of n z) = z /\ exp_ok (limbs_of n z).
Proof.
  unfold small_check. rewrite !andb_true_iff, !Z.leb_le, Z.ltb_lt. intros [[H1 H2] H3].
  assert (E : val (limbs_of n z) = z) by (apply val_limbs_of_small; lia).
  split; [exact E|]. unfold exp_ok. rewrite E, limbs_of_length. split; [apply limbs_of_limbs|]. lia.
Qed.

Section Twelve.
Context {K : Type} (F : Fops K) (e : Z -> K) (D : twelve_consts).
Let p := fc_p (bt_Fq D).
Let r := fc_p (bt_Fr D).
Let n := cn (bt_Fq D).
Let q := cq (bt_Fq D).
Hypothesis PB : prime_base F q.
Hypothesis T : twelve_ok F e D.

Definition tw_bn_final :=
  bn_final_exponentiation F (e (bt_nr2 D)) (map2 e (bt_nr6 D)) (map2 e (bt_nr12 D))
    (map e (bt_c2 D)) (map (map2 e) (bt_c61 D)) (map (map2 e) (bt_c62 D)) (map (map2 e) (bt_c12 D))
    (limbs_of n (bt_z D)) (bt_z_neg D).
Definition tw_bls_final :=
  bls_final_exponentiation F (e (bt_nr2 D)) (map2 e (bt_nr6 D)) (map2 e (bt_nr12 D))
    (map e (bt_c2 D)) (map (map2 e) (bt_c61 D)) (map (map2 e) (bt_c62 D)) (map (map2 e) (bt_c12 D))
    (limbs_of n (bt_z D)) (bt_z_neg D).

Lemma q_val : Z.of_nat q = p.
Proof.
  pose proof (pb_prime F q PB) as [H _]. unfold q, cq in *. fold p in H |- *. rewrite Z2Nat.id; [reflexivity|]. lia.
Qed.

Definition bn_final_check : bool :=
  small_check n (bt_z D) && cofactor_check (bn_exp p (signed (bt_z_neg D) (bt_z D))) r (p ^ 4 - p ^ 2 + 1).
Definition bls_final_check : bool :=
  small_check n (bt_z D) && cofactor_check (bls_exp p (signed (bt_z_neg D) (bt_z D))) r (p ^ 4 - p ^ 2 + 1).

Lemma bn_final_ok : bn_final_check = true -> final_exp_ok (twF12 F e D) (p ^ 12 - 1) r tw_bn_final.
Proof.
  unfold bn_final_check. rewrite andb_true_iff. intros [Hz Hc].
  destruct (small_check_ok n _ Hz) as [Vz [Lz _]].
  destruct (cofactor_check_ok _ _ _ Hc) as (c & C0 & R0 & G & E).
  destruct T as [[m Em] A2 A3 A4 A5 A6 A7 A8 A9 _ _ _ _ _ _ _ _ _ _]. change (twq D) with q in *.
  unfold tw_bn_final, twF12. rewrite A8.
  pose proof (bn_total F q PB (e (bt_nr2 D)) m Em A2 (map2 e (bt_nr6 D)) A4 A5 _ _ _ _ A3 A6 A7 A9
    (limbs_of n (bt_z D)) (bt_z_neg D) Lz) as B.
  rewrite q_val in B.
  assert (EE : bn_exponent q (limbs_of n (bt_z D)) (bt_z_neg D) * r = c * (p ^ 4 - p ^ 2 + 1)).
  { rewrite <- E. unfold bn_exponent, bn_exp, signed. rewrite q_val, Vz. reflexivity. }
  split; [|split].
  - exact (bn_zero F q PB (e (bt_nr2 D)) m Em A2 (map2 e (bt_nr6 D)) A4 A5 _ _ _ _ _ _).
  - exact (proj1 (B _ r c (fk_1_neq_0 _ (fp12_is_field F q PB (e (bt_nr2 D)) m Em A2 (map2 e (bt_nr6 D)) A4 A5)) R0 C0 G EE)).
  - exists c. split; [exact C0|]. split; [exact G|]. intros f Nf. exact (proj2 (B f r c Nf R0 C0 G EE)).
Qed.
Lemma bls_final_ok : bls_final_check = true -> final_exp_ok (twF12 F e D) (p ^ 12 - 1) r tw_bls_final.
Proof.
  unfold bls_final_check. rewrite andb_true_iff. intros [Hz Hc].
  destruct (small_check_ok n _ Hz) as [Vz [Lz _]].
  destruct (cofactor_check_ok _ _ _ Hc) as (c & C0 & R0 & G & E).
  destruct T as [[m Em] A2 A3 A4 A5 A6 A7 A8 A9 _ _ _ _ _ _ _ _ _ _]. change (twq D) with q in *.
  unfold tw_bls_final, twF12. rewrite A8.
  pose proof (bls_total F q PB (e (bt_nr2 D)) m Em A2 (map2 e (bt_nr6 D)) A4 A5 _ _ _ _ A3 A6 A7 A9
    (limbs_of n (bt_z D)) (bt_z_neg D) Lz) as B.
  rewrite q_val in B.
  assert (EE : bls_exponent q (limbs_of n (bt_z D)) (bt_z_neg D) * r = c * (p ^ 4 - p ^ 2 + 1)).
  { rewrite <- E. unfold bls_exponent, bls_exp, signed. rewrite q_val, Vz. reflexivity. }
  split; [|split].
  - exact (bls_zero F q PB (e (bt_nr2 D)) m Em A2 (map2 e (bt_nr6 D)) A4 A5 _ _ _ _ _ _).
  - exact (proj1 (B _ r c (fk_1_neq_0 _ (fp12_is_field F q PB (e (bt_nr2 D)) m Em A2 (map2 e (bt_nr6 D)) A4 A5)) R0 C0 G EE)).
  - exists c. split; [exact C0|]. split; [exact G|]. intros f Nf. exact (proj2 (B f r c Nf R0 C0 G EE)).
Qed.
End Twelve.

Section Four.
Context {K : Type} (F : Fops K) (e : Z -> K) (D : four_consts).
Let p := fc_p (ft_Fq D).
Let r := fc_p (ft_Fr D).
Let n := cn (ft_Fq D).
Let q := cq (ft_Fq D).
Hypothesis PB : prime_base F q.
Hypothesis T : four_ok F e D.
Definition fo_final :=
  mnt4_final_exponentiation F (e (ft_nr2 D)) (e (ft_nr4 D)) (map e (ft_c2 D)) (map e (ft_c4 D))
    (limbs_of n (ft_w1 D)) (limbs_of n (ft_w0 D)) (ft_w0_neg D).
Definition four_final_check : bool :=
  small_check n (ft_w1 D) && small_check n (ft_w0 D) &&
  cofactor_check (ft_w1 D * p + signed (ft_w0_neg D) (ft_w0 D)) r (p ^ 2 + 1).
Lemma four_final_ok : four_final_check = true -> final_exp_ok (foF4 F e D) (p ^ 4 - 1) r fo_final.
Proof.
  unfold four_final_check. rewrite !andb_true_iff. intros [[H1 H0] Hc].
  destruct (small_check_ok n _ H1) as [V1 W1]. destruct (small_check_ok n _ H0) as [V0 W0].
  destruct (cofactor_check_ok _ _ _ Hc) as (c & C0 & R0 & G & E).
  destruct T as [[m Em] A2 A3 A4 A5 _ _ _ _ _ _ _ _ _]. change (foq D) with q in *.
  assert (Qv : Z.of_nat q = p).
  { pose proof (pb_prime F q PB) as [H _]. unfold q, cq in *. fold p in H |- *. rewrite Z2Nat.id; [reflexivity|]. lia. }
  unfold fo_final, foF4. rewrite A3.
  pose proof (mnt4_final F q PB (e (ft_nr2 D)) m Em A2 _ _ A4 A5 (limbs_of n (ft_w1 D)) (limbs_of n (ft_w0 D))
    (ft_w0_neg D)) as B.
  rewrite Qv in B.
  assert (EE : (val (limbs_of n (ft_w1 D)) * p +
    (if ft_w0_neg D then - val (limbs_of n (ft_w0 D)) else val (limbs_of n (ft_w0 D)))) * r = c * (p ^ 2 + 1)).
  { rewrite V1, V0. exact E. }
  split; [|split].
  - exact (mnt4_zero F q PB (e (ft_nr2 D)) m Em A2 _ _ _ _ _).
  - exact (proj1 (B _ r c W1 W0 (fk_1_neq_0 _ (fp4_is_field F q PB (e (ft_nr2 D)) (ex_intro _ m Em) A2)) R0 C0 G EE)).
  - exists c. split; [exact C0|]. split; [exact G|]. intros f Nf. exact (proj2 (B f r c W1 W0 Nf R0 C0 G EE)).
Qed.
End Four.

Section Six.
Context {K : Type} (F : Fops K) (e : Z -> K) (D : six_consts).
Let p := fc_p (st_Fq D).
Let r := fc_p (st_Fr D).
Let n := cn (st_Fq D).
Let q := cq (st_Fq D).
Hypothesis PB : prime_base F q.
Hypothesis T : six_ok F e D.
(** mnt6_fields.cpp:111 and edwards_fields.cpp:108 set my_Fp2::non_residue to
    the non-residue of Fq3. *)
Definition si_final :=
  six_final_exponentiation F (e (st_nr3 D)) (e (st_nr3 D)) (e (st_nr6 D)) (map e (st_c31 D)) (map e (st_c32 D)) (map e (st_c6 D))
    (limbs_of n (st_w1 D)) (limbs_of n (st_w0 D)) (st_w0_neg D).
Definition six_final_check : bool :=
  small_check n (st_w1 D) && small_check n (st_w0 D) &&
  cofactor_check (st_w1 D * p + signed (st_w0_neg D) (st_w0 D)) r (p ^ 2 - p + 1).
Lemma six_final_ok : six_final_check = true -> final_exp_ok (siF6 F e D) (p ^ 6 - 1) r si_final.
Proof.
  unfold six_final_check. rewrite !andb_true_iff. intros [[H1 H0] Hc].
  destruct (small_check_ok n _ H1) as [V1 W1]. destruct (small_check_ok n _ H0) as [V0 W0].
  destruct (cofactor_check_ok _ _ _ Hc) as (c & C0 & R0 & G & E).
  destruct T as [[m Em] A2 A3 A4 A5 A6 A7 _ _ _ _]. change (siq D) with q in *.
  assert (Qv : Z.of_nat q = p).
  { pose proof (pb_prime F q PB) as [H _]. unfold q, cq in *. fold p in H |- *. rewrite Z2Nat.id; [reflexivity|]. lia. }
  unfold si_final, siF6. rewrite A4.
  pose proof (six_final F q PB (e (st_nr3 D)) m Em A2 A3 _ _ _ A5 A6 A7 (limbs_of n (st_w1 D)) (limbs_of n (st_w0 D))
    (st_w0_neg D)) as B.
  rewrite Qv in B.
  assert (EE : (val (limbs_of n (st_w1 D)) * p +
    (if st_w0_neg D then - val (limbs_of n (st_w0 D)) else val (limbs_of n (st_w0 D)))) * r = c * (p ^ 2 - p + 1)).
  { rewrite V1, V0. exact E. }
  split; [|split].
  - exact (six_zero F q PB (e (st_nr3 D)) m Em A2 A3 _ _ _ _ _ _).
  - exact (proj1 (B _ r c W1 W0 (fk_1_neq_0 _ (fp6_2over3_is_field F q PB (e (st_nr3 D)) (ex_intro _ m Em) A2 A3)) R0 C0 G EE)).
  - exists c. split; [exact C0|]. split; [exact G|]. intros f Nf. exact (proj2 (B f r c W1 W0 Nf R0 C0 G EE)).
Qed.
End Six.

Lemma alt_bn128_final_check : bn_final_check alt_bn128_tower = true. Proof. vm_compute. reflexivity. Qed.
Lemma bls12_381_final_check : bls_final_check bls12_381_tower = true. Proof. vm_compute. reflexivity. Qed.
Lemma mnt4_final_check : four_final_check mnt4_tower = true. Proof. vm_compute. reflexivity. Qed.
Lemma shipped_six_final_check D : In D shipped_six -> six_final_check D = true.
Proof. intros [<-|[<-|[]]]; vm_compute; reflexivity. Qed.

Lemma alt_bn128_final CO : let D := alt_bn128_tower in let F := cF (bt_Fq D) CO in let e := ce (bt_Fq D) CO in
  final_exp_ok (twF12 F e D) (fc_p (bt_Fq D) ^ 12 - 1) (fc_p (bt_Fr D)) (tw_bn_final F e D).
Proof.
  intros D F e. exact (bn_final_ok F e D (base_prime _ CO) (shipped_twelve_ok D CO (or_introl eq_refl)) alt_bn128_final_check).
Qed.
Lemma bls12_381_final CO : let D := bls12_381_tower in let F := cF (bt_Fq D) CO in let e := ce (bt_Fq D) CO in
  final_exp_ok (twF12 F e D) (fc_p (bt_Fq D) ^ 12 - 1) (fc_p (bt_Fr D)) (tw_bls_final F e D).
Proof.
  intros D F e. exact (bls_final_ok F e D (base_prime _ CO) (shipped_twelve_ok D CO (or_intror (or_introl eq_refl)))
    bls12_381_final_check).
Qed.
Lemma mnt4_final_shipped CO : let D := mnt4_tower in let F := cF (ft_Fq D) CO in let e := ce (ft_Fq D) CO in
  final_exp_ok (foF4 F e D) (fc_p (ft_Fq D) ^ 4 - 1) (fc_p (ft_Fr D)) (fo_final F e D).
Proof.
  intros D F e. exact (four_final_ok F e D (base_prime _ CO) (shipped_four_ok D CO (or_introl eq_refl)) mnt4_final_check).
Qed.
Lemma six_final_shipped D CO : In D shipped_six -> let F := cF (st_Fq D) CO in let e := ce (st_Fq D) CO in
  final_exp_ok (siF6 F e D) (fc_p (st_Fq D) ^ 6 - 1) (fc_p (st_Fr D)) (si_final F e D).
Proof.
  intros H F e. exact (six_final_ok F e D (base_prime _ CO) (shipped_six_ok D CO H) (shipped_six_final_check D H)).
Qed.
