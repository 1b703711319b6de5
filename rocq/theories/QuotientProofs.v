(** Quotients of Miller loops: after the final exponentiation the unitary inverse
    is the inverse, also of values which are not unitary. *)
From Coq Require Import ZArith List Bool Ring Field Lia Znumtheory.
From Verif Require Import Mul63 FpField.
From Verif Require Import Result Algebra Limbs LimbsProofs FieldOps BigintModel AlgorithmsModel AlgorithmsProofs WnafModel WnafProofs ExtModel ExtSpec ExtFrob ExtProofs ExtCyc ExtInst
  CurveSpec GroupOps GroupProofs CurveGroup CurveModel CurveProofs MillerSpec PairingModel PairingSpec PairingProofs NeutralProofs MillerProofs MillerRegular Cochain MillerBilinear
  BilinearTwelve MillerQuad BilinearQuad FpModel FpSpec FpInst ParamsModel ParamsProofs Hom AlgorithmsField TowerModel TowerSpec TowerProofs TowerShipped TowerSqrt
  FinalExpSpec FinalExpModel FinalExpProofs PairingShipped ParamsA ParamsB ParamsC ParamsD MntShipped MntGen MntNonDeg MntAffine QuotientModel.
Import ListNotations.
Open Scope Z_scope.
Open Scope result_scope.

(** A final exponentiation is multiplicative. *)
Lemma final_mul {T} (F : Fops T) (FK : field_ok F) N r fe : final_exp_ok F N r fe ->
  forall x y a b, fe x = Ok a -> fe y = Ok b -> fe (omul F x y) = Ok (omul F a b).
Proof.
  intros (Z0 & _ & c & _ & _ & FF) x y a b Hx Hy.
  assert (Nx : x <> o0 F) by (intros ->; congruence). assert (Ny : y <> o0 F) by (intros ->; congruence).
  destruct (FF x Nx) as (a' & Ea & Va & _). destruct (FF y Ny) as (b' & Eb & Vb & _).
  destruct (FF (omul F x y)) as (w & Ew & Vw & _); [now apply (fk_mul_neq_0 F FK)|].
  rewrite Ew. f_equal. assert (a = a') as -> by congruence. assert (b = b') as -> by congruence.
  rewrite Vw, Va, Vb. apply (npow_mul_distr _ _ (rk_monoid F (fk_ring F FK)) (rk_mul_comm F (fk_ring F FK))).
Qed.

Section Quad.
Context {K L : Type} (F : Fops K) (q : nat) (G : Fops L) (e1 : K -> L) (scale : K -> L -> L) (nu : L) (mnr : L -> L) (a b : K) (a' b' : L).
Variables (p N r : Z) (lc : bigint) (neg : bool) (n : positive).
Notation T := (quad_ops G mnr).
Hypothesis QS : quad_setup F q G e1 scale nu mnr a b a' b'.
Let GK : field_ok G := qs_GK _ _ _ _ _ _ _ _ _ _ _ QS.
Let RG : ring_ok G := fk_ring G GK.
Add Ring QGring : (rk_ring G RG).
Hypothesis QN : quad_numbers G q p N r lc neg n.
Variable final : L * L -> result (L * L).
Hypothesis FE : final_exp_ok T (N * N - 1) r final.
Lemma final_conj y v : final y = Ok v -> exists w, final (quad_unitary_inverse G y) = Ok w /\ omul T w v = o1 T.
Proof.
  intros Hy. pose proof FE as FE'. destruct FE' as (Z0 & _ & c & C0 & _ & FF).
  destruct (quad_kills F q G e1 scale nu mnr a b a' b' p N r lc neg n QS QN c C0) as [Ke _].
  pose proof (qs_TK _ _ _ _ _ _ _ _ _ _ _ QS) as TK.
  assert (Ny : y <> o0 T) by (intros ->; congruence).
  assert (Nc : quad_unitary_inverse G y <> o0 T).
  { intros E. apply Ny. destruct y as [y0 y1]. change (o0 T) with (o0 G, o0 G) in E. unfold quad_unitary_inverse in E. injection E as -> E1.
    change (o0 T) with (o0 G, o0 G). f_equal. transitivity (oopp G (oopp G y1)); [ring|]. rewrite E1. ring. }
  destruct (FF y Ny) as (v' & Ev & Vv & _). destruct (FF _ Nc) as (w & Ew & Vw & _).
  exists w. split; [exact Ew|]. assert (v = v') as -> by congruence. rewrite Vv, Vw.
  rewrite <- (npow_mul_distr _ _ (rk_monoid T (fk_ring T TK)) (rk_mul_comm T (fk_ring T TK))).
  rewrite (rk_mul_comm T (fk_ring T TK)).
  rewrite (quad_norm_conj G mnr nu RG (qs_mnr _ _ _ _ _ _ _ _ _ _ _ QS)). apply Ke. intros E.
  apply (fk_mul_neq_0 T TK y _ Ny Nc). rewrite (quad_norm_conj G mnr nu RG (qs_mnr _ _ _ _ _ _ _ _ _ _ _ QS)), E. reflexivity.
Qed.
Context {A B : Type} (loop : A -> B -> result (L * L)).
Theorem e_over_e_final p1 q1 p2 q2 v1 v2 : (f <- loop p1 q1 ;; final f) = Ok v1 -> (f <- loop p2 q2 ;; final f) = Ok v2 ->
  exists f w, e_over_e T (quad_unitary_inverse G) loop p1 q1 p2 q2 = Ok f /\ final f = Ok w /\ omul T w v2 = v1.
Proof.
  unfold e_over_e. destruct (loop p1 q1) as [f1| | | | |]; try discriminate. destruct (loop p2 q2) as [f2| | | | |]; try discriminate.
  cbn [bind]. intros H1 H2. pose proof (qs_TK _ _ _ _ _ _ _ _ _ _ _ QS) as TK.
  destruct (final_conj f2 v2 H2) as (w & Ew & I). eexists _, _. split; [reflexivity|]. split; [exact (final_mul T TK _ _ _ FE _ _ _ _ H1 Ew)|].
  rewrite <- (ml_assoc _ _ (rk_monoid T (fk_ring T TK))), I. rewrite (rk_mul_comm T (fk_ring T TK)). apply (ml_1_l _ _ (rk_monoid T (fk_ring T TK))).
Qed.
Theorem e_times_e_over_e_final p1 q1 p2 q2 p3 q3 v1 v2 v3 :
  (f <- loop p1 q1 ;; final f) = Ok v1 -> (f <- loop p2 q2 ;; final f) = Ok v2 -> (f <- loop p3 q3 ;; final f) = Ok v3 ->
  exists f w, e_times_e_over_e T (quad_unitary_inverse G) loop p1 q1 p2 q2 p3 q3 = Ok f /\ final f = Ok w /\ omul T w v3 = omul T v1 v2.
Proof.
  unfold e_times_e_over_e. destruct (loop p1 q1) as [f1| | | | |]; try discriminate. destruct (loop p2 q2) as [f2| | | | |]; try discriminate.
  destruct (loop p3 q3) as [f3| | | | |]; try discriminate.
  cbn [bind]. intros H1 H2 H3. pose proof (qs_TK _ _ _ _ _ _ _ _ _ _ _ QS) as TK.
  destruct (final_conj f3 v3 H3) as (w & Ew & I). eexists _, _. split; [reflexivity|].
  split; [exact (final_mul T TK _ _ _ FE _ _ _ _ (final_mul T TK _ _ _ FE _ _ _ _ H1 H2) Ew)|].
  rewrite <- (ml_assoc _ _ (rk_monoid T (fk_ring T TK))), I. rewrite (rk_mul_comm T (fk_ring T TK)). apply (ml_1_l _ _ (rk_monoid T (fk_ring T TK))).
Qed.
(** Conversely the quotient fails if one of the loops gives zero or fails. *)
Theorem e_over_e_defined p1 q1 p2 q2 f w : e_over_e T (quad_unitary_inverse G) loop p1 q1 p2 q2 = Ok f -> final f = Ok w ->
  exists v1 v2, (f <- loop p1 q1 ;; final f) = Ok v1 /\ (f <- loop p2 q2 ;; final f) = Ok v2.
Proof.
  unfold e_over_e. destruct (loop p1 q1) as [f1| | | | |]; try discriminate. destruct (loop p2 q2) as [f2| | | | |]; try discriminate.
  cbn [bind]. intros E Hw. assert (f = omul T f1 (quad_unitary_inverse G f2)) as -> by congruence. pose proof (qs_TK _ _ _ _ _ _ _ _ _ _ _ QS) as TK. pose proof FE as FE'. destruct FE' as (Z0 & _ & c & _ & _ & FF).
  pose proof (Radd_0_l (rk_ring T (fk_ring T TK))) as A0.
  assert (N1 : f1 <> o0 T). { intros ->. rewrite (rk_mul_0_l T (fk_ring T TK)) in Hw. congruence. }
  assert (N2 : f2 <> o0 T).
  { intros ->. replace (quad_unitary_inverse G (o0 T)) with (o0 T) in Hw.
    - rewrite (rk_mul_comm T (fk_ring T TK)), (rk_mul_0_l T (fk_ring T TK)) in Hw. congruence.
    - unfold quad_unitary_inverse. cbn. unfold quad_zero. f_equal. ring. }
  destruct (FF _ N1) as (v1 & E1 & _). destruct (FF _ N2) as (v2 & E2 & _). eauto.
Qed.
End Quad.

(** ** The shipped constants *)
(** [a] and [b] divide: [w] times [b] is [a]. *)
Section Statement.
Context {P1 P2 A B T : Type} (F : Fops T) (pre1 : P1 -> result A) (pre2 : P2 -> result B) (pairing : P1 -> P2 -> result T) (final : T -> result T).
(** The reduced quotient of two pairings, and of a product of two by a third. *)
Definition quotient_ok (quo : A -> B -> A -> B -> result T) : Prop := forall P Q P' Q' p q p' q' v v',
  pre1 P = Ok p -> pre2 Q = Ok q -> pre1 P' = Ok p' -> pre2 Q' = Ok q' -> pairing P Q = Ok v -> pairing P' Q' = Ok v' ->
  exists f w, quo p q p' q' = Ok f /\ final f = Ok w /\ omul F w v' = v.
Definition quotient3_ok (quo : A -> B -> A -> B -> A -> B -> result T) : Prop := forall P Q P' Q' P'' Q'' p q p' q' p'' q'' v v' v'',
  pre1 P = Ok p -> pre2 Q = Ok q -> pre1 P' = Ok p' -> pre2 Q' = Ok q' -> pre1 P'' = Ok p'' -> pre2 Q'' = Ok q'' ->
  pairing P Q = Ok v -> pairing P' Q' = Ok v' -> pairing P'' Q'' = Ok v'' ->
  exists f w, quo p q p' q' p'' q'' = Ok f /\ final f = Ok w /\ omul F w v'' = omul F v v'.
End Statement.

Section Four.
Context {K : Type} (F : Fops K) (e : Z -> K) (D : four_consts).
Let p := fc_p (ft_Fq D).
Let r := fc_p (ft_Fr D).
Notation G := (foF2 F e D).
Definition fo_quotients : Prop :=
  quotient_ok (foF4 F e D) (fo_affine_G1 F e D) (fo_affine_G2 F e D) (fo_affine_reduced_pairing F e D) (fo_final F e D) (fo_e_over_e F e D) /\
  quotient3_ok (foF4 F e D) (fo_affine_G1 F e D) (fo_affine_G2 F e D) (fo_affine_reduced_pairing F e D) (fo_final F e D) (fo_e_times_e_over_e F e D).
Hypothesis PB : prime_base F (cq (ft_Fq D)).
Hypothesis C2 : char_not_2 F.
Hypothesis T : four_ok F e D.
Hypothesis HD : sw_disc F (e (ft_a D)) (e (ft_b D)) <> o0 F.
Hypothesis NU : quad_numbers G (cq (ft_Fq D)) p (p ^ 2) r (limbs_of (cn (ft_Fq D)) (ft_loop D)) (ft_loop_neg D) (Z.to_pos (ft_loop D)).
Hypothesis FE : final_exp_ok (foF4 F e D) (p ^ 4 - 1) r (fo_final F e D).
Lemma fo_split P Q a b v : fo_affine_G1 F e D P = Ok a -> fo_affine_G2 F e D Q = Ok b -> fo_affine_reduced_pairing F e D P Q = Ok v ->
  (f <- fo_affine_loop F e D a b ;; fo_final F e D f) = Ok v.
Proof.
  intros H1 H2 H3. rewrite <- H3. unfold fo_affine_reduced_pairing, mnt4_affine_reduced_pairing. cbv zeta.
  unfold fo_affine_G1 in H1. cbv zeta in H1. rewrite H1. cbn [bind]. unfold fo_affine_G2 in H2. cbv zeta in H2. rewrite H2. reflexivity.
Qed.
Lemma four_quotients : fo_quotients.
Proof.
  assert (FE' : final_exp_ok (foF4 F e D) (p ^ 2 * p ^ 2 - 1) r (fo_final F e D)) by (replace (p ^ 2 * p ^ 2) with (p ^ 4) by ring; exact FE).
  pose proof (four_setup F e D PB C2 T HD) as QS. split.
  - intros P Q P' Q' a b a' b' v v' A1 B1 A2 B2 V1 V2.
    exact (e_over_e_final F _ G _ _ _ _ _ _ _ _ _ _ _ _ _ _ QS NU _ FE' (fo_affine_loop F e D) a b a' b' v v' (fo_split _ _ _ _ _ A1 B1 V1) (fo_split _ _ _ _ _ A2 B2 V2)).
  - intros P Q P' Q' P'' Q'' a b a' b' a'' b'' v v' v'' A1 B1 A2 B2 A3 B3 V1 V2 V3.
    exact (e_times_e_over_e_final F _ G _ _ _ _ _ _ _ _ _ _ _ _ _ _ QS NU _ FE' (fo_affine_loop F e D) a b a' b' a'' b'' v v' v''
      (fo_split _ _ _ _ _ A1 B1 V1) (fo_split _ _ _ _ _ A2 B2 V2) (fo_split _ _ _ _ _ A3 B3 V3)).
Qed.
End Four.
Section Six.
Context {K : Type} (F : Fops K) (e : Z -> K) (D : six_consts).
Let p := fc_p (st_Fq D).
Let r := fc_p (st_Fr D).
Notation G := (siF3 F e D).
Definition si_quotients : Prop :=
  quotient_ok (siF6 F e D) (si_affine_G1 F e D) (si_affine_G2 F e D) (si_mnt6_affine_reduced_pairing F e D) (si_final F e D) (si_e_over_e F e D) /\
  quotient3_ok (siF6 F e D) (si_affine_G1 F e D) (si_affine_G2 F e D) (si_mnt6_affine_reduced_pairing F e D) (si_final F e D) (si_e_times_e_over_e F e D).
Hypothesis PB : prime_base F (cq (st_Fq D)).
Hypothesis C2 : char_not_2 F.
Hypothesis T : six_ok F e D.
Hypothesis HD : sw_disc F (e (fst (st_ad D))) (e (snd (st_ad D))) <> o0 F.
Hypothesis NU : quad_numbers G (cq (st_Fq D)) p (p ^ 3) r (limbs_of (cn (st_Fq D)) (st_loop D)) (st_loop_neg D) (Z.to_pos (st_loop D)).
Hypothesis FE : final_exp_ok (siF6 F e D) (p ^ 6 - 1) r (si_final F e D).
Lemma si_split P Q a b v : si_affine_G1 F e D P = Ok a -> si_affine_G2 F e D Q = Ok b -> si_mnt6_affine_reduced_pairing F e D P Q = Ok v ->
  (f <- si_affine_loop F e D a b ;; si_final F e D f) = Ok v.
Proof.
  intros H1 H2 H3. rewrite <- H3. unfold si_mnt6_affine_reduced_pairing, mnt6_affine_reduced_pairing. cbv zeta.
  unfold si_affine_G1 in H1. cbv zeta in H1. rewrite H1. cbn [bind]. unfold si_affine_G2 in H2. cbv zeta in H2. rewrite H2. reflexivity.
Qed.
Lemma six_quotients : si_quotients.
Proof.
  assert (FE' : final_exp_ok (siF6 F e D) (p ^ 3 * p ^ 3 - 1) r (si_final F e D)) by (replace (p ^ 3 * p ^ 3) with (p ^ 6) by ring; exact FE).
  pose proof (six_setup F e D PB C2 T HD) as QS. split.
  - intros P Q P' Q' a b a' b' v v' A1 B1 A2 B2 V1 V2.
    exact (e_over_e_final F _ G _ _ _ _ _ _ _ _ _ _ _ _ _ _ QS NU _ FE' (si_affine_loop F e D) a b a' b' v v' (si_split _ _ _ _ _ A1 B1 V1) (si_split _ _ _ _ _ A2 B2 V2)).
  - intros P Q P' Q' P'' Q'' a b a' b' a'' b'' v v' v'' A1 B1 A2 B2 A3 B3 V1 V2 V3.
    exact (e_times_e_over_e_final F _ G _ _ _ _ _ _ _ _ _ _ _ _ _ _ QS NU _ FE' (si_affine_loop F e D) a b a' b' a'' b'' v v' v''
      (si_split _ _ _ _ _ A1 B1 V1) (si_split _ _ _ _ _ A2 B2 V2) (si_split _ _ _ _ _ A3 B3 V3)).
Qed.
End Six.
Lemma mnt4_quotients CO : let D := mnt4_tower in fo_quotients (cF (ft_Fq D) CO) (ce (ft_Fq D) CO) D.
Proof.
  intros D. set (F := cF (ft_Fq D) CO). set (e := ce (ft_Fq D) CO). set (PB := base_prime (ft_Fq D) CO). pose proof (shipped_four_ok D CO (or_introl eq_refl)) as T.
  pose proof (oki_prime _ (fco_inv _ mnt4_Fr_ok)) as Pr. pose proof (base_char2 (ft_Fq D) CO) as C2.
  apply (four_quotients F e D PB C2 T).
  - exact (mnt_check_disc F e (toZ (fc_P (ft_Fq D))) _ _ _ _ _ _ _ (base_hom _ CO) mnt4_mnt_check).
  - exact (mnt_check_numbers F _ _ _ _ _ _ _ _ PB mnt4_mnt_check Pr (bf_order _ _ _ (four_2 F e D PB C2 T))).
  - exact (mnt4_final_shipped CO).
Qed.
Lemma mnt6_quotients CO : let D := mnt6_tower in si_quotients (cF (st_Fq D) CO) (ce (st_Fq D) CO) D.
Proof.
  intros D. set (F := cF (st_Fq D) CO). set (e := ce (st_Fq D) CO).
  set (PB := base_prime (st_Fq D) CO). assert (HD : In D shipped_six) by (unfold shipped_six; cbn; tauto). pose proof (shipped_six_ok D CO HD) as T.
  pose proof (oki_prime _ (fco_inv _ mnt6_Fr_ok)) as Pr. pose proof (base_char2 (st_Fq D) CO) as C2.
  pose proof (mnt_check_disc F e (toZ (fc_P (st_Fq D))) _ _ _ _ _ _ _ (base_hom _ CO) mnt6_mnt_check) as ND.
  pose proof (mnt_check_numbers F _ _ _ _ _ _ _ _ PB mnt6_mnt_check Pr (bf_order _ _ _ (six_3 F e D PB C2 T))) as NU.
  exact (six_quotients F e D PB C2 T ND NU (six_final_shipped D CO HD)).
Qed.

(** ** On the groups, against the projective pairing *)
Lemma quot_one {T} (F : Fops T) (FK : field_ok F) w v v' : v' <> o0 F -> omul F w v' = v -> (w = o1 F <-> v = v').
Proof.
  intros N E. pose proof (rk_monoid F (fk_ring F FK)) as M. split.
  - intros ->. rewrite <- E. apply (ml_1_l _ _ M).
  - intros ->. destruct (tinv_spec F FK v' N) as [_ I]. apply (f_equal (fun z => omul F z (tinv F v'))) in E.
    rewrite <- (ml_assoc _ _ M), (rk_mul_comm F (fk_ring F FK) v'), I in E. rewrite (rk_mul_comm F (fk_ring F FK)), (ml_1_l _ _ M) in E. exact E.
Qed.
Section Groups.
Context {K L : Type} (F : Fops K) (G : Fops L) {A B : Type} (mnr : L -> L) (a b : K) (a' b' : L) (r : Z).
Notation T := (quad_ops G mnr).
Variables (pre1 : K * K * K -> result A) (pre2 : L * L * L -> result B) (pairing : K * K * K -> L * L * L -> result (L * L)) (final : L * L -> result (L * L)).
Variable quo : A -> B -> A -> B -> result (L * L).
Notation G1 P := (quad_G1 F a b r (prj_den F P) /\ prj_den F P <> Inf).
Notation G2 Q := (torsion G a' b' r (prj_den G Q) /\ prj_den G Q <> Inf).
(** For points of order r the precomputations, the loops and the final
    exponentiation succeed; the result is e(P, Q) / e(P', Q'), or its inverse if
    [swap]. *)
Definition group_quotient (swap : bool) : Prop := forall P Q P' Q', G1 P -> G2 Q -> G1 P' -> G2 Q' ->
  exists p q p' q' f w v v', pre1 P = Ok p /\ pre2 Q = Ok q /\ pre1 P' = Ok p' /\ pre2 Q' = Ok q' /\ quo p q p' q' = Ok f /\ final f = Ok w /\
    pairing P Q = Ok v /\ pairing P' Q' = Ok v' /\ (if swap then omul T w v = v' else omul T w v' = v) /\ (w = o1 T <-> v = v').
Variable affine : K * K * K -> L * L * L -> result (L * L).
Hypothesis TK : field_ok T.
Hypothesis AD : forall P Q v, affine P Q = Ok v -> exists p q, pre1 P = Ok p /\ pre2 Q = Ok q.
Hypothesis NZ : forall P Q v, affine P Q = Ok v -> v <> o0 T.
Hypothesis Q : quotient_ok T pre1 pre2 affine final quo.
Lemma group_quotient_agrees : affine_agrees F G a b a' b' r pairing affine -> group_quotient false.
Proof.
  intros H P1 Q1 P2 Q2 [H1 N1] [H2 N2] [H3 N3] [H4 N4].
  destruct (H P1 Q1 H1 N1 H2 N2) as (v & E1 & E2). destruct (H P2 Q2 H3 N3 H4 N4) as (v' & E3 & E4).
  destruct (AD _ _ _ E2) as (p & q & Ep & Eq). destruct (AD _ _ _ E4) as (p' & q' & Ep' & Eq').
  destruct (Q _ _ _ _ _ _ _ _ _ _ Ep Eq Ep' Eq' E2 E4) as (f & w & Ef & Ew & E). exists p, q, p', q', f, w, v, v'.
  repeat (split; [assumption|]). exact (quot_one T TK w v v' (NZ _ _ _ E4) E).
Qed.
Lemma group_quotient_inverse : affine_inverse F G mnr a b a' b' r pairing affine -> group_quotient true.
Proof.
  intros H P1 Q1 P2 Q2 [H1 N1] [H2 N2] [H3 N3] [H4 N4].
  destruct (H P1 Q1 H1 N1 H2 N2) as (v & u & E1 & E2 & I). destruct (H P2 Q2 H3 N3 H4 N4) as (v' & u' & E3 & E4 & I').
  destruct (AD _ _ _ E2) as (p & q & Ep & Eq). destruct (AD _ _ _ E4) as (p' & q' & Ep' & Eq').
  destruct (Q _ _ _ _ _ _ _ _ _ _ Ep Eq Ep' Eq' E2 E4) as (f & w & Ef & Ew & E). exists p, q, p', q', f, w, v, v'.
  repeat (split; [assumption|]). pose proof (rk_monoid T (fk_ring T TK)) as M. pose proof (rk_mul_comm T (fk_ring T TK)) as CM.
  assert (X : omul T w v = v').
  { (* w = w u' v' = u v' *)
    assert (W : w = omul T u v').
    { rewrite <- E, <- (ml_assoc _ _ M), (CM u' v'), I', CM. symmetry. apply (ml_1_l _ _ M). }
    rewrite W, CM, (ml_assoc _ _ M), I. apply (ml_1_l _ _ M). }
  split; [exact X|]. assert (Nv : v <> o0 T). { intros ->. rewrite (rk_mul_0_l T (fk_ring T TK)) in I. now apply (fk_1_neq_0 T TK). }
  pose proof (quot_one T TK w v' v Nv X) as O. rewrite O. split; congruence.
Qed.
End Groups.
Lemma final_nonzero {T} (F : Fops T) (FK : field_ok F) N r fe : final_exp_ok F N r fe -> 0 < r -> forall x y, fe x = Ok y -> y <> o0 F.
Proof.
  intros (Z0 & _ & c & _ & _ & FF) Hr x y E ->. assert (Nx : x <> o0 F) by (intros ->; congruence).
  destruct (FF x Nx) as (y & Ey & _ & O). assert (y = o0 F) as -> by congruence.
  replace (Z.to_nat r) with (S (Z.to_nat (r - 1))) in O by lia. cbn [npow] in O. rewrite (rk_mul_0_l F (fk_ring F FK)) in O. now apply (fk_1_neq_0 F FK).
Qed.
Section FourG.
Context {K : Type} (F : Fops K) (e : Z -> K) (D : four_consts).
Definition fo_group_quotient : Prop := group_quotient F (foF2 F e D) (fp4_mnr F (e (ft_nr4 D))) (e (ft_a D)) (e (ft_b D)) (fo_twist_a F e D) (fo_twist_b F e D) (fc_p (ft_Fr D))
  (fo_affine_G1 F e D) (fo_affine_G2 F e D) (fo_reduced_pairing F e D) (fo_final F e D) (fo_e_over_e F e D) false.
Lemma fo_pre P Q v : fo_affine_reduced_pairing F e D P Q = Ok v -> exists p q f, fo_affine_G1 F e D P = Ok p /\ fo_affine_G2 F e D Q = Ok q /\ fo_final F e D f = Ok v.
Proof.
  unfold fo_affine_reduced_pairing, mnt4_affine_reduced_pairing, fo_affine_G1, fo_affine_G2, fo_final. cbv zeta.
  destruct (affine_precompute_G1 _ _ _ _ P) as [p| | | | |]; try discriminate. cbn [bind].
  destruct (affine_precompute_G2 _ _ _ _ Q) as [q| | | | |]; try discriminate. cbn [bind].
  destruct (miller_value _) as [f| | | | |]; try discriminate. cbn [bind]. intros H. exists p, q, f. auto.
Qed.
Lemma four_group_quotient : field_ok (foF4 F e D) -> 0 < fc_p (ft_Fr D) -> final_exp_ok (foF4 F e D) (fc_p (ft_Fq D) ^ 4 - 1) (fc_p (ft_Fr D)) (fo_final F e D) ->
  fo_quotients F e D -> fo_affine_agrees F e D -> fo_group_quotient.
Proof.
  intros TK Hr FE [Q _] A. refine (group_quotient_agrees F (foF2 F e D) (fp4_mnr F (e (ft_nr4 D))) _ _ _ _ _ _ _ _ _ _ (fo_affine_reduced_pairing F e D) TK _ _ Q A).
  - intros P R v H. destruct (fo_pre P R v H) as (p & q & f & H1 & H2 & _). eauto.
  - intros P R v H. destruct (fo_pre P R v H) as (p & q & f & _ & _ & H3). exact (final_nonzero _ TK _ _ _ FE Hr _ _ H3).
Qed.
End FourG.
Section SixG.
Context {K : Type} (F : Fops K) (e : Z -> K) (D : six_consts).
Definition si_group_quotient : Prop := group_quotient F (siF3 F e D) (rot_mnr F (e (st_nr6 D))) (e (fst (st_ad D))) (e (snd (st_ad D))) (si_twist_a F e D) (si_twist_b F e D) (fc_p (st_Fr D))
  (si_affine_G1 F e D) (si_affine_G2 F e D) (si_mnt6_reduced_pairing F e D) (si_final F e D) (si_e_over_e F e D) true.
Lemma si_pre P Q v : si_mnt6_affine_reduced_pairing F e D P Q = Ok v -> exists p q f, si_affine_G1 F e D P = Ok p /\ si_affine_G2 F e D Q = Ok q /\ si_final F e D f = Ok v.
Proof.
  unfold si_mnt6_affine_reduced_pairing, mnt6_affine_reduced_pairing, si_affine_G1, si_affine_G2, si_final. cbv zeta.
  destruct (affine_precompute_G1 _ _ _ _ P) as [p| | | | |]; try discriminate. cbn [bind].
  destruct (affine_precompute_G2 _ _ _ _ Q) as [q| | | | |]; try discriminate. cbn [bind].
  destruct (miller_value _) as [f| | | | |]; try discriminate. cbn [bind]. intros H. exists p, q, f. auto.
Qed.
Lemma six_group_quotient : field_ok (siF6 F e D) ->
  si_quotients F e D -> si_affine_inverse F e D -> si_group_quotient.
Proof.
  intros TK [Q _] A. refine (group_quotient_inverse F (siF3 F e D) (rot_mnr F (e (st_nr6 D))) _ _ _ _ _ _ _ _ _ _ (si_mnt6_affine_reduced_pairing F e D) TK _ Q A).
  - intros P R v H. destruct (si_pre P R v H) as (p & q & f & H1 & H2 & _). eauto.
Qed.
End SixG.
Lemma mnt4_group_quotient CO : let D := mnt4_tower in fo_group_quotient (cF (ft_Fq D) CO) (ce (ft_Fq D) CO) D.
Proof.
  intros D. set (F := cF (ft_Fq D) CO). set (e := ce (ft_Fq D) CO). set (PB := base_prime (ft_Fq D) CO). pose proof (shipped_four_ok D CO (or_introl eq_refl)) as T.
  pose proof (mnt_check_disc F e (toZ (fc_P (ft_Fq D))) _ _ _ _ _ _ _ (base_hom _ CO) mnt4_mnt_check) as ND.
  apply four_group_quotient.
  - exact (qs_TK _ _ _ _ _ _ _ _ _ _ _ (four_setup F e D PB (base_char2 (ft_Fq D) CO) T ND)).
  - reflexivity.
  - exact (mnt4_final_shipped CO).
  - exact (mnt4_quotients CO).
  - exact (mnt4_affine CO).
Qed.
Lemma mnt6_group_quotient CO : let D := mnt6_tower in si_group_quotient (cF (st_Fq D) CO) (ce (st_Fq D) CO) D.
Proof.
  intros D. set (F := cF (st_Fq D) CO). set (e := ce (st_Fq D) CO). set (PB := base_prime (st_Fq D) CO).
  assert (HD : In D shipped_six) by (unfold shipped_six; cbn; tauto). pose proof (shipped_six_ok D CO HD) as T.
  pose proof (mnt_check_disc F e (toZ (fc_P (st_Fq D))) _ _ _ _ _ _ _ (base_hom _ CO) mnt6_mnt_check) as ND.
  apply six_group_quotient.
  - exact (qs_TK _ _ _ _ _ _ _ _ _ _ _ (six_setup F e D PB (base_char2 (st_Fq D) CO) T ND)).
  - exact (mnt6_quotients CO).
  - exact (proj1 (mnt6_affine CO)).
Qed.
