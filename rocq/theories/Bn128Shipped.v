(** The constants of bn128_init.cpp, and the bn128 theorems over the fields
    they are meant for. *)
From Coq Require Import ZArith Znumtheory List Bool Lia.
From Verif Require Import Result Limbs Mul63 FpSpec FpField FieldOps Algebra ParamsModel ParamsProofs FpInst AlgorithmsModel AlgorithmsField
  ExtModel ExtProofs ExtFrob ExtInst CurveSpec CurveModel Hom TowerModel TowerSpec TowerProofs TowerShipped TowerSqrt PairingModel PairingShipped
  FinalExpProofs MillerSpec MillerTwelve MillerShipped MontRing HomMont HomPairing GenProofs GenShipped StreamModel FpModel FpProofs FpField GroupOps CurveGroup CurveProofs CurveExtra CurveIoModel CurveIoProofs LimbsProofs BigintProofs Bn128Model Bn128Proofs.
Import ListNotations.
Open Scope Z_scope.

(** The same tower and curve with other generators. *)
Definition with_gens (D : twelve_consts) (g1 : Z2) (g2 : Z2 * Z2) : twelve_consts :=
  mkTwelve (bt_Fq D) (bt_Fr D) (bt_nr2 D) (bt_c2 D) (bt_s2 D) (bt_nr6 D) (bt_c61 D) (bt_c62 D) (bt_s6 D)
    (bt_nr12 D) (bt_c12 D) (bt_s12 D) (bt_b D) (bt_twist D) (bt_twist_b_inv D) (bt_qX D) (bt_qY D)
    g1 (bt_h1 D) g2 (bt_h2 D) (bt_loop D) (bt_loop_neg D) (bt_z D) (bt_z_neg D).
Definition bn128_tower : twelve_consts := with_gens alt_bn128_tower (bn_G1 bn128_init) (bn_G2 bn128_init).

Lemma with_gens_mill D g1 g2 : mill_check (with_gens D g1 g2) = mill_check D.
Proof. reflexivity. Qed.
Lemma with_gens_ok {K} (F : Fops K) e D g1 g2 : twelve_ok F e D ->
  sw_on F (o0 F) (tw_b e D) (Aff (e (fst g1)) (e (snd g1))) ->
  sw_on (twF2 F e D) (o0 (twF2 F e D)) (tw_twist_b F e D) (Aff (map2 e (fst g2)) (map2 e (snd g2))) ->
  twelve_ok F e (with_gens D g1 g2).
Proof. intros [] O1 O2. constructor; assumption. Qed.

(** Curve equations with the twist coefficient of bn128. *)
Definition bn128_curve_check (D : twelve_consts) (N : bn128_consts) : bool :=
  let p := fc_p (bt_Fq D) in
  let G := zq p in
  let G2 := fp2_ops G (bt_nr2 D) in
  let r2 := rng2 (rngZ p) in
  ctx_check p && rngZ p (bt_nr2 D) && bt_twist_b_inv D && rngZ p (bt_b D) && r2 (bt_twist D) && r2 (bn_twist_b N) &&
  negb (oeqb G2 (bt_twist D) (o0 G2)) &&
  oeqb G2 (omul G2 (bn_twist_b N) (bt_twist D)) (quad_emb G (bt_b D)) &&
  sw_check G (rngZ p) (o0 G) (bt_b D) (fst (bn_G1 N)) (snd (bn_G1 N)) &&
  sw_check G2 r2 (o0 G2) (bn_twist_b N) (fst (bn_G2 N)) (snd (bn_G2 N)).
Section Generic.
Context {K : Type} (F : Fops K) (e : Z -> K) (h : K -> Z) (D : twelve_consts) (N : bn128_consts).
Let p := fc_p (bt_Fq D).
Hypothesis FK : field_ok F.
Hypothesis FK2 : field_ok (twF2 F e D).
Hypothesis H1 : ctx_check p = true -> hom F (zq p) h e (rngZ p).
Hypothesis Ck : bn128_curve_check D N = true.
Lemma bn128_curve_ok :
  map2 e (bn_twist_b N) = tw_twist_b F e D /\
  sw_on F (o0 F) (tw_b e D) (Aff (e (fst (bn_G1 N))) (e (snd (bn_G1 N)))) /\
  sw_on (twF2 F e D) (o0 (twF2 F e D)) (tw_twist_b F e D) (Aff (map2 e (fst (bn_G2 N))) (map2 e (snd (bn_G2 N)))).
Proof.
  pose proof Ck as C. unfold bn128_curve_check in C. fold p in C. cbv zeta in C. rewrite !andb_true_iff in C.
  destruct C as [[[[[[[[[C1 C2] C3] C4] C5] C6] C7] C8] C9] C10].
  pose proof (H1 C1) as H. pose proof (hom_fp2 _ _ _ _ _ H _ C2) as H2. fold (twF2 F e D) in H2.
  assert (Et : map2 e (bn_twist_b N) = tw_twist_b F e D).
  { unfold tw_twist_b. rewrite C3. rewrite (scale_emb F (fk_ring F FK) (e (bt_nr2 D))).
    fold (twF2 F e D).
    assert (NT : map2 e (bt_twist D) <> o0 (twF2 F e D)).
    { intros E. apply (f_equal (map2 h)) in E. rewrite (hm_lift H2 C5), (hm_0 _ _ _ _ _ H2) in E.
      apply negb_true_iff in C7. rewrite E in C7.
      assert (X : oeqb (fp2_ops (zq p) (bt_nr2 D)) (o0 (fp2_ops (zq p) (bt_nr2 D))) (o0 (fp2_ops (zq p) (bt_nr2 D))) = true)
        by now apply (hm_eqb _ _ _ _ _ H2).
      congruence. }
    apply (fk_mul_cancel (twF2 F e D) FK2 _ _ (map2 e (bt_twist D)) NT).
    destruct (tinv_spec (twF2 F e D) FK2 _ NT) as [_ I].
    pose proof (rk_monoid _ (fk_ring _ FK2)) as M.
    rewrite <- (ml_assoc _ _ M), I, (ml_1_r _ _ M).
    apply (hm_inj H2). rewrite (hm_mul _ _ _ _ _ H2), (hm_lift H2 C5), (hm_lift H2 C6).
    apply (hm_eqb _ _ _ _ _ H2) in C8. rewrite C8. unfold quad_emb, map2. cbn [fst snd].
    unfold tw_b. rewrite (hm_lift H C4), (hm_0 _ _ _ _ _ H). reflexivity. }
  split; [exact Et|]. split.
  - apply (sw_check_ok F (zq p) h e (rngZ p) H).
    rewrite (hm_0 _ _ _ _ _ H). unfold tw_b. rewrite (hm_lift H C4). exact C9.
  - apply (sw_check_ok (twF2 F e D) (fp2_ops (zq p) (bt_nr2 D)) (map2 h) (map2 e) (rng2 (rngZ p)) H2).
    rewrite (hm_0 _ _ _ _ _ H2), <- Et, (hm_lift H2 C6). exact C10.
Qed.
End Generic.

Lemma bn128_check : bn128_curve_check alt_bn128_tower bn128_init = true. Proof. vm_compute. reflexivity. Qed.
Lemma bn128_gen_check : gen_check bn128_tower = true. Proof. vm_compute. reflexivity. Qed.

(** The square-root parameters of bn128: those of the fields with q and q^2
    elements. *)
Definition bn128_sqrt1 {K} (e : Z -> K) : sqrt_params K :=
  bn_sqrt_params 4 (fc_t bn128_Fq_C) (e (fc_nqr bn128_Fq_C)) (bn_s bn128_init) (bn_tm1 bn128_init) (e (bn_nqr_to_t bn128_init)).
Definition bn128_sqrt2 {K} (e : Z -> K) : sqrt_params (K * K) :=
  bn_sqrt_params 8 (sc_t (bt_s2 alt_bn128_tower)) (map2 e (sc_nqr (bt_s2 alt_bn128_tower)))
    (bn_s2 bn128_init) (bn_tm12 bn128_init) (map2 e (bn_nqr_to_t2 bn128_init)).

Lemma bn128_sqrt1_eq CO : bn128_sqrt1 (ce alt_bn128_Fq_C CO) = fp_sqrt_params alt_bn128_Fq_C CO.
Proof. reflexivity. Qed.
Lemma bn128_sqrt2_eq {K} (e : Z -> K) :
  bn128_sqrt2 e = sqrt_of (map2 e) (2 * cn (bt_Fq alt_bn128_tower)) (bt_s2 alt_bn128_tower).
Proof. reflexivity. Qed.
Lemma bn128_Fq_same : bn128_Fq_P = alt_bn128_Fq_P. Proof. reflexivity. Qed.

Theorem bn128_fields CO : let D := alt_bn128_tower in let F := cF (bt_Fq D) CO in let e := ce (bt_Fq D) CO in
  let q := fc_p bn128_Fq_C in
  big_field_ok F (bn128_sqrt1 e) q /\ big_field_ok (twF2 F e D) (bn128_sqrt2 e) (q ^ 2).
Proof.
  intros D F e q. change q with (fc_p (bt_Fq D)). split.
  - change (bn128_sqrt1 e) with (bn128_sqrt1 (ce alt_bn128_Fq_C CO)). rewrite (bn128_sqrt1_eq CO). constructor.
    + exact (prime_field_ok alt_bn128_Fq_C CO).
    + exact (prime_order alt_bn128_Fq_C CO).
    + exact (prime_char alt_bn128_Fq_C CO).
    + exact (prime_sqrt_ok alt_bn128_Fq_C CO eq_refl).
  - rewrite bn128_sqrt2_eq. exact (proj1 (shipped_twelve_fields D CO (or_introl eq_refl))).
Qed.
Theorem bn128_curve CO : let D := alt_bn128_tower in let F := cF (bt_Fq D) CO in let e := ce (bt_Fq D) CO in
  bn_b bn128_init = bt_b D /\ map2 e (bn_twist_b bn128_init) = tw_twist_b F e D /\
  bn_h1 bn128_init = bt_h1 D /\ bn_h2 bn128_init = bt_h2 D.
Proof.
  intros D F e. split; [reflexivity|]. split; [|now split].
  refine (proj1 (bn128_curve_ok F e (toZ (fc_P (bt_Fq D))) D bn128_init _ _ (base_hom _ CO) bn128_check)).
  - exact (bf_field _ _ _ (proj1 (bn128_fields CO))).
  - exact (bf_field _ _ _ (proj2 (bn128_fields CO))).
Qed.
Lemma bn128_twelve_ok CO : twelve_ok (cF (bt_Fq alt_bn128_tower) CO) (ce (bt_Fq alt_bn128_tower) CO) bn128_tower.
Proof.
  destruct (bn128_curve_ok (cF (bt_Fq alt_bn128_tower) CO) (ce (bt_Fq alt_bn128_tower) CO) (toZ (fc_P (bt_Fq alt_bn128_tower))) alt_bn128_tower bn128_init
    (bf_field _ _ _ (proj1 (bn128_fields CO))) (bf_field _ _ _ (proj2 (bn128_fields CO))) (base_hom _ CO) bn128_check) as (_ & O1 & O2).
  exact (with_gens_ok _ _ _ _ _ (shipped_twelve_ok alt_bn128_tower CO (or_introl eq_refl)) O1 O2).
Qed.
Theorem bn128_generators CO : let D := bn128_tower in let F := cF (bt_Fq D) CO in let e := ce (bt_Fq D) CO in
  tw_G1 F e D (gen1 e D) /\ tw_G2 F e D (gen2 e D).
Proof.
  intros D F e. assert (HI : In alt_bn128_tower shipped_twelve) by now left.
  apply (gen_ok F e (toZ (fc_P (bt_Fq D))) D (base_prime (bt_Fq D) CO) (bn128_twelve_ok CO) (base_hom _ CO (shipped_ctx alt_bn128_tower HI))) with (hM := mont (fc_P (bt_Fq D))).
  - exact (eq_trans (with_gens_mill _ _ _) alt_bn128_mill).
  - exact (base_mont _ CO (shipped_rctx alt_bn128_tower HI)).
  - exact (base_mont_e _ CO (shipped_rctx alt_bn128_tower HI)).
  - exact bn128_gen_check.
Qed.

(** ** Points *)

(** What is asked of ate-pairing: ECDouble doubles every point, ECAdd adds two
    different points neither of which is O. *)
Definition ecdouble_ok {K} (F : Fops K) (b : K) (ec_dbl : pt K -> pt K) : Prop :=
  forall p, jac_ok F b p -> jac_den F (ec_dbl p) = sw_add F (o0 F) (jac_den F p) (jac_den F p).
Definition ecadd_ok {K} (F : Fops K) (b : K) (ec_add : pt K -> pt K -> pt K) : Prop :=
  forall p q, jac_ok F b p -> jac_ok F b q -> jac_den F p <> Inf -> jac_den F q <> Inf -> jac_den F p <> jac_den F q ->
    jac_den F (ec_add p q) = sw_add F (o0 F) (jac_den F p) (jac_den F q).
Theorem bn_laws {K} (F : Fops K) (FK : field_ok F) b ec_add ec_dbl : oadd F (o1 F) (o1 F) <> o0 F ->
  sw_disc F (o0 F) b <> o0 F ->
  (forall p, jac_ok F b p -> jac_den F (ec_dbl p) = sw_add F (o0 F) (jac_den F p) (jac_den F p)) ->
  (forall p q, jac_ok F b p -> jac_ok F b q -> jac_den F p <> Inf -> jac_den F q <> Inf -> jac_den F p <> jac_den F q ->
    jac_den F (ec_add p q) = sw_add F (o0 F) (jac_den F p) (jac_den F q)) ->
  point_laws (bn_gops F ec_add ec_dbl) (bn_opp F) (bn_eqb F) (jac_ok F b).
Proof.
  intros H2 HD DBL ADD. apply (point_laws_hold _ _ _ _ _ _ _ _ (bn_gops_ok F FK b H2 HD ec_add ec_dbl DBL ADD)).
  - intros p q Op Oq. rewrite (bn_eqb_den F FK p q), sp_dent_eq, !jac_dent_val by auto. reflexivity.
  - intros p Op. split; [now apply bn_ok_opp|]. apply sw_pt_eq.
    rewrite (sp_opp_val F FK), !jac_dent_val by (auto; now apply bn_ok_opp). now apply bn_opp_den.
Qed.

(** Points of odd order have no vanishing y coordinate. *)
Lemma odd_torsion_y {K} (F : Fops K) (FK : field_ok F) a b r x y : torsion F a b r (Aff x y) -> Z.odd r = true -> 0 < r -> y <> o0 F.
Proof.
  intros [_ HT] Od Hr E. subst y.
  assert (DA : sw_add F a (Aff x (o0 F)) (Aff x (o0 F)) = Inf).
  { pose proof (sw_add_opp_r F FK a (Aff x (o0 F))) as H. cbn [sw_opp] in H.
    now rewrite (rk_opp_0 F (fk_ring F FK)) in H. }
  assert (H : forall n, mult F a n (Aff x (o0 F)) = Inf \/ mult F a n (Aff x (o0 F)) = Aff x (o0 F)).
  { induction n as [n IH|n IH|]; [right|left|now right]; cbn [mult]; destruct IH as [-> | ->]; rewrite ?DA; reflexivity. }
  destruct (Z.to_pos r) as [n|n|] eqn:En.
  - cbn [mult] in HT. destruct (H n) as [E|E]; rewrite E in HT; rewrite ?DA in HT; discriminate.
  - exfalso. rewrite <- (Z2Pos.id r Hr), En in Od. discriminate.
  - discriminate.
Qed.

(** The lowest bit of the first byte of an element of bn::Fp, kept in
    Montgomery form. *)
Definition mont_codec (P : fp_params) (bin mont : bool) : codec (Fp P) :=
  {| cd_wr := cd_wr (fp_codec P bin mont); cd_rd := cd_rd (fp_codec P bin mont);
     cd_lsb := fun x => Ok (Z.land (nth 0 (repr P x) 0) 1) |}.
Lemma mont_codec_ok P bin mont : fp_ok P -> codec_ok bin (mont_codec P bin mont).
Proof.
  intros OK. split; [exact (co_rt _ _ (fp_codec_ok P bin mont OK))|].
  intros x. cbn [cd_lsb mont_codec]. rewrite land_1_bit. pose proof (Z.mod_pos_bound (nth 0 (repr P x) 0) 2).
  assert (H1 : nth 0 (repr P x) 0 mod 2 = 0 \/ nth 0 (repr P x) 0 mod 2 = 1) by lia. destruct H1 as [-> | ->]; auto.
Qed.
Lemma val_bit l : val l mod 2 = nth 0 l 0 mod 2.
Proof.
  destruct l as [|a l]; [reflexivity|]. cbn [nth val]. rewrite Z.add_mod, Z.mul_mod by lia.
  change (B mod 2) with 0. rewrite Z.mul_0_l, Z.mod_0_l, Z.add_0_r, Z.mod_mod by lia. reflexivity.
Qed.
Lemma mont_lsb_opp P (OK : fp_ok P) OKI bin mont y : Z.odd (val (fp_modulus P)) = true ->
  y <> o0 (fp_ops P OK OKI) ->
  cd_lsb (mont_codec P bin mont) (oopp (fp_ops P OK OKI) y) <> cd_lsb (mont_codec P bin mont) y.
Proof.
  intros Od N E. cbn [cd_lsb mont_codec] in E. injection E as E. rewrite !land_1_bit, <- !val_bit in E.
  change (repr P (oopp (fp_ops P OK OKI) y)) with (fp_neg P (repr P y)) in E.
  pose proof (repr_canon P y) as Cy. unfold fp_neg in E.
  destruct (fp_is_zero (repr P y)) eqn:Z0.
  - apply N. apply (toZ_inj P OK). cbn [o0 fp_ops]. rewrite (toZ_zero P OK). unfold toZ.
    rewrite (fp_is_zero_spec P OK) in Z0 by exact Cy. now apply Z.eqb_eq in Z0.
  - destruct (mpn_sub (fp_modulus P) (repr P y)) as [r b] eqn:E2. cbn [fst] in E.
    pose proof Cy as (L1 & L2 & L3).
    apply mpn_sub_spec in E2 as (V & Lr & Len). rewrite (ok_len P OK) in V, Len.
    pose proof (val_nonneg r Lr) as B1. pose proof (val_bound r Lr) as B2. rewrite Len in B2.
    pose proof (val_nonneg _ L2) as B3. pose proof (val_bound _ (ok_limbs P OK)) as B4. rewrite (ok_len P OK) in B4.
    assert (b = 0) by nia. subst b. replace (val r) with (val (fp_modulus P) - val (repr P y)) in E by lia.
    rewrite !Zmod_odd, Z.odd_sub, Od in E. destruct (Z.odd (val (repr P y))); discriminate.
Qed.

(** ** Streams over the shipped fields *)
Section ShippedIo.
Variable CO : field_consts_ok alt_bn128_Fq_C.
Let D := alt_bn128_tower.
Let F := cF (bt_Fq D) CO.
Let e := ce (bt_Fq D) CO.
Let F2 := twF2 F e D.
Variable C : codec (Fp (fc_P (bt_Fq D))).
Variables (bin comp debug : bool) (fuel : nat).
Hypothesis HC : codec_ok bin C.
Hypothesis HL : forall y, y <> o0 F -> cd_lsb C (oopp F y) <> cd_lsb C y.
Hypothesis Hf : 4 < Z.of_nat fuel.

Lemma bn128_recover1 y : y <> o0 F -> recoverable F C (bn_sqrt F (bn128_sqrt1 e) debug fuel) y.
Proof.
  intros N. pose proof (proj1 (bn128_fields CO)) as [FK OD C2 SO]. split; [apply HL|].
  apply (bn_sqrt_square F FK (bn128_sqrt1 e) _ debug fuel y C2 SO OD); [|exact N].
  cbn [sq_s bn128_sqrt1 bn_sqrt_params bn_s bn128_init]. lia.
Qed.
Lemma bn128_recover2 y : fst y <> o0 F -> recoverable F2 (bn_fp2_codec bin C) (bn_sqrt F2 (bn128_sqrt2 e) debug fuel) y.
Proof.
  intros N. pose proof (proj2 (bn128_fields CO)) as [FK OD C2 SO]. split.
  - intros _. destruct y as [y0 y1]. exact (HL y0 N).
  - apply (bn_sqrt_square F2 FK (bn128_sqrt2 e) _ debug fuel y C2 SO OD).
    + cbn [sq_s bn128_sqrt2 bn_sqrt_params bn_s2 bn128_init]. lia.
    + intros E. apply N. rewrite E. reflexivity.
Qed.

Theorem bn128_g1_io p : jac_ok F (tw_b e D) p -> (forall x y, jac_den F p = Aff x y -> y <> o0 F) ->
  exists w q, bn_write F C bin comp p = Ok w /\ bn_normal F p q /\
    forall rest, (comp = true \/ after bin rest) ->
      bn_read F C bin comp (bn_sqrt F (bn128_sqrt1 e) debug fuel) (tw_b e D) (w ++ rest) = Ok (q, rest).
Proof.
  intros O HY. apply (bn_roundtrip F (bf_field _ _ _ (proj1 (bn128_fields CO))) C bin comp HC); [exact O|].
  intros x y E _. exact (bn128_recover1 y (HY x y E)).
Qed.
Theorem bn128_g2_io p : jac_ok F2 (tw_twist_b F e D) p -> (forall x y, jac_den F2 p = Aff x y -> fst y <> o0 F) ->
  exists w q, bn_write F2 (bn_fp2_codec bin C) bin comp p = Ok w /\ bn_normal F2 p q /\
    forall rest, (comp = true \/ after bin rest) ->
      bn_read F2 (bn_fp2_codec bin C) bin comp (bn_sqrt F2 (bn128_sqrt2 e) debug fuel) (tw_twist_b F e D) (w ++ rest) = Ok (q, rest).
Proof.
  intros O HY. apply (bn_roundtrip F2 (bf_field _ _ _ (proj2 (bn128_fields CO))) (bn_fp2_codec bin C) bin comp (bn_fp2_codec_ok bin C HC)); [exact O|].
  intros x y E _. exact (bn128_recover2 y (HY x y E)).
Qed.
Theorem bn128_g1_vector_io vec : Forall (fun p => jac_ok F (tw_b e D) p /\ forall x y, jac_den F p = Aff x y -> y <> o0 F) vec ->
  Z.of_nat (length vec) < 2 ^ 64 ->
  exists w out, bn_write_vector F C bin comp vec = Ok w /\ Forall2 (bn_normal F) vec out /\
    forall rest, bn_read_vector F C bin comp (bn_sqrt F (bn128_sqrt1 e) debug fuel) (tw_b e D) (w ++ rest) = Ok (out, rest).
Proof.
  intros HV HN. apply (bn_vector_roundtrip F (bf_field _ _ _ (proj1 (bn128_fields CO))) C bin comp HC); [|exact HN|].
  - apply Forall_forall. intros p I. exact (proj1 (proj1 (Forall_forall _ _) HV p I)).
  - intros p x y I E _. exact (bn128_recover1 y (proj2 (proj1 (Forall_forall _ _) HV p I) x y E)).
Qed.
(** Every point of G1, the group of order r. *)
Theorem bn128_g1_torsion p : torsion F (o0 F) (tw_b e D) (fc_p (bt_Fr D)) (jac_den F p) ->
  jac_ok F (tw_b e D) p /\ forall x y, jac_den F p = Aff x y -> y <> o0 F.
Proof.
  intros T. split; [exact (proj1 T)|]. intros x y E. rewrite E in T.
  exact (odd_torsion_y F (bf_field _ _ _ (proj1 (bn128_fields CO))) _ _ _ x y T eq_refl eq_refl).
Qed.
(** Two points of G2 with [Y.a_ = 0] and opposite [Y.b_] have the same
    compressed form. *)
Theorem bn128_g2_ambiguous p x y1 : jac_den F2 p = Aff x (o0 F, y1) -> y1 <> o0 F ->
  bn_write F2 (bn_fp2_codec bin C) bin true (bn_opp F2 p) = bn_write F2 (bn_fp2_codec bin C) bin true p /\
  jac_den F2 (bn_opp F2 p) <> jac_den F2 p.
Proof.
  intros E N. pose proof (proj2 (bn128_fields CO)) as [FK OD C2 SO].
  apply (bn_write_opp F2 FK (bn_fp2_codec bin C) bin p x (o0 F, y1) E).
  - intros H. apply N. exact (f_equal snd H).
  - exact C2.
  - change (cd_lsb C (oopp F (o0 F)) = cd_lsb C (o0 F)).
    now rewrite (rk_opp_0 F (fk_ring F (bf_field _ _ _ (proj1 (bn128_fields CO))))).
Qed.
End ShippedIo.

(** ** Zero has no square root *)
Theorem bn128_sqrt_zero CO debug fuel : let D := alt_bn128_tower in let F := cF (bt_Fq D) CO in let e := ce (bt_Fq D) CO in
  let F2 := twF2 F e D in
  bn_sqrt F (bn128_sqrt1 e) debug fuel (o0 F) = (if debug then AssertFail else OutOfFuel) /\
  bn_sqrt F2 (bn128_sqrt2 e) debug fuel (o0 F2) = (if debug then AssertFail else OutOfFuel).
Proof.
  intros D F e F2. split.
  - exact (bn_sqrt_zero F (bf_field _ _ _ (proj1 (bn128_fields CO))) (bn128_sqrt1 e) debug fuel).
  - exact (bn_sqrt_zero F2 (bf_field _ _ _ (proj2 (bn128_fields CO))) (bn128_sqrt2 e) debug fuel).
Qed.
Theorem bn128_sqrt_nonzero CO debug fuel : 4 < Z.of_nat fuel ->
  let D := alt_bn128_tower in let F := cF (bt_Fq D) CO in let e := ce (bt_Fq D) CO in let F2 := twF2 F e D in
  (forall y, y <> o0 F -> exists r, bn_sqrt F (bn128_sqrt1 e) debug fuel (omul F y y) = Ok r /\ (r = y \/ r = oopp F y)) /\
  (forall y, y <> o0 F2 -> exists r, bn_sqrt F2 (bn128_sqrt2 e) debug fuel (omul F2 y y) = Ok r /\ (r = y \/ r = oopp F2 y)).
Proof.
  intros Hf D F e F2. pose proof (bn128_fields CO) as [[FK OD C2 SO] [FK2 OD2 C22 SO2]]. split.
  - intros y N. apply (bn_sqrt_square F FK (bn128_sqrt1 e) _ debug fuel y C2 SO OD); [|exact N].
    cbn [sq_s bn128_sqrt1 bn_sqrt_params bn_s bn128_init]. lia.
  - intros y N. apply (bn_sqrt_square F2 FK2 (bn128_sqrt2 e) _ debug fuel y C22 SO2 OD2); [|exact N].
    cbn [sq_s bn128_sqrt2 bn_sqrt_params bn_s2 bn128_init]. lia.
Qed.
(** A compressed encoding whose x is that of no point, or that of a point with
    y = 0, is not rejected: the square root runs forever, or asserts in DEBUG
    builds. *)
Theorem bn128_read_stuck CO C bin debug fuel x w c rest : let D := alt_bn128_tower in let F := cF (bt_Fq D) CO in let e := ce (bt_Fq D) CO in
  cd_wr C x = Ok w -> codec_ok bin C ->
  (forall y, y <> o0 F -> omul F y y <> oadd F (omul F (omul F x x) x) (tw_b e D)) ->
  bn_read F C bin true (bn_sqrt F (bn128_sqrt1 e) debug fuel) (tw_b e D)
    (ch_0 :: output_separator bin ++ w ++ output_separator bin ++ c :: rest)
  = if debug then AssertFail else OutOfFuel.
Proof.
  intros D F e Ew HC HN. pose proof (proj1 (bn128_fields CO)) as [FK OD C2 SO].
  rewrite (bn_read_off_curve F FK C bin true HC _ _ x w c rest Ew eq_refl).
  set (rhs := oadd F (omul F (omul F x x) x) (tw_b e D)) in *.
  assert (E : bn_sqrt F (bn128_sqrt1 e) debug fuel rhs = if debug then AssertFail else OutOfFuel).
  { destruct (rk_dec F (fk_ring F FK) rhs (o0 F)) as [E0|N0].
    - rewrite E0. exact (bn_sqrt_zero F FK (bn128_sqrt1 e) debug fuel).
    - apply (bn_sqrt_nonsquare F FK (bn128_sqrt1 e) _ debug fuel rhs C2 SO OD).
      intros y. destruct (rk_dec F (fk_ring F FK) y (o0 F)) as [Ey|Ny]; [|exact (HN y Ny)].
      intros H. apply N0. rewrite <- H, Ey. apply (rk_mul_0_l F (fk_ring F FK)). }
  unfold pick_root. rewrite E. now destruct debug.
Qed.
