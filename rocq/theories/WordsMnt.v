(** Random points of mnt4, mnt6 and edwards at the shipped parameters. *)
From Coq Require Import ZArith Znumtheory List Bool Lia.
From Verif Require Import Result Limbs LimbsProofs BigintModel BigintProofs FpModel FpSpec FpProofs FpField Algebra FieldOps
  AlgorithmsModel AlgorithmsField GroupOps GroupProofs ParamsModel ParamsProofs ParamsA ParamsB ParamsC ParamsD ParamsAll FpInst
  ExtModel ExtSpec ExtFrob ExtProofs ExtInst CurveSpec CurveGroup CurveModel CurveProofs CurveExtra Hom TowerModel TowerSpec TowerProofs TowerShipped
  PairingModel PairingSpec PairingProofs PairingShipped MillerSpec MillerProofs MillerTwelve MillerRegular MillerOrder MillerShipped MillerQuad
  GenProofs GenShipped MillerBilinear BilinearQuad BilinearTwelve BilinearShipped MntShipped MntGen MntAffine TowerSqrt CurveEdwards CurveEdwOps CurveEdwGroup EdwSpec EdwSw EdwGroup EdwShipped EdwGen WordsModel WordsProofs WordsShipped
  Bn128Model Bn128Proofs Bn128Shipped.
Import ListNotations.
Open Scope Z_scope.

(** The random points are exactly the multiples of [gen] by 0, ..., r - 1. *)
Definition random_multiples {T G} (O : gops T) (C : field_consts) (one : T) (dn : T -> G) (times : Z -> G -> G) (gen : G) : Prop :=
  (forall fuel src p, curve_random_element O (fc_P C) one fuel src = Ok p -> exists k, 0 <= k < fc_p C /\ dn p = times k gen) /\
  (forall k, 0 <= k < fc_p C -> exists src p, curve_random_element O (fc_P C) one 1 src = Ok p /\ dn p = times k gen).

Section SW.
Context {K : Type} (F : Fops K) (FK : field_ok F) (a b : K).
Hypothesis H2 : oadd F (o1 F) (o1 F) <> o0 F.
Hypothesis HD : sw_disc F a b <> o0 F.
Context {T : Type} (O : gops T) (ok : T -> Prop) (dn : T -> apt K).
Hypothesis On : forall p, ok p -> sw_on F a b (dn p).
Hypothesis GO : gops_ok O ok (fun p => sp_mk F a b (dn p)) (sp_zero F a b) (sp_add F a b) (sp_opp F a b).
Variable C : field_consts.
Hypothesis CO : field_consts_ok C.
Variable one : T.
Hypothesis Ho : ok one.
Theorem sw_random_multiples : random_multiples O C one dn (times F a) (dn one).
Proof.
  split.
  - intros fuel src p E. exact (proj2 (sw_random_point F FK a b H2 HD O ok dn On GO C CO one Ho fuel src p E)).
  - intros k Hk.
    destruct (random_point_onto O ok _ _ _ _ GO (fc_P C) (fco_ok C CO) (fco_bits C CO) (oki_top _ (fco_inv C CO)) one Ho k Hk) as (src & p & E & D).
    exists src, p. split; [exact E|]. rewrite <- (times_gmul F FK a b H2 HD ok dn On one Ho) by lia. rewrite <- D. symmetry. apply (sp_mk_val F FK). apply On.
    exact (proj1 (random_point O ok _ _ _ _ GO (fc_P C) (fco_ok C CO) (fco_bits C CO) (oki_top _ (fco_inv C CO)) one Ho 1 src p E)).
Qed.
End SW.

Section Quad.
Context {K L : Type} (F : Fops K) (q : nat) (G : Fops L) (e1 : K -> L) (scale : K -> L -> L) (nu : L) (mnr : L -> L) (a b : K) (a' b' : L).
Hypothesis QS : quad_setup F q G e1 scale nu mnr a b a' b'.
Variables (C : field_consts) (CO : field_consts_ok C) (x y : K) (x' y' : L) (mul_a : K -> K) (mul_a' : L -> L).
Hypothesis O1 : sw_on F a b (Aff x y).
Hypothesis O2 : sw_on G a' b' (Aff x' y').
Hypothesis MA : forall z, mul_a z = omul F a z.
Hypothesis MA' : forall z, mul_a' z = omul G a' z.
Theorem quad_random : random_multiples (prj_gops F mul_a) C (x, y, o1 F) (prj_den F) (times F a) (Aff x y) /\
  random_multiples (prj_gops G mul_a') C (x', y', o1 G) (prj_den G) (times G a') (Aff x' y').
Proof.
  pose proof QS as QS'. destruct QS' as [PB' GK' E0 E1 EA EM' EO EI ES EN Nn TK' Ea Eb H2 HD].
  pose proof (pb_field F q PB') as FK.
  pose proof (two_G F G e1 E0 E1 EA EI H2) as H2G. pose proof (disc_G F G GK' e1 nu E0 EA EM' EI Nn a b a' b' Ea Eb HD) as HDG.
  rewrite <- (prj_den_aff F FK x y), <- (prj_den_aff G GK' x' y'). split.
  - exact (sw_random_multiples F FK a b H2 HD _ (prj_ok F a b) (prj_den F) (fun p H => proj1 H) (prj_gops_ok F FK a b mul_a MA H2 HD) C CO _ (prj_ok_aff F FK a b x y O1)).
  - exact (sw_random_multiples G GK' a' b' H2G HDG _ (prj_ok G a' b') (prj_den G) (fun p H => proj1 H) (prj_gops_ok G GK' a' b' mul_a' MA' H2G HDG) C CO _ (prj_ok_aff G GK' a' b' x' y' O2)).
Qed.
End Quad.

Theorem mnt4_random CO : let D := mnt4_tower in let F := cF (ft_Fq D) CO in let e := ce (ft_Fq D) CO in let F2 := foF2 F e D in
  random_multiples (prj_gops F (omul F (e (ft_a D)))) (ft_Fr D) (e (fst (ft_G1 D)), e (snd (ft_G1 D)), o1 F) (prj_den F) (times F (e (ft_a D))) (fo_gen1 e D) /\
  random_multiples (prj_gops F2 (mnt4_mul_by_a F (e (ft_a D)) (e (ft_nr2 D)))) (ft_Fr D) (map2 e (fst (ft_G2 D)), map2 e (snd (ft_G2 D)), o1 F2)
    (prj_den F2) (times F2 (fo_twist_a F e D)) (fo_gen2 e D).
Proof.
  intros D F e F2. pose proof (base_prime (ft_Fq D) CO) as PB. pose proof (base_char2 (ft_Fq D) CO) as C2.
  pose proof (shipped_four_ok D CO (or_introl eq_refl)) as T.
  pose proof (mnt_check_disc F e (toZ (fc_P (ft_Fq D))) _ _ _ _ _ _ _ (base_hom _ CO) mnt4_mnt_check) as HD.
  exact (quad_random F _ _ _ _ _ _ _ _ _ _ (four_setup F e D PB C2 T HD) (ft_Fr D) mnt4_Fr_ok _ _ _ _ _ _ (fo_g1 F e D T) (fo_g2 F e D T) (fun _ => eq_refl)
    (mnt4_mul_by_a_ok F (fk_ring F (pb_field F _ PB)) _ _)).
Qed.
Theorem mnt6_random CO : let D := mnt6_tower in let F := cF (st_Fq D) CO in let e := ce (st_Fq D) CO in let F3 := siF3 F e D in
  let a := e (fst (st_ad D)) in
  random_multiples (prj_gops F (omul F a)) (st_Fr D) (e (fst (st_G1 D)), e (snd (st_G1 D)), o1 F) (prj_den F) (times F a) (si_gen1 e D) /\
  random_multiples (prj_gops F3 (mnt6_mul_by_a F a (e (st_nr3 D)))) (st_Fr D) (map3 e (fst (st_G2 D)), map3 e (snd (st_G2 D)), o1 F3)
    (prj_den F3) (times F3 (si_twist_a F e D)) (si_gen2 e D).
Proof.
  intros D F e F3 a. pose proof (base_prime (st_Fq D) CO) as PB. pose proof (base_char2 (st_Fq D) CO) as C2.
  pose proof (shipped_six_ok D CO (or_introl eq_refl)) as T. pose proof (mnt6_sw_ok CO) as TW.
  pose proof (mnt_check_disc F e (toZ (fc_P (st_Fq D))) _ _ _ _ _ _ _ (base_hom _ CO) mnt6_mnt_check) as HD.
  exact (quad_random F _ _ _ _ _ _ _ _ _ _ (six_setup F e D PB C2 T HD) (st_Fr D) mnt6_Fr_ok _ _ _ _ _ _ (so_g1 F e D TW) (so_g2 F e D TW) (fun _ => eq_refl)
    (mnt6_mul_by_a_ok F (fk_ring F (pb_field F _ PB)) _ _)).
Qed.

(** ** edwards *)
Section Te.
Context {K : Type} (F : Fops K) (FK : field_ok F) (a d : K).
Hypothesis H2 : oadd F (o1 F) (o1 F) <> o0 F.
(** The k-fold point in textbook form. *)
Definition te_times (k : Z) (A : K * K) : K * K := match k with Z.pos n => te_mult F a d n A | _ => te_zero F end.
Variable C : field_consts.
Hypothesis CO : field_consts_ok C.
Hypothesis Rp : 0 < fc_p C.
Hypothesis Ro : Z.odd (fc_p C) = true.
Notation rn := (Z.to_nat (fc_p C)).
Variables (O : gops (K * K * K)) (x y : K).
Hypothesis Nx : x <> o0 F.
Hypothesis Ny : y <> o0 F.
Notation one := (edw_inverted F (x, y)).
Section Square_a.
Variable al : K.
Hypothesis HA : a = omul F al al.
Hypothesis NA : al <> o0 F.
Hypothesis ND : forall s, omul F s s <> d.
Hypothesis GO : gops_ok O (edw_okr F FK a d rn) (edw_dent F FK a d) (tp_zero F FK a d) (tp_add F FK a d) (tp_opp F FK a d).
Hypothesis HT : te_torsion F a d (fc_p C) (x, y).
Theorem te_random : random_multiples O C one (edw_den F) te_times (x, y).
Proof.
  destruct (edw_inverted_ok F FK a d x y Nx Ny (proj1 HT)) as [Ok1 D1].
  destruct (proj1 (te_torsion_iff F FK a d H2 (fc_p C) Rp al HA NA ND (x, y)) HT) as (A & EA & TA).
  assert (EB : edw_dent F FK a d one = A) by (apply te_pt_eq; rewrite (edw_dent_val F FK a d _ Ok1), D1, EA; reflexivity).
  assert (Ho : edw_okr F FK a d rn one) by (split; [exact Ok1|rewrite EB; exact TA]).
  assert (V : forall k p, 0 <= k -> edw_okr F FK a d rn p ->
    edw_dent F FK a d p = gmul (tp_zero F FK a d) (tp_add F FK a d) (tp_opp F FK a d) k (edw_dent F FK a d one) -> edw_den F p = te_times k (x, y)).
  { intros k p Hk [Op _] E. rewrite <- (edw_dent_val F FK a d _ Op), E, EB, <- EA. unfold gmul. rewrite (proj2 (Z.ltb_ge k 0) Hk).
    destruct k as [|n|n]; [reflexivity| |lia]. cbn [te_times]. rewrite (te_mult_tp F FK a d H2 0 al HA NA ND). reflexivity. }
  split.
  - intros fuel src p E.
    destruct (random_point O _ _ _ _ _ GO (fc_P C) (fco_ok C CO) (fco_bits C CO) (oki_top _ (fco_inv C CO)) one Ho fuel src p E) as (Op & k & Hk & D).
    exists k. split; [exact Hk|]. apply V; auto; lia.
  - intros k Hk.
    destruct (random_point_onto O _ _ _ _ _ GO (fc_P C) (fco_ok C CO) (fco_bits C CO) (oki_top _ (fco_inv C CO)) one Ho k Hk) as (src & p & E & D).
    exists src, p. split; [exact E|]. apply V; [lia| |exact D].
    exact (proj1 (random_point O _ _ _ _ _ GO (fc_P C) (fco_ok C CO) (fco_bits C CO) (oki_top _ (fco_inv C CO)) one Ho 1 src p E)).
Qed.
End Square_a.
Section Square_d.
Variable be : K.
Hypothesis HD : d = omul F be be.
Hypothesis NB : be <> o0 F.
Hypothesis NQ : forall s, omul F s s <> a.
Hypothesis GO : gops_ok O (edw_okr2 F FK a d rn) (edw_dent2 F FK a d) (tp_zero F FK d a) (tp_add F FK d a) (tp_opp F FK d a).
Hypothesis HT : te_torsion_dual F a d (fc_p C) (x, y).
Lemma te_dual_inj (P Q : K * K) : snd P <> o0 F -> snd Q <> o0 F -> te_dual F P = te_dual F Q -> P = Q.
Proof.
  destruct P as [x1 y1], Q as [x2 y2]. cbn [snd te_dual]. intros N1 N2 E. injection E as -> E. f_equal.
  rewrite <- (inv_inv F FK y1 N1), E. exact (inv_inv F FK y2 N2).
Qed.
Theorem te_random_dual : random_multiples O C one (edw_den F) te_times (x, y).
Proof.
  pose proof (tg_on F a d _ (dual_good F FK a d H2 (fc_p C) Rp Ro be HD NB NQ) (x, y) HT) as On.
  destruct (edw_inverted_ok F FK a d x y Nx Ny On) as [Ok1 D1].
  pose proof (proj2 HT) as HT1.
  destruct (proj1 (te_torsion_iff F FK d a H2 (fc_p C) Rp be HD NB NQ _) HT1) as (A & EA & TA).
  assert (EB : edw_dent2 F FK a d one = A) by (apply te_pt_eq; rewrite (edw_dent2_val F FK a d _ Ok1), D1, EA; reflexivity).
  assert (Ho : edw_okr2 F FK a d rn one) by (split; [exact Ok1|rewrite EB; exact TA]).
  assert (V : forall k p, 0 <= k -> edw_okr2 F FK a d rn p ->
    edw_dent2 F FK a d p = gmul (tp_zero F FK d a) (tp_add F FK d a) (tp_opp F FK d a) k (edw_dent2 F FK a d one) -> edw_den F p = te_times k (x, y)).
  { intros k p Hk [Op _] E.
    assert (N2 : snd (te_times k (x, y)) <> o0 F /\ te_dual F (te_times k (x, y)) = proj1_sig (gmul (tp_zero F FK d a) (tp_add F FK d a) (tp_opp F FK d a) k A)).
    { unfold gmul. rewrite (proj2 (Z.ltb_ge k 0) Hk). destruct k as [|n|n]; [| |lia].
      - cbn [te_times]. split; [apply (fk_1_neq_0 F FK)|]. rewrite (te_dual_zero F FK). reflexivity.
      - cbn [te_times]. destruct (dual_mult F FK a d H2 (fc_p C) Rp Ro be HD NB NQ n (x, y) HT) as [T1 T2]. split.
        + apply (proj1 (dual_iff F a d (fc_p C) _)) in T1. exact (proj1 T1).
        + rewrite T2. change (te_dual F (x, y)) with (x, tinv F y). rewrite <- EA, (te_mult_tp F FK d a H2 0 be HD NB NQ). reflexivity. }
    apply te_dual_inj; [exact (edw_ok_y F FK a d p Op)|exact (proj1 N2)|]. rewrite <- (edw_dent2_val F FK a d _ Op), E, EB. symmetry. exact (proj2 N2). }
  split.
  - intros fuel src p E.
    destruct (random_point O _ _ _ _ _ GO (fc_P C) (fco_ok C CO) (fco_bits C CO) (oki_top _ (fco_inv C CO)) one Ho fuel src p E) as (Op & k & Hk & D).
    exists k. split; [exact Hk|]. apply V; auto; lia.
  - intros k Hk.
    destruct (random_point_onto O _ _ _ _ _ GO (fc_P C) (fco_ok C CO) (fco_bits C CO) (oki_top _ (fco_inv C CO)) one Ho k Hk) as (src & p & E & D).
    exists src, p. split; [exact E|]. apply V; [lia| |exact D].
    exact (proj1 (random_point O _ _ _ _ _ GO (fc_P C) (fco_ok C CO) (fco_bits C CO) (oki_top _ (fco_inv C CO)) one Ho 1 src p E)).
Qed.
End Square_d.
End Te.
Section Six.
Context {K : Type} (F : Fops K) (e : Z -> K) (D : six_consts).
Notation r := (fc_p (st_Fr D)).
Notation G := (siF3 F e D).
Notation T := (quad_ops (siF3 F e D) (rot_mnr F (e (st_nr6 D)))).
Notation d := (e (snd (st_ad D))).
Notation d' := (si_tw_d F e D).
Notation nu := (si_tw_a F e D).
Hypothesis PB : prime_base F (cq (st_Fq D)).
Hypothesis C2 : char_not_2 F.
Hypothesis OK : six_ok F e D.
Hypothesis A1 : e (fst (st_ad D)) = o1 F.
Hypothesis N3F : oadd F (oadd F (o1 F) (o1 F)) (o1 F) <> o0 F.
Hypothesis NdF : d <> o0 F.
Hypothesis NadF : osub F (o1 F) d <> o0 F.
Hypothesis NSd : forall s, omul F s s <> d.
Variable t : K.
Hypothesis Ht : omul F (omul F t t) (e (st_nr3 D)) = d.
Hypothesis Rp : 0 < r.
Hypothesis Ro : Z.odd r = true.
Hypothesis CR : field_consts_ok (st_Fr D).
Hypothesis HG : si_edw_G1 F e D (si_edw_gen1 e D) /\ si_edw_G2 F e D (si_edw_gen2 e D).
Hypothesis PC : si_edw_pair_check F e D = true.
Lemma six_edw_ne : fst (si_edw_gen1 e D) <> o0 F /\ fst (si_edw_gen2 e D) <> o0 G.
Proof.
  pose proof PC as P. unfold si_edw_pair_check in P. rewrite !andb_true_iff in P. destruct P as [[P1 P2] _]. apply negb_true_iff in P1, P2.
  apply (rk_eqb_neq F (fk_ring F (pb_field F _ PB))) in P1.
  apply (rk_eqb_neq _ (fk_ring _ (bf_field _ _ _ (six_3 F e D PB C2 OK)))) in P2. split; assumption.
Qed.
Theorem six_edw_random :
  random_multiples (edw_g1_gops F (fun x => x) (omul F d)) (st_Fr D) (edw_inverted F (si_edw_gen1 e D)) (edw_den F) (te_times F (o1 F) d) (si_edw_gen1 e D) /\
  random_multiples (edw_gops G (edwards_mul_by_a F (o1 F) (e (st_nr3 D))) (edwards_mul_by_d F d (e (st_nr3 D)))) (st_Fr D)
    (edw_inverted G (si_edw_gen2 e D)) (edw_den G) (te_times G nu d') (si_edw_gen2 e D).
Proof.
  pose proof (pb_field F _ PB) as FK. pose proof (fk_ring F FK) as R.
  pose proof (edw_setup F e D PB C2 OK A1 N3F NdF NadF) as QS.
  pose proof (bf_field _ _ _ (six_3 F e D PB C2 OK)) as GK.
  assert (TK : field_ok T) by (pose proof (six_6 F e D PB C2 OK) as B; apply B).
  assert (NSa : forall s, omul G s s <> nu) by (intros s; exact (nu_nonsq G GK nu (rot_mnr F (e (st_nr6 D))) (qs_mnr _ _ _ _ _ _ _ _ _ _ _ QS) TK s)).
  assert (H2G : oadd G (o1 G) (o1 G) <> o0 G) by (intros X; apply C2; now injection X).
  assert (One : o1 F = omul F (o1 F) (o1 F)) by (symmetry; apply (Rmul_1_l (rk_ring F R))).
  pose proof (rn_odd r Rp Ro) as RO.
  destruct six_edw_ne as [X1 X2]. destruct HG as [G1 [G2 _]]. destruct (si_edw_gen1 e D) as [x y] eqn:E1. destruct (si_edw_gen2 e D) as [x' y'] eqn:E2. cbn [fst] in X1, X2. split.
  - assert (Y1 : y <> o0 F).
    { destruct (tg_xy F (o1 F) d _ (torsion_good F FK (o1 F) d C2 r Rp Ro (o1 F) One (fk_1_neq_0 F FK) NSd) _ G1) as [H|[_ H]]; [|exact H].
      unfold te_zero in H. injection H as H _. contradiction. }
    exact (te_random F FK (o1 F) d C2 (st_Fr D) CR Rp _ x y X1 Y1 (o1 F) One (fk_1_neq_0 F FK) NSd
      (edw_g1_gops_ok F FK (o1 F) d C2 _ RO (o1 F) One (fk_1_neq_0 F FK) NSd (omul F d) eq_refl (fun _ => eq_refl)) G1).
  - pose proof (edw_be F e D PB t Ht) as BE. pose proof (edw_be_ne F e D PB NdF t Ht) as BN.
    assert (Y2 : y' <> o0 G) by exact (proj1 G2).
    assert (MA : forall z, edwards_mul_by_a F (o1 F) (e (st_nr3 D)) z = omul G nu z) by (intros z; unfold si_tw_a; rewrite A1; apply (edwards_mul_by_a_ok F R)).
    exact (te_random_dual G GK nu d' H2G (st_Fr D) CR Rp Ro _ x' y' X2 Y2 _ BE BN NSa
      (edw_sqd_gops_ok G GK nu d' H2G _ RO _ BE BN NSa _ _ MA (edwards_mul_by_d_ok F R _ d)) G2).
Qed.
End Six.
Theorem edwards_random CO : let D := edwards_tower in let F := cF (st_Fq D) CO in let e := ce (st_Fq D) CO in let F3 := siF3 F e D in let d := e (snd (st_ad D)) in
  random_multiples (edw_g1_gops F (fun x => x) (omul F d)) (st_Fr D) (edw_inverted F (si_edw_gen1 e D)) (edw_den F) (te_times F (o1 F) d) (si_edw_gen1 e D) /\
  random_multiples (edw_gops F3 (edwards_mul_by_a F (o1 F) (e (st_nr3 D))) (edwards_mul_by_d F d (e (st_nr3 D)))) (st_Fr D)
    (edw_inverted F3 (si_edw_gen2 e D)) (edw_den F3) (te_times F3 (si_tw_a F e D) (si_tw_d F e D)) (si_edw_gen2 e D).
Proof.
  intros D F e F3 d. pose proof (base_prime (st_Fq D) CO) as PB. pose proof (base_char2 (st_Fq D) CO) as C2.
  assert (IN : In D shipped_six) by (unfold shipped_six; cbn; tauto). pose proof (shipped_six_ok D CO IN) as OK.
  destruct (edw_check_ok F e (toZ (fc_P (st_Fq D))) D edwards_t PB (base_hom _ CO) edwards_edw_check) as (A1 & N3 & Nd & Nad & NS & Ht & Rp & Ro).
  assert (PC : si_edw_pair_check F e D = true).
  { exact (copy_check_ok (st_Fq D) CO (@si_edw_pair_check) D (fun A B F G h H R e eG He => si_edw_pair_check_map H e eG He D) edwards_pair_check). }
  exact (six_edw_random F e D PB C2 OK A1 N3 Nd Nad NS _ Ht Rp Ro edwards_Fr_ok (edwards_generators CO) PC).
Qed.
(** ** alt_bn128 and bls12_381 *)
Theorem twelve_random D CO : In D shipped_twelve ->
  let F := cF (bt_Fq D) CO in let e := ce (bt_Fq D) CO in let F2 := twF2 F e D in
  random_multiples (jac_gops F) (bt_Fr D) (e (fst (bt_G1 D)), e (snd (bt_G1 D)), o1 F) (jac_den F) (times F (o0 F)) (gen1 e D) /\
  random_multiples (jac_gops F2) (bt_Fr D) (map2 e (fst (bt_G2 D)), map2 e (snd (bt_G2 D)), o1 F2) (jac_den F2) (times F2 (o0 F2)) (gen2 e D).
Proof.
  intros HI F e F2.
  assert (CR : field_consts_ok (bt_Fr D)) by (destruct HI as [<-|[<-|[]]]; [exact alt_bn128_Fr_ok|exact bls12_381_Fr_ok]).
  pose proof (shipped_twelve_ok D CO HI) as T. set (PB := base_prime (bt_Fq D) CO).
  destruct (shipped_generators D CO HI) as [G1 G2]. fold F e in G1, G2.
  assert (Ck : mill_check D = true) by (destruct HI as [<-|[<-|[]]]; [exact alt_bn128_mill|exact bls12_381_mill]).
  destruct (tw_facts_ok F e (toZ (fc_P (bt_Fq D))) D PB T (base_hom _ CO) Ck) as [m [Em N2 N6 N63 _ _ _ _ _ _]].
  pose proof (mill_check_ok F e (toZ (fc_P (bt_Fq D))) D PB T (base_hom _ CO) Ck m Em) as [_ Nb Ntb _ _ _ _ _ _].
  split.
  - pose proof (two_F F _ PB (e (bt_nr2 D)) m Em N2 _ N6 N63) as H2. pose proof (disc_F F _ PB (e (bt_nr2 D)) m Em N2 _ N6 N63 _ Nb) as HD.
    pose proof (pb_field F _ PB) as FK.
    assert (E1 : jac_den F (e (fst (bt_G1 D)), e (snd (bt_G1 D)), o1 F) = gen1 e D) by exact (den_aff F FK _ _).
    rewrite <- E1.
    exact (sw_random_multiples F FK _ _ H2 HD (jac_gops F) _ (jac_den F) (fun p H => H) (jac_gops_ok F FK _ H2 HD) (bt_Fr D) CR _
      (eq_ind_r (sw_on F _ _) (proj1 (proj2 G1)) E1)).
  - assert (FK : field_ok F2) by exact (two_field F _ PB _ m Em N2).
    pose proof (two_F2 F _ PB (e (bt_nr2 D)) m Em N2 _ N6 N63) as H2. pose proof (disc_F2 F _ PB (e (bt_nr2 D)) m Em N2 _ N6 N63 _ Ntb) as HD.
    assert (E1 : jac_den F2 (map2 e (fst (bt_G2 D)), map2 e (snd (bt_G2 D)), o1 F2) = gen2 e D) by exact (den_aff F2 FK _ _).
    rewrite <- E1.
    exact (sw_random_multiples F2 FK _ _ H2 HD (jac_gops F2) _ (jac_den F2) (fun p H => H) (jac_gops_ok F2 FK _ H2 HD) (bt_Fr D) CR _
      (eq_ind_r (sw_on F2 _ _) (proj1 (proj1 (proj2 G2))) E1)).
Qed.

(** ** bn128 *)
Section Bn.
Context {K : Type} (F : Fops K) (FK : field_ok F) (b : K).
Hypothesis H2 : oadd F (o1 F) (o1 F) <> o0 F.
Hypothesis HD : sw_disc F (o0 F) b <> o0 F.
Variables (C : field_consts) (CO : field_consts_ok C) (x y : K) (ec_add : pt K -> pt K -> pt K) (ec_dbl : pt K -> pt K).
Hypothesis DBL : ecdouble_ok F b ec_dbl.
Hypothesis ADD : ecadd_ok F b ec_add.
Hypothesis O1 : sw_on F (o0 F) b (Aff x y).
Lemma bn_random : random_multiples (bn_gops F ec_add ec_dbl) C (x, y, o1 F) (jac_den F) (times F (o0 F)) (Aff x y).
Proof.
  assert (E1 : jac_den F (x, y, o1 F) = Aff x y) by exact (den_aff F FK _ _).
  rewrite <- E1.
  exact (sw_random_multiples F FK _ _ H2 HD (bn_gops F ec_add ec_dbl) _ (jac_den F) (fun p H => H) (bn_gops_ok F FK b H2 HD ec_add ec_dbl DBL ADD) C CO _
    (eq_ind_r (sw_on F _ _) O1 E1)).
Qed.
End Bn.
Section Bn2.
Context {K : Type} (F : Fops K) (e : Z -> K) (h : K -> Z) (D : twelve_consts) (PB : prime_base F (cq (bt_Fq D))) (T : twelve_ok F e D).
Hypothesis H1 : Mul63.ctx_check (fc_p (bt_Fq D)) = true -> hom F (zq (fc_p (bt_Fq D))) h e (rngZ (fc_p (bt_Fq D))).
Hypothesis Ck : mill_check D = true.
Variables (C : field_consts) (CR : field_consts_ok C).
Hypothesis G1 : tw_G1 F e D (gen1 e D).
Hypothesis G2 : tw_G2 F e D (gen2 e D).
Lemma bn_random_both ea1 ed1 ea2 ed2 : let F2 := twF2 F e D in
  ecdouble_ok F (tw_b e D) ed1 -> ecadd_ok F (tw_b e D) ea1 -> ecdouble_ok F2 (tw_twist_b F e D) ed2 -> ecadd_ok F2 (tw_twist_b F e D) ea2 ->
  random_multiples (bn_gops F ea1 ed1) C (e (fst (bt_G1 D)), e (snd (bt_G1 D)), o1 F) (jac_den F) (times F (o0 F)) (gen1 e D) /\
  random_multiples (bn_gops F2 ea2 ed2) C (map2 e (fst (bt_G2 D)), map2 e (snd (bt_G2 D)), o1 F2) (jac_den F2) (times F2 (o0 F2)) (gen2 e D).
Proof.
  intros F2 D1 A1 D2 A2.
  destruct (tw_facts_ok F e h D PB T H1 Ck) as [m [Em N2 N6 N63 _ _ _ _ _ _]].
  pose proof (mill_check_ok F e h D PB T H1 Ck m Em) as [_ Nb Ntb _ _ _ _ _ _].
  split.
  - exact (bn_random F (pb_field F _ PB) _ (two_F F _ PB (e (bt_nr2 D)) m Em N2 _ N6 N63) (disc_F F _ PB (e (bt_nr2 D)) m Em N2 _ N6 N63 _ Nb) C CR _ _ ea1 ed1 D1 A1 (proj1 (proj2 G1))).
  - refine (bn_random F2 (two_field F _ PB _ m Em N2) _ (two_F2 F _ PB (e (bt_nr2 D)) m Em N2 _ N6 N63) (disc_F2 F _ PB (e (bt_nr2 D)) m Em N2 _ N6 N63 _ Ntb) C CR _ _ ea2 ed2 D2 A2 (proj1 (proj1 (proj2 G2)))).
Qed.
Lemma bn_hyps_met : let F2 := twF2 F e D in
  ecdouble_ok F (tw_b e D) (jac_dbl F) /\ ecadd_ok F (tw_b e D) (jac_add F) /\ ecdouble_ok F2 (tw_twist_b F e D) (jac_dbl F2) /\ ecadd_ok F2 (tw_twist_b F e D) (jac_add F2).
Proof.
  intros F2.
  destruct (tw_facts_ok F e h D PB T H1 Ck) as [m [Em N2 N6 N63 _ _ _ _ _ _]].
  pose proof (mill_check_ok F e h D PB T H1 Ck m Em) as [_ Nb Ntb _ _ _ _ _ _].
  pose proof (two_F F _ PB (e (bt_nr2 D)) m Em N2 _ N6 N63) as H. pose proof (disc_F F _ PB (e (bt_nr2 D)) m Em N2 _ N6 N63 _ Nb) as HD.
  pose proof (two_F2 F _ PB (e (bt_nr2 D)) m Em N2 _ N6 N63) as H'. pose proof (disc_F2 F _ PB (e (bt_nr2 D)) m Em N2 _ N6 N63 _ Ntb) as HD'.
  pose proof (pb_field F _ PB) as FK. pose proof (two_field F _ PB _ m Em N2) as FK2.
  split; [|split; [|split]].
  - intros p O. exact (jac_dbl_den F FK _ H HD p O).
  - intros p q O O' _ _ _. exact (jac_add_den F FK _ H HD p q O O').
  - intros p O. exact (jac_dbl_den F2 FK2 _ H' HD' p O).
  - intros p q O O' _ _ _. exact (jac_add_den F2 FK2 _ H' HD' p q O O').
Qed.
End Bn2.
Theorem bn128_random CO ea1 ed1 ea2 ed2 : let D := bn128_tower in let F := cF (bt_Fq D) CO in let e := ce (bt_Fq D) CO in let F2 := twF2 F e D in
  ecdouble_ok F (tw_b e D) ed1 -> ecadd_ok F (tw_b e D) ea1 -> ecdouble_ok F2 (tw_twist_b F e D) ed2 -> ecadd_ok F2 (tw_twist_b F e D) ea2 ->
  random_multiples (bn_gops F ea1 ed1) bn128_Fr_C (e (fst (bt_G1 D)), e (snd (bt_G1 D)), o1 F) (jac_den F) (times F (o0 F)) (gen1 e D) /\
  random_multiples (bn_gops F2 ea2 ed2) bn128_Fr_C (map2 e (fst (bt_G2 D)), map2 e (snd (bt_G2 D)), o1 F2) (jac_den F2) (times F2 (o0 F2)) (gen2 e D).
Proof.
  exact (bn_random_both (cF (bt_Fq bn128_tower) CO) (ce (bt_Fq bn128_tower) CO) (toZ (fc_P (bt_Fq bn128_tower))) bn128_tower (base_prime (bt_Fq bn128_tower) CO)
    (bn128_twelve_ok CO) (base_hom _ CO) (eq_trans (with_gens_mill _ _ _) alt_bn128_mill) bn128_Fr_C bn128_Fr_ok
    (proj1 (bn128_generators CO)) (proj2 (bn128_generators CO)) ea1 ed1 ea2 ed2).
Qed.
Theorem bn128_hyps_met CO : let D := bn128_tower in let F := cF (bt_Fq D) CO in let e := ce (bt_Fq D) CO in let F2 := twF2 F e D in
  ecdouble_ok F (tw_b e D) (jac_dbl F) /\ ecadd_ok F (tw_b e D) (jac_add F) /\ ecdouble_ok F2 (tw_twist_b F e D) (jac_dbl F2) /\ ecadd_ok F2 (tw_twist_b F e D) (jac_add F2).
Proof.
  exact (bn_hyps_met (cF (bt_Fq bn128_tower) CO) (ce (bt_Fq bn128_tower) CO) (toZ (fc_P (bt_Fq bn128_tower))) bn128_tower (base_prime (bt_Fq bn128_tower) CO)
    (bn128_twelve_ok CO) (base_hom _ CO) (eq_trans (with_gens_mill _ _ _) alt_bn128_mill)).
Qed.
