(** The shipped edwards pairing: C49 and C51. *)
From Coq Require Import ZArith List Bool Lia Znumtheory Ring.
From Verif Require Import Mul63 FpField.
From Verif Require Import Result Algebra Limbs LimbsProofs FieldOps BigintModel FpModel FpSpec FpInst ParamsModel ParamsProofs ParamsA ParamsB ParamsC ParamsD ExtModel ExtSpec ExtFrob ExtProofs ExtInst
  CurveSpec CurveGroup CurveModel CurveProofs CurveExtra CurveEdwards CurveEdwOps CurveEdwGroup Hom AlgorithmsField TowerModel TowerSpec TowerProofs TowerShipped TowerSqrt FinalExpSpec FinalExpModel FinalExpProofs
  PairingModel PairingSpec PairingProofs PairingShipped NeutralProofs MillerSpec MillerProofs MillerRegular MillerQuad Cochain BilinearQuad MntShipped EdwSpec EdwSw EdwPairing EdwGroup EdwBilinear.
Import ListNotations.
Open Scope Z_scope.

Section Six.
Context {K : Type} (F : Fops K) (e : Z -> K) (D : six_consts).
Let p := fc_p (st_Fq D).
Let r := fc_p (st_Fr D).
Notation G := (siF3 F e D).
Notation T := (quad_ops (siF3 F e D) (rot_mnr F (e (st_nr6 D)))).
Notation e1 := (cubic_emb F).
Notation d := (e (snd (st_ad D))).
Notation d' := (si_tw_d F e D).
Notation nu := (si_tw_a F e D).
(** The curve x^2 + y^2 = 1 + d x^2 y^2: coefficient a is one. *)
Definition si_edw_textbook : Prop :=
  e (fst (st_ad D)) = o1 F /\
  edw_is_textbook F G e1 nu (rot_mnr F (e (st_nr6 D))) d d' (p ^ 3) r (Z.to_pos (st_loop D)) (si_edwards_reduced_pairing F e D).
Definition si_edw_bilinear : Prop :=
  e (fst (st_ad D)) = o1 F /\
  edw_is_bilinear F (cq (st_Fq D)) G nu (rot_mnr F (e (st_nr6 D))) d d' r (si_edwards_reduced_pairing F e D).
Hypothesis PB : prime_base F (cq (st_Fq D)).
Hypothesis C2 : char_not_2 F.
Hypothesis OK : six_ok F e D.
Let FK : field_ok F := pb_field F _ PB.
Let R : ring_ok F := fk_ring F FK.
Add Ring ESring : (rk_ring F (fk_ring F (pb_field F _ PB))).
Hypothesis A1 : e (fst (st_ad D)) = o1 F.
Let H2 : oadd F (o1 F) (o1 F) <> o0 F := C2.
Hypothesis N3F : oadd F (oadd F (o1 F) (o1 F)) (o1 F) <> o0 F.
Hypothesis NdF : d <> o0 F.
Hypothesis NadF : osub F (o1 F) d <> o0 F.
Hypothesis NSd : forall s, omul F s s <> d.
Variable t : K.
Hypothesis Ht : omul F (omul F t t) (e (st_nr3 D)) = d.
Hypothesis Rp : 0 < r.
Hypothesis Ro : Z.odd r = true.
Let GK : field_ok G := bf_field _ _ _ (six_3 F e D PB C2 OK).
Let TK : field_ok T. Proof. pose proof (six_6 F e D PB C2 OK) as B. apply B. Qed.
Lemma tw_a_eq : nu = (o0 F, o1 F, o0 F).
Proof. unfold si_tw_a, edwards_twist_a. rewrite A1. repeat apply (f_equal2 pair); ring. Qed.
Lemma tw_d_eq : d' = omul G (e1 d) nu.
Proof. rewrite tw_a_eq. unfold si_tw_d, edwards_twist_d, siF3, fp3_ops, cubic_emb. cbn. f_equal; [f_equal|]; ring. Qed.
Lemma edw_setup : quad_setup F (cq (st_Fq D)) G e1 (cubic_scale (omul F)) nu (rot_mnr F (e (st_nr6 D)))
  (te_swa F (o1 F) d) (te_swb F (o1 F) d) (te_swa G nu d') (te_swb G nu d').
Proof.
  assert (H1 : forall x y, e1 (oadd F x y) = oadd G (e1 x) (e1 y)) by (intros x y; apply (cubic_emb_add F (omul F (e (st_nr3 D))) R)).
  assert (H3 : forall x y, e1 (omul F x y) = omul G (e1 x) (e1 y)) by (intros x y; apply (cubic_emb_mul F (omul F (e (st_nr3 D))) (e (st_nr3 D)) R); reflexivity).
  assert (H4 : forall x, e1 (oopp F x) = oopp G (e1 x)) by (intros x; unfold cubic_emb, siF3, fp3_ops; cbn; f_equal; [f_equal|]; ring).
  constructor; auto.
  - intros x y H. now injection H.
  - intros s x. apply (cubic_scale_spec F (omul F (e (st_nr3 D))) (e (st_nr3 D)) R). reflexivity.
  - intros x. rewrite tw_a_eq, (so_nr6 F e D OK). apply (rot_mnr_spec F R).
  - rewrite tw_a_eq. intros H. apply (fk_1_neq_0 F FK). now injection H.
  - apply (edw_Ea F G GK e1 nu); auto using tw_d_eq.
  - apply (edw_Eb F _ PB G GK e1 nu); auto using tw_d_eq.
  - apply (te_disc F (o1 F) d FK); auto. apply (fk_1_neq_0 F FK).
Qed.
Lemma edw_be : d' = omul G (o0 F, o0 F, t) (o0 F, o0 F, t).
Proof. unfold si_tw_d, edwards_twist_d. rewrite <- Ht. unfold siF3, fp3_ops. cbn. f_equal; [f_equal|]; ring. Qed.
Lemma edw_be_ne : (o0 F, o0 F, t) <> o0 G.
Proof. intros H. apply NdF. rewrite <- Ht. assert (Z : t = o0 F) by now injection H. rewrite Z. ring. Qed.
Let H2G : oadd G (o1 G) (o1 G) <> o0 G.
Proof. intros H. apply H2. now injection H. Qed.
Let NSa : forall s, omul G s s <> nu.
Proof.
  pose proof edw_setup as QS. intros s. exact (nu_nonsq G GK nu (rot_mnr F (e (st_nr6 D))) (qs_mnr _ _ _ _ _ _ _ _ _ _ _ QS) TK s).
Qed.
Lemma edw_good1 : te_good F (o1 F) d (te_torsion F (o1 F) d r).
Proof.
  apply (torsion_good F FK (o1 F) d H2 r Rp Ro (o1 F)); auto; [ring|]. apply (fk_1_neq_0 F FK).
Qed.
Lemma edw_good2 : te_good G nu d' (te_torsion_dual G nu d' r).
Proof. exact (dual_good G GK nu d' H2G r Rp Ro (o0 F, o0 F, t) edw_be edw_be_ne NSa). Qed.
Lemma edw_order2 Q : te_torsion_dual G nu d' r Q -> te_mult G nu d' (Z.to_pos r) Q = te_zero G.
Proof. exact (dual_order G GK nu d' H2G r Rp Ro (o0 F, o0 F, t) edw_be edw_be_ne NSa Q). Qed.
Lemma edw_mul_a x : edwards_mul_by_a F (e (fst (st_ad D))) (e (st_nr3 D)) x = omul G nu x.
Proof. unfold si_tw_a. rewrite A1. apply (edwards_mul_by_a_ok F R). Qed.
Hypothesis NU : quad_numbers G (cq (st_Fq D)) p (p ^ 3) r (limbs_of (cn (st_Fq D)) (st_loop D)) true (Z.to_pos (st_loop D)).
Hypothesis FE : final_exp_ok (siF6 F e D) (p ^ 6 - 1) r (si_final F e D).
Let FE' : final_exp_ok (siF6 F e D) (p ^ 3 * p ^ 3 - 1) r (si_final F e D).
Proof. replace (p ^ 3 * p ^ 3) with (p ^ 6) by ring. exact FE. Qed.
Lemma six_edw_pd P Q : si_edwards_reduced_pairing F e D P Q = (f <- edw_raw F G (cubic_scale (omul F)) (rot_mnr F (e (st_nr6 D)))
    (edwards_mul_by_a F (e (fst (st_ad D))) (e (st_nr3 D))) (limbs_of (cn (st_Fq D)) (st_loop D)) P Q ;; si_final F e D f).
Proof. reflexivity. Qed.
Lemma six_edw : si_edw_textbook /\ si_edw_bilinear.
Proof.
  split; (split; [exact A1|]).
  - exact (edw_shipped_textbook F _ G e1 _ nu _ d d' _ p _ r _ _ _ edw_setup NU tw_d_eq edw_mul_a N3F NdF NadF edw_good1 edw_good2 edw_order2 _ FE' six_edw_pd).
  - exact (edw_shipped_bilinear F _ G e1 _ nu _ d d' _ p _ r _ _ _ edw_setup NU tw_d_eq edw_mul_a N3F NdF NadF edw_good1 edw_good2 edw_order2 _ FE' six_edw_pd).
Qed.
(** P = O: the Miller value is not zero. *)
Lemma six_edw_left P P' Q : edw_is_zero F P = true -> edw_ok F (o1 F) d P' -> edw_den F P' <> te_zero F -> te_torsion F (o1 F) d r (edw_den F P') ->
  edw_ok G nu d' Q -> edw_den G Q <> te_zero G -> te_torsion_dual G nu d' r (edw_den G Q) ->
  exists f, si_edwards_pairing F e D P Q = Ok f /\ f <> o0 (siF6 F e D).
Proof.
  exact (edw_left_ne F _ G e1 _ nu _ d d' _ p _ r _ _ edw_setup NU tw_d_eq edw_mul_a N3F NdF NadF edw_good1 edw_good2 edw_order2 _ FE' P P' Q).
Qed.
End Six.

(** ** The shipped constants *)
(** d is not a square, 61 d is: t^2 * 61 = d. *)
Definition edw_check (D : six_consts) (t : Z) : bool :=
  let p := fc_p (st_Fq D) in
  let r := fc_p (st_Fr D) in
  let G := zq p in
  let d := snd (st_ad D) in
  let one := o1 G in
  ctx_check p && (fst (st_ad D) =? 1) && rngZ p 1 && rngZ p d && rngZ p t && rngZ p (st_nr3 D) &&
  negb (oeqb G (oadd G (oadd G one one) one) (o0 G)) && negb (oeqb G d (o0 G)) && negb (oeqb G (osub G one d) (o0 G)) &&
  nonres_check G (rngZ p) p 2 d && oeqb G (omul G (omul G t t) (st_nr3 D)) d && (0 <? r) && Z.odd r.
Section Check.
Context {K : Type} (F : Fops K) (e : Z -> K) (h : K -> Z) (D : six_consts) (t : Z).
Let p := fc_p (st_Fq D).
Let r := fc_p (st_Fr D).
Hypothesis PB : prime_base F (cq (st_Fq D)).
Hypothesis H1 : ctx_check p = true -> hom F (zq p) h e (rngZ p).
Hypothesis Ck : edw_check D t = true.
Notation d := (e (snd (st_ad D))).
Lemma edw_check_ok : e (fst (st_ad D)) = o1 F /\ oadd F (oadd F (o1 F) (o1 F)) (o1 F) <> o0 F /\ d <> o0 F /\ osub F (o1 F) d <> o0 F /\
  (forall s, omul F s s <> d) /\ omul F (omul F (e t) (e t)) (e (st_nr3 D)) = d /\ 0 < r /\ Z.odd r = true.
Proof.
  pose proof Ck as Hk. unfold edw_check in Hk. cbv zeta in Hk. rewrite !andb_true_iff in Hk.
  destruct Hk as [[[[[[[[[[[[K1 K2] K3] K4] K5] K6] K7] K8] K9] K10] K11] K12] K13].
  fold p in K1, K3, K4, K5, K6, K7, K8, K9, K10, K11. fold r in K12, K13. specialize (H1 K1). apply Z.eqb_eq in K2. apply Z.ltb_lt in K12.
  pose proof (pb_field F _ PB) as FK. pose proof (fk_ring F FK) as R.
  pose proof (nonres_check_ok F (zq p) h e (rngZ p) R H1 p 2 _ K10) as NR. change (Z.to_nat 2) with 2%nat in NR. change (Z.to_nat p) with (cq (st_Fq D)) in NR.
  assert (EQ : exists m, (cq (st_Fq D) = 1 + 2 * m)%nat).
  { unfold nonres_check in K10. rewrite !andb_true_iff in K10. destruct K10 as [[[_ K10] K14] _]. apply Z.eqb_eq in K10. apply Z.ltb_lt in K14.
    exists (Z.to_nat (p / 2)). unfold cq. fold p. pose proof (Z.div_mod p 2 ltac:(lia)). lia. }
  destruct EQ as [m Em].
  apply negb_true_iff in K7, K8, K9.
  split; [|split; [|split; [|split; [|split; [|split; [|split]]]]]].
  - rewrite K2. apply (hm_inj H1). rewrite (hm_lift H1 K3), (hm_1 _ _ _ _ _ H1). reflexivity.
  - apply (neq_by F (zq p) h e _ H1). now rewrite !(hm_add _ _ _ _ _ H1), (hm_1 _ _ _ _ _ H1), (hm_0 _ _ _ _ _ H1).
  - apply (neq_by F (zq p) h e _ H1). now rewrite (hm_lift H1 K4), (hm_0 _ _ _ _ _ H1).
  - apply (neq_by F (zq p) h e _ H1). now rewrite (hm_sub _ _ _ _ _ H1), (hm_1 _ _ _ _ _ H1), (hm_lift H1 K4), (hm_0 _ _ _ _ _ H1).
  - exact (proj2 (nonresidue_2 F FK _ (pb_fermat F _ PB) m _ Em NR)).
  - apply (eq_by F (zq p) h e _ H1). now rewrite !(hm_mul _ _ _ _ _ H1), (hm_lift H1 K4), (hm_lift H1 K5), (hm_lift H1 K6).
  - exact K12.
  - exact K13.
Qed.
End Check.
Definition edwards_t : Z := 401652963164760998174532820397287983818600507188811019.
Lemma edwards_edw_check : edw_check edwards_tower edwards_t = true. Proof. vm_compute. reflexivity. Qed.
Lemma edwards_mnt_check : let D := edwards_tower in let G := zq (fc_p (st_Fq D)) in
  mnt_check (st_Fq D) (st_Fr D) (te_swa G (o1 G) (snd (st_ad D))) (te_swb G (o1 G) (snd (st_ad D))) (st_loop D) true (fc_p (st_Fq D) ^ 3) = true.
Proof. vm_compute. reflexivity. Qed.
Lemma edwards_shipped CO : let D := edwards_tower in let F := cF (st_Fq D) CO in let e := ce (st_Fq D) CO in si_edw_textbook F e D /\ si_edw_bilinear F e D.
Proof.
  intros D F e. set (PB := base_prime (st_Fq D) CO). assert (HD : In D shipped_six) by (unfold shipped_six; cbn; tauto). pose proof (shipped_six_ok D CO HD) as OK.
  pose proof (oki_prime _ (fco_inv _ edwards_Fr_ok)) as Pr. pose proof (base_char2 (st_Fq D) CO) as C2.
  destruct (edw_check_ok F e (toZ (fc_P (st_Fq D))) D edwards_t PB (base_hom _ CO) edwards_edw_check) as (A1 & N3 & Nd & Nad & NS & Ht & Rp & Ro).
  apply (six_edw F e D PB C2 OK A1 N3 Nd Nad NS (e edwards_t) Ht Rp Ro).
  - exact (mnt_check_numbers F _ _ _ _ _ _ _ _ PB edwards_mnt_check Pr (bf_order _ _ _ (six_3 F e D PB C2 OK))).
  - exact (six_final_shipped D CO HD).
Qed.
