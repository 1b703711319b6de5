(** The generators of mnt4 and mnt6, and mul_by_q (C52). *)
From Coq Require Import ZArith List Bool Lia Znumtheory Ring Field.
From Verif Require Import Mul63 FpField.
From Verif Require Import Result Algebra Limbs LimbsProofs FieldOps BigintModel FpModel FpSpec FpInst ParamsModel ParamsProofs ParamsA ParamsB ParamsC ParamsD ExtModel ExtSpec ExtFrob ExtProofs ExtInst
  CurveSpec CurveGroup CurveModel CurveProofs AlgorithmsField Hom HomCurve Mod63 MontRing HomMont HomPairing TowerModel TowerSpec TowerProofs TowerShipped TowerSqrt FinalExpProofs
  PairingModel PairingShipped MillerSpec MillerProofs MillerRegular MillerQuad BilinearQuad GenProofs GenShipped MntShipped.
Import ListNotations.
Open Scope Z_scope.

Definition prjmul {B} (G : Fops B) (a x y : B) (n : Z) : B * B * B := pmul (prj_dbl G (omul G a)) (prj_add G (omul G a)) (x, y, o1 G) (Z.to_pos n).
Lemma prj_den_aff {K} (F : Fops K) (FK : field_ok F) x y : prj_den F (x, y, o1 F) = Aff x y.
Proof.
  pose proof (fk_ring F FK) as R. apply (prj_den_at F FK); [apply (fk_1_neq_0 F FK)|rewrite (rk_mul_comm F R)..]; symmetry; apply (Rmul_1_l (rk_ring F R)).
Qed.
Lemma prj_ok_aff {K} (F : Fops K) (FK : field_ok F) a b x y : sw_on F a b (Aff x y) -> prj_ok F a b (x, y, o1 F).
Proof.
  intros O. split; [now rewrite (prj_den_aff F FK)|]. intros Z. now apply (fk_1_neq_0 F FK) in Z.
Qed.
Lemma prjmul_den {K} (F : Fops K) (FK : field_ok F) a b (H2 : oadd F (o1 F) (o1 F) <> o0 F) (HD : sw_disc F a b <> o0 F) x y n :
  sw_on F a b (Aff x y) -> prj_ok F a b (prjmul F a x y n) /\ prj_den F (prjmul F a x y n) = mult F a (Z.to_pos n) (Aff x y).
Proof.
  intros O. rewrite <- (prj_den_aff F FK x y). unfold prjmul.
  apply (pmul_mult F a (prj_ok F a b) (prj_den F)).
  - intros p OP. apply (prj_dbl_den F FK a b (omul F a) (fun _ => eq_refl) H2 HD); auto.
  - intros p q OP OQ. apply (prj_add_den F FK a b (omul F a) (fun _ => eq_refl) H2 HD); auto.
  - now apply prj_ok_aff.
Qed.
Lemma mult_mod_gen {L} (G : Fops L) (GK : field_ok G) (a b : L) A p r :
  oadd G (o1 G) (o1 G) <> o0 G -> sw_disc G a b <> o0 G -> sw_on G a b A -> 0 < r -> 0 < p mod r -> 0 < p ->
  mult G a (Z.to_pos r) A = Inf -> mult G a (Z.to_pos (p mod r)) A = mult G a (Z.to_pos p) A.
Proof.
  intros two HD O R0 M0 P0 E. rewrite !(zmult_mult G GK a b two HD) in * by auto. rewrite !Z2Pos.id in * by lia.
  rewrite (Z.div_mod p r) at 2 by lia. rewrite (zmult_add G GK a b two HD), Z.mul_comm, <- (zmult_zmult G GK a b two HD), E.
  assert (EI : zmult G a b (p / r) Inf = Inf).
  { change Inf with (zmult G a b 0 A) at 1. now rewrite (zmult_zmult G GK a b two HD), Z.mul_0_r. }
  rewrite EI. reflexivity.
Qed.

(** The checks on points, for any copy of the fields; [mq] is mul_by_q. *)
Definition quad_gen_check {A B} (G : Fops A) (GE : Fops B) (a x1 y1 : A) (a' b' x y : B) (mq : B * B * B -> B * B * B) (p r : Z) : bool :=
  (0 <? p mod r) && (0 <? r) && (0 <? p) &&
  prj_is_zero G (prjmul G a x1 y1 r) && prj_is_zero GE (prjmul GE a' x y r) &&
  prj_eqb GE (prjmul GE a' x y (p mod r)) (mq (x, y, o1 GE)) && prj_is_well_formed GE a' b' (mq (x, y, o1 GE)).

Section HomPrj.
Context {A B : Type} {F : Fops A} {G : Fops B} {h : A -> B} (H : homi F G h) (R : ring_ok F).
Lemma hom_prjmul a x y n : prjmul G (h a) (h x) (h y) n = map3 h (prjmul F a x y n).
Proof.
  unfold prjmul. symmetry.
  rewrite (pmul_map (map3 h) _ _ (prj_dbl G (omul G (h a))) (prj_add G (omul G (h a)))
    (hom_prj_dbl F G h _ _ (hi_hom _ _ _ H) R _ _ (fun z => hi_mul H a z)) (hom_prj_add F G h _ _ (hi_hom _ _ _ H) R _ _ (fun z => hi_mul H a z))).
  f_equal. unfold map3. cbn [fst snd]. now rewrite (hi_1 H).
Qed.
Lemma hom_prj_is_zero P : prj_is_zero G (map3 h P) = prj_is_zero F P.
Proof. destruct P as [[X Y] Z]. unfold prj_is_zero, map3. cbn [fst snd]. now rewrite !(hi_eqb0 H). Qed.
Lemma hom_prj_eqb P Q : prj_eqb G (map3 h P) (map3 h Q) = prj_eqb F P Q.
Proof.
  destruct P as [[X Y] Z], Q as [[X2 Y2] Z2]. unfold prj_eqb, prj_is_zero, map3. cbn [fst snd]. cbv zeta. pull H. now rewrite !(hi_eqb _ _ _ H).
Qed.
Lemma hom_prj_wf a b P : prj_is_well_formed G (h a) (h b) (map3 h P) = prj_is_well_formed F a b P.
Proof.
  unfold prj_is_well_formed. rewrite hom_prj_is_zero. destruct P as [[X Y] Z]. unfold map3. cbn [fst snd]. cbv zeta. pull H. now rewrite !(hi_eqb _ _ _ H).
Qed.
End HomPrj.
Lemma quad_gen_check_map {A B A' B'} {F : Fops A} {FE : Fops B} {G : Fops A'} {GE : Fops B'} {h : A -> A'} {hE : B -> B'} (H : homi F G h) (HE : homi FE GE hE)
  (R : ring_ok F) (RE : ring_ok FE) a x1 y1 a' b' x y mq mq' p r : (forall Q, mq' (map3 hE Q) = map3 hE (mq Q)) ->
  quad_gen_check G GE (h a) (h x1) (h y1) (hE a') (hE b') (hE x) (hE y) mq' p r = quad_gen_check F FE a x1 y1 a' b' x y mq p r.
Proof.
  intros Hq. unfold quad_gen_check. rewrite (hom_prjmul H R), !(hom_prjmul HE RE), (hom_prj_is_zero H), (hom_prj_is_zero HE).
  replace (hE x, hE y, o1 GE) with (map3 hE (x, y, o1 FE)) by (unfold map3; cbn [fst snd]; now rewrite (hi_1 HE)).
  now rewrite Hq, (hom_prj_eqb HE), (hom_prj_wf HE).
Qed.

Section Gen.
Context {K L : Type} (F : Fops K) (q : nat) (G : Fops L) (e1 : K -> L) (scale : K -> L -> L) (nu : L) (mnr : L -> L) (a b : K) (a' b' : L).
Hypothesis QS : quad_setup F q G e1 scale nu mnr a b a' b'.
Notation T := (quad_ops G mnr).
Notation emb := (quad_emb G).
Notation w := (quad_u G).
Notation u := (tinv T w).
Notation Psi := (psi T emb u).
Notation up x := (emb (e1 x)).
Variables (frob : L -> L) (qX qY : K).
Hypothesis HF : forall x, frob x = fpow G x q.
Hypothesis HX : omul G (e1 qX) (fpow G nu q) = nu.
Hypothesis HY : omul T (up qY) (omul T (emb (fpow G nu q)) (fpow T w q)) = omul T (emb nu) w.
Let PB := qs_PB _ _ _ _ _ _ _ _ _ _ _ QS.
Let GK := qs_GK _ _ _ _ _ _ _ _ _ _ _ QS.
Let TK := qs_TK _ _ _ _ _ _ _ _ _ _ _ QS.
Let Hmnr := qs_mnr _ _ _ _ _ _ _ _ _ _ _ QS.
Let Nnu := qs_nu _ _ _ _ _ _ _ _ _ _ _ QS.
Let RG : ring_ok G := fk_ring G GK.
Let RT : ring_ok T := fk_ring T TK.
Let EM := q_emb_mul G GK nu mnr Hmnr.
Add Field MGG : (fk_field G GK).
Add Field MGT : (fk_field T TK).
Lemma q_pos'' : (0 < q)%nat.
Proof. pose proof (prime_ge_2 _ (pb_prime F q PB)). lia. Qed.
Lemma qpow_mul {M} (H : Fops M) (R : ring_ok H) x y : fpow H (omul H x y) q = omul H (fpow H x q) (fpow H y q).
Proof. exact (npow_mul_distr _ _ (rk_monoid H R) (rk_mul_comm H R) x y q). Qed.
Lemma qpow_ne x : x <> o0 G -> fpow G x q <> o0 G.
Proof. intros N. apply (fk_pow_neq_0 G GK). exact N. Qed.
Lemma emb_pow x : fpow T (emb x) q = emb (fpow G x q).
Proof. apply (quad_emb_pow G mnr nu RG Hmnr). Qed.
Lemma u_pow : omul T (fpow T u q) (fpow T w q) = o1 T.
Proof. rewrite <- (qpow_mul T RT), (u_w G GK mnr TK). apply (npow_one _ _ (rk_monoid T RT)). Qed.
Theorem quad_mul_by_q Q : Psi (prj_den G (mnt_mul_by_q scale frob qX qY Q)) = frob_pt T q (Psi (prj_den G Q)).
Proof.
  destruct Q as [[X Y] Z]. unfold mnt_mul_by_q. rewrite !(qs_s _ _ _ _ _ _ _ _ _ _ _ QS), !HF.
  destruct (oeqb G Z (o0 G)) eqn:EZ.
  - apply (rk_eqb G RG) in EZ. subst Z. rewrite (prj_den_zero G GK X Y) by reflexivity.
    rewrite (prj_den_zero G GK); [reflexivity|]. pose proof q_pos'' as Q0. assert (Z0 : forall k, (0 < k)%nat -> fpow G (o0 G) k = o0 G) by (intros [|k] Hk; [lia|cbn [npow]; ring]). now apply Z0.
  - apply (rk_eqb_neq G RG) in EZ. pose proof (qpow_ne Z EZ) as NZ.
    set (x := tdiv G X Z). set (y := tdiv G Y Z).
    assert (Hx : X = omul G x Z) by (unfold x; field; auto). assert (Hy : Y = omul G y Z) by (unfold y; field; auto).
    rewrite (prj_den_at G GK x y X Y Z EZ Hx Hy). rewrite Hx, Hy, !(qpow_mul G RG).
    rewrite (prj_den_at G GK (omul G (e1 qX) (fpow G x q)) (omul G (e1 qY) (fpow G y q)) _ _ _ NZ) by ring.
    cbn [psi frob_pt]. rewrite !(qpow_mul T RT), !emb_pow, !EM.
    pose proof u_pow as Iq. pose proof (u_w G GK mnr TK) as I1.
    set (uq := fpow T u q) in *. set (wq := fpow T w q) in *. set (xq := fpow G x q). set (yq := fpow G y q).
    set (nq := fpow G nu q) in *.
    assert (Wn : omul T w w = emb nu) by apply (w_sq G GK nu mnr Hmnr).
    assert (Wq : omul T wq wq = emb nq) by (unfold wq; rewrite <- (qpow_mul T RT), Wn; apply emb_pow).
    f_equal.
    + (* X *)
      assert (A : omul T (up qX) (omul T u u) = omul T uq uq).
      { transitivity (omul T (omul T (up qX) (omul T u u)) (omul T (omul T uq wq) (omul T uq wq))); [rewrite Iq; ring|].
        transitivity (omul T (omul T (omul T (up qX) (omul T wq wq)) (omul T u u)) (omul T uq uq)); [ring|].
        rewrite Wq, <- EM, HX, <- Wn. transitivity (omul T (omul T (omul T u w) (omul T u w)) (omul T uq uq)); [ring|]. rewrite I1. ring. }
      rewrite <- A. ring.
    + assert (A : omul T (up qY) (omul T (omul T u u) u) = omul T (omul T uq uq) uq).
      { transitivity (omul T (omul T (up qY) (omul T (omul T u u) u)) (omul T (omul T (omul T uq wq) (omul T uq wq)) (omul T uq wq))); [rewrite Iq; ring|].
        transitivity (omul T (omul T (omul T (up qY) (omul T (omul T wq wq) wq)) (omul T (omul T u u) u)) (omul T (omul T uq uq) uq)); [ring|].
        rewrite Wq, HY, <- Wn. transitivity (omul T (omul T (omul T (omul T u w) (omul T u w)) (omul T u w)) (omul T (omul T uq uq) uq)); [ring|]. rewrite I1. ring. }
      rewrite <- A. ring.
Qed.
Variables (p r : Z) (x1 y1 : K) (x y : L).
Hypothesis Qv : Z.of_nat q = p.
Hypothesis O1 : sw_on F a b (Aff x1 y1).
Hypothesis O2 : sw_on G a' b' (Aff x y).
Hypothesis Ck : quad_gen_check F G a x1 y1 a' b' x y (mnt_mul_by_q scale frob qX qY) p r = true.
Theorem quad_gen_ok : quad_G1 F a b r (Aff x1 y1) /\ quad_G2 q G e1 mnr a a' b' r (Aff x y).
Proof.
  pose proof QS as QS'. destruct QS' as [PB' GK' E0 E1 EA EM' EO EI ES EN Nn TK' Ea Eb H2 HD].
  pose proof (pb_field F q PB') as FK.
  pose proof (two_G F G e1 E0 E1 EA EI H2) as H2G. pose proof (disc_G F G GK' e1 nu E0 EA EM' EI Nn a b a' b' Ea Eb HD) as HDG.
  pose proof Ck as C. unfold quad_gen_check in C. rewrite !andb_true_iff in C. destruct C as [[[[[[C1 C2] C0] C3] C4] C5] C6]. apply (prj_well_formed_spec G GK a' b') in C6.
  apply Z.ltb_lt in C0, C1, C2.
  destruct (prjmul_den F FK a b H2 HD x1 y1 r O1) as [K1 D1]. apply (prj_is_zero_spec F FK a b _ K1) in C3. rewrite D1 in C3.
  destruct (prjmul_den G GK a' b' H2G HDG x y r O2) as [K2 D2]. apply (prj_is_zero_spec G GK a' b' _ K2) in C4. rewrite D2 in C4.
  destruct (prjmul_den G GK a' b' H2G HDG x y (p mod r) O2) as [K3 D3]. apply (prj_eqb_den G GK a' b' _ _ K3 C6) in C5. rewrite D3 in C5.
  split; [split; assumption|]. split; [split; assumption|]. unfold frob_eigen. rewrite Qv.
  rewrite (mult_mod_gen G GK a' b' _ p r H2G HDG O2 C2 C1 C0 C4) in C5.
  rewrite <- (prj_den_aff G GK x y) at 1. rewrite <- quad_mul_by_q, <- C5.
  rewrite (psi_mult G GK T TK emb u (q_emb_0 G mnr) (q_emb_add G GK mnr) (q_emb_sub G GK mnr) (q_emb_mul G GK nu mnr Hmnr) (q_emb_inj G) (u_ne G GK mnr TK) a' b' H2G HDG _ _ O2).
  rewrite (q_ta G GK e1 nu mnr Hmnr Nnu TK a a' Ea). reflexivity.
Qed.
End Gen.

Section Four.
Context {K : Type} (F : Fops K) (e : Z -> K) (D : four_consts).
Definition fo_mul_by_q := mnt_mul_by_q (quad_scale (omul F)) (fp2_frobenius F (map e (ft_c2 D)) 1) (e (ft_qX D)) (e (ft_qY D)).
Definition fo_gen_check : bool :=
  let c2 := coeff (o0 F) (map e (ft_c2 D)) 1 2 in
  let c4 := coeff (o0 F) (map e (ft_c4 D)) 1 4 in
  quad_gen_check F (foF2 F e D) (e (ft_a D)) (e (fst (ft_G1 D))) (e (snd (ft_G1 D))) (fo_twist_a F e D) (fo_twist_b F e D)
    (map2 e (fst (ft_G2 D))) (map2 e (snd (ft_G2 D))) fo_mul_by_q (fc_p (ft_Fq D)) (fc_p (ft_Fr D)) &&
  oeqb F (omul F (e (ft_qX D)) c2) (o1 F) && oeqb F (omul F (e (ft_qY D)) (omul F c2 c4)) (o1 F).
Definition fo_gen1 : apt K := Aff (e (fst (ft_G1 D))) (e (snd (ft_G1 D))).
Definition fo_gen2 : apt (K * K) := Aff (map2 e (fst (ft_G2 D))) (map2 e (snd (ft_G2 D))).
Definition fo_G1 := quad_G1 F (e (ft_a D)) (e (ft_b D)) (fc_p (ft_Fr D)).
Definition fo_G2 := quad_G2 (cq (ft_Fq D)) (foF2 F e D) (quad_emb F) (fp4_mnr F (e (ft_nr4 D))) (e (ft_a D)) (fo_twist_a F e D) (fo_twist_b F e D) (fc_p (ft_Fr D)).
(** The map from the twist to the curve over Fq4. *)
Definition fo_psi := let T := quad_ops (foF2 F e D) (fp4_mnr F (e (ft_nr4 D))) in psi T (quad_emb (foF2 F e D)) (tinv T (quad_u (foF2 F e D))).
Hypothesis PB : prime_base F (cq (ft_Fq D)).
Hypothesis C2 : char_not_2 F.
Hypothesis T : four_ok F e D.
Hypothesis HD : sw_disc F (e (ft_a D)) (e (ft_b D)) <> o0 F.
Hypothesis Qv : Z.of_nat (cq (ft_Fq D)) = fc_p (ft_Fq D).
Hypothesis Ck : fo_gen_check = true.
Let R : ring_ok F := fk_ring F (pb_field F _ PB).
Add Ring FGring : (rk_ring F R).
Let QS := four_setup F e D PB C2 T HD.
Lemma fo_frob2_pow x : fp2_frobenius F (map e (ft_c2 D)) 1 x = fpow (foF2 F e D) x (cq (ft_Fq D)).
Proof. pose proof (proj1 (four_frob F e D PB T 1 ltac:(lia)) x) as E. change (Z.to_nat 1) with 1%nat in E. rewrite Nat.pow_1_r in E. exact E. Qed.
Lemma fo_frob4_pow x : fp4_frobenius F (map e (ft_c2 D)) (map e (ft_c4 D)) 1 x = fpow (quad_ops (foF2 F e D) (fp4_mnr F (e (ft_nr4 D)))) x (cq (ft_Fq D)).
Proof. pose proof (proj2 (four_frob F e D PB T 1 ltac:(lia)) x) as E. change (Z.to_nat 1) with 1%nat in E. rewrite Nat.pow_1_r in E. exact E. Qed.
Lemma fo_consts : let q := cq (ft_Fq D) in let G := foF2 F e D in let T := quad_ops G (fp4_mnr F (e (ft_nr4 D))) in
  omul G (quad_emb F (e (ft_qX D))) (fpow G (o0 F, o1 F) q) = (o0 F, o1 F) /\
  omul T (quad_emb G (quad_emb F (e (ft_qY D)))) (omul T (quad_emb G (fpow G (o0 F, o1 F) q)) (fpow T (quad_u G) q)) = omul T (quad_emb G (o0 F, o1 F)) (quad_u G).
Proof.
  intros q G T0. pose proof Ck as C. unfold fo_gen_check in C. cbv zeta in C. rewrite !andb_true_iff in C. destruct C as [[_ CX] CY].
  apply (rk_eqb F R) in CX, CY. unfold q, T0, G. rewrite <- fo_frob2_pow, <- fo_frob4_pow.
  unfold quad_u, quad_emb, fp4_frobenius, fp2_frobenius, foF2, fp2_ops, quad_scale, fp4_mnr. 
  set (c2 := coeff (o0 F) (map e (ft_c2 D)) 1 2) in *. set (c4 := coeff (o0 F) (map e (ft_c4 D)) 1 4) in *. cbn. split.
  - repeat apply (f_equal2 pair); try ring. etransitivity; [|exact CX]. ring.
  - f_equal; f_equal; try ring. transitivity (o1 F); [|ring]. etransitivity; [|exact CY]. ring.
Qed.
Theorem four_mul_by_q Q : fo_psi (prj_den (foF2 F e D) (fo_mul_by_q Q)) = frob_pt (foF4 F e D) (cq (ft_Fq D)) (fo_psi (prj_den (foF2 F e D) Q)).
Proof. exact (quad_mul_by_q F _ _ _ _ _ _ _ _ _ _ QS _ _ _ fo_frob2_pow (proj1 fo_consts) (proj2 fo_consts) Q). Qed.
Theorem four_gen_ok : fo_G1 fo_gen1 /\ fo_G2 fo_gen2.
Proof.
  pose proof Ck as C. unfold fo_gen_check in C. cbv zeta in C. rewrite !andb_true_iff in C. destruct C as [[C _] _].
  exact (quad_gen_ok F _ _ _ _ _ _ _ _ _ _ QS _ _ _ fo_frob2_pow (proj1 fo_consts) (proj2 fo_consts) _ _ _ _ _ _ Qv (fo_g1 F e D T) (fo_g2 F e D T) C).
Qed.
End Four.

Section Six.
Context {K : Type} (F : Fops K) (e : Z -> K) (D : six_consts).
Definition si_mul_by_q := mnt_mul_by_q (cubic_scale (omul F)) (fp3_frobenius F (map e (st_c31 D)) (map e (st_c32 D)) 1) (e (st_q1 D)) (e (st_q2 D)).
Definition si_gen_check : bool :=
  let c2 := coeff (o0 F) (map e (st_c31 D)) 1 3 in
  let c4 := coeff (o0 F) (map e (st_c6 D)) 1 6 in
  quad_gen_check F (siF3 F e D) (e (fst (st_ad D))) (e (fst (st_G1 D))) (e (snd (st_G1 D))) (si_twist_a F e D) (si_twist_b F e D)
    (map3 e (fst (st_G2 D))) (map3 e (snd (st_G2 D))) si_mul_by_q (fc_p (st_Fq D)) (fc_p (st_Fr D)) &&
  oeqb F (omul F (e (st_q1 D)) c2) (o1 F) && oeqb F (omul F (e (st_q2 D)) (omul F c2 c4)) (o1 F).
Definition si_gen1 : apt K := Aff (e (fst (st_G1 D))) (e (snd (st_G1 D))).
Definition si_gen2 : apt (K * K * K) := Aff (map3 e (fst (st_G2 D))) (map3 e (snd (st_G2 D))).
Definition si_G1 := quad_G1 F (e (fst (st_ad D))) (e (snd (st_ad D))) (fc_p (st_Fr D)).
Definition si_G2 := quad_G2 (cq (st_Fq D)) (siF3 F e D) (cubic_emb F) (rot_mnr F (e (st_nr6 D))) (e (fst (st_ad D))) (si_twist_a F e D) (si_twist_b F e D) (fc_p (st_Fr D)).
(** The map from the twist to the curve over Fq6. *)
Definition si_psi := let T := quad_ops (siF3 F e D) (rot_mnr F (e (st_nr6 D))) in psi T (quad_emb (siF3 F e D)) (tinv T (quad_u (siF3 F e D))).
Hypothesis PB : prime_base F (cq (st_Fq D)).
Hypothesis C2 : char_not_2 F.
Hypothesis T : six_ok F e D.
Hypothesis TW : six_sw_ok F e D.
Hypothesis HD : sw_disc F (e (fst (st_ad D))) (e (snd (st_ad D))) <> o0 F.
Hypothesis Qv : Z.of_nat (cq (st_Fq D)) = fc_p (st_Fq D).
Hypothesis Ck : si_gen_check = true.
Let R : ring_ok F := fk_ring F (pb_field F _ PB).
Add Ring SGring : (rk_ring F R).
Let QS := six_setup F e D PB C2 T HD.
Lemma si_frob3_pow x : fp3_frobenius F (map e (st_c31 D)) (map e (st_c32 D)) 1 x = fpow (siF3 F e D) x (cq (st_Fq D)).
Proof. pose proof (proj1 (six_frob F e D PB T 1 ltac:(lia)) x) as E. change (Z.to_nat 1) with 1%nat in E. rewrite Nat.pow_1_r in E. exact E. Qed.
Lemma si_frob6_pow x : fp6_2over3_frobenius F (map e (st_c31 D)) (map e (st_c32 D)) (map e (st_c6 D)) 1 x = fpow (quad_ops (siF3 F e D) (rot_mnr F (e (st_nr6 D)))) x (cq (st_Fq D)).
Proof. pose proof (proj2 (six_frob F e D PB T 1 ltac:(lia)) x) as E. change (Z.to_nat 1) with 1%nat in E. rewrite Nat.pow_1_r in E. exact E. Qed.
Lemma si_consts : let q := cq (st_Fq D) in let G := siF3 F e D in let T := quad_ops G (rot_mnr F (e (st_nr6 D))) in
  omul G (cubic_emb F (e (st_q1 D))) (fpow G (o0 F, o1 F, o0 F) q) = (o0 F, o1 F, o0 F) /\
  omul T (quad_emb G (cubic_emb F (e (st_q2 D)))) (omul T (quad_emb G (fpow G (o0 F, o1 F, o0 F) q)) (fpow T (quad_u G) q)) = omul T (quad_emb G (o0 F, o1 F, o0 F)) (quad_u G).
Proof.
  intros q G T0. pose proof Ck as C. unfold si_gen_check in C. cbv zeta in C. rewrite !andb_true_iff in C. destruct C as [[_ CX] CY].
  apply (rk_eqb F R) in CX, CY. unfold q, T0, G. rewrite <- si_frob3_pow, <- si_frob6_pow.
  unfold quad_u, quad_emb, cubic_emb, fp6_2over3_frobenius, fp3_frobenius, siF3, fp3_ops, cubic_scale, rot_mnr. 
  set (c2 := coeff (o0 F) (map e (st_c31 D)) 1 3) in *. set (c4 := coeff (o0 F) (map e (st_c6 D)) 1 6) in *. cbn. split.
  - repeat apply (f_equal2 pair); try ring. etransitivity; [|exact CX]. ring.
  - repeat apply (f_equal2 pair); try ring. transitivity (o1 F); [|ring]. etransitivity; [|exact CY]. ring.
Qed.
Theorem six_mul_by_q Q : si_psi (prj_den (siF3 F e D) (si_mul_by_q Q)) = frob_pt (siF6 F e D) (cq (st_Fq D)) (si_psi (prj_den (siF3 F e D) Q)).
Proof. exact (quad_mul_by_q F _ _ _ _ _ _ _ _ _ _ QS _ _ _ si_frob3_pow (proj1 si_consts) (proj2 si_consts) Q). Qed.
Theorem six_gen_ok : si_G1 si_gen1 /\ si_G2 si_gen2.
Proof.
  pose proof Ck as C. unfold si_gen_check in C. cbv zeta in C. rewrite !andb_true_iff in C. destruct C as [[C _] _].
  exact (quad_gen_ok F _ _ _ _ _ _ _ _ _ _ QS _ _ _ si_frob3_pow (proj1 si_consts) (proj2 si_consts) _ _ _ _ _ _ Qv (so_g1 F e D TW) (so_g2 F e D TW) C).
Qed.
End Six.

(** ** The checks are run on the Montgomery copy of the field *)
Section Maps.
Context {A B : Type} {F : Fops A} {G : Fops B} {h : A -> B} (H : homi F G h) (R : ring_ok F) (e : Z -> A) (eG : Z -> B).
Hypothesis He : forall z, eG z = h (e z).
Lemma homi_fp3 nr : homi (fp3_ops F nr) (fp3_ops G (h nr)) (map3 h).
Proof. apply (homi_cubic H). intros x. apply (hi_mul H). Qed.
Lemma scale3 c x : cubic_scale (omul G) (h c) (map3 h x) = map3 h (cubic_scale (omul F) c x).
Proof. destruct x as [[a b] d]. unfold map3. cbn [fst snd cubic_scale]. now push H. Qed.
Lemma fp3_frobenius_map t1 t2 k x : fp3_frobenius G (map h t1) (map h t2) k (map3 h x) = map3 h (fp3_frobenius F t1 t2 k x).
Proof. destruct x as [[a b] c]. unfold map3, fp3_frobenius. cbn [fst snd]. pull H. rewrite !coeff_map. now push H. Qed.
Lemma mnt_mul_by_q_map {L L'} (hE : L -> L') sc sc' fr fr' qX qY Q : (forall c x, sc' (h c) (hE x) = hE (sc c x)) -> (forall x, fr' (hE x) = hE (fr x)) ->
  mnt_mul_by_q sc' fr' (h qX) (h qY) (map3 hE Q) = map3 hE (mnt_mul_by_q sc fr qX qY Q).
Proof. intros E1 E2. destruct Q as [[X Y] Z]. unfold mnt_mul_by_q, map3. cbn [fst snd]. now rewrite !E2, !E1. Qed.
Lemma fo_gen_check_map D : fo_gen_check G eG D = fo_gen_check F e D.
Proof.
  unfold fo_gen_check, fo_mul_by_q, foF2, fo_twist_a, fo_twist_b, mnt4_twist_a, mnt4_twist_b. cbv zeta.
  rewrite !(e_list e eG He), !(e_map2 e eG He), !He. rewrite <- (hi_0 H), !coeff_map, <- (hi_1 H), <- !(hi_mul H), !(hi_eqb _ _ _ H).
  f_equal; f_equal.
  rewrite <- (quad_gen_check_map H (homi_fp2 H (e (ft_nr2 D))) R (fp2_ring F R _)
    _ _ _ _ _ _ _ (mnt_mul_by_q (quad_scale (omul F)) (fp2_frobenius F (map e (ft_c2 D)) 1) (e (ft_qX D)) (e (ft_qY D)))
    (mnt_mul_by_q (quad_scale (omul G)) (fp2_frobenius G (map h (map e (ft_c2 D))) 1) (h (e (ft_qX D))) (h (e (ft_qY D)))));
    [reflexivity|].
  intros Q. apply mnt_mul_by_q_map; [exact (scale2 H)|exact (fp2_frobenius_map H _ 1)].
Qed.
Lemma si_gen_check_map D : si_gen_check G eG D = si_gen_check F e D.
Proof.
  unfold si_gen_check, si_mul_by_q, siF3, si_twist_a, si_twist_b, mnt6_twist_a, mnt6_twist_b. cbv zeta.
  rewrite !(e_list e eG He), !(e_map3 e eG He), !He. rewrite <- (hi_0 H), !coeff_map, <- (hi_1 H), <- !(hi_mul H), !(hi_eqb _ _ _ H).
  f_equal; f_equal.
  rewrite <- (quad_gen_check_map H (homi_fp3 (e (st_nr3 D))) R (fp3_ring F R _)
    _ _ _ _ _ _ _ (mnt_mul_by_q (cubic_scale (omul F)) (fp3_frobenius F (map e (st_c31 D)) (map e (st_c32 D)) 1) (e (st_q1 D)) (e (st_q2 D)))
    (mnt_mul_by_q (cubic_scale (omul G)) (fp3_frobenius G (map h (map e (st_c31 D))) (map h (map e (st_c32 D))) 1) (h (e (st_q1 D))) (h (e (st_q2 D)))));
    [reflexivity|].
  intros Q. apply mnt_mul_by_q_map; [exact scale3|exact (fp3_frobenius_map _ _ 1)].
Qed.
End Maps.
Definition copy_check {X} (C : field_consts) (check : forall K, Fops K -> (Z -> K) -> X -> bool) (D : X) : bool :=
  let R := mk_rctx (fc_p C) in rctx_check (fc_p C) && check _ (r_ops R) (mont_e R (cn C)) D.
Lemma mnt4_gen_check : copy_check (ft_Fq mnt4_tower) (@fo_gen_check) mnt4_tower = true. Proof. vm_compute. reflexivity. Qed.
Lemma mnt6_gen_check : copy_check (st_Fq mnt6_tower) (@si_gen_check) mnt6_tower = true. Proof. vm_compute. reflexivity. Qed.
Lemma copy_check_ok {X} C CO (check : forall K, Fops K -> (Z -> K) -> X -> bool) D :
  (forall A B (F : Fops A) (G : Fops B) h, homi F G h -> ring_ok F -> forall e eG, (forall z, eG z = h (e z)) -> check _ G eG D = check _ F e D) ->
  copy_check C check D = true -> check _ (cF C CO) (ce C CO) D = true.
Proof.
  intros Hm Ck. unfold copy_check in Ck. cbv zeta in Ck. apply andb_true_iff in Ck. destruct Ck as [C1 C3].
  rewrite (Hm _ _ _ _ _ (base_mont C CO C1) (fk_ring _ (pb_field _ _ (base_prime C CO))) _ _ (base_mont_e C CO C1)) in C3. exact C3.
Qed.
Section Shipped4.
Variable CO : field_consts_ok (ft_Fq mnt4_tower).
Let D := mnt4_tower.
Let F := cF (ft_Fq D) CO.
Let e := ce (ft_Fq D) CO.
Let PB := base_prime (ft_Fq D) CO.
Let C2 := base_char2 (ft_Fq D) CO.
Let T : four_ok F e D := shipped_four_ok D CO (or_introl eq_refl).
Let HD := mnt_check_disc F e (toZ (fc_P (ft_Fq D))) _ _ _ _ _ _ _ (base_hom _ CO) mnt4_mnt_check.
Let CK : fo_gen_check F e D = true := copy_check_ok (ft_Fq D) CO (@fo_gen_check) D (fun A B F G h H R e eG He => fo_gen_check_map H R e eG He D) mnt4_gen_check.
Theorem mnt4_generators : fo_G1 F e D (fo_gen1 e D) /\ fo_G2 F e D (fo_gen2 e D).
Proof. exact (four_gen_ok F e D PB C2 T HD (four_Qv F D PB) CK). Qed.
Theorem mnt4_mul_by_q Q : fo_psi F e D (prj_den (foF2 F e D) (fo_mul_by_q F e D Q)) = frob_pt (foF4 F e D) (cq (ft_Fq D)) (fo_psi F e D (prj_den (foF2 F e D) Q)).
Proof. exact (four_mul_by_q F e D PB C2 T HD CK Q). Qed.
End Shipped4.
Section Shipped6.
Variable CO : field_consts_ok (st_Fq mnt6_tower).
Let D := mnt6_tower.
Let F := cF (st_Fq D) CO.
Let e := ce (st_Fq D) CO.
Let PB := base_prime (st_Fq D) CO.
Let C2 := base_char2 (st_Fq D) CO.
Let T : six_ok F e D := shipped_six_ok D CO (or_introl eq_refl).
Let HD := mnt_check_disc F e (toZ (fc_P (st_Fq D))) _ _ _ _ _ _ _ (base_hom _ CO) mnt6_mnt_check.
Let CK : si_gen_check F e D = true := copy_check_ok (st_Fq D) CO (@si_gen_check) D (fun A B F G h H R e eG He => si_gen_check_map H R e eG He D) mnt6_gen_check.
Theorem mnt6_generators : si_G1 F e D (si_gen1 e D) /\ si_G2 F e D (si_gen2 e D).
Proof. exact (six_gen_ok F e D PB C2 T (mnt6_sw_ok CO) HD (six_Qv F D PB) CK). Qed.
Theorem mnt6_mul_by_q Q : si_psi F e D (prj_den (siF3 F e D) (si_mul_by_q F e D Q)) = frob_pt (siF6 F e D) (cq (st_Fq D)) (si_psi F e D (prj_den (siF3 F e D) Q)).
Proof. exact (six_mul_by_q F e D PB C2 T HD CK Q). Qed.
End Shipped6.
