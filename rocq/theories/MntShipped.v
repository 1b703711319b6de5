(** The mnt4 and mnt6 pairings with the shipped constants are the textbook ate
    pairings and are bilinear (C49, C51). *)
From Coq Require Import ZArith List Bool Lia Znumtheory Ring.
From Verif Require Import Mul63 FpField.
From Verif Require Import Result Algebra Limbs LimbsProofs FieldOps BigintModel FpModel FpSpec FpInst ParamsModel ParamsProofs ParamsA ParamsB ParamsC ParamsD ExtModel ExtSpec ExtFrob ExtProofs ExtInst
  CurveSpec CurveGroup CurveModel CurveProofs Hom AlgorithmsField TowerModel TowerSpec TowerProofs TowerShipped TowerSqrt FinalExpSpec FinalExpModel FinalExpProofs
  PairingModel PairingSpec PairingProofs PairingShipped NeutralProofs MillerSpec MillerProofs MillerRegular MillerQuad Cochain BilinearQuad.
Import ListNotations.
Open Scope Z_scope.

(** ** The facts used, for any quadratic twist *)
Record quad_setup {K L : Type} (F : Fops K) (q : nat) (G : Fops L) (e1 : K -> L) (scale : K -> L -> L) (nu : L) (mnr : L -> L)
  (a b : K) (a' b' : L) : Prop := {
  qs_PB : prime_base F q;
  qs_GK : field_ok G;
  qs_0 : e1 (o0 F) = o0 G;
  qs_1 : e1 (o1 F) = o1 G;
  qs_add : forall x y, e1 (oadd F x y) = oadd G (e1 x) (e1 y);
  qs_mul : forall x y, e1 (omul F x y) = omul G (e1 x) (e1 y);
  qs_opp : forall x, e1 (oopp F x) = oopp G (e1 x);
  qs_inj : forall x y, e1 x = e1 y -> x = y;
  qs_s : forall s x, scale s x = omul G (e1 s) x;
  qs_mnr : forall x, mnr x = omul G nu x;
  qs_nu : nu <> o0 G;
  qs_TK : field_ok (quad_ops G mnr);
  qs_a : a' = omul G (e1 a) (omul G nu nu);
  qs_b : b' = omul G (e1 b) (omul G (omul G nu nu) nu);
  qs_2 : oadd F (o1 F) (o1 F) <> o0 F;
  qs_disc : sw_disc F a b <> o0 F
}.
Record quad_numbers {L : Type} (G : Fops L) (q : nat) (p N r : Z) (lc : bigint) (neg : bool) (n : positive) : Prop := {
  qn_q : Z.of_nat q = p;
  qn_r : prime r;
  qn_r3 : 3 < r;
  qn_N : 1 < N;
  qn_G : order_divides G N;
  qn_2r : (N + 1) mod (2 * r) = 0;
  qn_l : limbs lc;
  qn_lc : val lc = Z.pos n;
  qn_n : Z.pos n < r;
  qn_t : (sgnz neg n - p) mod r = 0
}.
Section Quad.
Context {K L : Type} (F : Fops K) (q : nat) (G : Fops L) (e1 : K -> L) (scale : K -> L -> L) (nu : L) (mnr : L -> L) (a b : K) (a' b' : L).
Variables (p N r : Z) (lc : bigint) (neg : bool) (n : positive).
Notation T := (quad_ops G mnr).
Notation emb := (quad_emb G).
Notation Psi := (psi T emb (tinv T (quad_u G))).
Notation up x := (emb (e1 x)).
(** The groups, with the point at infinity, and the ate pairing. *)
Definition quad_G1 (A : apt K) : Prop := torsion F a b r A.
Definition quad_G2 (B : apt L) : Prop := torsion G a' b' r B /\ frob_eigen T (up a) q (Psi B).
Definition quad_ate (B : apt L) (x y : K) : L * L := miller_signed T (up a) neg n (Psi B) (up x) (up y).
Variable pairing : K * K * K -> L * L * L -> result (L * L).
(** The code computes the textbook ate pairing: c does not depend on the
    points. *)
Definition quad_is_textbook : Prop :=
  exists c, 0 <= c /\ Z.gcd c r = 1 /\
  forall P Q xP yP B, prj_den F P = Aff xP yP -> prj_den G Q = B -> quad_G1 (Aff xP yP) -> B <> Inf -> torsion G a' b' r B ->
  quad_ate B xP yP <> o0 T /\
  pairing P Q = Ok (fpow T (quad_ate B xP yP) (Z.to_nat (c * ((N * N - 1) / r)))).
Definition quad_is_bilinear : Prop :=
  pair_bilinear F a G a' T r quad_G1 quad_G2 (prj_den F) (prj_den G) pairing.

Hypothesis QS : quad_setup F q G e1 scale nu mnr a b a' b'.
Hypothesis QN : quad_numbers G q p N r lc neg n.
Lemma quad_exp c : 0 <= c -> Z.to_nat (c * ((N * N - 1) / r)) = (Z.to_nat (N - 1) * (2 * Z.to_nat (c * ((N + 1) / (2 * r)))))%nat.
Proof.
  intros C0. pose proof (qn_r3 _ _ _ _ _ _ _ _ QN) as R3. pose proof (qn_N _ _ _ _ _ _ _ _ QN) as N1. pose proof (qn_2r _ _ _ _ _ _ _ _ QN) as E.
  set (j := (N + 1) / (2 * r)). pose proof (Z.div_mod (N + 1) (2 * r) ltac:(lia)) as H. rewrite E in H. fold j in H.
  assert (J0 : 0 <= j) by (apply Z.div_pos; lia).
  replace ((N * N - 1) / r) with ((N - 1) * (2 * j)).
  - replace (c * ((N - 1) * (2 * j))) with ((N - 1) * (2 * (c * j))) by ring.
    assert (0 <= c * j) by (apply Z.mul_nonneg_nonneg; lia). rewrite Z2Nat.inj_mul, Z2Nat.inj_mul by lia. reflexivity.
  - symmetry. replace (N * N - 1) with ((N - 1) * (N + 1)) by ring. rewrite H.
    replace ((N - 1) * (2 * r * j + 0)) with (((N - 1) * (2 * j)) * r) by ring. apply Z.div_mul. lia.
Qed.
Variable final : L * L -> result (L * L).
Hypothesis FE : final_exp_ok T (N * N - 1) r final.
Hypothesis PD : pairing = fun P Q => f <- quad_pairing F G e1 scale nu mnr a' lc neg P Q ;; final f.
Lemma quad_kills c : 0 <= c -> let Ex := Z.to_nat (c * ((N * N - 1) / r)) in
  (forall x, x <> o0 G -> fpow T (emb x) Ex = o1 T) /\ fpow T (quad_u G) Ex = o1 T.
Proof.
  intros C0 Ex. pose proof (rk_monoid T (fk_ring T (qs_TK _ _ _ _ _ _ _ _ _ _ _ QS))) as M.
  assert (KE : forall x, x <> o0 G -> fpow T (emb x) (Z.to_nat (N - 1)) = o1 T).
  { intros x Nx. pose proof (fk_ring G (qs_GK _ _ _ _ _ _ _ _ _ _ _ QS)) as RG.
    rewrite (quad_emb_pow G mnr nu RG (qs_mnr _ _ _ _ _ _ _ _ _ _ _ QS)), (qn_G _ _ _ _ _ _ _ _ QN x Nx). reflexivity. }
  unfold Ex. rewrite quad_exp by auto. split.
  - intros x Nx. rewrite (npow_mul _ _ M), KE by auto. apply (npow_one _ _ M).
  - set (j := Z.to_nat (c * _)). replace (Z.to_nat (N - 1) * (2 * j))%nat with (2 * (Z.to_nat (N - 1) * j))%nat by lia.
    rewrite (npow_mul _ _ M), (npow_2 _ _ M).
    rewrite (w_sq G (qs_GK _ _ _ _ _ _ _ _ _ _ _ QS) nu mnr (qs_mnr _ _ _ _ _ _ _ _ _ _ _ QS)).
    rewrite (npow_mul _ _ M), KE by apply (qs_nu _ _ _ _ _ _ _ _ _ _ _ QS). apply (npow_one _ _ M).
Qed.
Theorem quad_shipped_textbook : quad_is_textbook.
Proof.
  destruct FE as (_ & _ & c & C0 & Cg & FF). exists c. split; [exact C0|]. split; [exact Cg|].
  intros P Q xP yP B DP DQ SP NB TB. destruct B as [|x y]; [congruence|].
  destruct (quad_kills c C0) as [Ke Kw]. set (Ex := Z.to_nat (c * ((N * N - 1) / r))) in *.
  destruct QS as [PB GK E0 E1 EA EM EO EI ES EN Nn TK Ea Eb H2 HD]. destruct QN as [Qv Pr R3 N1 GO E2 Ll Hl Hn Et].
  destruct (quad_textbook F q PB G GK e1 scale nu mnr E0 E1 EA EM EO EI ES EN Nn TK a b a' b' Ea Eb H2 HD r Ex Pr R3 Ke Kw lc neg n Ll Hl Hn
    P Q xP yP x y DP DQ SP TB) as (Na & f & Ef & Nf & Pf).
  split; [exact Na|]. rewrite PD, Ef. cbn [bind]. destruct (FF f Nf) as (v & Ev & Vv & _). rewrite Ev. f_equal.
  change (Z.to_nat (c * ((N * N - 1) / r))) with Ex in Vv. rewrite Vv. exact Pf.
Qed.
Theorem quad_shipped_bilinear : quad_is_bilinear.
Proof.
  destruct FE as (_ & _ & c & C0 & Cg & FF).
  destruct (quad_kills c C0) as [Ke Kw]. set (Ex := Z.to_nat (c * ((N * N - 1) / r))) in *.
  destruct QS as [PB GK E0 E1 EA EM EO EI ES EN Nn TK Ea Eb H2 HD]. destruct QN as [Qv Pr R3 N1 GO E2 Ll Hl Hn Et].
  assert (Et' : exists k, sgnz neg n = Z.of_nat q + r * k).
  { exists ((sgnz neg n - p) / r). rewrite Qv. pose proof (Z.div_mod (sgnz neg n - p) r ltac:(lia)) as H. lia. }
  assert (KE : forall f, f <> o0 T -> fpow T (fpow T f Ex) (Z.to_nat r) = o1 T).
  { intros f Nf. destruct (FF f Nf) as (v & _ & Vv & Rv). fold Ex in Vv. rewrite <- Vv. exact Rv. }
  assert (FE' : forall f, f <> o0 T -> final f = Ok (fpow T f Ex)).
  { intros f Nf. destruct (FF f Nf) as (v & Ev & Vv & _). rewrite Ev. now rewrite Vv. }
  unfold quad_is_bilinear. rewrite PD.
  exact (quad_bilinear F q PB G GK e1 scale nu mnr E0 E1 EA EM EO EI ES EN Nn TK a b a' b' Ea Eb H2 HD r Ex Pr R3 KE Ke Kw lc neg n Ll Hl Hn Et' final FE').
Qed.
End Quad.

(** ** The shipped constants *)
Definition mnt_check (Fq Fr : field_consts) (a b loop : Z) (neg : bool) (N : Z) : bool :=
  let p := fc_p Fq in
  let r := fc_p Fr in
  let G := zq p in
  ctx_check p && rngZ p a && rngZ p b && negb (oeqb G (sw_disc G a b) (o0 G)) &&
  small_check (cn Fq) loop && (1 <=? loop) && (loop <? r) && (3 <? r) && (1 <? N) &&
  ((N + 1) mod (2 * r) =? 0) && ((sgnz neg (Z.to_pos loop) - p) mod r =? 0).
Section Check.
Context {K L : Type} (F : Fops K) (e : Z -> K) (h : K -> Z) (G : Fops L) (Fq Fr : field_consts) (a b loop : Z) (neg : bool) (N : Z).
Let p := fc_p Fq.
Let r := fc_p Fr.
Hypothesis PB : prime_base F (cq Fq).
Hypothesis H1 : ctx_check p = true -> hom F (zq p) h e (rngZ p).
Hypothesis Ck : mnt_check Fq Fr a b loop neg N = true.
Lemma hom_nmul H x k : hom F H h e (rngZ p) -> h (fnmul F x k) = fnmul H (h x) k.
Proof. intros HH. induction k as [|k IH]; [apply (hm_0 _ _ _ _ _ HH)|]. cbn [npow]. now rewrite (hm_add _ _ _ _ _ HH), IH. Qed.
Lemma mnt_check_disc : sw_disc F (e a) (e b) <> o0 F.
Proof.
  pose proof Ck as Hk. unfold mnt_check in Hk. cbv zeta in Hk. rewrite !andb_true_iff in Hk.
  destruct Hk as [[[[[[[[[[K1 K2] K3] K4] _] _] _] _] _] _] _]. fold p in K1, K2, K3, K4. specialize (H1 K1).
  apply (neq_by F (zq p) h e _ H1). unfold sw_disc. rewrite (hm_add _ _ _ _ _ H1), !(hom_nmul _ _ _ H1), !(hm_mul _ _ _ _ _ H1).
  rewrite (hm_lift H1 K2), (hm_lift H1 K3), (hm_0 _ _ _ _ _ H1). now apply negb_true_iff.
Qed.
Lemma mnt_check_numbers : prime r -> order_divides G N -> quad_numbers G (cq Fq) p N r (limbs_of (cn Fq) loop) neg (Z.to_pos loop).
Proof.
  intros Pr GO. pose proof Ck as Hk. unfold mnt_check in Hk. cbv zeta in Hk. rewrite !andb_true_iff in Hk.
  destruct Hk as [[[[[[[[[[_ _] _] _] K5] K6] K7] K8] K9] K10] K11]. fold p in K11. fold r in K7, K8, K10, K11.
  apply Z.leb_le in K6. apply Z.ltb_lt in K7, K8, K9. apply Z.eqb_eq in K10, K11.
  constructor; auto.
  - pose proof (pb_prime F _ PB) as [H _]. unfold cq in *. fold p in H |- *. rewrite Z2Nat.id; [reflexivity|]. lia.
  - apply limbs_of_limbs.
  - rewrite Z2Pos.id by lia. now apply small_check_ok.
  - rewrite Z2Pos.id by lia. exact K7.
Qed.
End Check.

Section Four.
Context {K : Type} (F : Fops K) (e : Z -> K) (D : four_consts).
Let p := fc_p (ft_Fq D).
Let r := fc_p (ft_Fr D).
Notation G := (foF2 F e D).
Notation e1 := (quad_emb F).
Definition fo_textbook : Prop :=
  quad_is_textbook F G e1 (fp4_mnr F (e (ft_nr4 D))) (e (ft_a D)) (e (ft_b D)) (fo_twist_a F e D) (fo_twist_b F e D)
    (p ^ 2) r (ft_loop_neg D) (Z.to_pos (ft_loop D)) (fo_reduced_pairing F e D).
Definition fo_bilinear : Prop :=
  quad_is_bilinear F (cq (ft_Fq D)) G e1 (fp4_mnr F (e (ft_nr4 D))) (e (ft_a D)) (e (ft_b D)) (fo_twist_a F e D) (fo_twist_b F e D)
    r (fo_reduced_pairing F e D).
Hypothesis PB : prime_base F (cq (ft_Fq D)).
Hypothesis C2 : char_not_2 F.
Hypothesis T : four_ok F e D.
Hypothesis HD : sw_disc F (e (ft_a D)) (e (ft_b D)) <> o0 F.
Let R : ring_ok F := fk_ring F (pb_field F _ PB).
Add Ring FOring : (rk_ring F R).
Lemma four_setup : quad_setup F (cq (ft_Fq D)) G e1 (quad_scale (omul F)) (o0 F, o1 F) (fp4_mnr F (e (ft_nr4 D)))
  (e (ft_a D)) (e (ft_b D)) (fo_twist_a F e D) (fo_twist_b F e D).
Proof.
  pose proof (fo_nr4 F e D T) as E4. pose proof (four_2 F e D PB C2 T) as B2. pose proof (four_4 F e D PB C2 T) as B4.
  constructor; auto.
  - apply B2.
  - intros x y. apply (quad_emb_add F (omul F (e (ft_nr2 D))) R).
  - intros x y. apply (quad_emb_mul F (omul F (e (ft_nr2 D))) (e (ft_nr2 D)) R). reflexivity.
  - intros x. unfold quad_emb, foF2, fp2_ops. cbn. f_equal. ring.
  - intros x y H. now injection H.
  - intros s x. apply (quad_scale_spec F (omul F (e (ft_nr2 D))) (e (ft_nr2 D)) R). reflexivity.
  - intros x. rewrite E4. apply (fp4_mnr_spec F R).
  - intros H. apply (fk_1_neq_0 F (pb_field F _ PB)). now injection H.
  - apply B4.
  - unfold fo_twist_a, mnt4_twist_a, foF2, fp2_ops, quad_emb. cbn. f_equal; ring.
  - unfold fo_twist_b, mnt4_twist_b, foF2, fp2_ops, quad_emb. cbn. f_equal; ring.
Qed.
Lemma four_quad : fo_reduced_pairing F e D = fun P Q =>
  f <- quad_pairing F G e1 (quad_scale (omul F)) (o0 F, o1 F) (fp4_mnr F (e (ft_nr4 D))) (fo_twist_a F e D) (limbs_of (cn (ft_Fq D)) (ft_loop D)) (ft_loop_neg D) P Q ;;
  fo_final F e D f.
Proof. reflexivity. Qed.
Hypothesis NU : quad_numbers G (cq (ft_Fq D)) p (p ^ 2) r (limbs_of (cn (ft_Fq D)) (ft_loop D)) (ft_loop_neg D) (Z.to_pos (ft_loop D)).
Hypothesis FE : final_exp_ok (foF4 F e D) (p ^ 4 - 1) r (fo_final F e D).
Let FE' : final_exp_ok (foF4 F e D) (p ^ 2 * p ^ 2 - 1) r (fo_final F e D).
Proof. replace (p ^ 2 * p ^ 2) with (p ^ 4) by ring. exact FE. Qed.
Lemma four_mnt : fo_textbook /\ fo_bilinear.
Proof.
  split.
  - exact (quad_shipped_textbook F _ G _ _ _ _ _ _ _ _ _ _ _ _ _ _ _ four_setup NU _ FE' four_quad).
  - exact (quad_shipped_bilinear F _ G _ _ _ _ _ _ _ _ _ _ _ _ _ _ _ four_setup NU _ FE' four_quad).
Qed.
End Four.

Section Six.
Context {K : Type} (F : Fops K) (e : Z -> K) (D : six_consts).
Let p := fc_p (st_Fq D).
Let r := fc_p (st_Fr D).
Notation G := (siF3 F e D).
Notation e1 := (cubic_emb F).
Definition si_textbook : Prop :=
  quad_is_textbook F G e1 (rot_mnr F (e (st_nr6 D))) (e (fst (st_ad D))) (e (snd (st_ad D))) (si_twist_a F e D) (si_twist_b F e D)
    (p ^ 3) r (st_loop_neg D) (Z.to_pos (st_loop D)) (si_mnt6_reduced_pairing F e D).
Definition si_bilinear : Prop :=
  quad_is_bilinear F (cq (st_Fq D)) G e1 (rot_mnr F (e (st_nr6 D))) (e (fst (st_ad D))) (e (snd (st_ad D))) (si_twist_a F e D) (si_twist_b F e D)
    r (si_mnt6_reduced_pairing F e D).
Hypothesis PB : prime_base F (cq (st_Fq D)).
Hypothesis C2 : char_not_2 F.
Hypothesis T : six_ok F e D.
Hypothesis HD : sw_disc F (e (fst (st_ad D))) (e (snd (st_ad D))) <> o0 F.
Let R : ring_ok F := fk_ring F (pb_field F _ PB).
Add Ring SIring : (rk_ring F R).
Lemma six_setup : quad_setup F (cq (st_Fq D)) G e1 (cubic_scale (omul F)) (o0 F, o1 F, o0 F) (rot_mnr F (e (st_nr6 D)))
  (e (fst (st_ad D))) (e (snd (st_ad D))) (si_twist_a F e D) (si_twist_b F e D).
Proof.
  pose proof (so_nr6 F e D T) as E4. pose proof (six_3 F e D PB C2 T) as B2. pose proof (six_6 F e D PB C2 T) as B4.
  constructor; auto.
  - apply B2.
  - intros x y. apply (cubic_emb_add F (omul F (e (st_nr3 D))) R).
  - intros x y. apply (cubic_emb_mul F (omul F (e (st_nr3 D))) (e (st_nr3 D)) R). reflexivity.
  - intros x. unfold cubic_emb, siF3, fp3_ops. cbn. f_equal; [f_equal|]; ring.
  - intros x y H. now injection H.
  - intros s x. apply (cubic_scale_spec F (omul F (e (st_nr3 D))) (e (st_nr3 D)) R). reflexivity.
  - intros x. rewrite E4. apply (rot_mnr_spec F R).
  - intros H. apply (fk_1_neq_0 F (pb_field F _ PB)). now injection H.
  - apply B4.
  - unfold si_twist_a, mnt6_twist_a, siF3, fp3_ops, cubic_emb. cbn. f_equal; [f_equal|]; ring.
  - unfold si_twist_b, mnt6_twist_b, siF3, fp3_ops, cubic_emb. cbn. f_equal; [f_equal|]; ring.
Qed.
Lemma six_quad : si_mnt6_reduced_pairing F e D = fun P Q =>
  f <- quad_pairing F G e1 (cubic_scale (omul F)) (o0 F, o1 F, o0 F) (rot_mnr F (e (st_nr6 D))) (si_twist_a F e D) (limbs_of (cn (st_Fq D)) (st_loop D)) (st_loop_neg D) P Q ;;
  si_final F e D f.
Proof. reflexivity. Qed.
Hypothesis NU : quad_numbers G (cq (st_Fq D)) p (p ^ 3) r (limbs_of (cn (st_Fq D)) (st_loop D)) (st_loop_neg D) (Z.to_pos (st_loop D)).
Hypothesis FE : final_exp_ok (siF6 F e D) (p ^ 6 - 1) r (si_final F e D).
Let FE' : final_exp_ok (siF6 F e D) (p ^ 3 * p ^ 3 - 1) r (si_final F e D).
Proof. replace (p ^ 3 * p ^ 3) with (p ^ 6) by ring. exact FE. Qed.
Lemma six_mnt : si_textbook /\ si_bilinear.
Proof.
  split.
  - exact (quad_shipped_textbook F _ G _ _ _ _ _ _ _ _ _ _ _ _ _ _ _ six_setup NU _ FE' six_quad).
  - exact (quad_shipped_bilinear F _ G _ _ _ _ _ _ _ _ _ _ _ _ _ _ _ six_setup NU _ FE' six_quad).
Qed.
End Six.

Lemma mnt4_mnt_check : let D := mnt4_tower in mnt_check (ft_Fq D) (ft_Fr D) (ft_a D) (ft_b D) (ft_loop D) (ft_loop_neg D) (fc_p (ft_Fq D) ^ 2) = true.
Proof. vm_compute. reflexivity. Qed.
Lemma mnt6_mnt_check : let D := mnt6_tower in
  mnt_check (st_Fq D) (st_Fr D) (fst (st_ad D)) (snd (st_ad D)) (st_loop D) (st_loop_neg D) (fc_p (st_Fq D) ^ 3) = true.
Proof. vm_compute. reflexivity. Qed.
Lemma mnt4_shipped CO : let D := mnt4_tower in let F := cF (ft_Fq D) CO in let e := ce (ft_Fq D) CO in fo_textbook F e D /\ fo_bilinear F e D.
Proof.
  intros D F e. set (PB := base_prime (ft_Fq D) CO). pose proof (shipped_four_ok D CO (or_introl eq_refl)) as T.
  pose proof (oki_prime _ (fco_inv _ mnt4_Fr_ok)) as Pr. pose proof (base_char2 (ft_Fq D) CO) as C2.
  apply (four_mnt F e D PB C2 T).
  - exact (mnt_check_disc F e (toZ (fc_P (ft_Fq D))) _ _ _ _ _ _ _ (base_hom _ CO) mnt4_mnt_check).
  - exact (mnt_check_numbers F _ _ _ _ _ _ _ _ PB mnt4_mnt_check Pr (bf_order _ _ _ (four_2 F e D PB C2 T))).
  - exact (mnt4_final_shipped CO).
Qed.
Lemma mnt6_shipped CO : let D := mnt6_tower in let F := cF (st_Fq D) CO in let e := ce (st_Fq D) CO in si_textbook F e D /\ si_bilinear F e D.
Proof.
  intros D F e. set (PB := base_prime (st_Fq D) CO). assert (HD : In D shipped_six) by (unfold shipped_six; cbn; tauto). pose proof (shipped_six_ok D CO HD) as T.
  pose proof (oki_prime _ (fco_inv _ mnt6_Fr_ok)) as Pr. pose proof (base_char2 (st_Fq D) CO) as C2.
  apply (six_mnt F e D PB C2 T).
  - exact (mnt_check_disc F e (toZ (fc_P (st_Fq D))) _ _ _ _ _ _ _ (base_hom _ CO) mnt6_mnt_check).
  - exact (mnt_check_numbers F _ _ _ _ _ _ _ _ PB mnt6_mnt_check Pr (bf_order _ _ _ (six_3 F e D PB C2 T))).
  - exact (six_final_shipped D CO HD).
Qed.
