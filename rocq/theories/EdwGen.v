(** The edwards generators, mul_by_q (C52) and the pairing of the generators (C49):
    the checks are run on the Montgomery copy of the field. *)
From Coq Require Import ZArith List Bool Lia Znumtheory Ring Field.
From Verif Require Import Mul63 FpField.
From Verif Require Import Result Algebra Limbs LimbsProofs FieldOps BigintModel FpModel FpSpec FpInst ParamsModel ParamsProofs ParamsA ParamsB ParamsC ParamsD ExtModel ExtSpec ExtFrob ExtProofs ExtInst
  CurveSpec CurveGroup CurveModel CurveProofs GroupOps CurveExtra CurveEdwards CurveEdwOps CurveEdwGroup Hom Mod63 MontRing HomMont HomPairing AlgorithmsField TowerModel TowerSpec TowerProofs TowerShipped TowerSqrt FinalExpSpec FinalExpModel FinalExpProofs
  PairingModel PairingSpec PairingProofs PairingShipped NeutralProofs MillerSpec MillerProofs MillerRegular MillerQuad Cochain BilinearQuad GenShipped NonDegenerate MntShipped MntGen MntNonDeg EdwSpec EdwSw EdwPairing EdwGroup EdwBilinear EdwShipped.
Import ListNotations.
Open Scope Z_scope.

(** ** Projective addition on a complete curve, for the checks *)
Section Tp.
Context {K : Type} (F : Fops K) (a d : K).
Local Notation "x + y" := (oadd F x y).
Local Notation "x - y" := (osub F x y).
Local Notation "x * y" := (omul F x y).
Definition tpadd (P Q : K * K * K) : K * K * K :=
  let '(X1, Y1, Z1) := P in let '(X2, Y2, Z2) := Q in
  let A := Z1 * Z2 in
  let B := A * A in
  let C := X1 * X2 in
  let D := Y1 * Y2 in
  let E := d * (C * D) in
  let M := B - E in
  let N := B + E in
  (A * (M * (X1 * Y2 + Y1 * X2)), A * (N * (D - a * C)), M * N).
Fixpoint tpmul (n : positive) (P : K * K * K) : K * K * K :=
  match n with
  | xH => P
  | xO n => let S := tpmul n P in tpadd S S
  | xI n => let S := tpmul n P in tpadd (tpadd S S) P
  end.
Definition tp_is_zero (P : K * K * K) : bool := let '(X, Y, Z) := P in oeqb F X (o0 F) && oeqb F Y Z.
Definition te_onb (x y : K) : bool := oeqb F (a * (x * x) + y * y) (o1 F + d * ((x * x) * (y * y))).
End Tp.
Section TpOk.
Context {K : Type} (F : Fops K) (FK : field_ok F) (a d : K).
Let R : ring_ok F := fk_ring F FK.
Add Field TPfield : (fk_field F FK).
Local Notation "0" := (o0 F).
Local Notation "1" := (o1 F).
Local Notation "x + y" := (oadd F x y).
Local Notation "x - y" := (osub F x y).
Local Notation "x * y" := (omul F x y).
Hypothesis H2 : 1 + 1 <> 0.
Variable al : K.
Hypothesis HA : a = al * al.
Hypothesis NA : al <> 0.
Hypothesis ND : forall s, s * s <> d.
(** The triple is (x Z, y Z, Z). *)
Definition tprep (T : K * K * K) (P : K * K) : Prop := let '(X, Y, Z) := T in let '(x, y) := P in Z <> 0 /\ X = x * Z /\ Y = y * Z.
Lemma tpadd_rep S T P Q : te_on F a d P -> te_on F a d Q -> tprep S P -> tprep T Q -> tprep (tpadd F a d S T) (te_add F a d P Q).
Proof.
  destruct S as [[X1 Y1] Z1], T as [[X2 Y2] Z2], P as [x1 y1], Q as [x2 y2]. intros O1 O2 (N1 & -> & ->) (N2 & -> & ->).
  pose proof (te_complete_p F FK a d al HA NA ND H2 _ _ _ _ O1 O2) as CP. pose proof (te_complete_m F FK a d al HA NA ND H2 _ _ _ _ O1 O2) as CM.
  cbn [tpadd te_add tprep]. clear O1 O2.
  set (t := d * (x1 * x2 * (y1 * y2))) in *.
  assert (E : d * (x1 * Z1 * (x2 * Z2) * (y1 * Z1 * (y2 * Z2))) = Z1 * Z2 * (Z1 * Z2) * t) by (unfold t; ring).
  rewrite E. clearbody t. split; [|split].
  - replace (Z1 * Z2 * (Z1 * Z2) - Z1 * Z2 * (Z1 * Z2) * t) with (Z1 * Z2 * (Z1 * Z2) * (1 - t)) by ring.
    replace (Z1 * Z2 * (Z1 * Z2) + Z1 * Z2 * (Z1 * Z2) * t) with (Z1 * Z2 * (Z1 * Z2) * (1 + t)) by ring.
    repeat apply (fk_mul_neq_0 F FK); assumption.
  - field. exact CP.
  - field. exact CM.
Qed.
Lemma tpmul_rep n S (P : te_pt F a d) : tprep S (proj1_sig P) -> tprep (tpmul F a d n S) (te_mult F a d n (proj1_sig P)).
Proof.
  intros H. assert (O : forall m, te_on F a d (te_mult F a d m (proj1_sig P))).
  { intros m. rewrite (te_mult_tp F FK a d H2 Z0 al HA NA ND). apply (te_pt_on F FK). }
  induction n as [n IH|n IH|]; cbn [tpmul te_mult].
  - apply tpadd_rep; [exact (O (xO n))|apply (te_pt_on F FK)|now apply tpadd_rep; try apply O|exact H].
  - now apply tpadd_rep; try apply O.
  - exact H.
Qed.
Lemma tp_is_zero_ok T P : tprep T P -> tp_is_zero F T = true -> P = te_zero F.
Proof.
  destruct T as [[X Y] Z], P as [x y]. intros (N & -> & ->) C. cbn [tp_is_zero] in C. apply andb_true_iff in C. destruct C as [C1 C2].
  apply (rk_eqb F R) in C1, C2. unfold te_zero. f_equal.
  - replace x with (x * Z * tinv F Z) by (field; exact N). rewrite C1. ring.
  - replace y with (y * Z * tinv F Z) by (field; exact N). rewrite C2. field. exact N.
Qed.
Lemma te_mult_mod n r (P : te_pt F a d) : (0 < n mod r)%Z -> (0 < r)%Z -> (0 < n)%Z -> te_mult F a d (Z.to_pos r) (proj1_sig P) = te_zero F ->
  te_mult F a d (Z.to_pos (n mod r)) (proj1_sig P) = te_mult F a d (Z.to_pos n) (proj1_sig P).
Proof.
  intros Hm Hr Hn. set (AG := tp_group F FK a d al HA NA ND H2). pose proof (ag_monoid _ _ _ AG) as MO.
  rewrite !(te_mult_tp F FK a d H2 Z0 al HA NA ND). intros E. f_equal.
  assert (E' : npow (tp_zero F FK a d) (tp_add F FK a d) P (Pos.to_nat (Z.to_pos r)) = tp_zero F FK a d) by (apply te_pt_eq; exact E).
  assert (Hq : (0 <= n / r)%Z) by (apply Z.div_pos; lia). pose proof (Z.div_mod n r ltac:(lia)) as Dm.
  replace (Pos.to_nat (Z.to_pos n)) with (Pos.to_nat (Z.to_pos r) * Z.to_nat (n / r) + Pos.to_nat (Z.to_pos (n mod r)))%nat.
  - rewrite (npow_add _ _ MO), (npow_mul _ _ MO), E'. rewrite (npow_one _ _ MO). now rewrite (ml_1_l _ _ MO).
  - apply Nat2Z.inj. rewrite Nat2Z.inj_add, Nat2Z.inj_mul, !positive_nat_Z, !Z2Pos.id, Z2Nat.id by lia. lia.
Qed.
Lemma te_onb_ok x y : te_onb F a d x y = true -> te_on F a d (x, y).
Proof. unfold te_onb. intros H. apply (rk_eqb F R) in H. exact H. Qed.
End TpOk.

(** The check: the generator of G1 is on the curve and killed by r; the image of
    that of G2 on the curve with a' and d' exchanged is on it, killed by r, and
    multiplied by p under the Frobenius. *)
Definition edw_gen_check {K L} (F : Fops K) (G : Fops L) (d x1 y1 : K) (nu d' x y qx : L) (frob : L -> L) (p r : Z) : bool :=
  let D := (omul G x y, o1 G, y) in
  let '(X, Y, Z) := tpmul G d' nu (Z.to_pos (p mod r)) D in
  (0 <? r) && (0 <? p) && (0 <? p mod r) &&
  te_onb F (o1 F) d x1 y1 && tp_is_zero F (tpmul F (o1 F) d (Z.to_pos r) (x1, y1, o1 F)) &&
  te_onb G nu d' x y && negb (oeqb G y (o0 G)) && tp_is_zero G (tpmul G d' nu (Z.to_pos r) D) &&
  oeqb G X (omul G (omul G qx (frob x)) Z) && oeqb G (omul G Y (frob y)) Z.

Section Gen.
Context {K L : Type} (F : Fops K) (q : nat) (G : Fops L) (e1 : K -> L) (scale : K -> L -> L) (nu : L) (mnr : L -> L) (a b : K) (a' b' : L).
Hypothesis QS : quad_setup F q G e1 scale nu mnr a b a' b'.
Notation T := (quad_ops G mnr).
Notation emb := (quad_emb G).
Notation w := (quad_u G).
Notation up x := (emb (e1 x)).
Notation un := (te_untwist T emb w).
Variables (frob : L -> L) (qx : K).
Hypothesis HF : forall x, frob x = fpow G x q.
Hypothesis HW : fpow T w q = omul T (up qx) w.
Let PB := qs_PB _ _ _ _ _ _ _ _ _ _ _ QS.
Let FK : field_ok F := pb_field F _ PB.
Let GK := qs_GK _ _ _ _ _ _ _ _ _ _ _ QS.
Let TK := qs_TK _ _ _ _ _ _ _ _ _ _ _ QS.
Let Hmnr := qs_mnr _ _ _ _ _ _ _ _ _ _ _ QS.
Let RG : ring_ok G := fk_ring G GK.
Let RT : ring_ok T := fk_ring T TK.
Let EM := q_emb_mul G GK nu mnr Hmnr.
Add Field EGG : (fk_field G GK).
Add Field EGT : (fk_field T TK).
Lemma qp_mul x y : fpow G (omul G x y) q = omul G (fpow G x q) (fpow G y q).
Proof. exact (npow_mul_distr _ _ (rk_monoid G RG) (rk_mul_comm G RG) x y q). Qed.
Lemma qp_1 : fpow G (o1 G) q = o1 G. Proof. apply (npow_one _ _ (rk_monoid G RG)). Qed.
Lemma qp_0 : fpow G (o0 G) q = o0 G.
Proof. pose proof (prime_ge_2 _ (pb_prime F q PB)) as H. assert (Z0 : forall k, (0 < k)%nat -> fpow G (o0 G) k = o0 G) by (intros [|k] Hk; [lia|cbn [npow]; ring]). apply Z0. lia. Qed.
Lemma qp_ne x : x <> o0 G -> fpow G x q <> o0 G.
Proof. intros N. apply (fk_pow_neq_0 G GK). exact N. Qed.
Lemma tinv_0 : tinv G (o0 G) = o0 G. Proof. unfold tinv. now rewrite (fk_inv_0 G GK). Qed.
Lemma qp_inv x : fpow G (tinv G x) q = tinv G (fpow G x q).
Proof.
  destruct (rk_dec G RG x (o0 G)) as [->|N]; [now rewrite tinv_0, qp_0, tinv_0|].
  symmetry. apply (tinv_uniq G GK). rewrite <- qp_mul. replace (omul G x (tinv G x)) with (o1 G) by (field; exact N). apply qp_1.
Qed.
Lemma w_ne0 : w <> o0 T.
Proof. intros E. pose proof (u_w G GK mnr TK) as H. rewrite E in H. apply (fk_1_neq_0 T TK). rewrite <- H. ring. Qed.
Lemma qx_ne : e1 qx <> o0 G.
Proof.
  intros E. apply (fk_pow_neq_0 T TK w q w_ne0). change (fpow T w q = o0 T). rewrite HW, E, (q_emb_0 G mnr). ring.
Qed.
Lemma un_frob x y : te_frob T q (un (x, y)) = un (omul G (e1 qx) (fpow G x q), fpow G y q).
Proof.
  cbn [te_untwist te_frob]. assert (M : fpow T (omul T w (emb x)) q = omul T (fpow T w q) (fpow T (emb x) q)) by exact (npow_mul_distr _ _ (rk_monoid T RT) (rk_mul_comm T RT) _ _ q).
  rewrite M, HW, !(quad_emb_pow G mnr nu RG Hmnr), EM. f_equal. ring.
Qed.
Theorem edw_mul_by_q Q : un (edw_den G (edwards_mul_by_q scale frob qx qx Q)) = te_frob T q (un (edw_den G Q)).
Proof.
  destruct Q as [[X Y] Z]. cbn [edwards_mul_by_q]. rewrite !HF, !(qs_s _ _ _ _ _ _ _ _ _ _ _ QS). pose proof qx_ne as Nq.
  unfold edw_den. assert (EB : forall A, oeqb G (omul G (e1 qx) (fpow G A q)) (o0 G) = oeqb G A (o0 G)).
  { intros A. destruct (rk_dec G RG A (o0 G)) as [->|N].
    - rewrite qp_0. replace (omul G (e1 qx) (o0 G)) with (o0 G) by ring. reflexivity.
    - rewrite !(proj2 (rk_eqb_neq G RG _ _)); [reflexivity|exact N|]. apply (fk_mul_neq_0 G GK); [exact Nq|now apply qp_ne]. }
  rewrite !EB. destruct (oeqb G Y (o0 G) && oeqb G Z (o0 G)).
  - unfold te_zero. rewrite un_frob, qp_0, qp_1. f_equal. f_equal. ring.
  - rewrite un_frob. unfold tdiv. rewrite !qp_mul, !qp_inv. f_equal. f_equal; [ring|].
    destruct (rk_dec G RG (fpow G Y q) (o0 G)) as [E|N].
    + rewrite E. replace (omul G (e1 qx) (o0 G)) with (o0 G) by ring. rewrite tinv_0. ring.
    + field. split; [exact N|exact Nq].
Qed.
Variables (p r : Z) (d x1 y1 : K) (d' x y : L).
Hypothesis Qv : Z.of_nat q = p.
Hypothesis Ro : Z.odd r = true.
Hypothesis ND : forall s, omul F s s <> d.
Variable be : L.
Hypothesis HB : d' = omul G be be.
Hypothesis NB : be <> o0 G.
Hypothesis NQ : forall s, omul G s s <> nu.
Hypothesis Ck : edw_gen_check F G d x1 y1 nu d' x y (e1 qx) frob p r = true.
Theorem edw_gen_ok : edw_G1 F d r (x1, y1) /\ edw_G2 q G nu mnr d' r (x, y).
Proof.
  pose proof QS as QS'. destruct QS' as [PB' GK' E0 E1 EA EM' EO EI ES EN Nn TK' Ea Eb H2 HD].
  pose proof (two_G F G e1 E0 E1 EA EI H2) as H2G.
  pose proof Ck as C. unfold edw_gen_check in C. 
  destruct (tpmul G d' nu (Z.to_pos (p mod r)) (omul G x y, o1 G, y)) as [[X Y] Z] eqn:EX. rewrite !andb_true_iff in C.
  destruct C as [[[[[[[[[C1 C2] C3] C4] C5] C6] C7] C8] C9] C10]. apply Z.ltb_lt in C1, C2, C3.
  apply (te_onb_ok F FK) in C4. apply (te_onb_ok G GK) in C6. apply negb_true_iff, (rk_eqb_neq G RG) in C7. apply (rk_eqb G RG) in C9, C10.
  rewrite HF in C9. rewrite HF in C10. 
  assert (A1 : o1 F = omul F (o1 F) (o1 F)) by (symmetry; apply (ml_1_l _ _ (rk_monoid F (fk_ring F FK)))).
  assert (NA : o1 F <> o0 F) by apply (fk_1_neq_0 F FK).
  assert (T1 : edw_G1 F d r (x1, y1)).
  { split; [exact C4|].
    pose proof (tpmul_rep F FK _ d H2 _ A1 NA ND (Z.to_pos r) (x1, y1, o1 F) (tp_mk F FK _ d (x1, y1))) as H.
    rewrite (tp_mk_val F FK _ d _ C4) in H. refine (tp_is_zero_ok F FK _ _ (H _) C5). cbn. split; [exact NA|]. split; symmetry; apply (ml_1_r _ _ (rk_monoid F (fk_ring F FK))). }
  split; [exact T1|].
  pose proof (te_dual_on G GK nu d' (x, y) C6 C7) as CD. cbn [te_dual] in CD. set (Qd := tp_mk G GK d' nu (x, tinv G y)).
  assert (VQ : proj1_sig Qd = (x, tinv G y)) by exact (tp_mk_val G GK d' nu _ CD).
  assert (RQ : tprep G (omul G x y, o1 G, y) (proj1_sig Qd)) by (rewrite VQ; cbn; split; [exact C7|split; field; exact C7]).
  pose proof (tpmul_rep G GK d' nu H2G be HB NB NQ (Z.to_pos r) _ Qd RQ) as RR. apply (tp_is_zero_ok G GK _ _ RR) in C8.
  pose proof (tpmul_rep G GK d' nu H2G be HB NB NQ (Z.to_pos (p mod r)) _ Qd RQ) as RP. rewrite EX in RP.
  rewrite (te_mult_mod G GK d' nu H2G be HB NB NQ p r Qd C3 C1 C2 C8) in RP. rewrite VQ in C8, RP.
  assert (T2 : te_torsion_dual G nu d' r (x, y)) by (split; [exact C7|]; split; [exact CD|exact C8]).
  split; [exact T2|]. unfold te_eigen. rewrite Qv, un_frob. f_equal.
  destruct (dual_mult G GK nu d' H2G r C1 Ro be HB NB NQ (Z.to_pos p) (x, y) T2) as [T3 DM]. cbn [te_dual] in DM. rewrite <- DM in RP.
  destruct (te_mult G nu d' (Z.to_pos p) (x, y)) as [x3 y3]. destruct T3 as [N3 _]. cbn [te_dual tprep] in RP. destruct RP as (NZ & HX & HY).
  pose proof (qp_ne y C7) as Ny. set (xq := fpow G x q) in *. set (yq := fpow G y q) in *. f_equal.
  - transitivity (omul G (omul G (omul G (e1 qx) xq) Z) (tinv G Z)); [field; exact NZ|]. rewrite <- C9, HX. field. exact NZ.
  - transitivity (omul G (omul G (omul G (tinv G y3) Z) yq) (omul G y3 (tinv G Z))); [field; split; assumption|]. rewrite <- HY, C10. field. exact NZ.
Qed.
End Gen.

(** ** The maps of the pairing *)
Section EdwMaps.
Context {A B L M : Type} {F : Fops A} {G : Fops B} {h : A -> B} (H : homi F G h) {FE : Fops L} {GE : Fops M} {hE : L -> M} (HE : homi FE GE hE).
Context {FK : Fops (L * L)} {GK : Fops (M * M)} (HK : homi FK GK (map2 hE)).
Variables (sc : A -> L -> L) (sc' : B -> M -> M) (ma : L -> L) (ma' : M -> M) (lc : bigint).
Hypothesis Esc : forall c x, sc' (h c) (hE x) = hE (sc c x).
Hypothesis Ema : forall x, ma' (hE x) = hE (ma x).
Lemma edw_to_affine_map P : edw_to_affine G (map3 h P) = rmap (map3 h) (edw_to_affine F P).
Proof.
  destruct P as [[X Y] Z]. unfold edw_to_affine, edw_is_zero, map3. cbn [fst snd]. cbv zeta. rewrite !(hi_eqb0 H).
  destruct (_ && _).
  - cbn. unfold map3. cbn [fst snd]. now push H.
  - pull H. apply (bind_map' h); [apply (hi_inv _ _ _ H)|]. intros z. cbn. unfold map3. cbn [fst snd]. now push H.
Qed.
Lemma edbl_map s : edw_doubling_step GE ma' (map4 (hE := hE) s) = let '(r, c) := edw_doubling_step FE ma s in (map4 (hE := hE) r, map3 hE c).
Proof.
  destruct s as [[[X Y] Z] T]. unfold edw_doubling_step, map4, map3. cbv zeta. cbn [fst snd].
  repeat (pull HE; rewrite ?Ema). reflexivity.
Qed.
Lemma eadd_map b s : edw_mixed_addition_step GE ma' (map4 (hE := hE) b) (map4 (hE := hE) s) =
  let '(r, c) := edw_mixed_addition_step FE ma b s in (map4 (hE := hE) r, map3 hE c).
Proof.
  destruct s as [[[X Y] Z] T], b as [[[X2 Y2] Z2] T2]. unfold edw_mixed_addition_step, map4, map3. cbv zeta. cbn [fst snd].
  repeat (pull HE; rewrite ?Ema). reflexivity.
Qed.
Definition mapE (s : L * L * L * L * list (L * L * L)) := let '(r, c) := s in (map4 (hE := hE) r, map (map3 hE) c).
Lemma epre_body_map b Q s : edw_precompute_body GE ma' (edw_doubling_step GE ma') (map4 (hE := hE) Q) b (mapE s) =
  rmap mapE (edw_precompute_body FE ma (edw_doubling_step FE ma) Q b s).
Proof.
  destruct s as [R c]. unfold mapE at 1. unfold edw_precompute_body. rewrite edbl_map.
  destruct (edw_doubling_step FE ma R) as [R1 c1]. cbv zeta. destruct b.
  - rewrite eadd_map. destruct (edw_mixed_addition_step FE ma Q R1) as [R2 c2]. cbn. now rewrite !map_app.
  - cbn. now rewrite !map_app.
Qed.
Lemma epre1_map P : edw_precompute_G1 G (map3 h P) = rmap (map3 h) (edw_precompute_G1 F P).
Proof.
  unfold edw_precompute_G1. apply (bind_map' (map3 h)); [apply edw_to_affine_map|]. intros [[X Y] Z]. unfold map3. cbn. unfold map3. cbn [fst snd]. now push H.
Qed.
Lemma eg_RR_map P c : edw_g_RR GE sc' (map3 h P) (map3 hE c) = map2 hE (edw_g_RR FE sc P c).
Proof. destruct P as [[a b] d], c as [[x y] z]. unfold edw_g_RR, map3, map2. cbn [fst snd]. rewrite !Esc. now push HE. Qed.
Lemma eg_RQ_map P c : edw_g_RQ GE sc' (map3 h P) (map3 hE c) = map2 hE (edw_g_RQ FE sc P c).
Proof. destruct P as [[a b] d], c as [[x y] z]. unfold edw_g_RQ, map3, map2. cbn [fst snd]. rewrite !Esc. now push HE. Qed.
Definition mapJ (s : L * L * nat) : M * M * nat := let '(f, i) := s in (map2 hE f, i).
Lemma ebody_map {C C'} (g : C -> C') (gr gq : C -> L * L) (gr' gq' : C' -> M * M) l b s :
  (forall c, gr' (g c) = map2 hE (gr c)) -> (forall c, gq' (g c) = map2 hE (gq c)) ->
  edw_miller_body GK gr' gq' (map g l) b (mapJ s) = rmap mapJ (edw_miller_body FK gr gq l b s).
Proof.
  intros E1 E2. destruct s as [f i]. unfold mapJ at 1. unfold edw_miller_body. apply (bind_map' g); [apply at_idx_map|]. intros d. cbv zeta.
  rewrite E1, <- (hi_sqr HK), <- (hi_mul HK). destruct b; [|reflexivity].
  apply (bind_map' g); [apply at_idx_map|]. intros a. rewrite E2, <- (hi_mul HK). reflexivity.
Qed.
Lemma eloop_map P l : edw_miller_loop GE sc' GK lc (map3 h P) (map (map3 hE) l) = rmap (map2 hE) (edw_miller_loop FE sc FK lc P l).
Proof.
  unfold edw_miller_loop, miller_value. apply (bind_map' mapJ).
  - unfold edw_miller_loop_idx.
    rewrite <- (bit_loop_map mapJ lc _ _ (fun b s => ebody_map (map3 hE) _ _ _ _ l b s (eg_RR_map P) (eg_RQ_map P))). unfold mapJ at 1. now rewrite (hi_1 HK).
  - intros [f i]. reflexivity.
Qed.
End EdwMaps.
Lemma epre2_map {L M} {FE : Fops L} {GE : Fops M} {hE : L -> M} (HE : homi FE GE hE) ma ma' lc : (forall x, ma' (hE x) = hE (ma x)) ->
  forall Q, edw_precompute_G2 GE ma' lc (map3 hE Q) = rmap (map (map3 hE)) (edw_precompute_G2 FE ma lc Q).
Proof.
  intros Ema Q. unfold edw_precompute_G2. apply (bind_map' (map3 hE)); [apply (edw_to_affine_map HE)|]. intros [[X Y] Z]. unfold map3 at 1. cbn [fst snd]. cbv zeta.
  apply (bind_map' (mapE (hE := hE))).
  - rewrite <- (bit_loop_map (mapE (hE := hE)) lc _ _ (fun b s => epre_body_map HE _ _ Ema b (X, Y, Z, omul FE X Y) s)). unfold mapE, map4. cbn [map]. now rewrite (hi_mul HE).
  - intros [R c]. reflexivity.
Qed.
Lemma edwards_pairing_map {A B} {F : Fops A} {G : Fops B} {h : A -> B} (H : homi F G h) nr2 nr3 nr6 t31 t32 t6 a lc w1 w0 ng P Q :
  edwards_reduced_pairing G (h nr2) (h nr3) (h nr6) (map h t31) (map h t32) (map h t6) (edwards_mul_by_a G (h a) (h nr3)) lc w1 w0 ng (map3 h P) (map3 (map3 h) Q) =
  rmap (map2 (map3 h)) (edwards_reduced_pairing F nr2 nr3 nr6 t31 t32 t6 (edwards_mul_by_a F a nr3) lc w1 w0 ng P Q).
Proof.
  unfold edwards_reduced_pairing. apply (bind_map' (map2 (map3 h))); [|apply (six_final_map H)]. unfold edwards_pairing. cbv zeta.
  apply (bind_map' (map3 h)); [apply (epre1_map H)|]. intros p.
  apply (bind_map' (map (map3 (map3 h)))); [apply (epre2_map (homi_fp3 H nr3))|].
  - intros [[x y] z]. unfold map3. cbn [fst snd edwards_mul_by_a]. now push H.
  - intros q. apply (eloop_map (homi_fp3 H nr3) (homi_fp6_2over3 H nr3 nr6)). exact (scale3 H).
Qed.

(** ** The shipped generators, mul_by_q and the pairing of the generators *)
Section SixDefs.
Context {K : Type} (F : Fops K) (e : Z -> K) (D : six_consts).
Notation G := (siF3 F e D).
Definition si_edw_mul_by_q := edwards_mul_by_q (cubic_scale (omul F)) (fp3_frobenius F (map e (st_c31 D)) (map e (st_c32 D)) 1) (e (st_q1 D)) (e (st_q2 D)).
Definition si_edw_gen1 : K * K := (e (fst (st_G1 D)), e (snd (st_G1 D))).
Definition si_edw_gen2 : (K * K * K) * (K * K * K) := (map3 e (fst (st_G2 D)), map3 e (snd (st_G2 D))).
Definition si_edw_G1 := edw_G1 F (e (snd (st_ad D))) (fc_p (st_Fr D)).
Definition si_edw_G2 := edw_G2 (cq (st_Fq D)) G (si_tw_a F e D) (rot_mnr F (e (st_nr6 D))) (si_tw_d F e D) (fc_p (st_Fr D)).
(** The map from the twist to the curve over Fq6. *)
Definition si_edw_psi := te_untwist (siF6 F e D) (quad_emb G) (quad_u G).
Definition si_edw_gen_check : bool :=
  edw_gen_check F G (e (snd (st_ad D))) (e (fst (st_G1 D))) (e (snd (st_G1 D))) (si_tw_a F e D) (si_tw_d F e D)
    (map3 e (fst (st_G2 D))) (map3 e (snd (st_G2 D))) (e (st_q1 D), o0 F, o0 F) (fp3_frobenius F (map e (st_c31 D)) (map e (st_c32 D)) 1) (fc_p (st_Fq D)) (fc_p (st_Fr D)) &&
  oeqb F (e (st_q1 D)) (coeff (o0 F) (map e (st_c6 D)) 1 6) && oeqb F (e (st_q2 D)) (e (st_q1 D)).
(** The generators in inverted coordinates (edwards_g1.hpp:42, edwards_g2.hpp:47). *)
Definition edw_inverted {M} (H : Fops M) (P : M * M) : M * M * M := let '(x, y) := P in (y, x, omul H x y).
Definition si_edw_pair_check : bool :=
  negb (oeqb F (fst si_edw_gen1) (o0 F)) && negb (oeqb G (fst si_edw_gen2) (o0 G)) &&
  is_ok_ne1 (siF6 F e D) (si_edwards_reduced_pairing F e D (edw_inverted F si_edw_gen1) (edw_inverted G si_edw_gen2)).
End SixDefs.
Section CheckMaps.
Context {A B : Type} {F : Fops A} {G : Fops B} {h : A -> B} (H : homi F G h) (R : ring_ok F).
Lemma tpadd_map a d P Q : tpadd G (h a) (h d) (map3 h P) (map3 h Q) = map3 h (tpadd F a d P Q).
Proof. destruct P as [[X Y] Z], Q as [[X2 Y2] Z2]. unfold map3. cbn [fst snd tpadd]. cbv zeta. now push H. Qed.
Lemma tpmul_map a d n P : tpmul G (h a) (h d) n (map3 h P) = map3 h (tpmul F a d n P).
Proof. induction n as [n IH|n IH|]; cbn [tpmul]; cbv zeta; rewrite ?IH, ?tpadd_map; reflexivity. Qed.
Lemma tp_is_zero_map P : tp_is_zero G (map3 h P) = tp_is_zero F P.
Proof. destruct P as [[X Y] Z]. unfold tp_is_zero, map3. cbn [fst snd]. now rewrite (hi_eqb0 H), (hi_eqb _ _ _ H). Qed.
Lemma te_onb_map a d x y : te_onb G (h a) (h d) (h x) (h y) = te_onb F a d x y.
Proof. unfold te_onb. pull H. apply (hi_eqb _ _ _ H). Qed.
End CheckMaps.
Lemma edw_gen_check_map {A B A' B'} {F : Fops A} {FE : Fops B} {G : Fops A'} {GE : Fops B'} {h : A -> A'} {hE : B -> B'} (H : homi F G h) (HE : homi FE GE hE)
  d x1 y1 nu d' x y qx fr fr' p r : (forall Q, fr' (hE Q) = hE (fr Q)) ->
  edw_gen_check G GE (h d) (h x1) (h y1) (hE nu) (hE d') (hE x) (hE y) (hE qx) fr' p r = edw_gen_check F FE d x1 y1 nu d' x y qx fr p r.
Proof.
  intros Hf. unfold edw_gen_check. cbv zeta.
  replace (omul GE (hE x) (hE y), o1 GE, hE y) with (map3 hE (omul FE x y, o1 FE, y)) by (unfold map3; cbn [fst snd]; now push HE).
  replace (h x1, h y1, o1 G) with (map3 h (x1, y1, o1 F)) by (unfold map3; cbn [fst snd]; now push H).
  rewrite <- (hi_1 H), !(tpmul_map HE), (tpmul_map H), (te_onb_map H), (te_onb_map HE), (tp_is_zero_map H), (tp_is_zero_map HE), (hi_eqb0 HE).
  destruct (tpmul FE d' nu (Z.to_pos (p mod r)) (omul FE x y, o1 FE, y)) as [[X Y] Z]. unfold map3 at 1. cbn [fst snd].
  rewrite !Hf. pull HE. now rewrite !(hi_eqb _ _ _ HE).
Qed.
Section SixMaps.
Context {A B : Type} {F : Fops A} {G : Fops B} {h : A -> B} (H : homi F G h) (R : ring_ok F) (e : Z -> A) (eG : Z -> B).
Hypothesis He : forall z, eG z = h (e z).
Lemma si_edw_gen_check_map D : si_edw_gen_check G eG D = si_edw_gen_check F e D.
Proof.
  unfold si_edw_gen_check, siF3, si_tw_a, si_tw_d, edwards_twist_a, edwards_twist_d.
  rewrite !(e_list e eG He), !(e_map3 e eG He), !He. rewrite <- (hi_0 H), !coeff_map, <- (hi_1 H), <- !(hi_mul H), !(hi_eqb _ _ _ H).
  f_equal; f_equal.
  rewrite <- (edw_gen_check_map H (homi_fp3 H (e (st_nr3 D))) _ _ _ _ _ _ _ _ (fp3_frobenius F (map e (st_c31 D)) (map e (st_c32 D)) 1)
    (fp3_frobenius G (map h (map e (st_c31 D))) (map h (map e (st_c32 D))) 1)); [reflexivity|].
  exact (fp3_frobenius_map H _ _ 1).
Qed.
Lemma si_edw_pair_check_map D : si_edw_pair_check G eG D = si_edw_pair_check F e D.
Proof.
  unfold si_edw_pair_check. f_equal.
  { unfold si_edw_gen1, si_edw_gen2. cbn [fst]. rewrite !(e_map3 e eG He), !He, (hi_eqb0 H). f_equal. f_equal. unfold siF3. rewrite He. exact (hi_eqb0 (homi_fp3 H (e (st_nr3 D))) _). }
  unfold si_edwards_reduced_pairing, siF6, siF3, si_edw_gen1, si_edw_gen2, edw_inverted. rewrite !He. apply (is_ok_ne1_map (homi_fp6_2over3 H _ _)).
  rewrite <- (edwards_pairing_map H). rewrite !(e_list e eG He), !(e_map3 e eG He). f_equal.
  - unfold map3. cbn [fst snd]. now push H.
  - apply (f_equal2 pair); [reflexivity|]. symmetry. exact (hi_mul (homi_fp3 H (e (st_nr3 D))) _ _).
Qed.
End SixMaps.
Lemma edwards_gen_check : copy_check (st_Fq edwards_tower) (@si_edw_gen_check) edwards_tower = true. Proof. vm_compute. reflexivity. Qed.
Lemma edwards_pair_check : copy_check (st_Fq edwards_tower) (@si_edw_pair_check) edwards_tower = true. Proof. vm_compute. reflexivity. Qed.

(** Points of prime order *)
Lemma npow_order {M} (one : M) mul (MO : monoid_laws one mul) v k n : prime k -> npow one mul v (Z.to_nat k) = one -> (0 < n)%nat -> Z.of_nat n < k ->
  npow one mul v n = one -> v = one.
Proof.
  intros Pr Er N0 Nk En. assert (R2 : 2 <= k) by now apply prime_ge_2.
  assert (P1 : forall j, npow one mul v (Z.to_nat k * j) = one) by (intros j; rewrite (npow_mul _ _ MO), Er; apply (npow_one _ _ MO)).
  assert (RP : rel_prime k (Z.of_nat n)).
  { apply prime_rel_prime; [exact Pr|]. intros DV. apply Z.divide_pos_le in DV; lia. }
  destruct (rel_prime_bezout _ _ RP) as [a b E].
  pose (b' := b mod k). pose (a' := (b' * Z.of_nat n - 1) / k).
  assert (B0 : 0 <= b' < k) by (apply Z.mod_pos_bound; lia).
  assert (E2 : (b' * Z.of_nat n - 1) mod k = 0).
  { unfold b'. rewrite Zminus_mod, Zmult_mod_idemp_l, <- Zminus_mod. replace (b * Z.of_nat n - 1) with ((- a) * k) by lia. apply Z_mod_mult. }
  assert (E3 : b' * Z.of_nat n = 1 + a' * k) by (unfold a'; pose proof (Z_div_mod_eq_full (b' * Z.of_nat n - 1) k); lia).
  assert (A0 : 0 <= a').
  { destruct (Z_lt_le_dec a' 0) as [L|]; [|assumption]. exfalso. assert (b' * Z.of_nat n < 0) by nia. nia. }
  transitivity (npow one mul v (n * Z.to_nat b')).
  + replace (n * Z.to_nat b')%nat with (1 + Z.to_nat k * Z.to_nat a')%nat.
    * rewrite (npow_add _ _ MO), P1, (npow_1 _ _ MO). symmetry. apply (ml_1_r _ _ MO).
    * apply Nat2Z.inj. rewrite Nat2Z.inj_add, !Nat2Z.inj_mul, !Z2Nat.id by lia. change (Z.of_nat 1) with 1. lia.
  + rewrite (npow_mul _ _ MO), En. apply (npow_one _ _ MO).
Qed.
Section Order.
Context {K : Type} (F : Fops K) (FK : field_ok F) (a d : K).
Hypothesis H2 : oadd F (o1 F) (o1 F) <> o0 F.
Variable r : Z.
Hypothesis Pr : prime r.
Hypothesis Rp : 0 < r.
Hypothesis Ro : Z.odd r = true.
Lemma te_order_ne al : a = omul F al al -> al <> o0 F -> (forall s, omul F s s <> d) ->
  forall A m, te_torsion F a d r A -> A <> te_zero F -> Z.pos m < r -> te_mult F a d m A <> te_zero F.
Proof.
  intros HA NA ND A m HT NZ Hm E. apply (te_torsion_iff F FK a d H2 r Rp al HA NA ND) in HT. destruct HT as (P & <- & HT).
  rewrite (te_mult_tp F FK a d H2 0 al HA NA ND) in E. apply NZ.
  assert (E' : npow (tp_zero F FK a d) (tp_add F FK a d) P (Pos.to_nat m) = tp_zero F FK a d) by (apply te_pt_eq; exact E).
  rewrite (npow_order _ _ (ag_monoid _ _ _ (tp_group F FK a d al HA NA ND H2)) P r (Pos.to_nat m) Pr HT ltac:(lia) ltac:(lia) E'). reflexivity.
Qed.
Lemma te_order_dual_ne be : d = omul F be be -> be <> o0 F -> (forall s, omul F s s <> a) ->
  forall A m, te_torsion_dual F a d r A -> A <> te_zero F -> Z.pos m < r -> te_mult F a d m A <> te_zero F.
Proof.
  intros HB NB NQ A m HT NZ Hm E. destruct (dual_mult F FK a d H2 r Rp Ro be HB NB NQ m A HT) as [_ DM]. rewrite E in DM.
  destruct A as [x y]. destruct HT as [N1 [O1 K1]].
  assert (EZ : te_dual F (te_zero F) = te_zero F) by (unfold te_dual, te_zero; now rewrite (tinv_1 F FK)). rewrite EZ in DM. symmetry in DM. revert DM. cbn [te_dual].
  assert (X : forall A' m, te_torsion F d a r A' -> A' <> te_zero F -> Z.pos m < r -> te_mult F d a m A' <> te_zero F).
  { intros A' m' HT' NZ' Hm' E'. apply (te_torsion_iff F FK d a H2 r Rp be HB NB NQ) in HT'. destruct HT' as (P & <- & HT').
    rewrite (te_mult_tp F FK d a H2 0 be HB NB NQ) in E'. apply NZ'.
    assert (E2 : npow (tp_zero F FK d a) (tp_add F FK d a) P (Pos.to_nat m') = tp_zero F FK d a) by (apply te_pt_eq; exact E').
    rewrite (npow_order _ _ (ag_monoid _ _ _ (tp_group F FK d a be HB NB NQ H2)) P r (Pos.to_nat m') Pr HT' ltac:(lia) ltac:(lia) E2). reflexivity. }
  apply X; [split; assumption| |exact Hm]. intros DZ. apply NZ. exact (dual_zero F FK (x, y) N1 DZ).
Qed.
End Order.
Section SixGen.
Context {K : Type} (F : Fops K) (e : Z -> K) (D : six_consts).
Let p := fc_p (st_Fq D).
Let r := fc_p (st_Fr D).
Notation G := (siF3 F e D).
Notation T := (quad_ops (siF3 F e D) (rot_mnr F (e (st_nr6 D)))).
Notation d := (e (snd (st_ad D))).
Notation d' := (si_tw_d F e D).
Notation nu := (si_tw_a F e D).
Hypothesis PB : prime_base F (cq (st_Fq D)).
Hypothesis C2 : char_not_2 F.
Hypothesis OK : six_ok F e D.
Let FK : field_ok F := pb_field F _ PB.
Let R : ring_ok F := fk_ring F FK.
Add Ring SGring : (rk_ring F (fk_ring F (pb_field F _ PB))).
Hypothesis A1 : e (fst (st_ad D)) = o1 F.
Hypothesis N3F : oadd F (oadd F (o1 F) (o1 F)) (o1 F) <> o0 F.
Hypothesis NdF : d <> o0 F.
Hypothesis NadF : osub F (o1 F) d <> o0 F.
Hypothesis NSd : forall s, omul F s s <> d.
Variable t : K.
Hypothesis Ht : omul F (omul F t t) (e (st_nr3 D)) = d.
Hypothesis Rp : 0 < r.
Hypothesis Ro : Z.odd r = true.
Hypothesis Qv : Z.of_nat (cq (st_Fq D)) = p.
Hypothesis Ck : si_edw_gen_check F e D = true.
Let QS := edw_setup F e D PB C2 OK A1 N3F NdF NadF.
Let GK : field_ok G := bf_field _ _ _ (six_3 F e D PB C2 OK).
Let TK : field_ok T. Proof. pose proof (six_6 F e D PB C2 OK) as B. apply B. Qed.
Let be_eq : d' = omul G (o0 F, o0 F, t) (o0 F, o0 F, t) := edw_be F e D PB t Ht.
Let be_ne : (o0 F, o0 F, t) <> o0 G := edw_be_ne F e D PB NdF t Ht.
Let NSa : forall s, omul G s s <> nu.
Proof. intros s. exact (nu_nonsq G GK nu (rot_mnr F (e (st_nr6 D))) (qs_mnr _ _ _ _ _ _ _ _ _ _ _ QS) TK s). Qed.
Lemma edw_w_pow : fpow T (quad_u G) (cq (st_Fq D)) = omul T (quad_emb G (cubic_emb F (e (st_q1 D)))) (quad_u G).
Proof.
  pose proof Ck as C. unfold si_edw_gen_check in C. rewrite !andb_true_iff in C. destruct C as [[_ C] _]. apply (rk_eqb F R) in C.
  rewrite <- (si_frob6_pow F e D PB OK), C.
  unfold quad_u, quad_emb, cubic_emb, fp6_2over3_frobenius, fp3_frobenius, siF3, fp3_ops, cubic_scale, rot_mnr.
  set (c6 := coeff (o0 F) (map e (st_c6 D)) 1 6). cbn. repeat apply (f_equal2 pair); ring.
Qed.
Theorem six_edw_mul_by_q Q : si_edw_psi F e D (edw_den G (si_edw_mul_by_q F e D Q)) = te_frob (siF6 F e D) (cq (st_Fq D)) (si_edw_psi F e D (edw_den G Q)).
Proof.
  pose proof Ck as C. unfold si_edw_gen_check in C. rewrite !andb_true_iff in C. destruct C as [_ C]. apply (rk_eqb F R) in C.
  unfold si_edw_mul_by_q. rewrite C. exact (edw_mul_by_q F _ G _ _ _ _ _ _ _ _ QS _ _ (si_frob3_pow F e D PB OK) edw_w_pow Q).
Qed.
Theorem six_edw_gen_ok : si_edw_G1 F e D (si_edw_gen1 e D) /\ si_edw_G2 F e D (si_edw_gen2 e D).
Proof.
  pose proof Ck as C. unfold si_edw_gen_check in C. rewrite !andb_true_iff in C. destruct C as [[C _] _].
  exact (edw_gen_ok F _ G _ _ _ _ _ _ _ _ QS _ _ (si_frob3_pow F e D PB OK) edw_w_pow _ _ _ _ _ _ _ _ Qv Ro NSd _ be_eq be_ne NSa C).
Qed.
Hypothesis Pr : prime r.
Lemma six_edw_order1 m A : si_edw_G1 F e D A -> A <> te_zero F -> Z.pos m < r -> te_mult F (o1 F) d m A <> te_zero F.
Proof.
  intros H. refine (te_order_ne F FK (o1 F) d C2 r Pr Rp (o1 F) _ (fk_1_neq_0 F FK) NSd A m H). ring.
Qed.
Lemma six_edw_order2 m A : si_edw_G2 F e D A -> A <> te_zero G -> Z.pos m < r -> te_mult G nu d' m A <> te_zero G.
Proof.
  assert (H2G : oadd G (o1 G) (o1 G) <> o0 G) by (intros X; apply C2; now injection X).
  intros [H _]. exact (te_order_dual_ne G GK nu d' H2G r Pr Rp Ro _ be_eq be_ne NSa A m H).
Qed.
End SixGen.

(** ** Non-degeneracy *)
(** There is v of order r with pairing(m G1, n G2) = v^(m n) for 1 <= m, n < r; so
    no such pairing is one. *)
Definition te_nondegenerate {K L T} (F : Fops K) (a d : K) (G : Fops L) (a' d' : L) (FT : Fops T) (r : Z) (g1 : K * K) (g2 : L * L)
    (pairing : K * K * K -> L * L * L -> result T) : Prop :=
  exists v, (forall n, fpow FT v n = o1 FT <-> (r | Z.of_nat n)) /\
  forall m n P Q, Z.pos m < r -> Z.pos n < r -> edw_ok F a d P -> edw_ok G a' d' Q ->
    edw_den F P = te_mult F a d m g1 -> edw_den G Q = te_mult G a' d' n g2 ->
  pairing P Q = Ok (fpow FT v (Pos.to_nat (m * n))) /\ pairing P Q <> Ok (o1 FT).
Section Inverted.
Context {K : Type} (F : Fops K) (FK : field_ok F).
Add Field IVfield : (fk_field F FK).
Lemma edw_inverted_ok a d x y : x <> o0 F -> y <> o0 F -> te_on F a d (x, y) ->
  edw_ok F a d (edw_inverted F (x, y)) /\ edw_den F (edw_inverted F (x, y)) = (x, y).
Proof.
  intros Nx Ny O. pose proof (fk_ring F FK) as R. unfold edw_inverted.
  assert (E : edw_den F (y, x, omul F x y) = (x, y)).
  { unfold edw_den. rewrite (proj2 (rk_eqb_neq F R _ _) Nx). cbn [andb]. f_equal; field; assumption. }
  split; [|exact E]. right. split; [exact Ny|]. split; [exact Nx|]. split; [apply (fk_mul_neq_0 F FK); assumption|]. now rewrite E.
Qed.
End Inverted.
Lemma te_nondegenerate_of {K L T} (F : Fops K) (FK : field_ok F) (a d : K) (G : Fops L) (GK : field_ok G) (a' d' : L) (FT : Fops T) (TK : field_ok FT) (r : Z)
    (S1 : K * K -> Prop) (S2 : L * L -> Prop) (x1 y1 : K) (x2 y2 : L) (pairing : K * K * K -> L * L * L -> result T) :
  prime r -> (forall m A, S1 A -> A <> te_zero F -> Z.pos m < r -> te_mult F a d m A <> te_zero F) ->
  (forall m A, S2 A -> A <> te_zero G -> Z.pos m < r -> te_mult G a' d' m A <> te_zero G) ->
  te_bilinear F a d G a' d' FT r (edw_ok F a d) (edw_ok G a' d') S1 S2 (edw_den F) (edw_den G) pairing ->
  S1 (x1, y1) -> S2 (x2, y2) -> te_on F a d (x1, y1) -> te_on G a' d' (x2, y2) -> x1 <> o0 F -> y1 <> o0 F -> x2 <> o0 G -> y2 <> o0 G ->
  is_ok_ne1 FT (pairing (edw_inverted F (x1, y1)) (edw_inverted G (x2, y2))) = true ->
  te_nondegenerate F a d G a' d' FT r (x1, y1) (x2, y2) pairing.
Proof.
  intros Pr Or1 Or2 BL H1 H2 O1 O2 Nx1 Ny1 Nx2 Ny2 Ck. pose proof (fk_ring FT TK) as RT.
  set (P0 := edw_inverted F (x1, y1)) in *. set (Q0 := edw_inverted G (x2, y2)) in *.
  destruct (edw_inverted_ok F FK a d x1 y1 Nx1 Ny1 O1) as [K1 D1]. fold P0 in K1, D1.
  destruct (edw_inverted_ok G GK a' d' x2 y2 Nx2 Ny2 O2) as [K2 D2]. fold Q0 in K2, D2.
  assert (Z1 : (x1, y1) <> te_zero F) by (intros E; apply Nx1; unfold te_zero in E; congruence).
  assert (Z2 : (x2, y2) <> te_zero G) by (intros E; apply Nx2; unfold te_zero in E; congruence).
  pose proof (tbl_mult _ _ _ _ _ _ _ _ _ _ _ _ _ _ _ BL) as PM.
  assert (G10 : (edw_ok F a d P0 /\ edw_den F P0 <> te_zero F) /\ S1 (edw_den F P0)) by (rewrite D1; auto).
  assert (G20 : (edw_ok G a' d' Q0 /\ edw_den G Q0 <> te_zero G) /\ S2 (edw_den G Q0)) by (rewrite D2; auto).
  destruct (PM P0 Q0 P0 Q0 xH xH G10 G20 (proj1 G10) (proj1 G20) eq_refl eq_refl) as (v & V1 & V2 & _).
  assert (N1 : v <> o1 FT).
  { intros ->. rewrite V1 in Ck. unfold is_ok_ne1 in Ck. rewrite (rk_eqb_refl FT RT) in Ck. discriminate. }
  pose proof (pow_order FT RT v r Pr N1 V2) as Ord. exists v. split; [exact Ord|]. intros m n P Q Hm Hn OP OQ HP HQ.
  assert (E : pairing P Q = Ok (fpow FT v (Pos.to_nat (m * n)))).
  { destruct (PM P0 Q0 P Q m n G10 G20) as (v' & V1' & _ & V3).
    - split; [exact OP|]. rewrite HP. now apply Or1.
    - split; [exact OQ|]. rewrite HQ. now apply Or2.
    - now rewrite D1.
    - now rewrite D2.
    - rewrite V1 in V1'. injection V1' as <-. exact V3. }
  split; [exact E|]. rewrite E. intros X. assert (X' : fpow FT v (Pos.to_nat (m * n)) = o1 FT) by congruence.
  apply Ord in X'. rewrite positive_nat_Z, Pos2Z.inj_mul in X'. apply prime_mult in X'; [|exact Pr].
  destruct X' as [X'|X']; apply Z.divide_pos_le in X'; lia.
Qed.
Definition si_edw_nondegenerate {K} (F : Fops K) (e : Z -> K) (D : six_consts) : Prop :=
  te_nondegenerate F (o1 F) (e (snd (st_ad D))) (siF3 F e D) (si_tw_a F e D) (si_tw_d F e D) (siF6 F e D) (fc_p (st_Fr D))
    (si_edw_gen1 e D) (si_edw_gen2 e D) (si_edwards_reduced_pairing F e D).
Section SixNonDeg.
Context {K : Type} (F : Fops K) (e : Z -> K) (D : six_consts).
Let r := fc_p (st_Fr D).
Notation d := (e (snd (st_ad D))).
Hypothesis PB : prime_base F (cq (st_Fq D)).
Hypothesis C2 : char_not_2 F.
Hypothesis OK : six_ok F e D.
Hypothesis A1 : e (fst (st_ad D)) = o1 F.
Hypothesis N3F : oadd F (oadd F (o1 F) (o1 F)) (o1 F) <> o0 F.
Hypothesis NdF : d <> o0 F.
Hypothesis NadF : osub F (o1 F) d <> o0 F.
Hypothesis NSd : forall s, omul F s s <> d.
Variable t : K.
Hypothesis Ht : omul F (omul F t t) (e (st_nr3 D)) = d.
Hypothesis Rp : 0 < r.
Hypothesis Ro : Z.odd r = true.
Hypothesis Pr : prime r.
Lemma si_edw_nondegenerate_of : si_edw_G1 F e D (si_edw_gen1 e D) /\ si_edw_G2 F e D (si_edw_gen2 e D) -> si_edw_pair_check F e D = true -> si_edw_bilinear F e D ->
  si_edw_nondegenerate F e D.
Proof.
  intros [G1 G2] P [_ BL]. unfold si_edw_pair_check in P. rewrite !andb_true_iff, !negb_true_iff in P. destruct P as [[P1 P2] P3].
  assert (FK : field_ok F) by exact (pb_field F _ PB). assert (GK : field_ok (siF3 F e D)) by exact (bf_field _ _ _ (six_3 F e D PB C2 OK)).
  assert (TK : field_ok (siF6 F e D)) by (pose proof (six_6 F e D PB C2 OK) as B; apply B).
  assert (X1 : fst (si_edw_gen1 e D) <> o0 F) by exact (proj1 (rk_eqb_neq F (fk_ring F FK) _ _) P1).
  assert (X2 : fst (si_edw_gen2 e D) <> o0 (siF3 F e D)) by exact (proj1 (rk_eqb_neq _ (fk_ring _ GK) _ _) P2).
  pose proof (edw_good1 F e D PB C2 NSd Rp Ro) as GD1.
  pose proof (edw_good2 F e D PB C2 OK A1 N3F NdF NadF _ Ht Rp Ro) as GD2.
  pose proof (tg_on _ _ _ _ GD1 _ G1) as O1. pose proof (tg_on _ _ _ _ GD2 _ (proj1 G2)) as O2.
  destruct (tg_xy _ _ _ _ GD1 _ G1) as [E|[_ Y1]]; [exfalso; apply X1; rewrite E; reflexivity|].
  destruct (tg_xy _ _ _ _ GD2 _ (proj1 G2)) as [E|[_ Y2]]; [exfalso; apply X2; rewrite E; reflexivity|].
  unfold si_edw_nondegenerate.
  refine (te_nondegenerate_of F FK _ _ _ GK _ _ _ TK _ (si_edw_G1 F e D) (si_edw_G2 F e D) _ _ _ _ _ Pr _ _ BL G1 G2 O1 O2 X1 Y1 X2 Y2 P3).
  - intros m A. exact (six_edw_order1 F e D PB C2 NSd Rp Pr m A).
  - intros m A. exact (six_edw_order2 F e D PB C2 OK A1 N3F NdF NadF _ Ht Rp Ro Pr m A).
Qed.
End SixNonDeg.
Section Shipped.
Variable CO : field_consts_ok (st_Fq edwards_tower).
Let D := edwards_tower.
Let F := cF (st_Fq D) CO.
Let e := ce (st_Fq D) CO.
Let PB := base_prime (st_Fq D) CO.
Let C2 := base_char2 (st_Fq D) CO.
Let IN : In D shipped_six. Proof. unfold shipped_six. cbn. tauto. Qed.
Let OK : six_ok F e D := shipped_six_ok D CO IN.
Let Pr := oki_prime _ (fco_inv _ edwards_Fr_ok).
Let EC := edw_check_ok F e (toZ (fc_P (st_Fq D))) D edwards_t PB (base_hom _ CO) edwards_edw_check.
Let CK : si_edw_gen_check F e D = true := copy_check_ok (st_Fq D) CO (@si_edw_gen_check) D (fun A B F G h H R e eG He => si_edw_gen_check_map H e eG He D) edwards_gen_check.
Let PC : si_edw_pair_check F e D = true := copy_check_ok (st_Fq D) CO (@si_edw_pair_check) D (fun A B F G h H R e eG He => si_edw_pair_check_map H e eG He D) edwards_pair_check.
Theorem edwards_mul_by_q_ok Q : si_edw_psi F e D (edw_den (siF3 F e D) (si_edw_mul_by_q F e D Q)) = te_frob (siF6 F e D) (cq (st_Fq D)) (si_edw_psi F e D (edw_den (siF3 F e D) Q)).
Proof. destruct EC as (A1 & N3 & Nd & Nad & NS & Ht & Rp & Ro). exact (six_edw_mul_by_q F e D PB C2 OK A1 N3 Nd Nad CK Q). Qed.
Theorem edwards_generators : si_edw_G1 F e D (si_edw_gen1 e D) /\ si_edw_G2 F e D (si_edw_gen2 e D).
Proof.
  destruct EC as (A1 & N3 & Nd & Nad & NS & Ht & Rp & Ro).
  exact (six_edw_gen_ok F e D PB C2 OK A1 N3 Nd Nad NS _ Ht Ro (six_Qv F D PB) CK).
Qed.
Theorem edwards_nondegenerate : si_edw_nondegenerate F e D.
Proof.
  destruct EC as (A1 & N3 & Nd & Nad & NS & Ht & Rp & Ro).
  exact (si_edw_nondegenerate_of F e D PB C2 OK A1 N3 Nd Nad NS _ Ht Rp Ro Pr edwards_generators PC (proj2 (edwards_shipped CO))).
Qed.
End Shipped.
