(** The affine variant of the mnt4 and mnt6 pairings: its value after the final
    exponentiation is the textbook f_n,Q(P) for the absolute value n of the loop
    count (C50). *)
From Coq Require Import ZArith List Bool Ring Field Lia Znumtheory.
From Verif Require Import Mul63 FpField.
From Verif Require Import Result Algebra Limbs LimbsProofs FieldOps BigintModel AlgorithmsModel AlgorithmsProofs WnafModel WnafProofs ExtModel ExtSpec ExtFrob ExtProofs ExtCyc ExtInst
  CurveSpec GroupOps GroupProofs CurveGroup CurveModel CurveProofs MillerSpec PairingModel PairingSpec PairingProofs NeutralProofs MillerProofs MillerRegular Cochain MillerBilinear
  BilinearTwelve MillerQuad BilinearQuad FpModel FpSpec FpInst ParamsModel ParamsProofs Hom AlgorithmsField TowerModel TowerSpec TowerProofs TowerShipped TowerSqrt
  FinalExpSpec FinalExpModel FinalExpProofs PairingShipped ParamsA ParamsB ParamsC ParamsD MntShipped MntGen MntNonDeg.
Import ListNotations.
Open Scope Z_scope.

(** ** One more, one less *)
Section Succ.
Context {I : Type} (iz : I) (iadd : I -> I -> I) (iopp : I -> I) (IG : agroup iz iadd iopp).
Context {U : Type} (uz : U) (uadd : U -> U -> U) (uopp : U -> U) (UG : agroup uz uadd uopp).
Variable g : I -> I -> U.
Hypothesis C : cocyc iz iadd uz uadd g.
Notation cs := (csum iz iadd iopp uz uadd g).
Notation im := (gmul iz iadd iopp).
Lemma csum_succ n i : cs (Pos.succ n) i = uadd (cs n i) (g (im (Z.pos n) i) i).
Proof.
  induction n as [n IH|n IH|]; cbn [Pos.succ csum]; cbv zeta.
  - rewrite IH. set (A := im (Z.pos n) i).
    replace (im (Z.pos (Pos.succ n)) i) with (iadd A i).
    2:{ unfold A. rewrite <- (gmul_succ _ _ _ IG). f_equal. lia. }
    rewrite (gm_dbl1 _ _ _ IG). fold A.
    pose proof (four _ _ _ IG _ _ _ UG g C A i A i) as F1. pose proof (cc_coc _ _ _ _ _ C (iadd A A) i i) as F2.
    apply (u_use _ _ _ UG _ _ _ _ F1), (u_use _ _ _ UG _ _ _ _ (eq_sym F2)). agroup_eq UG.
  - rewrite (gm_dbl _ _ _ IG). reflexivity.
  - rewrite !(gmul_1 _ _ _ IG). agroup_eq UG.
Qed.
Lemma csum_pred n i : uadd (cs n i) (vert iopp g i) = uadd (cs (Pos.succ n) i) (g (im (Z.pos (Pos.succ n)) i) (iopp i)).
Proof.
  rewrite csum_succ. replace (im (Z.pos (Pos.succ n)) i) with (iadd (im (Z.pos n) i) i).
  2:{ rewrite <- (gmul_succ _ _ _ IG). f_equal. lia. }
  pose proof (cc_coc _ _ _ _ _ C (im (Z.pos n) i) i (iopp i)) as H.
  replace (iadd i (iopp i)) with iz in H by agroup_eq IG.
  rewrite (cc_0r _ _ _ IG _ _ _ UG g C) in H. unfold vert.
  apply (u_use _ _ _ UG _ _ _ _ (eq_sym H)). agroup_eq UG.
Qed.
End Succ.

(** ** Digits, most significant first *)
Notation dfold ds k := (fold_left (fun a d => 2 * a + d)%Z ds k).
Notation digit d := (d = 0 \/ d = 1 \/ d = -1)%Z.
Lemma dfold_ge ds : Forall (fun d => digit d) ds -> forall k, 1 <= k -> k <= dfold ds k.
Proof.
  induction 1 as [|d ds Hd _ IH]; intros k Hk; cbn [fold_left]; [lia|].
  assert (k <= 2 * k + d) by lia. specialize (IH (2 * k + d) ltac:(lia)). lia.
Qed.
Lemma dfold_neg ds : Forall (fun d => digit d) ds -> forall k, k <= -1 -> dfold ds k <= -1.
Proof.
  induction 1 as [|d ds Hd _ IH]; intros k Hk; cbn [fold_left]; [lia|]. apply IH. lia.
Qed.
Lemma after_top_fold ds : Forall (fun d => digit d) ds -> 0 < dfold ds 0 -> dfold (after_top ds) 1 = dfold ds 0 /\ Forall (fun d => digit d) (after_top ds).
Proof.
  induction 1 as [|d ds Hd HF IH]; cbn [fold_left after_top]; [lia|]. intros H. destruct Hd as [->|[->| ->]]; cbn [Z.eqb].
  - apply IH. exact H.
  - split; auto.
  - exfalso. pose proof (dfold_neg ds HF (2 * 0 + -1) ltac:(lia)). lia.
Qed.

(** ** The loops *)
Section Affine.
Context {K L : Type} (F : Fops K) (FK : field_ok F) (G : Fops L) (GK : field_ok G) (e1 : K -> L) (scale : K -> L -> L) (nu : L) (mnr : L -> L).
Hypothesis e1_opp : forall x, e1 (oopp F x) = oopp G (e1 x).
Hypothesis Hs : forall s x, scale s x = omul G (e1 s) x.
Hypothesis Hmnr : forall x, mnr x = omul G nu x.
Hypothesis Nnu : nu <> o0 G.
Notation T := (quad_ops G mnr).
Hypothesis TK : field_ok T.
Let RG : ring_ok G := fk_ring G GK.
Let RT : ring_ok T := fk_ring T TK.
Notation emb := (quad_emb G).
Notation w := (quad_u G).
Notation u := (tinv T w).
Notation up x := (emb (e1 x)).
Add Field MAG : (fk_field G GK).
Add Field MAT : (fk_field T TK).
Let E0 := q_emb_0 G mnr.
Let EA := q_emb_add G GK mnr.
Let EM := q_emb_mul G GK nu mnr Hmnr.
Let ES := q_emb_sub G GK mnr.
Let EO := q_emb_opp G GK mnr.
Let EI := q_emb_inj G.
Let U0 := u_ne G GK mnr TK.
Variables (a' b' : L).
Hypothesis H2 : oadd G (o1 G) (o1 G) <> o0 G.
Hypothesis HD : sw_disc G a' b' <> o0 G.
Hypothesis H2T : oadd T (o1 T) (o1 T) <> o0 T.
Notation Psi := (psi T emb u).
Notation ta := (tw_a T emb u a').
Notation tb := (tws_b T emb u b').
Let HDT : sw_disc T ta tb <> o0 T := psi_disc G T TK emb u E0 EA EM EI U0 a' b' HD.

(** *** The lines *)
Variables (xP yP : K).
Notation lv l x y := (line_val T (omul T (emb l) u) (omul T (emb x) (omul T u u)) (omul T (emb y) (omul T (omul T u u) u)) (up xP) (up yP)).
Lemma aff_line l x y : (scale yP (osqr G nu), osub G (oadd G (scale (oopp F xP) (omul G l nu)) (omul G l x)) y) =
  omul T (emb (omul G nu nu)) (lv l x y).
Proof.
  unfold line_val. rewrite !Hs, (rk_sqr G RG), e1_opp, (pair_eq G GK nu mnr Hmnr).
  repeat rewrite ?EA, ?ES, ?EM, ?EO. rewrite <- !(w_sq G GK nu mnr Hmnr). pose proof (u_w G GK mnr TK) as H.
  revert H. generalize u. intros v H. set (t := omul T v w) in H.
  transitivity (osub T (osub T (omul T (up yP) (omul T (omul T w w) (omul T w w))) (omul T (omul T (emb y) (omul T (omul T t t) t)) w))
    (omul T (omul T (emb l) (omul T t w)) (osub T (omul T (up xP) (omul T w w)) (omul T (emb x) (omul T t t))))); [rewrite H; ring|].
  unfold t. ring.
Qed.

(** *** The multiples of Q *)
Variable kill : L * L -> Prop.
Hypothesis KL : kills T kill.
Hypothesis kill_emb : forall c, c <> o0 G -> kill (emb c).
Variables (r : Z) (xQ yQ : L).
Hypothesis Pr : prime r.
Hypothesis R2 : ~ (r | 2).
Notation Q := (Aff xQ yQ).
Hypothesis OQ : sw_on G a' b' Q.
Hypothesis TQ : zmult G a' b' r Q = Inf.
Hypothesis OP : sw_on T ta tb (Aff (up xP) (up yP)).
Hypothesis VN : forall x y, sw_on G a' b' (Aff x y) -> osub T (up xP) (omul T (emb x) (omul T u u)) <> o0 T.
Hypothesis LN : forall l x y, lv l x y <> o0 T.
Notation zm k := (zmult G a' b' k Q).
Let NQ : Q <> Inf. Proof. discriminate. Qed.
Definition zpt (k : Z) : apt (L * L) := Psi (zm k).
Lemma ZG : agroup 0 Z.add Z.opp.
Proof. constructor; [constructor|..]; intros; lia. Qed.
Lemma zim k i : gmul 0 Z.add Z.opp k i = k * i.
Proof.
  revert k. apply Z.peano_ind.
  - reflexivity.
  - intros k IH. unfold Z.succ. rewrite (gmul_succ _ _ _ ZG), IH. lia.
  - intros k IH. unfold Z.pred. rewrite (gmul_add _ _ _ ZG), IH. change (-1) with (- (1)). rewrite (gmul_opp _ _ _ ZG), (gmul_1 _ _ _ ZG). lia.
Qed.
Lemma zpt_on k : sw_on T ta tb (zpt k).
Proof. apply (psi_on G T TK emb u EA EM), (zmult_on G GK). Qed.
Lemma zpt_add i j : zpt (i + j) = sw_add T ta (zpt i) (zpt j).
Proof.
  unfold zpt. rewrite (zmult_add G GK a' b' H2 HD).
  apply (psi_sw_add G GK T TK emb u E0 EA ES EM EI U0 a' b'); apply (zmult_on G GK).
Qed.
Lemma zpt_0 : zpt 0 = Inf. Proof. reflexivity. Qed.
Lemma zpt_opp i : zpt (- i) = sw_opp T (zpt i).
Proof. unfold zpt. rewrite (zmult_opp G GK a' b' H2 HD). apply (psi_opp G GK T TK emb u E0 ES). Qed.
Lemma zpt_1 : zpt 1 = Psi Q.
Proof. unfold zpt. now rewrite (zmult_1 G GK a' b' H2 HD). Qed.
Lemma zgood : good T ta tb zpt (up xP) (up yP).
Proof.
  constructor; auto.
  - intros i. apply (vert_ne G T TK emb u a' b' (up xP) VN), (zmult_on G GK).
  - intros i j. apply (la_psi_ne G GK T TK emb u E0 EA ES EM EI U0 a' b' HD H2T _ _ VN LN); apply (zmult_on G GK).
Qed.
Notation mil n := (miller T ta n (Psi Q) (up xP) (up yP)).
Notation lr A B := (line_ratio T ta A B (up xP) (up yP)).
Let GC := gU_cocyc T TK ta tb H2T HDT 0 Z.add Z.opp ZG zpt zpt_on zpt_add zpt_0 (up xP) (up yP) zgood.
Let GV := gU_val T TK ta tb Z.add zpt zpt_add (up xP) (up yP) zgood.
Let MV := miller_val T TK ta tb 0 Z.add Z.opp ZG zpt zpt_add (up xP) (up yP) zgood.
Let VV := vert_val T TK ta tb Z.add Z.opp zpt zpt_add zpt_opp (up xP) (up yP) zgood.
Lemma mil_dbl n : mil (xO n) = omul T (omul T (mil n) (mil n)) (lr (zpt (Z.pos n)) (zpt (Z.pos n))).
Proof.
  rewrite <- zpt_1. cbn [miller]. cbv zeta. rewrite (pt_mult T ta 0 Z.add Z.opp ZG zpt zpt_add), zim, Z.mul_1_r. reflexivity.
Qed.
Lemma mil_succ n : mil (Pos.succ n) = omul T (mil n) (lr (zpt (Z.pos n)) (zpt 1)).
Proof.
  rewrite <- zpt_1, !MV, (csum_succ _ _ _ ZG _ _ _ (ugroup T TK) _ GC), umul_val, GV, zim, Z.mul_1_r. reflexivity.
Qed.
Lemma mil_pred n : omul T (mil n) (vertical_at T (Psi Q) (up xP)) = omul T (mil (Pos.succ n)) (lr (zpt (Z.pos (Pos.succ n))) (zpt (-1))).
Proof.
  pose proof (csum_pred _ _ _ ZG _ _ _ (ugroup T TK) _ GC n 1) as H. apply (f_equal (uval T)) in H. rewrite !umul_val, <- !MV, VV, GV, zim, Z.mul_1_r, zpt_1 in H.
  exact H.
Qed.
Lemma zkill k : kill (vertical_at T (zpt k) (up xP)).
Proof.
  pose proof (vert_ne G T TK emb u a' b' (up xP) VN (zm k) (zmult_on G GK a' b' k Q)) as N. unfold zpt.
  destruct (zm k) as [|x y]; cbn [psi vertical_at] in *; [apply (kill_1 T kill KL)|].
  rewrite (u_sq G GK nu mnr Hmnr Nnu TK), <- EM, <- ES in *. apply kill_emb. intros Z. apply N. now rewrite Z.
Qed.
(** A line the code computes, against the textbook's quotient. *)
Lemma aff_ratio i j l x y : line_at T ta (zpt i) (zpt j) (up xP) (up yP) = lv l x y ->
  upto T kill (omul T (emb (omul G nu nu)) (lv l x y)) (lr (zpt i) (zpt j)).
Proof.
  intros H. unfold line_ratio. rewrite H, <- zpt_add. apply (upto_div T TK kill KL); [|apply (kill_0 T kill KL), zkill|apply zkill].
  eexists. split; [|reflexivity]. apply kill_emb. now apply (fk_mul_neq_0 G GK).
Qed.

(** *** One step *)
Lemma aff_dbl k x y : ~ (r | k) -> zm k = Aff x y -> exists i, oinv G (oadd G y y) = Ok i /\
  let g := omul G (oadd G (oadd G (oadd G (osqr G x) (osqr G x)) (osqr G x)) a') i in
  let x' := osub G (osqr G g) (oadd G x x) in
  zm (k + k) = Aff x' (osub G (omul G g (osub G x x')) y) /\
  upto T kill (omul T (emb (omul G nu nu)) (lv g x y)) (lr (zpt k) (zpt k)).
Proof.
  intros D E. pose proof (zmult_y G GK a' b' H2 HD r Q Pr OQ NQ TQ k x y D R2 E) as Ny.
  destruct (tinv_spec G GK _ Ny) as [Ei Hi]. exists (tinv G (oadd G y y)). split; [exact Ei|]. cbv zeta.
  set (g := omul G _ (tinv G (oadd G y y))).
  assert (Hg : omul G g (oadd G y y) = oadd G (oadd G (oadd G (omul G x x) (omul G x x)) (omul G x x)) a').
  { unfold g. rewrite (rk_sqr G RG). set (s := oadd G (oadd G (oadd G (omul G x x) (omul G x x)) (omul G x x)) a').
    transitivity (omul G s (omul G (tinv G (oadd G y y)) (oadd G y y))); [ring|]. rewrite Hi. ring. }
  destruct (dbl_slope G GK a' x y g Ny Hg) as [S1 _].
  destruct (psi_dbl G T TK emb u E0 EA ES EM EI U0 a' x y g Ny Hg) as [_ S2].
  clearbody g. split.
  - rewrite (zmult_add G GK a' b' H2 HD), E, S1. unfold third. rewrite (rk_sqr G RG). cbv zeta.
    replace (osub G (osub G (omul G g g) x) x) with (osub G (omul G g g) (oadd G x x)) by ring. reflexivity.
  - apply aff_ratio. unfold zpt. rewrite E. apply S2.
Qed.
Lemma aff_add k s x y ys : ~ (r | k - s) -> ~ (r | k + s) -> zm k = Aff x y -> zm s = Aff xQ ys -> exists i, oinv G (osub G x xQ) = Ok i /\
  let g := omul G (osub G y ys) i in
  let x' := osub G (osqr G g) (oadd G x xQ) in
  zm (k + s) = Aff x' (osub G (omul G g (osub G x x')) y) /\
  upto T kill (omul T (emb (omul G nu nu)) (lv g xQ ys)) (lr (zpt k) (zpt s)).
Proof.
  intros D1 D2 Ek Es. pose proof (zmult_x G GK a' b' H2 HD r Q Pr OQ NQ TQ k s _ _ _ _ D1 D2 Ek Es) as Nx.
  assert (Nd : osub G x xQ <> o0 G) by (intros Z; apply Nx; now apply (rk_sub_0 G RG)).
  destruct (tinv_spec G GK _ Nd) as [Ei Hi]. exists (tinv G (osub G x xQ)). split; [exact Ei|]. cbv zeta.
  set (g := omul G _ (tinv G (osub G x xQ))).
  assert (Hg : omul G g (osub G xQ x) = osub G ys y).
  { unfold g. transitivity (omul G (osub G ys y) (omul G (tinv G (osub G x xQ)) (osub G x xQ))); [ring|]. rewrite Hi. ring. }
  destruct (add_slope G GK a' x y xQ ys g Nx Hg) as [S1 _].
  destruct (psi_addition G T TK emb u ES EM EI U0 a' x y xQ ys g Nx Hg) as [_ S2].
  clearbody g. split.
  - rewrite (zmult_add G GK a' b' H2 HD), Ek, Es, S1. unfold third. rewrite (rk_sqr G RG). cbv zeta.
    replace (osub G (osub G (omul G g g) x) xQ) with (osub G (omul G g g) (oadd G x xQ)) by ring. reflexivity.
  - apply aff_ratio. unfold zpt. rewrite Ek, Es, S2. apply (line_val_swap T TK).
    apply (f_equal emb) in Hg. rewrite EM, !ES in Hg.
    transitivity (omul T (omul T (emb g) (osub T (emb xQ) (emb x))) (omul T (omul T u u) u)); [ring|]. rewrite Hg. ring.
Qed.

(** *** The loops *)
Variable mul_by : L * L -> L * L -> result (L * L).
Hypothesis MB : forall x z, mul_by x (scale yP (osqr G nu), z) = Ok (omul T x (scale yP (osqr G nu), z)).
Notation pre := (affine_precompute_body G nu a' xQ yQ).
Notation run cs := (affine_miller_body F G scale T mul_by (xP, yP, scale yP (osqr G nu)) (xQ, yQ, cs)).
Lemma zm_1 : zm 1 = Q. Proof. now apply (zmult_1 G GK a' b' H2 HD). Qed.
Lemma zm_m1 : zm (-1) = Aff xQ (oopp G yQ).
Proof. change (-1) with (- (1)). now rewrite (zmult_opp G GK a' b' H2 HD), zm_1. Qed.
Lemma aff_loop n : n + 2 < r -> forall ds, Forall (fun d => digit d) ds -> forall k x y cs f, 1 <= k -> dfold ds k = n ->
  zm k = Aff x y -> upto T kill f (mil (Z.to_pos k)) ->
  exists x' y' cs' f', zfold pre ds (x, y, cs) = Ok (x', y', cs ++ cs') /\ upto T kill f' (mil (Z.to_pos n)) /\
    forall tl, zfold (run (cs ++ cs' ++ tl)) ds (f, length cs) = Ok (f', length (cs ++ cs')).
Proof.
  intros Hn. induction 1 as [|d ds Hd HF IH]; intros k x y cs f Hk Ef Ek Uf; cbn [fold_left] in Ef.
  - subst n. exists x, y, [], f. rewrite app_nil_r. repeat split; auto.
  - assert (B : 2 * k + d <= n) by (rewrite <- Ef; apply dfold_ge; auto; lia).
    assert (D : ~ (r | k)) by (intros X; apply Z.divide_pos_le in X; lia).
    destruct (aff_dbl k x y D Ek) as (i & Ei & E2 & U2). cbv zeta in E2, U2. cbn [zfold].
    unfold affine_precompute_body at 1. rewrite Ei. cbn [bind].
    set (g := omul G (oadd G (oadd G (oadd G (osqr G x) (osqr G x)) (osqr G x)) a') i) in *.
    set (x' := osub G (osqr G g) (oadd G x x)) in *. set (y' := osub G (omul G g (osub G x x')) y) in *.
    set (c := {| old_RX := x; old_RY := y; gamma := g; gamma_twist := omul G g nu; gamma_X := omul G g x |}).
    assert (Uf2 : upto T kill (omul T (osqr T f) (omul T (emb (omul G nu nu)) (lv g x y))) (mil (Z.to_pos (k + k)))).
    { replace (Z.to_pos (k + k)) with (xO (Z.to_pos k)) by lia. rewrite mil_dbl, Z2Pos.id, (rk_sqr T RT) by lia.
      apply (upto_mul T TK kill KL); [now apply (upto_mul T TK kill KL)|exact U2]. }
    assert (L1 : forall cs' tl f, at_idx (cs ++ (c :: cs') ++ tl) (length cs) = Ok c /\
      mul_by (osqr T f) (scale yP (osqr G nu), osub G (oadd G (scale (oopp F xP) (gamma_twist c)) (gamma_X c)) (old_RY c)) =
      Ok (omul T (osqr T f) (omul T (emb (omul G nu nu)) (lv g x y)))).
    { intros cs' tl f0. split; [apply at_idx_app|]. rewrite MB. unfold c. cbn [gamma_twist gamma_X old_RY]. now rewrite aff_line. }
    destruct Hd as [->|Hd].
    + cbn [Z.eqb negb bind].
      destruct (IH (k + k) x' y' (cs ++ [c]) (omul T (osqr T f) (omul T (emb (omul G nu nu)) (lv g x y)))) as (xr & yr & cs' & f' & P1 & P2 & P3); auto; try lia.
      { rewrite <- Ef. f_equal. lia. }
      exists xr, yr, (c :: cs'), f'. replace (cs ++ c :: cs') with ((cs ++ [c]) ++ cs') by now rewrite <- app_assoc.
      split; [exact P1|]. split; [exact P2|]. intros tl. unfold affine_miller_body at 1.
      destruct (L1 cs' tl f) as [-> H]. cbn [bind]. rewrite H. cbn [bind Z.eqb negb]. specialize (P3 tl).
      rewrite <- app_assoc in P3. rewrite <- P3. f_equal. f_equal. rewrite app_length. cbn [length]. lia.
    + assert (exists ys, zm d = Aff xQ ys /\ ys = (if 0 <? d then yQ else oopp G yQ)) as (ys & Es & Eys).
      { destruct Hd as [->| ->]; eexists; (split; [|reflexivity]); [apply zm_1|apply zm_m1]. }
      assert (D1 : ~ (r | (k + k) - d)) by (intros X; apply Z.divide_pos_le in X; lia).
      assert (D2 : ~ (r | (k + k) + d)) by (intros X; apply Z.divide_pos_le in X; lia).
      destruct (aff_add (k + k) d x' y' ys D1 D2 E2 Es) as (i2 & Ei2 & E3 & U3). cbv zeta in E3, U3.
      replace (negb (d =? 0)) with true by (destruct Hd as [->| ->]; reflexivity). rewrite Ei2. cbn [bind].
      set (g2 := omul G (osub G y' ys) i2) in *.
      replace (if 0 <? d then omul G (osub G y' yQ) i2 else omul G (oadd G y' yQ) i2) with g2.
      2:{ unfold g2. rewrite Eys. destruct (0 <? d); [reflexivity|]. ring. }
      set (x2 := osub G (osqr G g2) (oadd G x' xQ)) in *. set (y2 := osub G (omul G g2 (osub G x' x2)) y') in *.
      set (c2 := {| old_RX := x'; old_RY := y'; gamma := g2; gamma_twist := omul G g2 nu; gamma_X := omul G g2 xQ |}).
      set (f1 := omul T (osqr T f) (omul T (emb (omul G nu nu)) (lv g x y))) in *.
      set (f2 := omul T f1 (omul T (emb (omul G nu nu)) (lv g2 xQ ys))).
      assert (Uf3 : upto T kill f2 (mil (Z.to_pos (k + k + d)))).
      { destruct Hd as [-> | ->].
        - replace (Z.to_pos (k + k + 1)) with (Pos.succ (Z.to_pos (k + k))) by lia. rewrite mil_succ, Z2Pos.id by lia.
          apply (upto_mul T TK kill KL); auto.
        - set (m := Z.to_pos (k + k + -1)). pose proof (mil_pred m) as H.
          replace (Pos.succ m) with (Z.to_pos (k + k)) in H by (unfold m; lia). rewrite Z2Pos.id in H by lia.
          destruct (upto_mul T TK kill KL _ _ _ _ Uf2 U3) as (q & Kq & Hq). fold f2 in Hq. rewrite <- H in Hq.
          exists (omul T q (vertical_at T (zpt 1) (up xP))). split; [apply (kill_mul T kill KL); [exact Kq|apply zkill]|].
          rewrite Hq. rewrite zpt_1. ring. }
      destruct (IH (k + k + d) x2 y2 ((cs ++ [c]) ++ [c2]) f2) as (xr & yr & cs' & f' & P1 & P2 & P3); auto; try lia.
      { rewrite <- Ef. f_equal. lia. }
      exists xr, yr, (c :: c2 :: cs'), f'. replace (cs ++ c :: c2 :: cs') with (((cs ++ [c]) ++ [c2]) ++ cs') by now rewrite <- !app_assoc.
      split; [exact P1|]. split; [exact P2|]. intros tl. unfold affine_miller_body at 1.
      destruct (L1 (c2 :: cs') tl f) as [-> H]. cbn [bind]. rewrite H. cbn [bind].
      replace (negb (d =? 0)) with true by (destruct Hd as [->| ->]; reflexivity).
      replace (at_idx (cs ++ (c :: c2 :: cs') ++ tl) (S (length cs))) with (Ok c2).
      2:{ symmetry. replace (cs ++ (c :: c2 :: cs') ++ tl) with ((cs ++ [c]) ++ c2 :: (cs' ++ tl)) by now rewrite <- !app_assoc.
          replace (S (length cs)) with (length (cs ++ [c])) by (rewrite app_length; cbn [length]; lia). apply at_idx_app. }
      cbn [bind]. rewrite MB.
      replace (scale yP (osqr G nu), if 0 <? d then osub G (oadd G (scale (oopp F xP) (gamma_twist c2)) (gamma_X c2)) yQ
        else oadd G (oadd G (scale (oopp F xP) (gamma_twist c2)) (gamma_X c2)) yQ) with (omul T (emb (omul G nu nu)) (lv g2 xQ ys)).
      2:{ rewrite <- aff_line. apply (f_equal2 pair); [reflexivity|]. unfold c2. cbn [gamma_twist gamma_X]. rewrite Eys. destruct (0 <? d); [reflexivity|]. ring. }
      cbn [bind]. fold f1. fold f2. specialize (P3 tl). rewrite <- !app_assoc in P3. cbn [app] in P3 |- *.
      rewrite <- !app_assoc in *. cbn [app] in *. rewrite <- P3. f_equal. f_equal. rewrite app_length. cbn [length]. lia.
Qed.

(** *** The pairing before the final exponentiation *)
Variables (lc : bigint) (n : positive).
Hypothesis Llc : limbs lc.
Hypothesis Llen : (1 <= length lc)%nat.
Hypothesis Ltop : val lc <= Bn (length lc) - 2.
Hypothesis Hlc : val lc = Z.pos n.
Hypothesis Hn : Z.pos n + 2 < r.
Definition affine_pairing (P : K * K * K) (Q : L * L * L) : result (L * L) :=
  prec_P <- affine_precompute_G1 F G scale nu P ;;
  prec_Q <- affine_precompute_G2 G nu a' lc Q ;;
  miller_value (affine_miller_loop_idx F G scale T lc mul_by prec_P prec_Q).
Theorem affine_miller P Q' : prj_den F P = Aff xP yP -> prj_den G Q' = Q ->
  exists f, affine_pairing P Q' = Ok f /\ upto T kill f (mil n) /\ mil n <> o0 T /\ kill (vertical_at T (mult T ta n (Psi Q)) (up xP)).
Proof.
  intros DP DQ. destruct (find_wnaf_spec 1 lc ltac:(lia) Llc Llen) as (ds & Ew & _ & Dv & Wf).
  { left. change (2 ^ Z.of_nat 1) with 2. exact Ltop. }
  apply naf_digits, Forall_rev in Wf. rewrite <- digits_fold, Hlc in Dv.
  destruct (after_top_fold (rev ds) Wf) as [Dt Wt]; [rewrite Dv; lia|]. rewrite Dv in Dt.
  destruct (aff_loop (Z.pos n) Hn (after_top (rev ds)) Wt 1 xQ yQ [] (o1 T)) as (x' & y' & cs & f & P1 & P2 & P3); auto; [lia|apply zm_1| |].
  { apply (upto_refl T TK kill KL). }
  exists f. split; [|split; [exact P2|split]].
  2:{ rewrite <- zpt_1, MV. apply (uval_ne T TK). }
  2:{ rewrite <- zpt_1, (pt_mult T ta 0 Z.add Z.opp ZG zpt zpt_add). apply zkill. }
  unfold affine_pairing, affine_precompute_G1, affine_precompute_G2, affine_miller_loop_idx.
  rewrite (prj_to_affine_at F FK P _ _ DP), (prj_to_affine_at G GK Q' _ _ DQ). cbn [bind]. rewrite Ew. cbn [bind].
  rewrite naf_loop_zfold, P1. cbn [bind]. rewrite naf_loop_zfold. specialize (P3 []). rewrite app_nil_r in P3. cbn [app length] in *. rewrite P3. reflexivity.
Qed.
End Affine.

(** ** After the final exponentiation *)
Section Reduced.
Context {K L : Type} (F : Fops K) (q : nat) (G : Fops L) (e1 : K -> L) (scale : K -> L -> L) (nu : L) (mnr : L -> L) (a b : K) (a' b' : L).
Variables (p N r : Z) (lc : bigint) (neg : bool) (n : positive).
Notation T := (quad_ops G mnr).
Notation emb := (quad_emb G).
Notation Psi := (psi T emb (tinv T (quad_u G))).
Notation up x := (emb (e1 x)).
Variables (pairing affine : K * K * K -> L * L * L -> result (L * L)).
(** The affine pairing against the projective one on points of order r. *)
Definition affine_agrees : Prop :=
  forall P Q, quad_G1 F a b r (prj_den F P) -> prj_den F P <> Inf -> torsion G a' b' r (prj_den G Q) -> prj_den G Q <> Inf ->
  exists v, pairing P Q = Ok v /\ affine P Q = Ok v.
Definition affine_inverse : Prop :=
  forall P Q, quad_G1 F a b r (prj_den F P) -> prj_den F P <> Inf -> torsion G a' b' r (prj_den G Q) -> prj_den G Q <> Inf ->
  exists v v', pairing P Q = Ok v /\ affine P Q = Ok v' /\ omul T v v' = o1 T.
Hypothesis QS : quad_setup F q G e1 scale nu mnr a b a' b'.
Hypothesis QN : quad_numbers G q p N r lc neg n.
Hypothesis Hn : Z.pos n + 2 < r.
Hypothesis Llen : (1 <= length lc)%nat.
Hypothesis Ltop : val lc <= Bn (length lc) - 2.
Variable mul_by : L * L -> L * L -> result (L * L).
Hypothesis MB : forall y x z, mul_by x (scale y (osqr G nu), z) = Ok (omul T x (scale y (osqr G nu), z)).
Variable final : L * L -> result (L * L).
Hypothesis FE : final_exp_ok T (N * N - 1) r final.
Hypothesis PD : pairing = fun P Q => f <- quad_pairing F G e1 scale nu mnr a' lc neg P Q ;; final f.
Hypothesis AD : forall P Q, affine P Q = (f <- affine_pairing F G scale nu mnr a' mul_by lc P Q ;; final f).
Theorem affine_reduced : if neg then affine_inverse else affine_agrees.
Proof.
  assert (A : forall P Q, quad_G1 F a b r (prj_den F P) -> prj_den F P <> Inf -> torsion G a' b' r (prj_den G Q) -> prj_den G Q <> Inf ->
    exists v v', pairing P Q = Ok v /\ affine P Q = Ok v' /\ if neg then omul T v v' = o1 T else v = v').
  2:{ unfold affine_inverse, affine_agrees. destruct neg; [exact A|]. intros P Q H1 H2 H3 H4. destruct (A P Q H1 H2 H3 H4) as (v & v' & E1 & E2 & <-). eauto. }
  intros P Q SP NP TB NB. destruct FE as (_ & _ & c & C0 & Cg & FF).
  destruct (quad_kills F q G e1 scale nu mnr a b a' b' p N r lc neg n QS QN c C0) as [Ke Kw]. set (Ex := Z.to_nat (c * ((N * N - 1) / r))) in *.
  pose proof QS as QS'. pose proof QN as QN'.
  destruct QS' as [PB GK E0 E1 EA EM EO EI ES EN Nn TK Ea Eb H2 HD]. destruct QN' as [Qv Pr R3 N1 GO E2 Ll Hl Hn' Et].
  destruct (prj_den F P) as [|xP yP] eqn:DP; [congruence|]. destruct (prj_den G Q) as [|x y] eqn:DQ; [congruence|].
  destruct (quad_textbook F q PB G GK e1 scale nu mnr E0 E1 EA EM EO EI ES EN Nn TK a b a' b' Ea Eb H2 HD r Ex Pr R3 Ke Kw lc neg n Ll Hl Hn'
    P Q xP yP x y DP DQ SP TB) as (Na & f & Ef & Nf & Pf).
  pose proof (y_ne F q PB a b H2 HD r Pr R3 xP yP SP) as Ny.
  pose proof (q_kills G mnr TK Ex) as KL. pose proof (q_kill_emb G mnr Ex Ke) as KEm.
  assert (H2G := two_G F G e1 E0 E1 EA EI H2). assert (H2T := two_T F G GK e1 mnr E0 E1 EA EI H2).
  assert (HDG := disc_G F G GK e1 nu E0 EA EM EI Nn a b a' b' Ea Eb HD).
  assert (TA := q_ta G GK e1 nu mnr EN Nn TK a a' Ea). assert (TBt := q_tb G GK e1 nu mnr EN Nn TK b b' Eb).
  assert (D2 : ~ (r | 2)) by (intros D; apply Z.divide_pos_le in D; lia).
  assert (VN := fun c d O => q_VN F G GK e1 nu mnr E0 EA EM EI EN Nn TK a b a' b' Ea Eb xP yP c d Ny (proj1 SP) O).
  assert (LN := fun l c d => q_LN F G GK e1 nu mnr E0 EI EN Nn TK xP yP l c d Ny).
  assert (OP : sw_on T (up a) (up b) (Aff (up xP) (up yP))) by (apply (up_on F G GK e1 nu mnr EA EM EN); apply SP).
  assert (TQ := tw_order F G GK e1 nu E0 E1 EA EM EI Nn a b a' b' Ea Eb H2 HD r R3 n _ TB).
  destruct (affine_miller F (pb_field F q PB) G GK e1 scale nu mnr EO ES EN Nn TK a' b' H2G HDG H2T xP yP (q_kill G mnr Ex) KL KEm r x y Pr D2 (proj1 TB) TQ) with (mul_by := mul_by) (lc := lc) (n := n) (P := P) (Q' := Q)
    as (g & Eg & Ug & Nm & Kv); auto.
  { now rewrite TA, TBt. }
  assert (Ng : g <> o0 T) by (intros Z; apply Nm; now apply (upto_0 T TK _ KL g _ Ug)).
  apply (upto_pow G mnr TK Ex) in Ug. rewrite PD, AD, Ef, Eg. cbn [bind].
  destruct (FF f Nf) as (v & Ev & Vv & _). destruct (FF g Ng) as (v' & Ev' & Vv' & _). exists v, v'. split; [exact Ev|]. split; [exact Ev'|].
  fold Ex in Vv, Vv'. rewrite Vv, Vv', Pf, Ug. unfold q_ate, miller_signed. rewrite <- TA. destruct neg; [|reflexivity].
  destruct Kv as [Nv Kv]. set (m := miller _ _ _ _ _ _) in *. set (vv := vertical_at _ _ _) in *.
  pose proof (rk_monoid T (fk_ring T TK)) as M. pose proof (rk_mul_comm T (fk_ring T TK)) as CM.
  assert (Nmv : omul T m vv <> o0 T) by now apply (fk_mul_neq_0 T TK).
  destruct (tinv_spec T TK _ Nmv) as [_ I]. apply (f_equal (fun z => fpow T z Ex)) in I.
  rewrite !(npow_mul_distr _ _ M CM), Kv, (npow_one _ _ M) in I. etransitivity; [|exact I].
  rewrite (rk_mul_comm T (fk_ring T TK) (fpow T m Ex) (o1 T)). f_equal. symmetry. apply (Rmul_1_l (rk_ring T (fk_ring T TK))).
Qed.
End Reduced.

(** ** The shipped constants *)
Definition affine_check (Fq Fr : field_consts) (loop : Z) : bool := (1 <=? loop) && (loop + 2 <? fc_p Fr) && (1 <=? cn Fq)%nat && (loop <=? Bn (cn Fq) - 2).
Lemma affine_check_ok Fq Fr loop : affine_check Fq Fr loop = true ->
  let lc := limbs_of (cn Fq) loop in val lc = loop -> Z.pos (Z.to_pos loop) + 2 < fc_p Fr /\ (1 <= length lc)%nat /\ val lc <= Bn (length lc) - 2.
Proof.
  intros H lc Hv. unfold affine_check in H. rewrite !andb_true_iff in H. destruct H as [[[H1 H2] H3] H4].
  apply Z.leb_le in H1, H4. apply Z.ltb_lt in H2. apply Nat.leb_le in H3. rewrite Hv. unfold lc. rewrite limbs_of_length, Z2Pos.id by lia. auto.
Qed.
Lemma mnt4_affine_check : let D := mnt4_tower in affine_check (ft_Fq D) (ft_Fr D) (ft_loop D) = true. Proof. vm_compute. reflexivity. Qed.
Lemma mnt6_affine_check : let D := mnt6_tower in affine_check (st_Fq D) (st_Fr D) (st_loop D) = true. Proof. vm_compute. reflexivity. Qed.
Lemma bind_assoc {A B C} (x : result A) (f : A -> result B) (g : B -> result C) : (y <- (z <- x ;; f z) ;; g y) = (z <- x ;; y <- f z ;; g y).
Proof. now destruct x. Qed.
Lemma bind_ext {A B} (x : result A) (f g : A -> result B) : (forall a, f a = g a) -> bind x f = bind x g.
Proof. intros H. destruct x; cbn [bind]; auto. Qed.

Section Four.
Context {K : Type} (F : Fops K) (e : Z -> K) (D : four_consts).
Let p := fc_p (ft_Fq D).
Let r := fc_p (ft_Fr D).
Notation G := (foF2 F e D).
Notation e1 := (quad_emb F).
Definition fo_affine_agrees : Prop :=
  affine_agrees F G (e (ft_a D)) (e (ft_b D)) (fo_twist_a F e D) (fo_twist_b F e D) r (fo_reduced_pairing F e D) (fo_affine_reduced_pairing F e D).
Hypothesis PB : prime_base F (cq (ft_Fq D)).
Hypothesis C2 : char_not_2 F.
Hypothesis T : four_ok F e D.
Hypothesis HD : sw_disc F (e (ft_a D)) (e (ft_b D)) <> o0 F.
Hypothesis NU : quad_numbers G (cq (ft_Fq D)) p (p ^ 2) r (limbs_of (cn (ft_Fq D)) (ft_loop D)) (ft_loop_neg D) (Z.to_pos (ft_loop D)).
Hypothesis FE : final_exp_ok (foF4 F e D) (p ^ 4 - 1) r (fo_final F e D).
Hypothesis NEG : ft_loop_neg D = false.
Hypothesis AC : affine_check (ft_Fq D) (ft_Fr D) (ft_loop D) = true.
Let R : ring_ok F := fk_ring F (pb_field F _ PB).
Add Ring FAring : (rk_ring F R).
Lemma four_affine : fo_affine_agrees.
Proof.
  assert (FE' : final_exp_ok (foF4 F e D) (p ^ 2 * p ^ 2 - 1) r (fo_final F e D)) by (replace (p ^ 2 * p ^ 2) with (p ^ 4) by ring; exact FE).
  assert (Hv : val (limbs_of (cn (ft_Fq D)) (ft_loop D)) = ft_loop D).
  { rewrite (qn_lc _ _ _ _ _ _ _ _ NU). apply Z2Pos.id. unfold affine_check in AC. rewrite !andb_true_iff in AC. lia. }
  destruct (affine_check_ok _ _ _ AC Hv) as (A1 & A2 & A3).
  pose proof (affine_reduced F _ G _ _ _ _ _ _ _ _ _ _ _ _ _ _ (fo_reduced_pairing F e D) (fo_affine_reduced_pairing F e D) (four_setup F e D PB C2 T HD) NU A1 A2 A3
    (fp4_mul_by_023 F (e (ft_nr2 D)) (e (ft_nr4 D)))) as H.
  rewrite NEG in H. apply (H) with (final := fo_final F e D); auto.
  - intros y x z. apply (fp4_mul_by_023_spec F R). unfold quad_scale, foF2, fp2_ops. cbn. ring.
  - rewrite <- NEG. exact (four_quad F e D).
  - intros P Q. unfold affine_pairing. rewrite bind_assoc. apply bind_ext. intros. rewrite bind_assoc. reflexivity.
Qed.
End Four.

Lemma torsion_mult {K} (F : Fops K) (FK : field_ok F) a b r m A : oadd F (o1 F) (o1 F) <> o0 F -> sw_disc F a b <> o0 F -> 3 < r ->
  torsion F a b r A -> torsion F a b r (mult F a m A).
Proof.
  intros H2 HD R3 TA. pose proof (S1_add F FK a b H2 HD r R3) as SA. induction m as [m IH|m IH|]; cbn [mult]; auto.
Qed.
Section Six.
Context {K : Type} (F : Fops K) (e : Z -> K) (D : six_consts).
Let p := fc_p (st_Fq D).
Let r := fc_p (st_Fr D).
Notation G := (siF3 F e D).
Notation e1 := (cubic_emb F).
Definition si_affine_inverse : Prop :=
  affine_inverse F G (rot_mnr F (e (st_nr6 D))) (e (fst (st_ad D))) (e (snd (st_ad D))) (si_twist_a F e D) (si_twist_b F e D) r
    (si_mnt6_reduced_pairing F e D) (si_mnt6_affine_reduced_pairing F e D).
(** Multiples of the generators on which the two differ. *)
Definition si_affine_differs : Prop :=
  forall m n P Q, Z.pos m < r -> Z.pos n < r ->
  prj_den F P = mult F (e (fst (st_ad D))) m (si_gen1 e D) -> prj_den G Q = mult G (si_twist_a F e D) n (si_gen2 e D) ->
  exists v v', si_mnt6_reduced_pairing F e D P Q = Ok v /\ si_mnt6_affine_reduced_pairing F e D P Q = Ok v' /\ v <> v'.
Hypothesis PB : prime_base F (cq (st_Fq D)).
Hypothesis C2 : char_not_2 F.
Hypothesis T : six_ok F e D.
Hypothesis HD : sw_disc F (e (fst (st_ad D))) (e (snd (st_ad D))) <> o0 F.
Hypothesis NU : quad_numbers G (cq (st_Fq D)) p (p ^ 3) r (limbs_of (cn (st_Fq D)) (st_loop D)) (st_loop_neg D) (Z.to_pos (st_loop D)).
Hypothesis FE : final_exp_ok (siF6 F e D) (p ^ 6 - 1) r (si_final F e D).
Hypothesis NEG : st_loop_neg D = true.
Hypothesis AC : affine_check (st_Fq D) (st_Fr D) (st_loop D) = true.
Let R : ring_ok F := fk_ring F (pb_field F _ PB).
Add Ring SAring : (rk_ring F R).
Lemma six_affine : si_affine_inverse.
Proof.
  assert (FE' : final_exp_ok (siF6 F e D) (p ^ 3 * p ^ 3 - 1) r (si_final F e D)) by (replace (p ^ 3 * p ^ 3) with (p ^ 6) by ring; exact FE).
  assert (Hv : val (limbs_of (cn (st_Fq D)) (st_loop D)) = st_loop D).
  { rewrite (qn_lc _ _ _ _ _ _ _ _ NU). apply Z2Pos.id. unfold affine_check in AC. rewrite !andb_true_iff in AC. lia. }
  destruct (affine_check_ok _ _ _ AC Hv) as (A1 & A2 & A3).
  pose proof (affine_reduced F _ G _ _ _ _ _ _ _ _ _ _ _ _ _ _ (si_mnt6_reduced_pairing F e D) (si_mnt6_affine_reduced_pairing F e D) (six_setup F e D PB C2 T HD) NU A1 A2 A3
    (fp6_mul_by_2345 F (e (st_nr3 D)) (e (st_nr6 D)))) as H.
  rewrite NEG in H. apply (H) with (final := si_final F e D); auto.
  - intros y x [[b c] d]. replace (cubic_scale (omul F) y (osqr G (o0 F, o1 F, o0 F))) with (o0 F, o0 F, y).
    2:{ rewrite (rk_sqr G (fk_ring G (qs_GK _ _ _ _ _ _ _ _ _ _ _ (six_setup F e D PB C2 T HD)))). unfold cubic_scale, siF3, fp3_ops. cbn. f_equal; [f_equal|]; ring. }
    rewrite (so_nr6 F e D T). apply (fp6_mul_by_2345_spec F R).
  - rewrite <- NEG. exact (six_quad F e D).
  - intros P Q. unfold affine_pairing. rewrite bind_assoc. apply bind_ext. intros. rewrite bind_assoc. reflexivity.
Qed.
Hypothesis GE : si_G1 F e D (si_gen1 e D) /\ si_G2 F e D (si_gen2 e D).
Hypothesis ND : si_nondegenerate F e D.
Lemma six_affine_differs : si_affine_differs.
Proof.
  intros m n P Q Hm Hn EP EQ. pose proof (qn_r _ _ _ _ _ _ _ _ NU) as Pr. pose proof (qn_r3 _ _ _ _ _ _ _ _ NU) as R3. destruct GE as [G1 G2].
  pose proof (six_setup F e D PB C2 T HD) as QS'. destruct QS' as [_ GK E0 E1 EA EM EO EI ES EN Nn TK Ea Eb H2 _]. pose proof (pb_field F _ PB) as FK.
  pose proof (two_G F G e1 E0 E1 EA EI H2) as H2G. pose proof (disc_G F G GK e1 _ E0 EA EM EI Nn _ _ _ _ Ea Eb HD) as HDG.
  destruct ND as (g & Og & Hg). destruct (Hg m n P Q Hm Hn EP EQ) as [Ev _]. clear Hg.
  destruct (six_affine P Q) as (v & v' & Ev1 & Ev2 & Hv).
  - rewrite EP. apply (torsion_mult F FK _ _ r m _ H2 HD R3). exact G1.
  - rewrite EP. apply (mult_ne_order F FK _ _ r _ m H2 HD Pr R3); [discriminate|exact G1|exact Hm].
  - rewrite EQ. apply (torsion_mult G GK _ _ r n _ H2G HDG R3). exact (proj1 G2).
  - rewrite EQ. apply (mult_ne_order G GK _ _ r _ n H2G HDG Pr R3); [discriminate|exact (proj1 G2)|exact Hn].
  - exists v, v'. split; [exact Ev1|]. split; [exact Ev2|]. intros <-. rewrite Ev1 in Ev.
    assert (Ev' : v = fpow (siF6 F e D) g (Pos.to_nat (m * n))) by congruence. clear Ev.
    pose proof (rk_monoid _ (fk_ring _ TK)) as M.
    assert (H1 : fpow (siF6 F e D) g (Pos.to_nat (m * n) + Pos.to_nat (m * n)) = o1 (siF6 F e D)).
    { etransitivity; [apply (npow_add _ _ M)|]. etransitivity; [|exact Hv]. rewrite Ev'. reflexivity. }
    apply Og in H1. rewrite Nat2Z.inj_add, !positive_nat_Z in H1. fold r in H1.
    replace (Z.pos (m * n) + Z.pos (m * n)) with (2 * (Z.pos m * Z.pos n)) in H1 by lia.
    apply prime_mult in H1; [|exact Pr]. destruct H1 as [X|X]; [apply Z.divide_pos_le in X; lia|].
    apply prime_mult in X; [|exact Pr]. destruct X as [X|X]; apply Z.divide_pos_le in X; lia.
Qed.
End Six.

Lemma mnt4_affine CO : let D := mnt4_tower in fo_affine_agrees (cF (ft_Fq D) CO) (ce (ft_Fq D) CO) D.
Proof.
  intros D. set (F := cF (ft_Fq D) CO). set (e := ce (ft_Fq D) CO). set (PB := base_prime (ft_Fq D) CO). pose proof (shipped_four_ok D CO (or_introl eq_refl)) as T.
  pose proof (oki_prime _ (fco_inv _ mnt4_Fr_ok)) as Pr. pose proof (base_char2 (ft_Fq D) CO) as C2.
  apply (four_affine F e D PB C2 T).
  - exact (mnt_check_disc F e (toZ (fc_P (ft_Fq D))) _ _ _ _ _ _ _ (base_hom _ CO) mnt4_mnt_check).
  - exact (mnt_check_numbers F _ _ _ _ _ _ _ _ PB mnt4_mnt_check Pr (bf_order _ _ _ (four_2 F e D PB C2 T))).
  - exact (mnt4_final_shipped CO).
  - reflexivity.
  - exact mnt4_affine_check.
Qed.
Lemma mnt6_affine CO : let D := mnt6_tower in let F := cF (st_Fq D) CO in let e := ce (st_Fq D) CO in si_affine_inverse F e D /\ si_affine_differs F e D.
Proof.
  intros D F e. set (PB := base_prime (st_Fq D) CO). assert (HD : In D shipped_six) by (unfold shipped_six; cbn; tauto). pose proof (shipped_six_ok D CO HD) as T.
  pose proof (oki_prime _ (fco_inv _ mnt6_Fr_ok)) as Pr. pose proof (base_char2 (st_Fq D) CO) as C2.
  pose proof (mnt_check_disc F e (toZ (fc_P (st_Fq D))) _ _ _ _ _ _ _ (base_hom _ CO) mnt6_mnt_check) as ND.
  pose proof (mnt_check_numbers F _ _ _ _ _ _ _ _ PB mnt6_mnt_check Pr (bf_order _ _ _ (six_3 F e D PB C2 T))) as NU.
  split.
  - exact (six_affine F e D PB C2 T ND NU (six_final_shipped D CO HD) eq_refl mnt6_affine_check).
  - exact (six_affine_differs F e D PB C2 T ND NU (six_final_shipped D CO HD) eq_refl mnt6_affine_check (mnt6_generators CO) (mnt6_nondegenerate CO)).
Qed.
