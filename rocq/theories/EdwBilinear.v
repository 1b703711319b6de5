(** The edwards pairing after the final exponentiation: a Miller function of the
    short Weierstrass form raised to a fixed power, the inverse of the ate pairing
    with loop count -n, and bilinear. *)
From Coq Require Import ZArith List Bool Ring Field Lia Znumtheory.
From Verif Require Import Result Algebra Limbs LimbsProofs FieldOps BigintModel AlgorithmsModel AlgorithmsProofs ExtModel ExtSpec ExtFrob ExtProofs ExtInst FinalExpSpec CurveSpec CurveGroup
  CurveModel CurveProofs CurveEdwards CurveEdwOps EdwSpec EdwSw MillerSpec PairingModel PairingSpec PairingProofs NeutralProofs MillerProofs MillerRegular MillerQuad
  Cochain MillerBilinear BilinearTwelve BilinearQuad MntShipped EdwPairing.
Import ListNotations.
Open Scope Z_scope.

(** Coordinates for a point of a short Weierstrass curve. *)
Section Rep.
Context {K : Type} (F : Fops K) (FK : field_ok F).
Add Ring RepRing : (rk_ring F (fk_ring F FK)).
Definition rep (A : apt K) : K * K * K := match A with Inf => (o0 F, o1 F, o0 F) | Aff x y => (x, y, o1 F) end.
Lemma rep_den A : prj_den F (rep A) = A.
Proof.
  destruct A as [|x y]; cbn [rep].
  - unfold prj_den. now rewrite (rk_eqb_refl F (fk_ring F FK)).
  - apply (prj_den_at F FK); [apply (fk_1_neq_0 F FK)| |]; ring.
Qed.
End Rep.

Section Edw.
Context {K L : Type} (F : Fops K) (q : nat) (G : Fops L) (e1 : K -> L) (scale : K -> L -> L) (nu : L) (mnr : L -> L) (d : K) (d' : L) (mul_a : L -> L).
Variables (p N r : Z) (lc : bigint) (n : positive).
Notation T := (quad_ops G mnr).
Notation emb := (quad_emb G).
Notation w := (quad_u G).
Notation u := (tinv T w).
Notation Psi := (psi T emb u).
Notation up x := (emb (e1 x)).
Notation one := (o1 F).
Notation aW := (te_swa F one d).
Notation bW := (te_swb F one d).
Notation aW' := (te_swa G nu d').
Notation bW' := (te_swb G nu d').
Notation sw1 := (te_sw F one d).
Notation sw2 := (te_sw G nu d').
(** The groups: points of order r, for the bilinearity those of the twist on
    which the Frobenius acts as q. *)
Definition edw_G1 : K * K -> Prop := te_torsion F one d r.
Definition edw_G2t : L * L -> Prop := te_torsion_dual G nu d' r.
Definition edw_G2 (Q : L * L) : Prop := edw_G2t Q /\ te_eigen G nu d' T emb w q Q.
Definition edw_ate (neg : bool) (P : K * K) (Q : L * L) : L * L :=
  quad_ate G e1 mnr aW neg n (sw2 Q) (te_X F one d (snd P)) (te_Y F one d (fst P) (snd P)).
Variable pairing : K * K * K -> L * L * L -> result (L * L).
(** The value is the Miller function with loop count n, evaluated on the short
    Weierstrass form; for points of order r it is the inverse of the ate pairing
    with loop count -n. *)
Definition edw_is_textbook : Prop :=
  exists c, 0 <= c /\ Z.gcd c r = 1 /\ let Ex := Z.to_nat (c * ((N * N - 1) / r)) in
  forall P Q, edw_ok F one d P -> edw_den F P <> te_zero F -> edw_G1 (edw_den F P) ->
    edw_ok G nu d' Q -> edw_den G Q <> te_zero G -> edw_G2t (edw_den G Q) ->
  let A := edw_den F P in let B := edw_den G Q in
  edw_ate true A B <> o0 T /\ pairing P Q = Ok (fpow T (edw_ate false A B) Ex) /\
  omul T (fpow T (edw_ate false A B) Ex) (fpow T (edw_ate true A B) Ex) = o1 T.
Definition edw_is_bilinear : Prop :=
  te_bilinear F one d G nu d' T r (edw_ok F one d) (edw_ok G nu d') edw_G1 edw_G2 (edw_den F) (edw_den G) pairing.

Hypothesis QS : quad_setup F q G e1 scale nu mnr aW bW aW' bW'.
Hypothesis QN : quad_numbers G q p N r lc true n.
Hypothesis Ed : d' = omul G (e1 d) nu.
Hypothesis MA : forall x, mul_a x = omul G nu x.
Hypothesis N3F : oadd F (oadd F one one) one <> o0 F.
Hypothesis NdF : d <> o0 F.
Hypothesis NadF : osub F one d <> o0 F.
Hypothesis GS1 : te_good F one d edw_G1.
Hypothesis GS2 : te_good G nu d' edw_G2t.
Hypothesis OS2 : forall Q, edw_G2t Q -> te_mult G nu d' (Z.to_pos r) Q = te_zero G.
Variable final : L * L -> result (L * L).
Hypothesis FE : final_exp_ok T (N * N - 1) r final.
Hypothesis PD : forall P Q, pairing P Q = (f <- edw_raw F G scale mnr mul_a lc P Q ;; final f).

Let PB : prime_base F q := qs_PB _ _ _ _ _ _ _ _ _ _ _ QS.
Let FK : field_ok F := pb_field F q PB.
Let GK : field_ok G := qs_GK _ _ _ _ _ _ _ _ _ _ _ QS.
Let TK : field_ok T := qs_TK _ _ _ _ _ _ _ _ _ _ _ QS.
Let E0 := qs_0 _ _ _ _ _ _ _ _ _ _ _ QS.
Let E1 := qs_1 _ _ _ _ _ _ _ _ _ _ _ QS.
Let EA := qs_add _ _ _ _ _ _ _ _ _ _ _ QS.
Let EM := qs_mul _ _ _ _ _ _ _ _ _ _ _ QS.
Let EO := qs_opp _ _ _ _ _ _ _ _ _ _ _ QS.
Let EI := qs_inj _ _ _ _ _ _ _ _ _ _ _ QS.
Let ES := qs_s _ _ _ _ _ _ _ _ _ _ _ QS.
Let EN := qs_mnr _ _ _ _ _ _ _ _ _ _ _ QS.
Let Nn := qs_nu _ _ _ _ _ _ _ _ _ _ _ QS.
Let Ea := qs_a _ _ _ _ _ _ _ _ _ _ _ QS.
Let Eb := qs_b _ _ _ _ _ _ _ _ _ _ _ QS.
Let H2 := qs_2 _ _ _ _ _ _ _ _ _ _ _ QS.
Let HD := qs_disc _ _ _ _ _ _ _ _ _ _ _ QS.
Let N2' := N2G F G e1 E0 E1 EA EI H2.
Let N3' := N3G F G e1 E0 E1 EA EI N3F.
Let Nd' := NdG F G GK e1 nu E0 EI Nn d d' Ed NdF.
Let Nad' := NadG F q PB G GK e1 nu E0 E1 EA EO EI Nn d d' Ed NadF.
Let RF : ring_ok F := fk_ring F FK.
Let RG : ring_ok G := fk_ring G GK.
Let RT : ring_ok T := fk_ring T TK.
Let M := rk_monoid T RT.
Add Field EBF : (fk_field F (pb_field F q (qs_PB _ _ _ _ _ _ _ _ _ _ _ QS))).
Add Field EBG : (fk_field G (qs_GK _ _ _ _ _ _ _ _ _ _ _ QS)).
Add Field EBT : (fk_field T (qs_TK _ _ _ _ _ _ _ _ _ _ _ QS)).

(** ** Points of order r *)
Lemma g1_ne A : edw_G1 A -> A <> te_zero F -> fst A <> o0 F /\ snd A <> o0 F.
Proof. intros H N0. destruct (tg_xy F _ _ _ GS1 _ H); [contradiction|assumption]. Qed.
Lemma g2_ne B : edw_G2t B -> B <> te_zero G -> fst B <> o0 G /\ snd B <> o0 G.
Proof. intros H N0. destruct (tg_xy G _ _ _ GS2 _ H); [contradiction|assumption]. Qed.
Lemma sw1_aff A : edw_G1 A -> A <> te_zero F -> sw1 A = Aff (te_X F one d (snd A)) (te_Y F one d (fst A) (snd A)).
Proof.
  intros H N0. destruct (g1_ne A H N0) as [Nx _]. destruct A as [x y]. cbn [fst snd] in *.
  exact (te_sw_aff F one d FK NadF x y (tg_on F _ _ _ GS1 _ H) Nx).
Qed.
Lemma sw2_aff B : edw_G2t B -> B <> te_zero G -> sw2 B = Aff (te_X G nu d' (snd B)) (te_Y G nu d' (fst B) (snd B)).
Proof.
  intros H N0. destruct (g2_ne B H N0) as [Nx _]. destruct B as [x y]. cbn [fst snd] in *.
  exact (te_sw_aff G nu d' GK Nad' x y (tg_on G _ _ _ GS2 _ H) Nx).
Qed.
Lemma sw1_zero A : edw_G1 A -> sw1 A = Inf <-> A = te_zero F.
Proof.
  intros H. split; [|intros ->; now apply te_sw_zero]. intros Z.
  destruct (tg_xy F _ _ _ GS1 _ H) as [|N0]; [assumption|exfalso]. rewrite sw1_aff in Z; [discriminate|assumption|].
  intros ->. now apply (proj1 N0).
Qed.
Lemma sw2_zero B : edw_G2t B -> sw2 B = Inf <-> B = te_zero G.
Proof.
  intros H. split; [|intros ->; now apply te_sw_zero]. intros Z.
  destruct (tg_xy G _ _ _ GS2 _ H) as [|N0]; [assumption|exfalso]. rewrite sw2_aff in Z; [discriminate|assumption|].
  intros ->. now apply (proj1 N0).
Qed.
Lemma sw1_tor A : edw_G1 A -> torsion F aW bW r (sw1 A).
Proof.
  intros H. split.
  - destruct (tg_xy F _ _ _ GS1 _ H) as [-> | [Nx Ny]]; [now rewrite te_sw_zero|]. destruct A as [x y]. cbn [fst snd] in *.
    pose proof (tg_on F _ _ _ GS1 _ H) as O. rewrite (te_sw_aff F one d FK NadF x y O Nx). exact (te_sw_on F one d FK NadF x y O Nx Ny).
  - rewrite <- (te_sw_mult F one d FK H2 N3F NdF NadF _ GS1 _ _ H). apply sw1_zero; [|apply H]. now apply te_mult_good.
Qed.
Lemma sw2_tor B : edw_G2t B -> torsion G aW' bW' r (sw2 B).
Proof.
  intros H. split.
  - destruct (tg_xy G _ _ _ GS2 _ H) as [-> | [Nx Ny]]; [now rewrite te_sw_zero|]. destruct B as [x y]. cbn [fst snd] in *.
    pose proof (tg_on G _ _ _ GS2 _ H) as O. rewrite (te_sw_aff G nu d' GK Nad' x y O Nx). exact (te_sw_on G nu d' GK Nad' x y O Nx Ny).
  - rewrite <- (te_sw_mult G nu d' GK N2' N3' Nd' Nad' _ GS2 _ _ H). apply sw2_zero; [|now apply OS2]. now apply te_mult_good.
Qed.

(** ** The Frobenius *)
Let QE0 := q_emb_0 G mnr.
Let QEA := q_emb_add G GK mnr.
Let QEM := q_emb_mul G GK nu mnr EN.
Let QES := q_emb_sub G GK mnr.
Let QEI := q_emb_inj G.
Let U0 := u_ne G GK mnr TK.
Notation ph x := (fpow T x q).
Let pha x y : ph (oadd T x y) = oadd T (ph x) (ph y) := ph_add F q PB G GK e1 mnr E0 E1 EA TK x y.
Lemma phm x y : ph (omul T x y) = omul T (ph x) (ph y).
Proof. apply (npow_mul_distr _ _ M (rk_mul_comm T RT)). Qed.
Lemma phs x y : ph (osub T x y) = osub T (ph x) (ph y).
Proof.
  assert (H : oadd T (ph (osub T x y)) (ph y) = ph x) by (rewrite <- pha; f_equal; ring). rewrite <- H. ring.
Qed.
Lemma ph_ne x : x <> o0 T -> ph x <> o0 T.
Proof.
  intros Nx Z. destruct (tinv_spec T TK x Nx) as [_ I]. apply (f_equal (fun z => ph z)) in I. rewrite phm, Z, (npow_one _ _ M) in I.
  apply (fk_1_neq_0 T TK). rewrite <- I. ring.
Qed.
Lemma phd x y : y <> o0 T -> ph (tdiv T x y) = tdiv T (ph x) (ph y).
Proof.
  intros Ny. symmetry. apply (tdiv_eq T TK); [now apply ph_ne|]. rewrite <- phm. f_equal. field. exact Ny.
Qed.
Notation P1 := (o1 T).
Notation P2 := (oadd T P1 P1).
Notation P3 := (oadd T P2 P1).
(** The untwisted point on the short Weierstrass form, from the point on the
    twist moved to the curve. *)
Definition un_X (y : L * L) : L * L := te_X T P1 (up d) y.
Definition un_Y (x y : L * L) : L * L := te_Y T P1 (up d) x y.
Lemma emb_div x y : y <> o0 G -> emb (tdiv G x y) = tdiv T (emb x) (emb y).
Proof. intros Ny. symmetry. apply (tdiv_eq T TK); [now apply q_emb_ne|]. rewrite <- QEM. f_equal. field. exact Ny. Qed.
Lemma emb_1 : emb (o1 G) = P1. Proof. reflexivity. Qed.
Lemma psi_un x y : x <> o0 G -> osub G (o1 G) y <> o0 G ->
  Psi (Aff (te_X G nu d' y) (te_Y G nu d' x y)) = Aff (un_X (emb y)) (un_Y (omul T w (emb x)) (emb y)).
Proof.
  intros Nx Ny. pose proof (w_ne G GK mnr) as Nw. pose proof (w_sq G GK nu mnr EN) as Ew.
  assert (Nx' : emb x <> o0 T) by now apply q_emb_ne.
  assert (Ny' : osub T P1 (emb y) <> o0 T) by (rewrite <- emb_1, <- QES; now apply q_emb_ne).
  assert (Nu' : emb nu <> o0 T) by now apply q_emb_ne.
  assert (Nxy : omul G x (osub G (o1 G) y) <> o0 G) by now apply (fk_mul_neq_0 G GK).
  cbn [psi]. unfold un_X, un_Y, te_X, te_Y, te_u, te_v.
  repeat rewrite ?QEM, ?QEA, ?QES, ?emb_div, ?emb_1 by assumption. rewrite Ed, QEM.
  rewrite <- Ew in *. generalize dependent (emb x). generalize dependent (emb y). intros Y NY X NX. generalize (up d). intros D.
  f_equal; field; repeat split; assumption.
Qed.
Lemma eigen_sw B : edw_G2 B -> B <> te_zero G -> frob_eigen T (up aW) q (Psi (sw2 B)).
Proof.
  intros [H HE] N0. destruct (g2_ne B H N0) as [Nx Ny]. set (k := Z.to_pos (Z.of_nat q)) in *.
  pose proof (te_mult_good G nu d' _ GS2 k _ H) as HM. unfold te_eigen in HE. fold k in HE. unfold frob_eigen. fold k.
  destruct (sw2_tor B H) as [OB _].
  assert (TA : tw_a T emb u aW' = up aW) by exact (q_ta G GK e1 nu mnr EN Nn TK aW aW' Ea).
  pose proof (two_G F G e1 E0 E1 EA EI H2) as H2G. pose proof (disc_G F G GK e1 nu E0 EA EM EI Nn aW bW aW' bW' Ea Eb HD) as HDG.
  rewrite <- TA, <- (psi_mult G GK T TK emb u QE0 QEA QES QEM QEI U0 aW' bW' H2G HDG k _ OB).
  rewrite <- (te_sw_mult G nu d' GK N2' N3' Nd' Nad' _ GS2 k _ H). destruct (te_mult G nu d' k B) as [x' y'] eqn:Em.
  destruct B as [x y]. cbn [fst snd te_untwist te_frob] in *. injection HE as HX HY.
  assert (Nw : w <> o0 T) by exact (w_ne G GK mnr).
  assert (Nx' : x' <> o0 G).
  { intros ->. apply (ph_ne (omul T w (emb x))); [apply (fk_mul_neq_0 T TK); [exact Nw|now apply q_emb_ne]|].
    transitivity (omul T w (emb (o0 G))); [exact HX|]. rewrite QE0. ring. }
  pose proof (tg_on G _ _ _ GS2 _ H) as O. pose proof (tg_on G _ _ _ GS2 _ HM) as O'.
  destruct (te_y1 G nu d' GK Nad' x y O Nx) as [My _]. destruct (te_y1 G nu d' GK Nad' x' y' O' Nx') as [My' _].
  rewrite (te_sw_aff G nu d' GK Nad' _ _ O Nx), (te_sw_aff G nu d' GK Nad' _ _ O' Nx'), !psi_un by assumption.
  cbn [frob_pt].
  assert (Nx1 : omul T w (emb x) <> o0 T) by (apply (fk_mul_neq_0 T TK); [exact Nw|now apply q_emb_ne]).
  assert (Ny1 : osub T P1 (emb y) <> o0 T) by (rewrite <- emb_1, <- QES; now apply q_emb_ne).
  assert (Nxy : omul T (omul T w (emb x)) (osub T P1 (emb y)) <> o0 T) by now apply (fk_mul_neq_0 T TK).
  assert (HX' : ph (omul T w (emb x)) = omul T w (emb x')) by exact HX. assert (HY' : ph (emb y) = emb y') by exact HY.
  assert (HO : ph P1 = P1) by apply (npow_one _ _ M).
  assert (HU : ph (up d) = up d) by exact (ph_up F q PB G GK e1 nu mnr E1 EM EN d).
  unfold un_X, un_Y, te_X, te_Y, te_u, te_v. f_equal.
  - repeat first [rewrite pha | rewrite phs | rewrite phd by assumption | rewrite HX' | rewrite HY' | rewrite HO | rewrite HU | rewrite phm]. reflexivity.
  - repeat first [rewrite pha | rewrite phs | rewrite phd by assumption | rewrite HX' | rewrite HY' | rewrite HO | rewrite HU | rewrite phm]. reflexivity.
Qed.

(** ** The value *)
Notation pr neg := (fun P Q => f <- quad_pairing F G e1 scale nu mnr aW' lc neg P Q ;; final f).
Theorem edw_value : exists c, 0 <= c /\ Z.gcd c r = 1 /\ let Ex := Z.to_nat (c * ((N * N - 1) / r)) in
  forall P Q, edw_ok F one d P -> edw_den F P <> te_zero F -> edw_G1 (edw_den F P) ->
    edw_ok G nu d' Q -> edw_den G Q <> te_zero G -> edw_G2t (edw_den G Q) ->
  let A := edw_den F P in let B := edw_den G Q in
  edw_ate true A B <> o0 T /\ pairing P Q = Ok (fpow T (edw_ate false A B) Ex) /\
  pr true (rep F (sw1 A)) (rep G (sw2 B)) = Ok (fpow T (edw_ate true A B) Ex) /\
  omul T (fpow T (edw_ate false A B) Ex) (fpow T (edw_ate true A B) Ex) = o1 T.
Proof.
  destruct FE as (_ & _ & c & C0 & Cg & FF). exists c. split; [exact C0|]. split; [exact Cg|]. intros Ex P Q OP NP SP OQ NQ SQ A B.
  destruct (quad_kills F q G e1 scale nu mnr aW bW aW' bW' p N r lc true n QS QN c C0) as [Ke Kw]. fold Ex in Ke, Kw.
  pose proof QN as QN'. destruct QN' as [Qv Pr R3 N1 GO E2 Ll Hl Hn' Et].
  destruct (g1_ne A SP NP) as [Np Ng]. destruct (g2_ne B SQ NQ) as [Nx Ny].
  pose proof (sw1_tor A SP) as TP. pose proof (sw2_tor B SQ) as TQ. pose proof (sw1_aff A SP NP) as EP. pose proof (sw2_aff B SQ NQ) as EQ.
  set (xP := te_X F one d (snd A)) in *. set (yP := te_Y F one d (fst A) (snd A)) in *.
  set (x := te_X G nu d' (snd B)) in *. set (y := te_Y G nu d' (fst B) (snd B)) in *.
  pose proof TP as TP'. pose proof TQ as TQ'. rewrite EP in TP'. rewrite EQ in TQ'.
  destruct (quad_textbook F q PB G GK e1 scale nu mnr E0 E1 EA EM EO EI ES EN Nn TK aW bW aW' bW' Ea Eb H2 HD r Ex Pr R3 Ke Kw lc true n Ll Hl Hn'
    (rep F (sw1 A)) (rep G (sw2 B)) xP yP x y) as (Na & f & Ef & Nf & Pf); auto.
  { now rewrite (rep_den F FK). } { now rewrite (rep_den G GK). }
  assert (EAt : edw_ate true A B = q_ate G e1 mnr aW true n (Aff x y) xP yP) by (unfold edw_ate, quad_ate, q_ate; now rewrite EQ).
  split; [now rewrite EAt|].
  pose proof (y_ne F q PB aW bW H2 HD r Pr R3 xP yP TP') as NyP.
  pose proof (q_kills G mnr TK Ex) as KL. pose proof (q_kill_emb G mnr Ex Ke) as KEm. pose proof (q_kill_w G GK mnr Ex Kw) as KW.
  assert (H2G := two_G F G e1 E0 E1 EA EI H2).
  assert (HDG := disc_G F G GK e1 nu E0 EA EM EI Nn aW bW aW' bW' Ea Eb HD).
  assert (TA := q_ta G GK e1 nu mnr EN Nn TK aW aW' Ea).
  assert (D2 : ~ (r | 2)) by (intros D; apply Z.divide_pos_le in D; lia).
  assert (NI : Aff x y <> Inf) by discriminate.
  assert (VN := fun c d O => q_VN F G GK e1 nu mnr E0 EA EM EI EN Nn TK aW bW aW' bW' Ea Eb xP yP c d NyP (proj1 TP') O).
  assert (LN := fun l c d => q_LN F G GK e1 nu mnr E0 EI EN Nn TK xP yP l c d NyP).
  assert (ZQ := tw_order F G GK e1 nu E0 E1 EA EM EI Nn aW bW aW' bW' Ea Eb H2 HD r R3 n _ TQ').
  destruct (ord_signed G GK T TK emb u QE0 QEA QES QEM QEI U0 aW' bW' H2G HDG r (Aff x y) (up xP) (up yP) Pr D2 (proj1 TQ') NI ZQ (vn_on G GK T emb u aW' bW' _ _ VN) LN true n Hn') as [[Rg Nv] _].
  specialize (Nv eq_refl).
  destruct (ord_regular G GK T TK emb u QE0 QEA QES QEM QEI U0 aW' bW' H2G HDG r (Aff x y) (up xP) (up yP) Pr D2 (proj1 TQ') NI ZQ (vn_on G GK T emb u aW' bW' _ _ VN) LN n Hn') as [_ Nm].
  destruct (te_y1 F one d FK NadF (fst A) (snd A)) as [Mg _]; [rewrite <- surjective_pairing; apply (tg_on F _ _ _ GS1 _ SP)|exact Np|].
  rewrite <- EQ in Rg, Nv, Nm. rewrite (surjective_pairing B) in Rg, Nv, Nm.
  destruct (edw_miller F q PB G GK e1 scale nu mnr E0 E1 EA EM EO EI ES EN Nn TK d d' mul_a Ed MA H2 N3F NdF NadF edw_G2t GS2 (q_kill G mnr Ex) KL KEm KW
    (fst A) (snd A) Np Mg (fst B) (snd B)) with (lc := lc) (n := n) (P := P) (Q := Q) as (g & R & Eg & Ug & HR); auto using surjective_pairing.
  { now rewrite <- surjective_pairing. }
  pose proof (e_vert F q PB G GK e1 nu mnr E0 E1 EA EO EI EN Nn TK d d' Ed NadF edw_G2t GS2 (q_kill G mnr Ex) KEm (snd A) R _ HR Nv) as Kv.
  assert (Ng' : g <> o0 T) by (intros Z; apply Nm; now apply (upto_0 T TK _ KL g _ Ug)).
  apply (upto_pow G mnr TK Ex) in Ug. rewrite <- surjective_pairing in Ug, Kv, Nm, Nv.
  assert (EF : edw_ate false A B = miller T (tw_a T emb u aW') n (Psi (sw2 B)) (up xP) (up yP)) by (unfold edw_ate, quad_ate, miller_signed; now rewrite TA).
  assert (EAt' : edw_ate true A B = tinv T (omul T (edw_ate false A B) (vertical_at T (mult T (tw_a T emb u aW') n (Psi (sw2 B))) (up xP)))).
  { rewrite EF, TA. reflexivity. }
  split; [|split].
  - rewrite PD, Eg. cbn [bind]. destruct (FF g Ng') as (v & -> & Vv & _). fold Ex in Vv. now rewrite Vv, Ug, EF.
  - cbv beta. rewrite Ef. cbn [bind]. destruct (FF f Nf) as (v & -> & Vv & _). fold Ex in Vv. now rewrite Vv, Pf, EAt.
  - rewrite EAt'. destruct Kv as [_ Kv]. rewrite <- EF in Nm. set (m := edw_ate false A B) in *. set (vv := vertical_at _ _ _) in *.
    assert (Nmv : omul T m vv <> o0 T) by now apply (fk_mul_neq_0 T TK).
    destruct (tinv_spec T TK _ Nmv) as [_ I]. apply (f_equal (fun z => fpow T z Ex)) in I.
    rewrite !(npow_mul_distr _ _ M (rk_mul_comm T RT)), Kv, (npow_one _ _ M) in I. etransitivity; [|exact I].
    rewrite (npow_mul_distr _ _ M (rk_mul_comm T RT)) || idtac. ring.
Qed.
(** P = O: any other point P' of G1 shows that the loop is regular. *)
Theorem edw_left_ne P P' Q : edw_is_zero F P = true -> edw_ok F one d P' -> edw_den F P' <> te_zero F -> edw_G1 (edw_den F P') ->
  edw_ok G nu d' Q -> edw_den G Q <> te_zero G -> edw_G2t (edw_den G Q) ->
  exists f, edw_raw F G scale mnr mul_a lc P Q = Ok f /\ f <> o0 T.
Proof.
  intros HP OP NP SP OQ NQ SQ. set (A := edw_den F P') in *. set (B := edw_den G Q) in *.
  destruct FE as (_ & _ & c & C0 & _ & _).
  destruct (quad_kills F q G e1 scale nu mnr aW bW aW' bW' p N r lc true n QS QN c C0) as [Ke Kw]. set (Ex := Z.to_nat _) in Ke, Kw.
  pose proof QN as QN'. destruct QN' as [Qv Pr R3 N1 GO E2 Ll Hl Hn' Et].
  destruct (g1_ne A SP NP) as [Np Ng]. destruct (g2_ne B SQ NQ) as [Nx Ny].
  pose proof (sw1_tor A SP) as TP. pose proof (sw2_tor B SQ) as TQ. pose proof (sw1_aff A SP NP) as EP. pose proof (sw2_aff B SQ NQ) as EQ.
  set (xP := te_X F one d (snd A)) in *. set (yP := te_Y F one d (fst A) (snd A)) in *.
  set (x := te_X G nu d' (snd B)) in *. set (y := te_Y G nu d' (fst B) (snd B)) in *.
  rewrite EP in TP. rewrite EQ in TQ.
  pose proof (y_ne F q PB aW bW H2 HD r Pr R3 xP yP TP) as NyP.
  pose proof (q_kills G mnr TK Ex) as KL. pose proof (q_kill_emb G mnr Ex Ke) as KEm. pose proof (q_kill_w G GK mnr Ex Kw) as KW.
  assert (H2G := two_G F G e1 E0 E1 EA EI H2).
  assert (HDG := disc_G F G GK e1 nu E0 EA EM EI Nn aW bW aW' bW' Ea Eb HD).
  assert (D2 : ~ (r | 2)) by (intros D; apply Z.divide_pos_le in D; lia).
  assert (NI : Aff x y <> Inf) by discriminate.
  assert (VN := fun c d O => q_VN F G GK e1 nu mnr E0 EA EM EI EN Nn TK aW bW aW' bW' Ea Eb xP yP c d NyP (proj1 TP) O).
  assert (LN := fun l c d => q_LN F G GK e1 nu mnr E0 EI EN Nn TK xP yP l c d NyP).
  assert (ZQ := tw_order F G GK e1 nu E0 E1 EA EM EI Nn aW bW aW' bW' Ea Eb H2 HD r R3 n _ TQ).
  destruct (ord_regular G GK T TK emb u QE0 QEA QES QEM QEI U0 aW' bW' H2G HDG r (Aff x y) (up xP) (up yP) Pr D2 (proj1 TQ) NI ZQ (vn_on G GK T emb u aW' bW' _ _ VN) LN n Hn') as [Rg _].
  destruct (te_y1 F one d FK NadF (fst A) (snd A)) as [Mg _]; [rewrite <- surjective_pairing; apply (tg_on F _ _ _ GS1 _ SP)|exact Np|].
  rewrite <- EQ in Rg. rewrite (surjective_pairing B) in Rg.
  apply (edw_miller_zero F q PB G GK e1 scale nu mnr E0 E1 EA EM EO EI ES EN Nn TK d d' mul_a Ed MA H2 N3F NdF NadF edw_G2t GS2 (q_kill G mnr Ex) KL KEm KW
    (fst A) (snd A) Np Mg (fst B) (snd B)) with (n := n); auto using surjective_pairing.
  now rewrite <- surjective_pairing.
Qed.
Theorem edw_shipped_textbook : edw_is_textbook.
Proof.
  destruct edw_value as (c & C0 & Cg & H). exists c. split; [exact C0|]. split; [exact Cg|].
  intros Ex P Q OP NP SP OQ NQ SQ A B. destruct (H P Q OP NP SP OQ NQ SQ) as (H1' & H2' & _ & H4'). auto.
Qed.

(** ** Bilinearity *)
Lemma inv_of v v' s s' : omul T v v' = o1 T -> omul T s s' = o1 T -> v' = s' -> v = s.
Proof.
  intros H1' H2' ->. transitivity (omul T v (omul T s s')); [rewrite H2'; ring|]. transitivity (omul T (omul T v s') s); [ring|]. rewrite H1'. ring.
Qed.
Lemma inv_one v v' : omul T v v' = o1 T -> v' = o1 T -> v = o1 T.
Proof. intros H ->. rewrite <- H. ring. Qed.
Lemma inv_mul a b c e : omul T a b = o1 T -> omul T c e = o1 T -> omul T (omul T a c) (omul T b e) = o1 T.
Proof. intros Hab Hce. transitivity (omul T (omul T a b) (omul T c e)); [ring|]. rewrite Hab, Hce. ring. Qed.
Lemma inv_pow a b k : omul T a b = o1 T -> omul T (fpow T a k) (fpow T b k) = o1 T.
Proof. intros H. rewrite <- (npow_mul_distr _ _ M (rk_mul_comm T RT)), H. apply (npow_one _ _ M). Qed.
Theorem edw_shipped_bilinear : edw_is_bilinear.
Proof.
  pose proof (quad_shipped_bilinear F q G e1 scale nu mnr aW bW aW' bW' p N r lc true n (pr true) QS QN final FE eq_refl) as [BM BP BQ].
  destruct edw_value as (c & _ & _ & V). set (Ex := Z.to_nat _) in V. cbv zeta in V.
  set (va := fun A B => fpow T (edw_ate false A B) Ex) in *. set (vb := fun A B => fpow T (edw_ate true A B) Ex) in *.
  assert (V' : forall P Q, (edw_ok F one d P /\ edw_den F P <> te_zero F) -> edw_G1 (edw_den F P) -> (edw_ok G nu d' Q /\ edw_den G Q <> te_zero G) -> edw_G2t (edw_den G Q) ->
    pairing P Q = Ok (va (edw_den F P) (edw_den G Q)) /\ pr true (rep F (sw1 (edw_den F P))) (rep G (sw2 (edw_den G Q))) = Ok (vb (edw_den F P) (edw_den G Q)) /\
    omul T (va (edw_den F P) (edw_den G Q)) (vb (edw_den F P) (edw_den G Q)) = o1 T).
  { intros P Q [OP NP] SP [OQ NQ] SQ. destruct (V P Q OP NP SP OQ NQ SQ) as (_ & W1 & W2 & W3). auto. }
  clear V.
  assert (S1' : forall A, edw_G1 A -> A <> te_zero F -> prj_den F (rep F (sw1 A)) <> Inf /\ quad_G1 F aW bW r (prj_den F (rep F (sw1 A)))).
  { intros A H NA. rewrite (rep_den F FK). split; [|now apply sw1_tor]. intros Z. apply NA. now apply sw1_zero. }
  assert (S2' : forall B, edw_G2 B -> B <> te_zero G -> prj_den G (rep G (sw2 B)) <> Inf /\ quad_G2 q G e1 mnr aW aW' bW' r (prj_den G (rep G (sw2 B)))).
  { intros B H NB. rewrite (rep_den G GK). split; [|split; [apply sw2_tor, H|now apply eigen_sw]]. intros Z. apply NB. apply sw2_zero; [apply H|exact Z]. }
  constructor.
  - intros P Q P' Q' m k [DP SP] [DQ SQ] DP' DQ' EP EQ.
    assert (SP' : edw_G1 (edw_den F P')) by (rewrite EP; now apply te_mult_good).
    assert (SQ' : edw_G2t (edw_den G Q')) by (rewrite EQ; apply te_mult_good; [exact GS2|apply SQ]).
    destruct (V' P Q DP SP DQ (proj1 SQ)) as (W1 & W2 & W3). destruct (V' P' Q' DP' SP' DQ' SQ') as (X1 & X2 & X3).
    destruct (BM (rep F (sw1 (edw_den F P))) (rep G (sw2 (edw_den G Q))) (rep F (sw1 (edw_den F P'))) (rep G (sw2 (edw_den G Q'))) m k) as (v & B1 & B2 & B3).
    + apply S1'; [exact SP|apply DP].
    + apply S2'; [exact SQ|apply DQ].
    + rewrite !(rep_den F FK), EP. exact (te_sw_mult F one d FK H2 N3F NdF NadF _ GS1 _ _ SP).
    + apply S1'; [exact SP'|apply DP'].
    + rewrite !(rep_den G GK), EQ. exact (te_sw_mult G nu d' GK N2' N3' Nd' Nad' _ GS2 _ _ (proj1 SQ)).
    + rewrite (rep_den G GK). intros Z. apply (proj2 DQ'). now apply sw2_zero.
    + cbv beta in *. rewrite W2 in B1. injection B1 as <-. rewrite X2 in B3. injection B3 as B3.
      exists (va (edw_den F P) (edw_den G Q)). split; [exact W1|]. split.
      * exact (inv_one _ _ (inv_pow _ _ _ W3) B2).
      * rewrite X1. f_equal. apply (inv_of _ _ _ _ X3 (inv_pow _ _ (Pos.to_nat (m * k)) W3)). exact B3.
  - intros P1' P2' Q [D1 S1a] [D2 S1b] [DQ SQ].
    destruct (V' P1' Q D1 S1a DQ (proj1 SQ)) as (W1 & W2 & W3). destruct (V' P2' Q D2 S1b DQ (proj1 SQ)) as (X1 & X2 & X3).
    destruct (BP (rep F (sw1 (edw_den F P1'))) (rep F (sw1 (edw_den F P2'))) (rep G (sw2 (edw_den G Q)))) as (v1 & v2 & B1 & B2 & B3 & B4).
    { apply S1'; [exact S1a|apply D1]. } { apply S1'; [exact S1b|apply D2]. } { apply S2'; [exact SQ|apply DQ]. }
    cbv beta in *. rewrite W2 in B1. rewrite X2 in B2. injection B1 as <-. injection B2 as <-. rewrite !(rep_den F FK) in B4.
    eexists _, _. split; [exact W1|]. split; [exact X1|].
    pose proof (te_sw_hom F one d FK H2 N3F NdF NadF _ GS1 _ _ S1a S1b) as HM. pose proof (tg_add F _ _ _ GS1 _ _ S1a S1b) as S3.
    split.
    + intros P3' D3 E3. assert (S3' : edw_G1 (edw_den F P3')) by now rewrite E3.
      destruct (V' P3' Q D3 S3' DQ (proj1 SQ)) as (Y1 & Y2 & Y3).
      rewrite Y1. f_equal. apply (inv_of _ _ _ _ Y3 (inv_mul _ _ _ _ W3 X3)).
      specialize (B3 (rep F (sw1 (edw_den F P3')))). rewrite !(rep_den F FK) in B3. rewrite Y2 in B3. rewrite E3 in B3 at 1. specialize (B3 HM).
      assert (NI : sw1 (edw_den F P3') <> Inf) by (intros Z; apply (proj2 D3); now apply sw1_zero). specialize (B3 NI). now injection B3.
    + intros Z. rewrite <- HM, Z in B4. specialize (B4 (te_sw_zero F one d FK)).
      exact (inv_one _ _ (inv_mul _ _ _ _ W3 X3) B4).
  - intros P Q1 Q2 [DP SP] [D1 S2a] [D2 S2b].
    destruct (V' P Q1 DP SP D1 (proj1 S2a)) as (W1 & W2 & W3). destruct (V' P Q2 DP SP D2 (proj1 S2b)) as (X1 & X2 & X3).
    destruct (BQ (rep F (sw1 (edw_den F P))) (rep G (sw2 (edw_den G Q1))) (rep G (sw2 (edw_den G Q2)))) as (v1 & v2 & B1 & B2 & B3 & B4).
    { apply S1'; [exact SP|apply DP]. } { apply S2'; [exact S2a|apply D1]. } { apply S2'; [exact S2b|apply D2]. }
    cbv beta in *. rewrite W2 in B1. rewrite X2 in B2. injection B1 as <-. injection B2 as <-. rewrite !(rep_den G GK) in B4.
    eexists _, _. split; [exact W1|]. split; [exact X1|].
    pose proof (te_sw_hom G nu d' GK N2' N3' Nd' Nad' _ GS2 _ _ (proj1 S2a) (proj1 S2b)) as HM. pose proof (tg_add G _ _ _ GS2 _ _ (proj1 S2a) (proj1 S2b)) as S3.
    split.
    + intros Q3 D3 E3. assert (S3' : edw_G2t (edw_den G Q3)) by now rewrite E3.
      destruct (V' P Q3 DP SP D3 S3') as (Y1 & Y2 & Y3).
      rewrite Y1. f_equal. apply (inv_of _ _ _ _ Y3 (inv_mul _ _ _ _ W3 X3)).
      specialize (B3 (rep G (sw2 (edw_den G Q3)))). rewrite !(rep_den G GK) in B3. rewrite Y2 in B3. rewrite E3 in B3 at 1. specialize (B3 HM).
      assert (NI : sw2 (edw_den G Q3) <> Inf) by (intros Z; apply (proj2 D3); now apply sw2_zero). specialize (B3 NI). now injection B3.
    + intros Z. rewrite <- HM, Z in B4. specialize (B4 (te_sw_zero G nu d' GK)).
      exact (inv_one _ _ (inv_mul _ _ _ _ W3 X3) B4).
Qed.
End Edw.
