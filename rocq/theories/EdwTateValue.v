(** The edwards Tate pairing after the final exponentiation: the Miller function
    f_r,P of the short Weierstrass form at the untwisted Q raised to a fixed
    power, and bilinear. *)
From Coq Require Import ZArith List Bool Ring Field Lia Znumtheory.
From Verif Require Import Result Algebra Limbs LimbsProofs FieldOps BigintModel AlgorithmsModel AlgorithmsProofs ExtModel ExtSpec ExtFrob ExtProofs ExtInst FinalExpSpec CurveSpec CurveGroup
  CurveModel CurveProofs CurveEdwards CurveEdwOps EdwSpec EdwSw MillerSpec PairingModel PairingSpec PairingProofs NeutralProofs MillerProofs MillerRegular MillerQuad
  Cochain MillerCocycle MillerBilinear BilinearTwelve BilinearQuad MntShipped EdwPairing EdwBilinear TateBilinear EdwTate.
Import ListNotations.
Open Scope Z_scope.

(** ** From sums of points to the statement about the program *)
Section OfSums.
Context {K L T : Type} (F : Fops K) (a d : K) (G : Fops L) (a' d' : L) (FT : Fops T) (TK : field_ok FT) (r : Z).
Variables (S1 : K * K -> Prop) (S2 : L * L -> Prop).
Hypothesis GS1 : te_good F a d S1.
Hypothesis GS2 : te_good G a' d' S2.
Context {P1 P2 : Type} (ok1 : P1 -> Prop) (ok2 : P2 -> Prop) (den1 : P1 -> K * K) (den2 : P2 -> L * L) (pairing : P1 -> P2 -> result T).
Variable ev : K * K -> L * L -> T.
Hypothesis V : forall P Q, ok1 P -> den1 P <> te_zero F -> S1 (den1 P) -> ok2 Q -> den2 Q <> te_zero G -> S2 (den2 Q) ->
  pairing P Q = Ok (ev (den1 P) (den2 Q)).
Hypothesis ev_P : forall A1 A2 B, S1 A1 -> S1 A2 -> S2 B -> omul FT (ev A1 B) (ev A2 B) = ev (te_add F a d A1 A2) B.
Hypothesis ev_Q : forall A B1 B2, S1 A -> S2 B1 -> S2 B2 -> omul FT (ev A B1) (ev A B2) = ev A (te_add G a' d' B1 B2).
Hypothesis ev_0l : forall B, S2 B -> ev (te_zero F) B = o1 FT.
Hypothesis ev_0r : forall A, S1 A -> ev A (te_zero G) = o1 FT.
Hypothesis ev_r : forall A B, S1 A -> S2 B -> fpow FT (ev A B) (Z.to_nat r) = o1 FT.
Let M := rk_monoid FT (fk_ring FT TK).
Lemma ev_mult_P n A B : S1 A -> S2 B -> ev (te_mult F a d n A) B = fpow FT (ev A B) (Pos.to_nat n).
Proof.
  intros TA TB. induction n as [n IH|n IH|]; cbn [te_mult].
  - pose proof (te_mult_good F a d _ GS1 n A TA) as TM. rewrite <- !ev_P, IH, (pow_xI FT TK) by (auto; now apply (tg_add F _ _ _ GS1)). reflexivity.
  - pose proof (te_mult_good F a d _ GS1 n A TA) as TM. rewrite <- !ev_P, IH, (pow_xO FT TK) by auto. reflexivity.
  - change (Pos.to_nat 1) with 1%nat. symmetry. apply (npow_1 _ _ M).
Qed.
Lemma ev_mult_Q n A B : S1 A -> S2 B -> ev A (te_mult G a' d' n B) = fpow FT (ev A B) (Pos.to_nat n).
Proof.
  intros TA TB. induction n as [n IH|n IH|]; cbn [te_mult].
  - pose proof (te_mult_good G a' d' _ GS2 n B TB) as TM. rewrite <- !ev_Q, IH, (pow_xI FT TK) by (auto; now apply (tg_add G _ _ _ GS2)). reflexivity.
  - pose proof (te_mult_good G a' d' _ GS2 n B TB) as TM. rewrite <- !ev_Q, IH, (pow_xO FT TK) by auto. reflexivity.
  - change (Pos.to_nat 1) with 1%nat. symmetry. apply (npow_1 _ _ M).
Qed.
Theorem te_bilinear_of : te_bilinear F a d G a' d' FT r ok1 ok2 S1 S2 den1 den2 pairing.
Proof.
  constructor.
  - intros P Q P' Q' m n [[OP NP] SP] [[OQ NQ] SQ] [OP' NP'] [OQ' NQ'] EP EQ.
    assert (SP' : S1 (den1 P')) by (rewrite EP; now apply te_mult_good).
    assert (SQ' : S2 (den2 Q')) by (rewrite EQ; now apply te_mult_good).
    exists (ev (den1 P) (den2 Q)). split; [now apply V|]. split; [now apply ev_r|].
    rewrite V by auto. f_equal. rewrite EP, EQ, ev_mult_P, ev_mult_Q by (auto; now apply te_mult_good).
    rewrite Pos.mul_comm, Pos2Nat.inj_mul. symmetry. apply (npow_mul _ _ M).
  - intros P1' P2' Q [[O1 N1] SA] [[O2 N2] SB] [[OQ NQ] SQ]. exists (ev (den1 P1') (den2 Q)), (ev (den1 P2') (den2 Q)).
    split; [now apply V|]. split; [now apply V|]. rewrite ev_P by auto. split.
    + intros P3 [O3 N3] E3. rewrite V, E3; auto. rewrite E3. now apply (tg_add F _ _ _ GS1).
    + intros ->. now apply ev_0l.
  - intros P Q1 Q2 [[OP NP] SP] [[O1 N1] SA] [[O2 N2] SB]. exists (ev (den1 P) (den2 Q1)), (ev (den1 P) (den2 Q2)).
    split; [now apply V|]. split; [now apply V|]. rewrite ev_Q by auto. split.
    + intros Q3 [O3 N3] E3. rewrite V, E3; auto. rewrite E3. now apply (tg_add G _ _ _ GS2).
    + intros ->. now apply ev_0r.
Qed.
End OfSums.

Definition map_pt {K T} (f : K -> T) (A : apt K) : apt T := match A with Inf => Inf | Aff x y => Aff (f x) (f y) end.

Lemma apt_inf_dec {K} (A : apt K) : A = Inf \/ A <> Inf.
Proof. destruct A; [now left|now right]. Qed.

Section Edw.
Context {K L : Type} (F : Fops K) (q : nat) (G : Fops L) (e1 : K -> L) (scale : K -> L -> L) (nu : L) (mnr : L -> L) (d : K) (d' : L).
Variables (p N r : Z) (lc : bigint) (n : positive) (rr : bigint).
Notation T := (quad_ops G mnr).
Notation emb := (quad_emb G).
Notation w := (quad_u G).
Notation u := (tinv T w).
Notation Psi := (psi T emb u).
Notation up x := (emb (e1 x)).
Notation upf := (fun x => emb (e1 x)).
Notation one := (o1 F).
Notation aW := (te_swa F one d).
Notation bW := (te_swb F one d).
Notation aW' := (te_swa G nu d').
Notation bW' := (te_swb G nu d').
Notation sw1 := (te_sw F one d).
Notation sw2 := (te_sw G nu d').
Notation G1s := (edw_G1 F d r).
Notation G2s := (edw_G2t G nu d' r).
(** f_r,P (Q) on the short Weierstrass form, P moved to the big field and Q
    untwisted. *)
Definition edw_tate (A : K * K) (B : L * L) : L * L :=
  match Psi (sw2 B) with Inf => o1 T | Aff x y => miller T (up aW) (Z.to_pos r) (map_pt upf (sw1 A)) x y end.
Variable pairing : K * K * K -> L * L * L -> result (L * L).
(** The value of the pairing is that of the textbook Tate pairing, up to a
    power prime to r. *)
Definition edw_tate_is_textbook : Prop :=
  exists c, 0 <= c /\ Z.gcd c r = 1 /\
  forall P Q, edw_ok F one d P -> edw_den F P <> te_zero F -> G1s (edw_den F P) ->
    edw_ok G nu d' Q -> edw_den G Q <> te_zero G -> G2s (edw_den G Q) ->
  edw_tate (edw_den F P) (edw_den G Q) <> o0 T /\
  pairing P Q = Ok (fpow T (edw_tate (edw_den F P) (edw_den G Q)) (Z.to_nat (c * ((N * N - 1) / r)))).
Definition edw_tate_is_bilinear : Prop :=
  te_bilinear F one d G nu d' T r (edw_ok F one d) (edw_ok G nu d') G1s G2s (edw_den F) (edw_den G) pairing.

Hypothesis QS : quad_setup F q G e1 scale nu mnr aW bW aW' bW'.
Hypothesis QN : quad_numbers G q p N r lc true n.
Hypothesis Ed : d' = omul G (e1 d) nu.
Hypothesis N3F : oadd F (oadd F one one) one <> o0 F.
Hypothesis NdF : d <> o0 F.
Hypothesis NadF : osub F one d <> o0 F.
Hypothesis GS1 : te_good F one d G1s.
Hypothesis GS2 : te_good G nu d' G2s.
Hypothesis OS2 : forall Q, G2s Q -> te_mult G nu d' (Z.to_pos r) Q = te_zero G.
Hypothesis Lrr : limbs rr.
Hypothesis Hrr : val rr = r.
Variable final : L * L -> result (L * L).
Hypothesis FE : final_exp_ok T (N * N - 1) r final.
Hypothesis PD : forall P Q, pairing P Q = (f <- tate_raw F G e1 scale mnr rr P Q ;; final f).

Let PB : prime_base F q := qs_PB _ _ _ _ _ _ _ _ _ _ _ QS.
Let FK : field_ok F := pb_field F q PB.
Let GK : field_ok G := qs_GK _ _ _ _ _ _ _ _ _ _ _ QS.
Let TK : field_ok T := qs_TK _ _ _ _ _ _ _ _ _ _ _ QS.
Let E0 := qs_0 _ _ _ _ _ _ _ _ _ _ _ QS.
Let E1 := qs_1 _ _ _ _ _ _ _ _ _ _ _ QS.
Let EA := qs_add _ _ _ _ _ _ _ _ _ _ _ QS.
Let EM := qs_mul _ _ _ _ _ _ _ _ _ _ _ QS.
Let EO := qs_opp _ _ _ _ _ _ _ _ _ _ _ QS.
Let EI := qs_inj _ _ _ _ _ _ _ _ _ _ _ QS.
Let ES := qs_s _ _ _ _ _ _ _ _ _ _ _ QS.
Let EN := qs_mnr _ _ _ _ _ _ _ _ _ _ _ QS.
Let Nn := qs_nu _ _ _ _ _ _ _ _ _ _ _ QS.
Let Ea := qs_a _ _ _ _ _ _ _ _ _ _ _ QS.
Let Eb := qs_b _ _ _ _ _ _ _ _ _ _ _ QS.
Let H2 := qs_2 _ _ _ _ _ _ _ _ _ _ _ QS.
Let HD := qs_disc _ _ _ _ _ _ _ _ _ _ _ QS.
Let N2' := N2G F G e1 E0 E1 EA EI H2.
Let N3' := N3G F G e1 E0 E1 EA EI N3F.
Let Nd' := NdG F G GK e1 nu E0 EI Nn d d' Ed NdF.
Let Nad' := NadG F q PB G GK e1 nu E0 E1 EA EO EI Nn d d' Ed NadF.
Let RT : ring_ok T := fk_ring T TK.
Let M := rk_monoid T RT.
Add Field TVF : (fk_field F (pb_field F q (qs_PB _ _ _ _ _ _ _ _ _ _ _ QS))).
Add Field TVG : (fk_field G (qs_GK _ _ _ _ _ _ _ _ _ _ _ QS)).
Add Field TVT : (fk_field T (qs_TK _ _ _ _ _ _ _ _ _ _ _ QS)).
Let U0' := up0 F G e1 mnr E0.
Let U1' := up1 F G e1 mnr E1.
Let UA := upA F G GK e1 mnr EA.
Let US := upS F q PB G GK e1 mnr EA EO.
Let UM := upM F G GK e1 nu mnr EM EN.
Let UI := upI G e1 EI.
Let T10 : o1 T <> o0 T := fk_1_neq_0 T TK.
Let QE0 := q_emb_0 G mnr.
Let QEA := q_emb_add G GK mnr.
Let QEM := q_emb_mul G GK nu mnr EN.
Let QES := q_emb_sub G GK mnr.
Let QEI := q_emb_inj G.
Let Uw := u_ne G GK mnr TK.
Let H2G := two_G F G e1 E0 E1 EA EI H2.
Let HDG := disc_G F G GK e1 nu E0 EA EM EI Nn aW bW aW' bW' Ea Eb HD.
Lemma H2T : oadd T (o1 T) (o1 T) <> o0 T.
Proof. rewrite <- U1', <- UA, <- U0'. intros Z. apply UI in Z. contradiction. Qed.
Notation Up := (psi T upf (o1 T)).
Notation ta := (tw_a T upf (o1 T) aW).
Lemma Up_map A : Up A = map_pt upf A.
Proof. destruct A as [|x y]; cbn [psi map_pt]; auto. f_equal; ring. Qed.
Lemma ta_up : ta = up aW. Proof. unfold tw_a. ring. Qed.
Lemma Psi_add A B : sw_on G aW' bW' A -> sw_on G aW' bW' B -> Psi (sw_add G aW' A B) = sw_add T ta (Psi A) (Psi B).
Proof.
  intros OA OB. rewrite ta_up, <- (q_ta G GK e1 nu mnr EN Nn TK aW aW' Ea).
  exact (psi_sw_add G GK T TK emb u QE0 QEA QES QEM QEI Uw aW' bW' A B OA OB).
Qed.
Notation tor1 A := (torsion F aW bW r A).
Notation tor2 B := (torsion G aW' bW' r B).
Let Pr : prime r. Proof. apply QN. Qed.
Let R3 : 3 < r. Proof. apply QN. Qed.
Let r_0 : 0 < r. Proof. lia. Qed.
Let D2 : ~ (r | 2). Proof. intros D. apply Z.divide_pos_le in D; lia. Qed.
Lemma tor2_tev x y : tor2 (Aff x y) -> tev F T upf (o1 T) aW bW (omul T (emb x) (omul T u u)) (omul T (emb y) (omul T (omul T u u) u)).
Proof.
  intros TB. apply (t_tev F q PB G GK e1 scale nu mnr E0 EA EM EI EN Nn TK aW bW aW' bW' Ea Eb); [|apply TB].
  intros ->. apply (dbl_ne G GK aW' bW' H2G HDG r Pr R3 (Aff x (o0 G)) TB); [discriminate|].
  replace (Aff x (o0 G)) with (sw_opp G (Aff x (o0 G))) at 1; [apply (sw_add_opp_l G GK)|]. cbn [sw_opp]. f_equal. ring.
Qed.
Lemma odd_r : exists m, Z.to_pos r = xI m.
Proof.
  destruct (Z.to_pos r) as [m|m|] eqn:Er; [eauto| |]; exfalso.
  - assert (Hr : r = 2 * Z.pos m) by (rewrite <- (Z2Pos.id r r_0), Er; reflexivity).
    destruct (prime_divisors r Pr 2) as [H|[H|[H|H]]]; try lia. exists (Z.pos m). lia.
  - assert (Hr : r = 1) by (rewrite <- (Z2Pos.id r r_0), Er; reflexivity). lia.
Qed.
Lemma tor_last m A : Z.to_pos r = xI m -> tor1 A -> mult F aW m~0 A = sw_opp F A.
Proof.
  intros Er TA. pose proof TA as [OA HA]. rewrite Er in HA.
  assert (OM : sw_on F aW bW (mult F aW m~0 A)) by (apply (S1_mult F FK aW bW H2 HD r R3 m~0 A TA)).
  change (mult F aW m~1 A) with (sw_add F aW (mult F aW m~0 A) A) in HA.
  pose proof (sw_add_Inf F FK aW bW H2 HD _ _ OM OA HA) as E. rewrite E at 2.
  destruct (mult F aW m~0 A); cbn [sw_opp]; auto. f_equal. ring.
Qed.
Section At.
Variables x y : L * L.
Hypothesis TE : tev F T upf (o1 T) aW bW x y.
Lemma tate_reg m A : Z.to_pos r = xI m -> tor1 A -> A <> Inf -> regular T ta m~0 (Up A) x /\ mult T ta m~0 (Up A) = sw_opp T (Up A) /\
  miller T ta (Z.to_pos r) (Up A) x y <> o0 T.
Proof.
  intros Er TA NA. pose proof TE as [TO VN LN]. assert (ZA : zmult F aW bW r A = Inf) by (apply (tor_z F FK aW bW H2 HD r r_0); exact TA).
  assert (Lm : Z.pos m~0 < r) by (rewrite <- (Z2Pos.id r r_0), Er; lia).
  destruct (ord_regular F FK T TK upf (o1 T) U0' UA US UM UI T10 aW bW H2 HD r A x y Pr D2 (proj1 TA) NA ZA (vn_on F FK T upf (o1 T) aW bW _ _ VN) LN m~0 Lm) as [Rg Nm].
  assert (EL : mult T ta m~0 (Up A) = sw_opp T (Up A)).
  { rewrite <- (psi_mult F FK T TK upf (o1 T) U0' UA US UM UI T10 aW bW H2 HD m~0 A (proj1 TA)), (tor_last m A Er TA).
    exact (MillerRegular.psi_opp F FK T TK upf (o1 T) U0' US A). }
  split; [exact Rg|]. split; [exact EL|]. rewrite Er. set (PA := Up A) in *. change (miller T ta m~1 PA x y) with
    (omul T (miller T ta m~0 PA x y) (line_ratio T ta (mult T ta m~0 PA) PA x y)). unfold PA in *.
  apply (fk_mul_neq_0 T TK); [exact Nm|]. rewrite EL. unfold line_ratio. rewrite (la_opp' T TK), (sw_add_opp_l T TK). cbn [vertical_at].
  apply (MillerRegular.tdiv_ne T TK); [|exact T10]. destruct A as [|c e]; [contradiction|]. cbn [psi sw_opp vertical_at]. apply (VN c e), TA.
Qed.
End At.
(** The value for points of the short Weierstrass forms. *)
Section Power.
Variable Ex : nat.
Hypothesis KE : forall f, f <> o0 T -> fpow T (fpow T f Ex) (Z.to_nat r) = o1 T.
Definition tval (B : apt L) (A : apt K) : L * L :=
  match Psi B with Inf => o1 T | Aff x y => fpow T (miller T ta (Z.to_pos r) (Up A) x y) Ex end.
Lemma tval_ne B A : tor2 B -> tor1 A -> tval B A <> o0 T.
Proof.
  intros TB TA. unfold tval. destruct B as [|x y]; cbn [psi]; [exact T10|]. apply (fk_pow_neq_0 T TK).
  destruct (apt_inf_dec A) as [->|NA]; [cbn [psi]; rewrite (miller_inf T TK); exact T10|].
  destruct odd_r as [m Er]. now apply (tate_reg _ _ (tor2_tev x y TB) m A Er TA NA).
Qed.
Lemma tval_A B A1 A2 : tor2 B -> tor1 A1 -> tor1 A2 -> omul T (tval B A1) (tval B A2) = tval B (sw_add F aW A1 A2).
Proof.
  intros TB T1 T2. unfold tval. destruct B as [|x y]; cbn [psi]; [ring|].
  exact (tate_add_P F FK T TK upf (o1 T) U0' UA US UM UI T10 aW bW H2 HD H2T r Ex r_0 KE A1 A2 T1 T2 _ _ (tor2_tev x y TB)).
Qed.
Lemma tval_B B1 B2 A : tor2 B1 -> tor2 B2 -> tor1 A -> omul T (tval B1 A) (tval B2 A) = tval (sw_add G aW' B1 B2) A.
Proof.
  apply (BilinearTwelve.e_add G GK T TK aW' bW' H2G HDG r Pr R3 (fun A => tor1 A) tval).
  - intros A'. reflexivity.
  - clear B1 B2 A. intros B1 B2 A T1 T2 T3 N1 N2 N3 TA.
    pose proof (Psi_add B1 B2 (proj1 T1) (proj1 T2)) as PA. destruct B1 as [|x1 y1]; [contradiction|]. destruct B2 as [|x2 y2]; [contradiction|].
    destruct (sw_add G aW' (Aff x1 y1) (Aff x2 y2)) as [|x3 y3]; [contradiction|]. unfold tval. cbn [psi] in *.
    exact (tate_add_Q F FK T TK upf (o1 T) U0' UA US UM UI T10 aW bW H2 HD H2T r Ex r_0 KE A A TA TA _ _ _ _ _ _
      (tor2_tev x1 y1 T1) (tor2_tev x2 y2 T2) (tor2_tev x3 y3 T3) (eq_sym PA)).
  - intros B A' TB TA. now apply tval_ne.
Qed.
Lemma tval_r B A : tor2 B -> tor1 A -> fpow T (tval B A) (Z.to_nat r) = o1 T.
Proof.
  intros TB TA. unfold tval. destruct B as [|x y]; cbn [psi]; [apply (npow_one _ _ M)|]. apply KE.
  destruct (apt_inf_dec A) as [->|NA]; [cbn [psi]; rewrite (miller_inf T TK); exact T10|].
  destruct odd_r as [m Er]. now apply (tate_reg _ _ (tor2_tev x y TB) m A Er TA NA).
Qed.
End Power.
Let t1 := sw1_tor F q G e1 scale nu mnr d d' r QS N3F NdF NadF GS1.
Let t2 := sw2_tor F q G e1 scale nu mnr d d' r QS Ed N3F NdF NadF GS2 OS2.
Lemma edw_tate_tval Ex A B : fpow T (edw_tate A B) Ex = tval Ex (sw2 B) (sw1 A).
Proof.
  unfold edw_tate, tval. destruct (Psi (sw2 B)); [apply (npow_one _ _ M)|]. now rewrite ta_up, Up_map.
Qed.
Theorem edw_tate_value : edw_tate_is_textbook /\ edw_tate_is_bilinear.
Proof.
  pose proof FE as (_ & _ & c & C0 & Cg & FF). set (Ex := Z.to_nat (c * ((N * N - 1) / r))) in *.
  assert (KE : forall f, f <> o0 T -> fpow T (fpow T f Ex) (Z.to_nat r) = o1 T).
  { intros f Nf. destruct (FF f Nf) as (v & _ & -> & H). exact H. }
  assert (V : forall P Q, edw_ok F one d P -> edw_den F P <> te_zero F -> G1s (edw_den F P) ->
    edw_ok G nu d' Q -> edw_den G Q <> te_zero G -> G2s (edw_den G Q) ->
    edw_tate (edw_den F P) (edw_den G Q) <> o0 T /\ pairing P Q = Ok (fpow T (edw_tate (edw_den F P) (edw_den G Q)) Ex)).
  { intros P Q OP NP SP OQ NQ SQ. set (A := edw_den F P) in *. set (B := edw_den G Q) in *.
    destruct (quad_kills F q G e1 scale nu mnr aW bW aW' bW' p N r lc true n QS QN c C0) as [Ke _]. fold Ex in Ke.
    pose proof (q_kills G mnr TK Ex) as KL. pose proof (q_kill_emb G mnr Ex Ke) as KEm.
    destruct (g1_ne F d r GS1 A SP NP) as [Np _]. destruct (g2_ne G nu d' r GS2 B SQ NQ) as [Nx Ny].
    pose proof (sw2_aff F q G e1 scale nu mnr d d' r QS Ed NadF GS2 B SQ NQ) as EB.
    assert (NA : sw1 A <> Inf) by (intros Z; apply NP; now apply (sw1_zero F q G e1 scale nu mnr d d' r QS NadF GS1)).
    pose proof (t2 B SQ) as TB. pose proof (t1 A SP) as TA. rewrite EB in TB. destruct odd_r as [m Er].
    pose proof (tor2_tev _ _ TB) as TE.
    destruct (te_y1 G nu d' GK Nad' (fst B) (snd B)) as [M1 _]; [rewrite <- surjective_pairing; apply (tg_on G _ _ _ GS2 _ SQ)|exact Nx|].
    pose proof (psi_un F q G e1 scale nu mnr d d' QS Ed (fst B) (snd B) Nx M1) as PU. unfold un_X, un_Y in PU. cbn [psi] in PU.
    destruct (aff_inj _ _ _ _ PU) as [PX PY]. rewrite PX, PY in TE.
    destruct (tate_reg _ _ TE m (sw1 A) Er TA NA) as (Rg & EL & Nm).
    assert (ET : edw_tate A B = miller T ta (Z.to_pos r) (Up (sw1 A)) (te_X T (o1 T) (up d) (emb (snd B))) (te_Y T (o1 T) (up d) (omul T w (emb (fst B))) (emb (snd B)))).
    { unfold edw_tate. rewrite EB. cbn [psi]. now rewrite PX, PY, ta_up, Up_map. }
    rewrite ET. split; [exact Nm|].
    assert (Nnx : omul G nu (fst B) <> o0 G) by now apply (fk_mul_neq_0 G GK).
    destruct (tate_miller F q PB G GK e1 scale nu mnr E0 E1 EA EM EO EI ES EN Nn TK d d' H2 N3F NdF NadF G1s GS1 (q_kill G mnr Ex) KL KEm
      (fst B) (snd B) (tdiv G (oadd G (o1 G) (snd B)) (omul G nu (fst B)))) with (p := fst A) (g := snd A) (rr := rr) (n := m) (P := P) (Q := Q) as (f & Ef & Uf);
      auto using surjective_pairing.
    { field. split; assumption. } { intros c0 e0 O. now apply (tev_va _ _ _ _ _ _ _ _ TE c0 e0). } { now rewrite <- surjective_pairing. }
    { rewrite Hrr, <- (Z2Pos.id r r_0), Er. reflexivity. } { now rewrite <- surjective_pairing. } { now rewrite <- surjective_pairing. }
    rewrite <- surjective_pairing, <- Er in Uf. rewrite PD, Ef. cbn [bind].
    assert (Nf : f <> o0 T) by (intros Z; apply Nm; now apply (upto_0 T TK _ KL f _ Uf)).
    destruct (FF f Nf) as (v & -> & Vv & _). rewrite Vv. f_equal. now apply (upto_pow G mnr TK Ex) in Uf. }
  split; [exists c; split; [exact C0|]; split; [exact Cg|exact V]|].
  apply (te_bilinear_of F one d G nu d' T TK r G1s G2s GS1 GS2 (edw_ok F one d) (edw_ok G nu d') (edw_den F) (edw_den G) pairing (fun A B => fpow T (edw_tate A B) Ex)).
  - intros P Q OP NP SP OQ NQ SQ. now apply V.
  - intros A1 A2 B S1 S2 SB. rewrite !edw_tate_tval, (te_sw_hom F one d FK H2 N3F NdF NadF _ GS1 _ _ S1 S2). apply (tval_A Ex KE); auto.
  - intros A B1 B2 SA S1 S2. rewrite !edw_tate_tval, (te_sw_hom G nu d' GK N2' N3' Nd' Nad' _ GS2 _ _ S1 S2). apply (tval_B Ex KE); auto.
  - intros B SB. rewrite edw_tate_tval, (te_sw_zero F one d FK). unfold tval. cbn [psi]. destruct (Psi (sw2 B)); [reflexivity|].
    rewrite (miller_inf T TK). apply (npow_one _ _ M).
  - intros A SA. rewrite edw_tate_tval, (te_sw_zero G nu d' GK). reflexivity.
  - intros A B SA SB. rewrite edw_tate_tval. apply (tval_r Ex KE); auto.
Qed.
End Edw.
