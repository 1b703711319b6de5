(** Pairings on a quadratic twist (mnt4, mnt6): equality with the textbook ate
    pairing on points of order r, and bilinearity. *)
From Coq Require Import ZArith List Bool Ring Field Lia Znumtheory.
From Verif Require Import Result Algebra Limbs LimbsProofs FieldOps BigintModel AlgorithmsModel AlgorithmsProofs ExtModel ExtSpec ExtFrob ExtProofs ExtInst CurveSpec CurveGroup
  CurveModel CurveProofs MillerSpec PairingModel PairingSpec PairingProofs NeutralProofs MillerProofs MillerRegular Cochain MillerBilinear BilinearTwelve MillerQuad.
Import ListNotations.
Open Scope Z_scope.

(** ** Bilinearity of a pairing given as a program *)
Section Statement.
Context {K L T A1 A2 : Type} (F : Fops K) (a : K) (G : Fops L) (a' : L) (FT : Fops T) (r : Z).
Variables (S1 : apt K -> Prop) (S2 : apt L -> Prop) (den1 : A1 -> apt K) (den2 : A2 -> apt L) (pairing : A1 -> A2 -> result T).
Notation G1 P := (den1 P <> Inf /\ S1 (den1 P)).
Notation G2 Q := (den2 Q <> Inf /\ S2 (den2 Q)).
Record pair_bilinear : Prop := {
  (** pairing(m P, n Q) = pairing(P, Q)^(m n), an r-th root of unity. *)
  pbl_mult : forall P Q P' Q' m n, G1 P -> G2 Q ->
    den1 P' = mult F a m (den1 P) -> den1 P' <> Inf -> den2 Q' = mult G a' n (den2 Q) -> den2 Q' <> Inf ->
    exists v, pairing P Q = Ok v /\ fpow FT v (Z.to_nat r) = o1 FT /\ pairing P' Q' = Ok (fpow FT v (Pos.to_nat (m * n)));
  (** pairing(P1 + P2, Q) = pairing(P1, Q) pairing(P2, Q), one if P1 + P2 = O. *)
  pbl_add_P : forall P1 P2 Q, G1 P1 -> G1 P2 -> G2 Q -> exists v1 v2, pairing P1 Q = Ok v1 /\ pairing P2 Q = Ok v2 /\
    (forall P3, den1 P3 = sw_add F a (den1 P1) (den1 P2) -> den1 P3 <> Inf -> pairing P3 Q = Ok (omul FT v1 v2)) /\
    (sw_add F a (den1 P1) (den1 P2) = Inf -> omul FT v1 v2 = o1 FT);
  pbl_add_Q : forall P Q1 Q2, G1 P -> G2 Q1 -> G2 Q2 -> exists v1 v2, pairing P Q1 = Ok v1 /\ pairing P Q2 = Ok v2 /\
    (forall Q3, den2 Q3 = sw_add G a' (den2 Q1) (den2 Q2) -> den2 Q3 <> Inf -> pairing P Q3 = Ok (omul FT v1 v2)) /\
    (sw_add G a' (den2 Q1) (den2 Q2) = Inf -> omul FT v1 v2 = o1 FT)
}.
Variable ev : apt K -> apt L -> T.
Lemma pair_bilinear_of :
  (forall A1 A2 B, S1 A1 -> S1 A2 -> S2 B -> omul FT (ev A1 B) (ev A2 B) = ev (sw_add F a A1 A2) B) ->
  (forall A B1 B2, S1 A -> S2 B1 -> S2 B2 -> omul FT (ev A B1) (ev A B2) = ev A (sw_add G a' B1 B2)) ->
  (forall m n A B, S1 A -> S2 B -> ev (mult F a m A) (mult G a' n B) = fpow FT (ev A B) (Pos.to_nat (m * n))) ->
  (forall A B, S1 A -> S2 B -> fpow FT (ev A B) (Z.to_nat r) = o1 FT) ->
  (forall A1 A2, S1 A1 -> S1 A2 -> S1 (sw_add F a A1 A2)) ->
  (forall B1 B2, S2 B1 -> S2 B2 -> S2 (sw_add G a' B1 B2)) ->
  (forall A B, A = Inf \/ B = Inf -> ev A B = o1 FT) ->
  (forall P Q, G1 P -> G2 Q -> pairing P Q = Ok (ev (den1 P) (den2 Q))) ->
  pair_bilinear.
Proof.
  intros BP BQ BM BR S1a S2a EI PV. constructor.
  - intros P Q P' Q' m n [NP HP] [NQ HQ] EP NP' EQ NQ'. exists (ev (den1 P) (den2 Q)).
    assert (SP : S1 (den1 P')).
    { rewrite EP. clear EP. induction m as [m IH|m IH|]; cbn [mult]; auto. }
    assert (SQ : S2 (den2 Q')).
    { rewrite EQ. clear EQ. induction n as [n IH|n IH|]; cbn [mult]; auto. }
    split; [now apply PV|]. split; [apply BR; auto|]. rewrite (PV P' Q' (conj NP' SP) (conj NQ' SQ)), EP, EQ. f_equal. apply BM; auto.
  - intros P1 P2 Q H1 H2 HQ. exists (ev (den1 P1) (den2 Q)), (ev (den1 P2) (den2 Q)).
    split; [now apply PV|]. split; [now apply PV|]. split.
    + intros P3 E3 N3. assert (S3 : S1 (den1 P3)) by (rewrite E3; apply S1a; tauto).
      rewrite (PV P3 Q (conj N3 S3) HQ), E3. f_equal. symmetry. apply BP; tauto.
    + intros E3. rewrite BP by tauto. rewrite E3. apply EI. now left.
  - intros P Q1 Q2 HP H1 H2. exists (ev (den1 P) (den2 Q1)), (ev (den1 P) (den2 Q2)).
    split; [now apply PV|]. split; [now apply PV|]. split.
    + intros Q3 E3 N3. assert (S3 : S2 (den2 Q3)) by (rewrite E3; apply S2a; tauto).
      rewrite (PV P Q3 HP (conj N3 S3)), E3. f_equal. symmetry. apply BQ; tauto.
    + intros E3. rewrite BQ by tauto. rewrite E3. apply EI. now right.
Qed.
End Statement.

Section Quad.
Context {K L : Type} (F : Fops K) (q : nat) (PB : prime_base F q).
Let FK : field_ok F := pb_field F q PB.
Context (G : Fops L) (GK : field_ok G) (e1 : K -> L) (scale : K -> L -> L) (nu : L) (mnr : L -> L).
Hypothesis e1_0 : e1 (o0 F) = o0 G.
Hypothesis e1_1 : e1 (o1 F) = o1 G.
Hypothesis e1_add : forall x y, e1 (oadd F x y) = oadd G (e1 x) (e1 y).
Hypothesis e1_mul : forall x y, e1 (omul F x y) = omul G (e1 x) (e1 y).
Hypothesis e1_opp : forall x, e1 (oopp F x) = oopp G (e1 x).
Hypothesis e1_inj : forall x y, e1 x = e1 y -> x = y.
Hypothesis Hs : forall s x, scale s x = omul G (e1 s) x.
Hypothesis Hmnr : forall x, mnr x = omul G nu x.
Hypothesis Nnu : nu <> o0 G.
Notation T := (quad_ops G mnr).
Hypothesis TK : field_ok T.
Let RF : ring_ok F := fk_ring F FK.
Let RG : ring_ok G := fk_ring G GK.
Let RT : ring_ok T := fk_ring T TK.
Let M := rk_monoid T RT.
Notation emb := (quad_emb G).
Notation w := (quad_u G).
Notation u := (tinv T w).
Notation up x := (emb (e1 x)).
Add Field BQF : (fk_field F (pb_field F q PB)).
Add Field BQG : (fk_field G GK).
Add Field BQT : (fk_field T TK).
Variables (a b : K) (a' b' : L).
Hypothesis Ea : a' = omul G (e1 a) (omul G nu nu).
Hypothesis Eb : b' = omul G (e1 b) (omul G (omul G nu nu) nu).
Hypothesis H2F : oadd F (o1 F) (o1 F) <> o0 F.
Hypothesis HDF : sw_disc F a b <> o0 F.
Notation Psi := (psi T emb u).
Let E0 := q_emb_0 G mnr.
Let EA := q_emb_add G GK mnr.
Let EM := q_emb_mul G GK nu mnr Hmnr.
Let ES := q_emb_sub G GK mnr.
Let EI := q_emb_inj G.
Let U0 := u_ne G GK mnr TK.
Let TA : tw_a T emb u a' = up a := q_ta G GK e1 nu mnr Hmnr Nnu TK a a' Ea.
Let TB : tws_b T emb u b' = up b := q_tb G GK e1 nu mnr Hmnr Nnu TK b b' Eb.

Lemma e1_sub x y : e1 (osub F x y) = osub G (e1 x) (e1 y).
Proof. replace (osub F x y) with (oadd F x (oopp F y)) by ring. rewrite e1_add, e1_opp. ring. Qed.
Lemma up_0 : up (o0 F) = o0 T. Proof. rewrite e1_0. reflexivity. Qed.
Lemma up_1 : up (o1 F) = o1 T. Proof. rewrite e1_1. reflexivity. Qed.
Lemma up_add x y : up (oadd F x y) = oadd T (up x) (up y). Proof. now rewrite e1_add, EA. Qed.
Lemma up_sub x y : up (osub F x y) = osub T (up x) (up y). Proof. now rewrite e1_sub, ES. Qed.
Lemma up_mul x y : up (omul F x y) = omul T (up x) (up y). Proof. now rewrite e1_mul, EM. Qed.
Lemma up_inj x y : up x = up y -> x = y. Proof. intros H. apply e1_inj. now apply EI. Qed.
Lemma e1_ne x : x <> o0 F -> e1 x <> o0 G. Proof. intros N H. apply N. apply e1_inj. now rewrite e1_0. Qed.
Lemma two_G : oadd G (o1 G) (o1 G) <> o0 G.
Proof. rewrite <- e1_1, <- e1_add. now apply e1_ne. Qed.
Lemma two_T : oadd T (o1 T) (o1 T) <> o0 T.
Proof. rewrite <- up_1, <- up_add, <- up_0. intros H. now apply up_inj in H. Qed.
Lemma e1_nmul x k : e1 (fnmul F x k) = fnmul G (e1 x) k.
Proof. induction k as [|k IH]; [exact e1_0|]. cbn [npow]. now rewrite e1_add, IH. Qed.
Lemma g_nmul_mul x y k : omul G (fnmul G x k) y = fnmul G (omul G x y) k.
Proof. induction k as [|k IH]; cbn [npow]; [ring|]. rewrite <- IH. ring. Qed.
Lemma disc_G : sw_disc G a' b' <> o0 G.
Proof.
  set (n6 := omul G (omul G (omul G nu nu) nu) (omul G (omul G nu nu) nu)).
  assert (H : sw_disc G a' b' = omul G (e1 (sw_disc F a b)) n6).
  { unfold sw_disc. rewrite e1_add, !e1_nmul, !e1_mul.
    transitivity (oadd G (omul G (fnmul G (omul G (omul G (e1 a) (e1 a)) (e1 a)) 4) n6) (omul G (fnmul G (omul G (e1 b) (e1 b)) 27) n6)); [|ring].
    rewrite !g_nmul_mul. f_equal; f_equal; unfold n6; rewrite ?Ea, ?Eb; ring. }
  rewrite H. apply (fk_mul_neq_0 G GK); [now apply e1_ne|]. unfold n6. repeat apply (fk_mul_neq_0 G GK); auto.
Qed.
Lemma up_on x y : sw_on F a b (Aff x y) -> sw_on T (up a) (up b) (Aff (up x) (up y)).
Proof. unfold sw_on. intros H. rewrite <- !up_mul, <- !up_add. now rewrite H. Qed.

(** No line with coefficients in the twist's field goes through P, and P is not
    above a point of the twist. *)
Lemma nu_nonsq s : omul G s s <> nu.
Proof.
  intros H. assert (Z : omul T (osub T w (emb s)) (oadd T w (emb s)) = o0 T).
  { transitivity (osub T (omul T w w) (omul T (emb s) (emb s))); [ring|]. rewrite <- EM, H, (w_sq G GK nu mnr Hmnr). ring. }
  assert (NW : forall c, c <> o0 G -> forall s', (s', c) <> o0 T) by (intros c Nc s' Z'; apply Nc; now injection Z').
  apply (fk_mul_0 T TK) in Z. destruct Z as [Z|Z]; revert Z.
  - unfold quad_u, quad_emb. cbn [osub quad_ops]. unfold quad_sub. apply NW.
    intros Z. apply (fk_1_neq_0 G GK). rewrite <- Z. ring.
  - unfold quad_u, quad_emb. cbn [oadd quad_ops]. unfold quad_add. apply NW.
    intros Z. apply (fk_1_neq_0 G GK). rewrite <- Z. ring.
Qed.
Lemma q_VN xP yP x y : yP <> o0 F -> sw_on F a b (Aff xP yP) -> sw_on G a' b' (Aff x y) ->
  osub T (up xP) (omul T (emb x) (omul T u u)) <> o0 T.
Proof.
  intros Ny OP OQ. rewrite (u_sq G GK nu mnr Hmnr Nnu TK), <- EM, <- ES. intros Z.
  assert (Z' : osub G (e1 xP) (omul G x (tinv G nu)) = o0 G) by now injection Z. clear Z.
  pose proof (proj2 (tinv_spec G GK nu Nnu)) as I.
  assert (Ex : x = omul G (e1 xP) nu).
  { transitivity (omul G x (omul G (tinv G nu) nu)); [rewrite I; ring|].
    transitivity (omul G (osub G (e1 xP) (osub G (e1 xP) (omul G x (tinv G nu)))) nu); [ring|]. rewrite Z'. ring. }
  cbn [sw_on] in OP, OQ. apply (f_equal e1) in OP. rewrite !e1_add, !e1_mul in OP.
  assert (Sq : omul G y y = omul G (omul G (omul G nu nu) nu) (omul G (e1 yP) (e1 yP))).
  { rewrite OQ, OP, Ea, Eb, Ex. ring. }
  apply (nu_nonsq (tdiv G y (omul G nu (e1 yP)))). pose proof (e1_ne yP Ny) as Ny'.
  transitivity (tdiv G (omul G y y) (omul G (omul G nu nu) (omul G (e1 yP) (e1 yP)))); [field; auto|]. rewrite Sq. field. auto.
Qed.
Lemma q_LN xP yP l x y : yP <> o0 F ->
  line_val T (omul T (emb l) u) (omul T (emb x) (omul T u u)) (omul T (emb y) (omul T (omul T u u) u)) (up xP) (up yP) <> o0 T.
Proof.
  intros Ny Z. unfold line_val in Z.
  assert (Hu : u = omul T (emb (tinv G nu)) w).
  { rewrite <- (u_sq G GK nu mnr Hmnr Nnu TK). transitivity (omul T u (omul T u w)); [rewrite (u_w G GK mnr TK); ring|ring]. }
  assert (H : osub T (osub T (up yP) (omul T (emb y) (omul T (omul T u u) u))) (omul T (omul T (emb l) u) (osub T (up xP) (omul T (emb x) (omul T u u)))) =
    (e1 yP, osub G (omul G (oopp G y) (omul G (tinv G nu) (tinv G nu))) (omul G (omul G l (tinv G nu)) (osub G (e1 xP) (omul G x (tinv G nu)))))).
  { rewrite (pair_eq G GK nu mnr Hmnr), (u_sq G GK nu mnr Hmnr Nnu TK), Hu.
    repeat rewrite ?EM, ?ES, ?(q_emb_opp G GK mnr). ring. }
  rewrite H in Z. apply (e1_ne yP Ny). now injection Z.
Qed.

(** *** The Frobenius *)
Lemma q_pos' : (0 < q)%nat.
Proof. pose proof (prime_ge_2 _ (pb_prime F q PB)). lia. Qed.
Lemma ph_up x : fpow T (up x) q = up x.
Proof.
  assert (H : forall k, fpow T (up x) k = up (fpow F x k)).
  { induction k as [|k IH]; [symmetry; exact up_1|]. cbn [npow]. now rewrite up_mul, IH. }
  rewrite H. do 2 f_equal. apply (pb_fermat F q PB).
Qed.
Lemma ph_add x y : fpow T (oadd T x y) q = oadd T (fpow T x q) (fpow T y q).
Proof.
  pose proof (frob_add T RT q (pb_prime F q PB)) as FA.
  assert (C : fnmul T (o1 T) q = o0 T).
  { assert (H : forall k, fnmul T (o1 T) k = up (fnmul F (o1 F) k)).
    { induction k as [|k IH]; [symmetry; exact up_0|]. cbn [npow]. rewrite IH, up_add, up_1. reflexivity. }
    rewrite H. etransitivity; [|exact up_0]. do 2 f_equal. exact (pb_char F q PB). }
  specialize (FA C 1%nat). rewrite Nat.pow_1_r in FA. apply FA.
Qed.

(** *** Points of order r *)
Variables (r : Z) (Ex : nat).
Hypothesis Pr : prime r.
Hypothesis R3 : 3 < r.
Hypothesis KE : forall f, f <> o0 T -> fpow T (fpow T f Ex) (Z.to_nat r) = o1 T.
Hypothesis Kemb : forall c, c <> o0 G -> fpow T (emb c) Ex = o1 T.
Hypothesis Kw : fpow T w Ex = o1 T.
Definition q_kill (k : L * L) : Prop := k <> o0 T /\ fpow T k Ex = o1 T.
Lemma q_kills : kills T q_kill.
Proof.
  pose proof (rk_mul_comm T RT) as CM. constructor.
  - now intros k [H _].
  - split; [apply (fk_1_neq_0 T TK)|apply (npow_one _ _ M)].
  - intros k l [N1 H1] [N2 H2]. split; [now apply (fk_mul_neq_0 T TK)|]. rewrite (npow_mul_distr _ _ M CM), H1, H2. ring.
  - intros k [N H]. destruct (tinv_spec T TK k N) as [_ I]. split.
    + intros Z. rewrite Z in I. apply (fk_1_neq_0 T TK). rewrite <- I. ring.
    + transitivity (fpow T (omul T (tinv T k) k) Ex); [|rewrite I; apply (npow_one _ _ M)].
      rewrite (npow_mul_distr _ _ M CM), H. ring.
Qed.
Lemma q_kill_emb c : c <> o0 G -> q_kill (emb c).
Proof. intros N. split; [now apply q_emb_ne|now apply Kemb]. Qed.
Lemma q_kill_w : q_kill w.
Proof. split; [exact (w_ne G GK mnr)|exact Kw]. Qed.
Lemma upto_pow f g : upto T q_kill f g -> fpow T f Ex = fpow T g Ex.
Proof. intros (k & [_ Hk] & ->). rewrite (npow_mul_distr _ _ M (rk_mul_comm T RT)), Hk. ring. Qed.
Definition q_S1 (A : apt K) : Prop := torsion F a b r A.
Definition q_S2 (B : apt L) : Prop := torsion G a' b' r B /\ frob_eigen T (up a) q (Psi B).
Let D2 : ~ (r | 2). Proof. intros D. apply Z.divide_pos_le in D; lia. Qed.
Lemma y_ne x y : q_S1 (Aff x y) -> y <> o0 F.
Proof.
  intros [O TO]. assert (D1 : ~ (r | 1)) by (intros D; apply Z.divide_pos_le in D; lia).
  rewrite (zmult_mult F FK _ b H2F HDF _ _ O), Z2Pos.id in TO by lia.
  assert (NI : Aff x y <> Inf) by discriminate.
  assert (E1 : zmult F a b 1 (Aff x y) = Aff x y) by now apply (zmult_1 F FK _ b H2F HDF).
  pose proof (zmult_y F FK _ b H2F HDF r _ Pr O NI TO 1 x y D1 D2 E1) as Ny. intros Z. apply Ny. rewrite Z. ring.
Qed.
Variables (lc : bigint) (neg : bool) (n : positive).
Hypothesis Llc : limbs lc.
Hypothesis Hlc : val lc = Z.pos n.
Hypothesis Hn : Z.pos n < r.
Definition q_ate (B : apt L) (x y : K) : L * L := miller_signed T (up a) neg n (Psi B) (up x) (up y).
Notation pairing := (quad_pairing F G e1 scale nu mnr a' lc neg).
Lemma tw_order B : torsion G a' b' r B -> zmult G a' b' r B = Inf.
Proof. intros [O TO]. rewrite (zmult_mult G GK _ _ two_G disc_G _ _ O), Z2Pos.id in TO by lia. exact TO. Qed.
Theorem quad_textbook P Q xP yP x y : prj_den F P = Aff xP yP -> prj_den G Q = Aff x y ->
  q_S1 (Aff xP yP) -> torsion G a' b' r (Aff x y) ->
  q_ate (Aff x y) xP yP <> o0 T /\
  exists f, pairing P Q = Ok f /\ f <> o0 T /\ fpow T f Ex = fpow T (q_ate (Aff x y) xP yP) Ex.
Proof.
  intros DP DQ SP TQ. pose proof (y_ne xP yP SP) as Ny.
  assert (VN : forall x y, sw_on G a' b' (Aff x y) -> osub T (up xP) (omul T (emb x) (omul T u u)) <> o0 T)
    by (intros c d O; exact (q_VN xP yP c d Ny (proj1 SP) O)).
  assert (NI : Aff x y <> Inf) by discriminate.
  pose proof (tw_order _ TQ) as ZQ. pose proof (proj1 TQ) as OQ.
  destruct (ord_signed G GK T TK emb u E0 EA ES EM EI U0 a' b' two_G disc_G r (Aff x y) (up xP) (up yP) Pr D2 OQ NI ZQ (vn_on G GK T emb u a' b' _ _ VN)
    (fun l c d => q_LN xP yP l c d Ny) neg n Hn) as [Rg Nf].
  destruct (ord_regular G GK T TK emb u E0 EA ES EM EI U0 a' b' two_G disc_G r (Aff x y) (up xP) (up yP) Pr D2 OQ NI ZQ (vn_on G GK T emb u a' b' _ _ VN)
    (fun l c d => q_LN xP yP l c d Ny) n Hn) as [_ Nm].
  assert (Na : q_ate (Aff x y) xP yP <> o0 T) by (unfold q_ate; rewrite <- TA; exact Nf).
  split; [exact Na|].
  destruct (quad_miller F G GK e1 scale nu mnr e1_1 e1_add e1_opp Hs Hmnr Nnu TK a' b' xP yP q_kill q_kills q_kill_emb q_kill_w two_G x y OQ FK lc neg n Llc Hlc
    P Q DP DQ Rg Nm) as (f & Ef & Uf).
  - cbn [psi vertical_at]. exact (VN x y OQ).
  - intros c d Em. rewrite <- (psi_mult G GK T TK emb u E0 EA ES EM EI U0 a' b' two_G disc_G n _ OQ) in Em.
    apply (psi_inj T TK emb u EI U0) in Em. rewrite (zmult_mult G GK _ _ two_G disc_G _ _ OQ) in Em.
    apply (zmult_y G GK a' b' two_G disc_G r _ Pr OQ NI ZQ (Z.pos n) c d); auto.
    intros DV. apply Z.divide_pos_le in DV; lia.
  - exists f. split; [exact Ef|]. unfold q_ate in *. rewrite <- TA in *. split; [|now apply upto_pow].
    intros Z. apply Na. now apply (upto_0 T TK q_kill q_kills f _ Uf).
Qed.

(** *** Bilinearity *)
Hypothesis Et : exists k, sgnz neg n = (Z.of_nat q + r * k)%Z.
Let QP := q_pos'.
Let PHA : fpow T (tw_a T emb u a') q = tw_a T emb u a'. Proof. rewrite TA. apply ph_up. Qed.
Let PHB : fpow T (tws_b T emb u b') q = tws_b T emb u b'. Proof. rewrite TB. apply ph_up. Qed.
Let r_0 : 0 < r. Proof. lia. Qed.
Notation iG1 := (inG1 G T emb u a' b' q).
Notation iG2 := (inG2 G T emb u a' b' q r).
Lemma S2_in B : q_S2 B <-> iG2 B.
Proof.
  split.
  - intros [[O TT] E]. constructor; auto. rewrite TA. exact E.
  - intros [O TT E]. rewrite TA in E. repeat split; auto.
Qed.
Lemma S1_in x y : q_S1 (Aff x y) -> iG1 (up x) (up y).
Proof.
  intros TT. pose proof (y_ne x y TT) as Ny. constructor.
  - rewrite TA, TB. apply up_on, TT.
  - apply ph_up.
  - apply ph_up.
  - intros c d O. exact (q_VN x y c d Ny (proj1 TT) O).
  - intros l c d. now apply q_LN.
Qed.
Lemma up_psi A : psi T (fun x => up x) (o1 T) A = match A with Inf => Inf | Aff x y => Aff (up x) (up y) end.
Proof. destruct A as [|x y]; cbn [psi]; [reflexivity|f_equal; ring]. Qed.
Lemma up_add_pt x1 y1 x2 y2 x3 y3 : sw_on F a b (Aff x1 y1) -> sw_on F a b (Aff x2 y2) ->
  sw_add F a (Aff x1 y1) (Aff x2 y2) = Aff x3 y3 ->
  sw_add T (up a) (Aff (up x1) (up y1)) (Aff (up x2) (up y2)) = Aff (up x3) (up y3).
Proof.
  intros O1 O2 H.
  pose proof (psi_sw_add F FK T TK (fun x => up x) (o1 T) up_0 up_add up_sub up_mul up_inj (fk_1_neq_0 T TK) a b _ _ O1 O2) as P.
  rewrite H, !up_psi in P. replace (tw_a T (fun x => up x) (o1 T) a) with (up a) in P; [symmetry; exact P|]. unfold tw_a. ring.
Qed.
Lemma q_S1_add A1 A2 : q_S1 A1 -> q_S1 A2 -> q_S1 (sw_add F a A1 A2).
Proof. exact (S1_add F FK a b H2F HDF r R3 A1 A2). Qed.
Lemma q_S2_add B1 B2 : q_S2 B1 -> q_S2 B2 -> q_S2 (sw_add G a' B1 B2).
Proof.
  rewrite !S2_in. intros I1 I2.
  exact (sum_G2 G GK T TK emb u E0 EA ES EM EI U0 a' b' two_G disc_G two_T q QP ph_add PHA PHB r r_0 B1 B2 I1 I2).
Qed.
Definition q_val (A : apt K) (B : apt L) : L * L :=
  match A, B with Aff x y, Aff _ _ => fpow T (q_ate B x y) Ex | _, _ => o1 T end.
Lemma q_val_aff x y B : q_val (Aff x y) B = fpow T (q_ate B x y) Ex.
Proof.
  destruct B; [|reflexivity]. cbn [q_val]. unfold q_ate. cbn [psi]. rewrite <- TA, (signed_inf T TK). symmetry. apply (npow_one _ _ M).
Qed.
Variable final : L * L -> result (L * L).
Hypothesis FE : forall f, f <> o0 T -> final f = Ok (fpow T f Ex).
Theorem quad_bilinear : pair_bilinear F a G a' T r q_S1 q_S2 (prj_den F) (prj_den G) (fun P Q => f <- pairing P Q ;; final f).
Proof.
  destruct Et as [k Ek].
  assert (NE : forall x y B, q_S1 (Aff x y) -> q_S2 B -> B <> Inf -> q_ate B x y <> o0 T).
  { intros x y [|x2 y2] I1 I2 NB; [congruence|].
    apply (quad_textbook (x, y, o1 F) (x2, y2, o1 G)); auto; [| |apply I2].
    - apply (prj_den_at F FK); [apply (fk_1_neq_0 F FK)| |]; ring.
    - apply (prj_den_at G GK); [apply (fk_1_neq_0 G GK)| |]; ring. }
  assert (VI : forall B, q_val Inf B = o1 T) by reflexivity.
  assert (VR : forall A B, q_S1 A -> q_S2 B -> fpow T (q_val A B) (Z.to_nat r) = o1 T).
  { intros [|x y] B I1 I2; [apply (npow_one _ _ M)|]. destruct B as [|x2 y2]; [apply (npow_one _ _ M)|]. apply KE. apply NE; auto. discriminate. }
  assert (VN : forall A B, q_S1 A -> q_S2 B -> q_val A B <> o0 T).
  { intros A B I1 I2 Z. pose proof (VR A B I1 I2) as H. rewrite Z in H.
    rewrite (npow_zero _ _ _ _ _ _ (rk_ring T RT)) in H by lia. now apply (fk_1_neq_0 T TK). }
  assert (VQ : forall A B1 B2, q_S1 A -> q_S2 B1 -> q_S2 B2 -> omul T (q_val A B1) (q_val A B2) = q_val A (sw_add G a' B1 B2)).
  { intros [|x y] B1 B2 I1 I2 I3; [rewrite !VI; ring|]. rewrite !q_val_aff. apply S2_in in I2, I3. unfold q_ate. rewrite <- TA.
    exact (tw_ate_Q G GK T TK emb u E0 EA ES EM EI U0 a' b' two_G disc_G two_T q QP ph_add PHA PHB r Ex r_0 KE B1 B2 I2 I3 (up x) (up y) neg n k (S1_in x y I1) Ek). }
  assert (VP : forall A1 A2 B, q_S1 A1 -> q_S1 A2 -> q_S1 (sw_add F a A1 A2) -> A1 <> Inf -> A2 <> Inf -> sw_add F a A1 A2 <> Inf -> q_S2 B ->
    omul T (q_val A1 B) (q_val A2 B) = q_val (sw_add F a A1 A2) B).
  { intros [|x1 y1] [|x2 y2] B I1 I2 I3 N1 N2 N3 IB; try congruence.
    destruct (sw_add F a (Aff x1 y1) (Aff x2 y2)) as [|x3 y3] eqn:EQ; [congruence|]. rewrite !q_val_aff. apply S2_in in IB.
    pose proof (up_add_pt _ _ _ _ _ _ (proj1 I1) (proj1 I2) EQ) as S. unfold q_ate. rewrite <- TA in S |- *.
    exact (tw_ate_P G GK T TK emb u E0 EA ES EM EI U0 a' b' two_G disc_G two_T q QP ph_add PHA PHB r Ex r_0 KE B B IB IB
      (up x1) (up y1) (up x2) (up y2) (up x3) (up y3) (S1_in _ _ I1) (S1_in _ _ I2) (S1_in _ _ I3) S neg n k Ek). }
  apply (pair_bilinear_of F a G a' T r q_S1 q_S2 (prj_den F) (prj_den G) _ q_val).
  - exact (e_add F FK T TK a b H2F HDF r Pr R3 q_S2 _ VI VP VN).
  - exact VQ.
  - exact (e_mult F FK G T TK a b a' H2F HDF r Pr R3 q_S2 q_S2_add _ VI VP VQ VN).
  - exact VR.
  - exact q_S1_add.
  - exact q_S2_add.
  - intros A B [-> | ->]; [reflexivity|]. now destruct A.
  - intros P Q [NP SP] [NQ SQ]. destruct (prj_den F P) as [|xP yP] eqn:DP; [congruence|]. destruct (prj_den G Q) as [|x y] eqn:DQ; [congruence|].
    destruct (quad_textbook P Q xP yP x y DP DQ SP (proj1 SQ)) as (_ & f & -> & Nf & Pf). cbn [bind]. rewrite FE by auto. cbn [q_val]. now rewrite Pf.
Qed.
End Quad.
