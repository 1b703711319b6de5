(** The edwards Tate pairing against the textbook Tate pairing f_r,P (Q) of the
    short Weierstrass form. *)
From Coq Require Import ZArith List Bool Ring Field Lia Znumtheory.
From Verif Require Import Result Algebra Limbs LimbsProofs FieldOps BigintModel AlgorithmsModel AlgorithmsProofs ExtModel ExtSpec ExtFrob ExtProofs ExtInst CurveSpec CurveGroup
  CurveModel CurveProofs CurveEdwards CurveEdwOps EdwSpec EdwSw MillerSpec PairingModel PairingSpec PairingProofs NeutralProofs MillerProofs MillerRegular MillerQuad
  Cochain MillerCocycle MillerBilinear BilinearTwelve BilinearQuad MntShipped EdwPairing TateBilinear.
Import ListNotations.
Open Scope Z_scope.

(** ** Miller's loop, the last addition apart *)
Section Loop.
Context {T St A : Type} (F : Fops T) (FK : field_ok F) (a : T) (kill : T -> Prop) (KL : kills F kill).
Variables (rep : St -> apt T -> Prop) (dbl add : St -> St * A) (ln1 ln2 : A -> T) (Q : apt T) (xP yP : T).
Hypothesis dbl_ok : forall R S, rep R S -> regular_dbl F a S xP ->
  rep (fst (dbl R)) (sw_add F a S S) /\ upto F kill (ln1 (snd (dbl R))) (line_at F a S S xP yP).
Hypothesis add_ok : forall R S, rep R S -> regular_add F a S Q xP ->
  rep (fst (add R)) (sw_add F a S Q) /\ upto F kill (ln2 (snd (add R))) (line_at F a S Q xP yP).
Hypothesis vert_ok : forall R S, rep R S -> vertical_at F S xP <> o0 F -> kill (vertical_at F S xP).
Lemma miller_last R0 n : rep R0 Q -> regular F a n~0 Q xP ->
  (forall R, rep R (mult F a n~0 Q) -> upto F kill (ln2 (snd (add R))) (line_ratio F a (mult F a n~0 Q) Q xP yP)) ->
  exists R cs f, mfold (push_body dbl add) (below (Z.pos n~1)) (R0, []) = Ok (R, cs) /\
    upto F kill f (miller F a n~1 Q xP yP) /\
    forall ds, mfold (one_body F ln1 ln2 (cs ++ ds)) (below (Z.pos n~1)) (o1 F, O) = Ok (f, length cs).
Proof.
  intros H0 Rg HL. cbn [regular] in Rg. destruct Rg as [Hr Hd].
  destruct (miller_loop F FK a kill KL rep dbl add ln1 ln2 Q xP yP dbl_ok add_ok vert_ok R0 n H0 Hr) as (R & cs & f & E1 & H1 & U & E2).
  destruct (dbl_ratio F FK a kill KL rep dbl ln1 xP yP dbl_ok vert_ok R _ H1 Hd) as [H2 U2]. specialize (HL _ H2). cbn [mult] in HL.
  change (Z.pos n~1) with (2 * Z.pos n + Z.b2z true)%Z. rewrite below_double. cbn [miller].
  destruct (dbl R) as [R1 c1] eqn:ED. cbn [fst snd] in *. destruct (add R1) as [R2 c2] eqn:EA. cbn [fst snd] in *.
  exists R2, ((cs ++ [c1]) ++ [c2]), (omul F (omul F (omul F f f) (ln1 c1)) (ln2 c2)). split; [|split].
  - rewrite mfold_app, E1. cbn [bind mfold]. unfold push_body. rewrite ED, EA. reflexivity.
  - repeat apply (upto_mul F FK kill KL); auto.
  - intros ds. rewrite mfold_app, <- !app_assoc, E2. cbn [bind mfold one_body app].
    rewrite at_idx_app. cbn [bind].
    replace (S (length cs)) with (length (cs ++ [c1])) by (rewrite app_length; cbn; lia).
    replace (cs ++ c1 :: c2 :: ds) with ((cs ++ [c1]) ++ c2 :: ds) by now rewrite <- app_assoc.
    rewrite at_idx_app. cbn [bind]. f_equal. f_equal. rewrite !app_length. cbn. lia.
Qed.
End Loop.

(** ** The points Q *)
Section Quad.
Context {K L : Type} (F : Fops K) (q : nat) (PB : prime_base F q).
Let FK : field_ok F := pb_field F q PB.
Context (G : Fops L) (GK : field_ok G) (e1 : K -> L) (scale : K -> L -> L) (nu : L) (mnr : L -> L).
Hypothesis e1_0 : e1 (o0 F) = o0 G.
Hypothesis e1_1 : e1 (o1 F) = o1 G.
Hypothesis e1_add : forall x y, e1 (oadd F x y) = oadd G (e1 x) (e1 y).
Hypothesis e1_mul : forall x y, e1 (omul F x y) = omul G (e1 x) (e1 y).
Hypothesis e1_opp : forall x, e1 (oopp F x) = oopp G (e1 x).
Hypothesis e1_inj : forall x y, e1 x = e1 y -> x = y.
Hypothesis Hmnr : forall x, mnr x = omul G nu x.
Hypothesis Nnu : nu <> o0 G.
Notation T := (quad_ops G mnr).
Hypothesis TK : field_ok T.
Notation emb := (quad_emb G).
Notation w := (quad_u G).
Notation u := (tinv T w).
Notation up x := (emb (e1 x)).
Add Field TQF : (fk_field F (pb_field F q PB)).
Add Field TQG : (fk_field G GK).
Add Field TQT : (fk_field T TK).
Variables (a b : K) (a' b' : L).
Hypothesis Ea : a' = omul G (e1 a) (omul G nu nu).
Hypothesis Eb : b' = omul G (e1 b) (omul G (omul G nu nu) nu).
Notation Psi := (psi T emb u).
Let E0 := q_emb_0 G mnr.
Let EA := q_emb_add G GK mnr.
Let EM := q_emb_mul G GK nu mnr Hmnr.
Let ES := q_emb_sub G GK mnr.
Let EI := q_emb_inj G.
Notation ta := (tw_a T (fun x => up x) (o1 T) a).
Notation tb := (tws_b T (fun x => up x) (o1 T) b).
Lemma t_ta : ta = up a. Proof. unfold tw_a. ring. Qed.
Lemma t_tb : tb = up b. Proof. unfold tws_b. ring. Qed.
Lemma sq_0 x : omul G x x = o0 G -> x = o0 G.
Proof. intros H. apply (fk_mul_0 G GK) in H. tauto. Qed.
Lemma t_VN x y xP yP : y <> o0 G -> sw_on G a' b' (Aff x y) -> sw_on F a b (Aff xP yP) ->
  osub T (up xP) (omul T (emb x) (omul T u u)) <> o0 T.
Proof.
  intros Ny OQ OP. destruct (rk_dec F (fk_ring F FK) yP (o0 F)) as [->|Nz].
  2:{ exact (q_VN F G GK e1 nu mnr e1_0 e1_add e1_mul e1_inj Hmnr Nnu TK a b a' b' Ea Eb xP yP x y Nz OP OQ). }
  rewrite (u_sq G GK nu mnr Hmnr Nnu TK), <- EM, <- ES. intros Z.
  assert (Z' : osub G (e1 xP) (omul G x (tinv G nu)) = o0 G) by now injection Z. clear Z.
  pose proof (proj2 (tinv_spec G GK nu Nnu)) as I.
  assert (Ex : x = omul G (e1 xP) nu).
  { transitivity (omul G x (omul G (tinv G nu) nu)); [rewrite I; ring|].
    transitivity (omul G (osub G (e1 xP) (osub G (e1 xP) (omul G x (tinv G nu)))) nu); [ring|]. rewrite Z'. ring. }
  cbn [sw_on] in OP, OQ. apply (f_equal e1) in OP. rewrite !e1_add, !e1_mul, e1_0 in OP.
  apply Ny. apply sq_0. rewrite OQ, Ea, Eb, Ex.
  transitivity (omul G (omul G (omul G nu nu) nu) (oadd G (oadd G (omul G (e1 xP) (omul G (e1 xP) (e1 xP))) (omul G (e1 a) (e1 xP))) (e1 b))); [ring|].
  transitivity (omul G (omul G (omul G nu nu) nu) (omul G (o0 G) (o0 G))); [f_equal|ring]. rewrite OP. ring.
Qed.
Lemma t_tev x y : y <> o0 G -> sw_on G a' b' (Aff x y) ->
  tev F T (fun x => up x) (o1 T) a b (omul T (emb x) (omul T u u)) (omul T (emb y) (omul T (omul T u u) u)).
Proof.
  intros Ny OQ.
  assert (Hu : u = omul T (emb (tinv G nu)) w).
  { rewrite <- (u_sq G GK nu mnr Hmnr Nnu TK). transitivity (omul T u (omul T u w)); [rewrite (u_w G GK mnr TK); ring|ring]. }
  constructor.
  - rewrite t_ta, t_tb, <- (q_ta G GK e1 nu mnr Hmnr Nnu TK a a' Ea), <- (q_tb G GK e1 nu mnr Hmnr Nnu TK b b' Eb).
    exact (psi_on G T TK emb u EA EM a' b' (Aff x y) OQ).
  - intros c d OP Z. apply (t_VN x y c d Ny OQ OP). transitivity (oopp T (osub T (omul T (emb x) (omul T u u)) (omul T (up c) (omul T (o1 T) (o1 T))))); [ring|]. rewrite Z. ring.
  - intros l c d Z. unfold line_val in Z.
    assert (H : osub T (osub T (omul T (emb y) (omul T (omul T u u) u)) (omul T (up d) (omul T (omul T (o1 T) (o1 T)) (o1 T))))
        (omul T (omul T (up l) (o1 T)) (osub T (omul T (emb x) (omul T u u)) (omul T (up c) (omul T (o1 T) (o1 T))))) =
      (osub G (oopp G (e1 d)) (omul G (e1 l) (osub G (omul G x (tinv G nu)) (e1 c))), omul G y (omul G (tinv G nu) (tinv G nu)))).
    { rewrite (pair_eq G GK nu mnr Hmnr), (u_sq G GK nu mnr Hmnr Nnu TK), Hu.
      repeat rewrite ?EM, ?ES, ?(q_emb_opp G GK mnr). ring. }
    rewrite H in Z. assert (Z2 : omul G y (omul G (tinv G nu) (tinv G nu)) = o0 G) by now injection Z.
    pose proof (proj2 (tinv_spec G GK nu Nnu)) as I. apply Ny.
    transitivity (omul G (omul G y (omul G (tinv G nu) (tinv G nu))) (omul G nu nu)); [|rewrite Z2; ring].
    transitivity (omul G y (omul G (omul G (tinv G nu) nu) (omul G (tinv G nu) nu))); [rewrite I; ring|ring].
Qed.
End Quad.

(** ** The program *)
Lemma aff_inj {K} (x y x' y' : K) : Aff x y = Aff x' y' -> x = x' /\ y = y'.
Proof. intros H. injection H as E1 E2. now split. Qed.
Section Steps.
Context {K : Type} (F : Fops K) (FK : field_ok F).
Let RF : ring_ok F := fk_ring F FK.
Add Field TSfield : (fk_field F FK).
Notation idm := (fun x : K => x).
Lemma id_mul x : idm x = omul F (o1 F) x. Proof. cbv beta. ring. Qed.
Lemma fq_doubling R : edw_fq_doubling_step F R = edw_doubling_step F idm R.
Proof.
  destruct R as [[[X Y] Z] TT]. unfold edw_fq_doubling_step, edw_doubling_step. cbv zeta.
  repeat match goal with |- (_, _) = (_, _) => apply (f_equal2 pair) end; try reflexivity. rewrite !(rk_sqr F RF). ring.
Qed.
(** P added to -P. *)
Lemma edw_add_last x y z : edw_mixed_addition_step F idm (x, y, o1 F, omul F x y) (omul F (oopp F x) z, omul F y z, z, omul F (omul F (oopp F x) y) z) =
  (let c := oopp F (omul F (omul F (oadd F (o1 F) (o1 F)) x) (omul F z (oadd F (o1 F) y))) in
   (fst (edw_mixed_addition_step F idm (x, y, o1 F, omul F x y) (omul F (oopp F x) z, omul F y z, z, omul F (omul F (oopp F x) y) z)),
    (o0 F, c, oopp F (omul F y c)))).
Proof.
  unfold edw_mixed_addition_step. cbv zeta. cbn [fst]. apply (f_equal2 pair); [reflexivity|].
  repeat match goal with |- (_, _) = (_, _) => apply (f_equal2 pair) end; ring.
Qed.
Notation "x '+ y" := (oadd F x y) (at level 50, left associativity).
Notation "x '- y" := (osub F x y) (at level 50, left associativity).
Notation "x '* y" := (omul F x y) (at level 40, left associativity).
Notation "'I" := (o1 F).
Lemma conic_line t2 t3 D X Y w m U V c : t2 <> o0 F -> t3 <> o0 F -> 'I '- D <> o0 F -> X <> o0 F -> 'I '- Y <> o0 F -> w <> o0 F ->
  oopp F ((V '- m '* U '+ m) '* c) '+ (V '- m '* U '- m) '* c '* Y '+ c '* tdiv F ('I '+ Y) (w '* w '* X) '* w =
  tdiv F (c '* ('I '- Y)) (t2 '* t3 '* t3 '* t3 '* ('I '- D)) '*
  (t2 '* t3 '* t3 '* t3 '* ('I '- D) '* tdiv F ('I '+ Y) (w '* X '* ('I '- Y)) '-
   t2 '* t3 '* t3 '* t3 '* ('I '- D) '* V '* ('I '* 'I '* 'I) '-
   t2 '* t3 '* m '* 'I '* (t3 '* t3 '* ('I '- D) '* tdiv F ('I '+ Y) ('I '- Y) '+ t2 '* t3 '* ('I '+ D) '-
     (t3 '* t3 '* ('I '- D) '* U '+ t2 '* t3 '* ('I '+ D)) '* ('I '* 'I))).
Proof. intros N2 N3 N4 NX NY Nw. field. repeat split; auto. Qed.
End Steps.

Section Edw.
Context {K L : Type} (F : Fops K) (q : nat) (PB : prime_base F q).
Let FK : field_ok F := pb_field F q PB.
Context (G : Fops L) (GK : field_ok G) (e1 : K -> L) (scale : K -> L -> L) (nu : L) (mnr : L -> L).
Hypothesis e1_0 : e1 (o0 F) = o0 G.
Hypothesis e1_1 : e1 (o1 F) = o1 G.
Hypothesis e1_add : forall x y, e1 (oadd F x y) = oadd G (e1 x) (e1 y).
Hypothesis e1_mul : forall x y, e1 (omul F x y) = omul G (e1 x) (e1 y).
Hypothesis e1_opp : forall x, e1 (oopp F x) = oopp G (e1 x).
Hypothesis e1_inj : forall x y, e1 x = e1 y -> x = y.
Hypothesis Hs : forall s x, scale s x = omul G (e1 s) x.
Hypothesis Hmnr : forall x, mnr x = omul G nu x.
Hypothesis Nnu : nu <> o0 G.
Notation T := (quad_ops G mnr).
Hypothesis TK : field_ok T.
Let RF : ring_ok F := fk_ring F FK.
Let RG : ring_ok G := fk_ring G GK.
Let RT : ring_ok T := fk_ring T TK.
Notation emb := (quad_emb G).
Notation w := (quad_u G).
Notation u := (tinv T w).
Notation up x := (emb (e1 x)).
Notation upf := (fun x => emb (e1 x)).
Add Field ETF : (fk_field F (pb_field F q PB)).
Add Field ETG : (fk_field G GK).
Add Field ETT : (fk_field T TK).
Variables (d : K) (d' : L).
Hypothesis Ed : d' = omul G (e1 d) nu.
Notation one := (o1 F).
Hypothesis N2F : oadd F one one <> o0 F.
Hypothesis N3F : oadd F (oadd F one one) one <> o0 F.
Hypothesis NdF : d <> o0 F.
Hypothesis NadF : osub F one d <> o0 F.
Notation aW := (te_swa F one d).
Notation bW := (te_swb F one d).
Let E1S := e1_sub F q PB G GK e1 e1_add e1_opp.
Let E1N := e1_ne F G e1 e1_0 e1_inj.
Let E0 := q_emb_0 G mnr.
Let EA := q_emb_add G GK mnr.
Let EM := q_emb_mul G GK nu mnr Hmnr.
Let ES := q_emb_sub G GK mnr.
Let EI := q_emb_inj G.
Let EO := q_emb_opp G GK mnr.
Lemma up0 : up (o0 F) = o0 T. Proof. rewrite e1_0. reflexivity. Qed.
Lemma up1 : up (o1 F) = o1 T. Proof. rewrite e1_1. reflexivity. Qed.
Lemma upA x y : up (oadd F x y) = oadd T (up x) (up y). Proof. now rewrite e1_add, EA. Qed.
Lemma upS x y : up (osub F x y) = osub T (up x) (up y). Proof. now rewrite E1S, ES. Qed.
Lemma upM x y : up (omul F x y) = omul T (up x) (up y). Proof. now rewrite e1_mul, EM. Qed.
Lemma upO x : up (oopp F x) = oopp T (up x). Proof. now rewrite e1_opp, EO. Qed.
Lemma upI x y : up x = up y -> x = y. Proof. intros H. apply e1_inj. now apply EI. Qed.
Lemma t1_0 : o1 T <> o0 T. Proof. apply (fk_1_neq_0 T TK). Qed.
Notation Up := (psi T upf (o1 T)).
Notation ta := (tw_a T upf (o1 T) aW).
Variable S1 : K * K -> Prop.
Hypothesis GS1 : te_good F one d S1.
Variable kill : L * L -> Prop.
Hypothesis KL : kills T kill.
Hypothesis kill_emb : forall c, c <> o0 G -> kill (emb c).
Notation sw1 := (te_sw F one d).
Definition trep (R : K * K * K * K) (A : apt (L * L)) : Prop := exists x y z, z <> o0 F /\ x <> o0 F /\ S1 (x, y) /\
  R = (omul F x z, omul F y z, z, omul F (omul F x y) z) /\ A = Up (sw1 (x, y)).
Section Eval.
Variables (xQ yQ eta : L).
Hypothesis NxQ : xQ <> o0 G.
Hypothesis NyQ : osub G (o1 G) yQ <> o0 G.
Hypothesis Heta : omul G (omul G nu xQ) eta = oadd G (o1 G) yQ.
Notation UX := (te_X T (o1 T) (up d) (emb yQ)).
Notation UY := (te_Y T (o1 T) (up d) (omul T w (emb xQ)) (emb yQ)).
(** On none of the lines. *)
Hypothesis VN : forall x y, sw_on F aW bW (Aff x y) -> osub T UX (omul T (up x) (omul T (o1 T) (o1 T))) <> o0 T.
Notation six m := (omul F (omul F (oadd F one one) (oadd F (oadd F one one) one)) m).
Notation lv l x y := (line_val T (omul T (up l) (o1 T)) (omul T (up x) (omul T (o1 T) (o1 T))) (omul T (up y) (omul T (omul T (o1 T) (o1 T)) (o1 T))) UX UY).
Notation tg := (tate_g G scale e1 (yQ, eta)).
Definition tate_k (c : K) : L :=
  tdiv G (omul G (e1 c) (osub G (o1 G) yQ)) (e1 (omul F (omul F (omul F (omul F (oadd F one one) (oadd F (oadd F one one) one)) (oadd F (oadd F one one) one)) (oadd F (oadd F one one) one)) (osub F one d))).
Lemma k_den : omul F (omul F (omul F (omul F (oadd F one one) (oadd F (oadd F one one) one)) (oadd F (oadd F one one) one)) (oadd F (oadd F one one) one)) (osub F one d) <> o0 F.
Proof.
  generalize dependent (osub F one d). intros s Ns. repeat apply (fk_mul_neq_0 F FK); auto.
Qed.
Lemma tate_k_ne c : c <> o0 F -> tate_k c <> o0 G.
Proof.
  intros Nc Z. apply (tdiv_0 G GK) in Z; [|apply E1N; exact k_den]. revert Z. apply (fk_mul_neq_0 G GK); auto.
Qed.
Lemma emb_div' x y : y <> o0 G -> emb (tdiv G x y) = tdiv T (emb x) (emb y).
Proof. intros Ny. symmetry. apply (tdiv_eq T TK); [now apply q_emb_ne|]. rewrite <- EM. f_equal. field. exact Ny. Qed.
Lemma conic_T m x y c : tg (conic_of F m x y c) = omul T (emb (tate_k c)) (lv (six m) (te_X F one d y) (te_Y F one d x y)).
Proof.
  clear VN. unfold tate_g, conic_of. cbv zeta. rewrite !Hs, (pair_eq G GK nu mnr Hmnr). unfold tate_k.
  rewrite emb_div' by (apply E1N; exact k_den). unfold line_val, te_X, te_Y.
  generalize (te_u F y) (te_v F x y). intros U V.
  assert (N2 : up (oadd F one one) <> o0 T) by (apply q_emb_ne, E1N; assumption).
  assert (N3 : up (oadd F (oadd F one one) one) <> o0 T) by (apply q_emb_ne, E1N; assumption).
  assert (N4 : up (osub F one d) <> o0 T) by (apply q_emb_ne, E1N; assumption).
  assert (Nx' : emb xQ <> o0 T) by now apply q_emb_ne.
  assert (Ny' : osub T (o1 T) (emb yQ) <> o0 T) by (change (o1 T) with (emb (o1 G)); rewrite <- ES; now apply q_emb_ne).
  assert (Nw : w <> o0 T) by exact (w_ne G GK mnr).
  assert (He : emb eta = tdiv T (oadd T (o1 T) (emb yQ)) (omul T (omul T w w) (emb xQ))).
  { symmetry. apply (tdiv_eq T TK); [repeat apply (fk_mul_neq_0 T TK); auto|]. rewrite (w_sq G GK nu mnr Hmnr). change (o1 T) with (emb (o1 G)).
    rewrite <- EA, <- Heta, !EM. ring. }
  repeat rewrite ?EM, ?EA, ?ES, ?EO, ?e1_mul, ?e1_add, ?E1S, ?e1_opp, ?e1_1. rewrite He. clear He.
  repeat rewrite upA in N2. repeat rewrite upA in N3. rewrite !up1 in N2, N3. rewrite upS, up1 in N4. unfold te_u, te_v. change (emb (o1 G)) with (o1 T) in *.
  generalize dependent (up d). intros D N4. generalize dependent (emb yQ). intros Y NY. generalize dependent (emb xQ). intros X NX.
  generalize (up m) (up U) (up V) (up c). intros m' U' V' c'.
  generalize dependent (oadd T (oadd T (o1 T) (o1 T)) (o1 T)). intros t3 N3. generalize dependent (oadd T (o1 T) (o1 T)). intros t2 N2.
  exact (conic_line T TK t2 t3 D X Y w m' U' V' c' N2 N3 N4 NX NY Nw).
Qed.
Lemma kill_UX x : osub T UX (up x) <> o0 T -> kill (osub T UX (up x)).
Proof.
  assert (E : osub T UX (up x) = emb (osub G (te_X G (o1 G) (e1 d) yQ) (e1 x))).
  { rewrite ES. f_equal. unfold te_X, te_u. repeat rewrite ?EM, ?EA, ?ES. rewrite emb_div' by assumption. rewrite ES, EA. reflexivity. }
  rewrite E. intros N. apply kill_emb. intros Z. apply N. now rewrite Z.
Qed.
Notation dstep := (edw_fq_doubling_step F).
Lemma t_dbl R A : trep R A -> regular_dbl T ta A UX ->
  trep (fst (dstep R)) (sw_add T ta A A) /\ upto T kill (tg (snd (dstep R))) (line_at T ta A A UX UY).
Proof.
  intros (x & y & z & Nz & Nx & HS & -> & ->) _. pose proof (tg_on F one d S1 GS1 _ HS) as O.
  pose proof (good_ne F one d S1 GS1 _ _ HS Nx) as Ny. destruct (te_y1 F one d FK NadF x y O Nx) as [M1 M2].
  destruct (good_dbl F one d FK S1 GS1 _ _ HS) as [Ni Nk].
  rewrite (fq_doubling F FK), (edw_dbl_conic F FK one (fun x => x) (id_mul F FK) x y z N2F Nx Ny M1 Ni Nk). cbv zeta. cbn [fst snd].
  rewrite (te_sw_aff F one d FK NadF x y O Nx).
  destruct (psi_dbl F T TK upf (o1 T) up0 upA upS upM upI t1_0 aW (te_X F one d y) (te_Y F one d x y) (dbl_l F one x y)
    (te_Y_ne F one d FK N2F N3F NadF x y O Nx) (te_dbl_slope F one d FK N2F NadF x y O Nx Ny)) as [P1 P2].
  pose proof (tg_add F one d S1 GS1 _ _ HS HS) as HS3. rewrite (te_dbl_eq F one d FK x y O) in HS3.
  assert (Nx3 : dbl_x F one x y <> o0 F).
  { intros Z. apply (tdiv_0 F FK _ _ Ni) in Z. revert Z. repeat apply (fk_mul_neq_0 F FK); auto. }
  destruct (te_dbl_third F one d FK N2F NadF x y O Nx Ny Ni Nk) as [_ E3].
  split.
  - exists (dbl_x F one x y), (dbl_y F one x y). eexists. split; [|split; [exact Nx3|split; [exact HS3|split; [reflexivity|]]]].
    + repeat apply (fk_mul_neq_0 F FK); auto.
    + rewrite <- P1, E3. rewrite (te_sw_aff F one d FK NadF _ _ (tg_on F one d S1 GS1 _ HS3) Nx3). reflexivity.
  - rewrite P2, conic_T. eexists. split; [|reflexivity]. apply kill_emb, tate_k_ne. repeat apply (fk_mul_neq_0 F FK); auto.
    intros Z. apply M1. transitivity (oopp F (osub F y (o1 F))); [ring|]. rewrite Z. ring.
Qed.
Variables (p g : K).
Hypothesis HP : S1 (p, g).
Hypothesis Np : p <> o0 F.
Notation Pt := (Up (sw1 (p, g))).
Notation astep := (edw_mixed_addition_step F (fun x => x) (p, g, o1 F, omul F p g)).
Lemma t_add R A : trep R A -> regular_add T ta A Pt UX ->
  trep (fst (astep R)) (sw_add T ta A Pt) /\ upto T kill (tg (snd (astep R))) (line_at T ta A Pt UX UY).
Proof.
  intros (x & y & z & Nz & Nx & HS & -> & ->) Rg. pose proof (tg_on F one d S1 GS1 _ HS) as O. pose proof (tg_on F one d S1 GS1 _ HP) as OP.
  destruct (te_y1 F one d FK NadF x y O Nx) as [M1 _]. destruct (te_y1 F one d FK NadF p g OP Np) as [M2 _].
  rewrite (te_sw_aff F one d FK NadF x y O Nx), (te_sw_aff F one d FK NadF p g OP Np) in *.
  unfold regular_add in Rg. cbn [psi] in Rg. destruct Rg as [Hx _].
  assert (Ny : y <> g) by (intros ->; now apply Hx).
  destruct (good_add F one d FK N2F NdF NadF S1 GS1 _ _ _ _ HS HP Nx Np Ny) as (C1 & C2 & C3 & C4 & C5).
  assert (Nyy : osub F g y <> o0 F) by (apply (EdwSw.sub_ne F FK); now apply not_eq_sym).
  pose proof (edw_add_conic F FK one (fun x => x) (id_mul F FK) x y z p g N2F Nx Np M1 M2 Nyy C4 C5) as EC.
  destruct (edw_mixed_addition_step F _ _ _) as [R [[czz cxy] cxz]]. cbv zeta in EC. destruct EC as (-> & Ez & EC). cbn [fst snd].
  assert (Ez' : czz = omul F (omul F (omul F x p) (osub F y g)) z) by (rewrite Ez; ring). rewrite Ez', EC.
  destruct (psi_addition F T TK upf (o1 T) upS upM upI t1_0 aW (te_X F one d y) (te_Y F one d x y) (te_X F one d g) (te_Y F one d p g) (add_l F x y p g)
    (proj2 (te_X_ne F one d FK N2F N3F NadF y g M1 M2) Ny) (te_add_slope F one d FK N2F x y p g M1 M2 Ny)) as [P1 P2].
  pose proof (tg_add F one d S1 GS1 _ _ HS HP) as HS3. rewrite (te_sum_eq F one d FK S1 GS1 _ _ _ _ HS HP C4 C5) in HS3.
  assert (Nx3 : sum_x F one x y p g <> o0 F) by (intros Z; apply (tdiv_0 F FK _ _ C4) in Z; contradiction).
  destruct (te_add_third F one d FK N2F NadF _ _ _ _ O OP Nx Np Ny C1 C2 C3 C4 C5) as [_ E3].
  split.
  - do 2 eexists. eexists. split; [|split; [exact Nx3|split; [exact HS3|split; [reflexivity|]]]].
    + repeat apply (fk_mul_neq_0 F FK); auto.
    + rewrite <- P1, E3. rewrite (te_sw_aff F one d FK NadF _ _ (tg_on F one d S1 GS1 _ HS3) Nx3). reflexivity.
  - rewrite P2, conic_T. eexists. split; [|reflexivity]. apply kill_emb, tate_k_ne. repeat apply (fk_mul_neq_0 F FK); auto. now apply (EdwSw.sub_ne F FK).
Qed.
Lemma t_vert R A : trep R A -> vertical_at T A UX <> o0 T -> kill (vertical_at T A UX).
Proof.
  intros (x & y & z & _ & Nx & HS & _ & ->). rewrite (te_sw_aff F one d FK NadF x y (tg_on F one d S1 GS1 _ HS) Nx). cbn [psi vertical_at].
  replace (omul T (up (te_X F one d y)) (omul T (o1 T) (o1 T))) with (up (te_X F one d y)) by ring. apply kill_UX.
Qed.
Lemma trep_0 : trep (p, g, o1 F, omul F p g) Pt.
Proof.
  exists p, g, (o1 F). split; [apply (fk_1_neq_0 F FK)|]. split; [exact Np|]. split; [exact HP|]. split; [|reflexivity].
  repeat match goal with |- (_, _) = (_, _) => apply (f_equal2 pair) end; ring.
Qed.
(** The last addition, of P to -P. *)
Lemma t_last R : trep R (sw_opp T Pt) -> upto T kill (tg (snd (astep R))) (line_ratio T ta (sw_opp T Pt) Pt UX UY).
Proof.
  intros (x & y & z & Nz & Nx & HS & -> & EA'). pose proof (tg_on F one d S1 GS1 _ HS) as O. pose proof (tg_on F one d S1 GS1 _ HP) as OP.
  destruct (te_y1 F one d FK NadF x y O Nx) as [M1 _]. destruct (te_y1 F one d FK NadF p g OP Np) as [M2 M3].
  unfold line_ratio. rewrite (la_opp' T TK), (sw_add_opp_l T TK). cbn [vertical_at].
  pose proof (good_ne F one d S1 GS1 _ _ HP Np) as Ng.
  pose proof (te_sw_on F one d FK NadF p g OP Np Ng) as OW. pose proof (VN _ _ OW) as NV.
  rewrite (te_sw_aff F one d FK NadF x y O Nx), (te_sw_aff F one d FK NadF p g OP Np) in *. cbn [psi sw_opp vertical_at] in *. destruct (aff_inj _ _ _ _ EA') as [EX EY].
  replace (omul T (up (te_X F one d g)) (omul T (o1 T) (o1 T))) with (up (te_X F one d g)) in * by ring.
  replace (omul T (up (te_X F one d y)) (omul T (o1 T) (o1 T))) with (up (te_X F one d y)) in * by ring.
  assert (Ey : y = g).
  { apply upI in EX. destruct (rk_dec F RF y g) as [|N]; [assumption|exfalso]. apply (te_X_ne F one d FK N2F N3F NadF y g M1 M2) in N. now apply N. }
  subst y.
  assert (Ex : x = oopp F p).
  { destruct (te_same_y F one d FK NadF x p g O OP Nx) as [->|]; [exfalso|assumption].
    apply (te_Y_ne F one d FK N2F N3F NadF p g OP Np). apply upI. rewrite upA, up0.
    assert (EY' : oopp T (up (te_Y F one d p g)) = up (te_Y F one d p g)).
    { transitivity (oopp T (omul T (up (te_Y F one d p g)) (omul T (omul T (o1 T) (o1 T)) (o1 T)))); [ring|].
      etransitivity; [exact EY|]. ring. }
    rewrite <- EY' at 1. ring. }
  subst x. rewrite (edw_add_last F FK p g z). cbv zeta. cbn [snd]. set (c := oopp F _).
  assert (Nc : c <> o0 F).
  { intros Z. apply (opp_0 F FK) in Z. revert Z. repeat apply (fk_mul_neq_0 F FK); auto. }
  assert (Et : tg (o0 F, c, oopp F (omul F g c)) = emb (omul G (e1 c) (osub G yQ (e1 g)))).
  { unfold tate_g, quad_emb. rewrite !Hs, e1_0, e1_opp, e1_mul. apply (f_equal2 pair); ring. }
  assert (Nyg : osub G yQ (e1 g) <> o0 G).
  { intros Z. apply NV. assert (Eq : yQ = e1 g) by now apply (rk_sub_0 G RG). rewrite Eq.
    unfold te_X. repeat rewrite ?upM, ?upA, ?upS, ?up1. unfold te_u. 
    assert (N1g : osub T (o1 T) (up g) <> o0 T) by (rewrite <- up1, <- upS, <- up0; intros Z'; apply upI in Z'; contradiction).
    replace (up (tdiv F (oadd F one g) (osub F one g))) with (tdiv T (oadd T (o1 T) (up g)) (osub T (o1 T) (up g))); [ring|].
    apply (tdiv_eq T TK _ _ _ N1g). rewrite <- up1, <- upA, <- upS, <- upM. do 2 f_equal. field. exact M2. }
  rewrite Et. pose proof (kill_UX _ NV) as KV. set (V := osub T UX (up (te_X F one d g))) in *.
  assert (K1 : kill (emb (omul G (e1 c) (osub G yQ (e1 g))))).
  { apply kill_emb. apply (fk_mul_neq_0 G GK); auto. }
  set (f := emb (omul G (e1 c) (osub G yQ (e1 g)))) in *. exists (omul T f (tinv T V)). split.
  - apply (kill_mul T kill KL); [exact K1|]. now apply (kill_inv T kill KL).
  - clearbody V f. unfold tdiv. rewrite (BilinearTwelve.tinv_1 T TK). field. exact NV.
Qed.
Variables (rr : bigint) (n : positive).
Hypothesis Lrr : limbs rr.
Hypothesis Hrr : val rr = Z.pos n~1.
Definition tate_raw (P : K * K * K) (Q : L * L * L) : result (L * L) :=
  prec_P <- tate_precompute_G1 F rr P ;;
  prec_Q <- tate_precompute_G2 G mnr Q ;;
  miller_value (tate_miller_loop_idx G scale T rr e1 prec_P prec_Q).
Lemma tate_prec_Q Q : edw_ok G nu d' Q -> edw_den G Q = (xQ, yQ) -> tate_precompute_G2 G mnr Q = Ok (yQ, eta).
Proof.
  intros OQ DQ. unfold tate_precompute_G2. rewrite (edw_to_affine_spec G GK nu d' Q OQ), DQ. cbn [bind fst snd].
  assert (N1 : omul G nu xQ <> o0 G) by now apply (fk_mul_neq_0 G GK).
  destruct (tinv_spec G GK (o1 G) (fk_1_neq_0 G GK)) as [-> _]. cbn [bind]. rewrite Hmnr.
  destruct (tinv_spec G GK _ N1) as [-> I]. cbn [bind]. f_equal. apply (f_equal2 pair).
  - rewrite (BilinearTwelve.tinv_1 G GK). ring.
  - rewrite <- Heta. transitivity (omul G eta (omul G (tinv G (omul G nu xQ)) (omul G nu xQ))); [ring|]. rewrite I. ring.
Qed.
Theorem tate_miller P Q : edw_ok F one d P -> edw_den F P = (p, g) -> edw_ok G nu d' Q -> edw_den G Q = (xQ, yQ) ->
  regular T ta n~0 Pt UX -> mult T ta n~0 Pt = sw_opp T Pt ->
  exists f, tate_raw P Q = Ok f /\ upto T kill f (miller T ta n~1 Pt UX UY).
Proof.
  intros OP DP OQ DQ Rg HM. unfold tate_raw. rewrite (tate_prec_Q Q OQ DQ). unfold tate_precompute_G1.
  rewrite (edw_to_affine_spec F FK one d P OP), DP. cbn [bind fst snd].
  destruct (miller_last T TK ta kill KL trep dstep astep tg tg Pt UX UY t_dbl t_add t_vert _ n trep_0 Rg) as (R & cs & f & E1 & U & E2).
  { intros R. rewrite HM. apply t_last. }
  rewrite bit_loop_skip by (auto; apply loop_bound; auto). rewrite Hrr.
  rewrite (mfold_ext _ (push_body dstep astep)).
  2:{ intros b [R0 cs0]. unfold edw_precompute_body, push_body. destruct (dstep R0) as [R1 l1]. destruct b; reflexivity. }
  rewrite E1. cbn [bind]. unfold tate_miller_loop_idx.
  rewrite bit_loop_skip by (auto; apply loop_bound; auto). rewrite Hrr.
  rewrite (mfold_ext _ (one_body T tg tg cs)) by (intros; apply (edw_body_one T RT)).
  specialize (E2 []). rewrite app_nil_r in E2. rewrite E2. exists f. split; [reflexivity|exact U].
Qed.
End Eval.
End Edw.
