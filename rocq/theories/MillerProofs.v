(** The Miller loops of the code against [MillerSpec]: a twist, the affine
    addition on both sides, and the simulation of the loops. *)
From Coq Require Import ZArith List Bool Ring Field Lia.
From Verif Require Import Result Algebra Limbs LimbsProofs FieldOps CurveSpec CurveGroup CurveModel CurveProofs MillerSpec
  PairingModel PairingSpec PairingProofs.
Import ListNotations.

(** ** Sums and lines from a slope *)
Section Slope.
Context {T : Type} (F : Fops T) (FK : field_ok F) (a : T).
Let R : ring_ok F := fk_ring F FK.
Add Field MSfield : (fk_field F FK).
Local Notation "0" := (o0 F).
Local Notation "x + y" := (oadd F x y).
Local Notation "x - y" := (osub F x y).
Local Notation "x * y" := (omul F x y).
Local Notation "- x" := (oopp F x).

Lemma opp_ne y : y + y <> 0 -> oeqb F y (- y) = false.
Proof. intros N. apply (rk_eqb_neq F R). intros E. apply N. rewrite E at 1. ring. Qed.

Definition third (l x1 y1 x2 : T) : apt T := let x3 := l * l - x1 - x2 in Aff x3 (l * (x1 - x3) - y1).
Definition line_val (l x y xP yP : T) : T := yP - y - l * (xP - x).

Lemma dbl_slope x y l : y + y <> 0 -> l * (y + y) = x * x + x * x + x * x + a ->
  sw_add F a (Aff x y) (Aff x y) = third l x y x /\
  forall xP yP, line_at F a (Aff x y) (Aff x y) xP yP = line_val l x y xP yP.
Proof.
  intros N H. assert (E : tdiv F (x * x + x * x + x * x + a) (y + y) = l) by (apply (tdiv_eq F FK); auto).
  unfold sw_add, line_at, slope. rewrite (rk_eqb_refl F R), opp_ne by auto. cbn [andb]. rewrite E. now split.
Qed.
Lemma add_slope x1 y1 x2 y2 l : x1 <> x2 -> l * (x2 - x1) = y2 - y1 ->
  sw_add F a (Aff x1 y1) (Aff x2 y2) = third l x1 y1 x2 /\
  forall xP yP, line_at F a (Aff x1 y1) (Aff x2 y2) xP yP = line_val l x1 y1 xP yP.
Proof.
  intros N H. assert (N2 : x2 - x1 <> 0) by (intros Z; apply N; symmetry; now apply (rk_sub_0 F R)).
  assert (E : tdiv F (y2 - y1) (x2 - x1) = l) by (apply (tdiv_eq F FK); auto).
  unfold sw_add, line_at, slope. rewrite (proj2 (rk_eqb_neq F R x1 x2) N). cbn [andb]. rewrite E. now split.
Qed.
Lemma third_swap l x1 y1 x2 y2 : l * (x2 - x1) = y2 - y1 -> third l x1 y1 x2 = third l x2 y2 x1.
Proof.
  intros H. unfold third. replace y2 with (l * (x2 - x1) + y1) by (rewrite H; ring). f_equal; ring.
Qed.
Lemma line_val_swap l x1 y1 x2 y2 xP yP : l * (x2 - x1) = y2 - y1 -> line_val l x1 y1 xP yP = line_val l x2 y2 xP yP.
Proof. intros H. unfold line_val. replace y2 with (l * (x2 - x1) + y1) by (rewrite H; ring). ring. Qed.
End Slope.

(** ** Twists.  [emb] embeds the twist's field; (x, y) on the twist is
    (x u^2, y u^3) on the curve. *)
Section Twist.
Context {E T : Type} (G : Fops E) (GK : field_ok G) (F : Fops T) (FK : field_ok F) (emb : E -> T) (u : T).
Hypothesis emb_0 : emb (o0 G) = o0 F.
Hypothesis emb_add : forall x y, emb (oadd G x y) = oadd F (emb x) (emb y).
Hypothesis emb_sub : forall x y, emb (osub G x y) = osub F (emb x) (emb y).
Hypothesis emb_mul : forall x y, emb (omul G x y) = omul F (emb x) (emb y).
Hypothesis emb_inj : forall x y, emb x = emb y -> x = y.
Hypothesis u_0 : u <> o0 F.
Variable a' : E.
Let R : ring_ok F := fk_ring F FK.
Let RG : ring_ok G := fk_ring G GK.
Add Field MTfield : (fk_field F FK).
Add Field MGfield : (fk_field G GK).
Local Notation "x * y" := (omul F x y).
Definition tw_a : T := emb a' * (u * u * (u * u)).
Local Notation psi := (psi F emb u).

Lemma emb_neq x : x <> o0 G -> emb x <> o0 F.
Proof. intros N H. apply N. apply emb_inj. now rewrite emb_0. Qed.
Lemma psi_third l x1 y1 x2 : psi (third G l x1 y1 x2) =
  third F (emb l * u) (emb x1 * (u * u)) (emb y1 * (u * u * u)) (emb x2 * (u * u)).
Proof. unfold third, psi. repeat rewrite ?emb_sub, ?emb_mul. f_equal; ring. Qed.
Lemma u2_inj x y : emb x * (u * u) = emb y * (u * u) -> x = y.
Proof. intros H. apply emb_inj. apply (fk_mul_cancel F FK _ _ (u * u)); auto. now apply fk_mul_neq_0. Qed.
Lemma u3_0 y : oadd F (emb y * (u * u * u)) (emb y * (u * u * u)) <> o0 F <-> oadd G y y <> o0 G.
Proof.
  replace (oadd F (emb y * (u * u * u)) (emb y * (u * u * u))) with (emb (oadd G y y) * (u * u * u)) by (rewrite emb_add; ring).
  split; intros N H; apply N.
  - rewrite H, emb_0. ring.
  - apply (fk_mul_0 F FK) in H. destruct H as [H|H].
    + apply emb_inj. now rewrite emb_0.
    + exfalso. revert H. repeat apply fk_mul_neq_0; auto.
Qed.

(** Doubling and adding on the twist. *)
Lemma psi_dbl x y l : oadd G y y <> o0 G -> omul G l (oadd G y y) = oadd G (oadd G (oadd G (omul G x x) (omul G x x)) (omul G x x)) a' ->
  psi (third G l x y x) = sw_add F tw_a (psi (Aff x y)) (psi (Aff x y)) /\
  forall xP yP, line_at F tw_a (psi (Aff x y)) (psi (Aff x y)) xP yP =
    line_val F (emb l * u) (emb x * (u * u)) (emb y * (u * u * u)) xP yP.
Proof.
  intros N H. cbn [psi]. rewrite psi_third.
  destruct (dbl_slope F FK tw_a (emb x * (u * u)) (emb y * (u * u * u)) (emb l * u)) as [-> L].
  - now apply u3_0.
  - unfold tw_a. apply (f_equal emb) in H. repeat rewrite ?emb_add, ?emb_mul in H.
    transitivity (emb l * (oadd F (emb y) (emb y)) * (u * u * (u * u))); [ring|]. rewrite H. ring.
  - now split.
Qed.
Lemma psi_addition x1 y1 x2 y2 l : x1 <> x2 -> omul G l (osub G x2 x1) = osub G y2 y1 ->
  psi (third G l x1 y1 x2) = sw_add F tw_a (psi (Aff x1 y1)) (psi (Aff x2 y2)) /\
  forall xP yP, line_at F tw_a (psi (Aff x1 y1)) (psi (Aff x2 y2)) xP yP =
    line_val F (emb l * u) (emb x1 * (u * u)) (emb y1 * (u * u * u)) xP yP.
Proof.
  intros N H. cbn [psi]. rewrite psi_third.
  destruct (add_slope F FK tw_a (emb x1 * (u * u)) (emb y1 * (u * u * u)) (emb x2 * (u * u)) (emb y2 * (u * u * u)) (emb l * u)) as [-> L].
  - intros X. apply N. now apply u2_inj.
  - apply (f_equal emb) in H. rewrite emb_mul, !emb_sub in H.
    transitivity (emb l * (osub F (emb x2) (emb x1)) * (u * u * u)); [ring|]. rewrite H. ring.
  - now split.
Qed.
End Twist.

(** ** The loops.  [rep R A]: the state R stands for the point A.  [kill]: the
    factors the final exponentiation removes. *)
Record kills {T} (F : Fops T) (kill : T -> Prop) : Prop := {
  kill_0 : forall k, kill k -> k <> o0 F;
  kill_1 : kill (o1 F);
  kill_mul : forall k l, kill k -> kill l -> kill (omul F k l);
  kill_inv : forall k, kill k -> kill (tinv F k)
}.
(** Equal up to such a factor. *)
Definition upto {T} (F : Fops T) (kill : T -> Prop) (f g : T) : Prop := exists k, kill k /\ f = omul F k g.

Section Upto.
Context {T : Type} (F : Fops T) (FK : field_ok F) (kill : T -> Prop) (KL : kills F kill).
Add Field MUfield : (fk_field F FK).
Lemma upto_refl f : upto F kill f f.
Proof. exists (o1 F). split; [apply (kill_1 F kill KL)|ring]. Qed.
Lemma upto_mul f g f' g' : upto F kill f g -> upto F kill f' g' -> upto F kill (omul F f f') (omul F g g').
Proof.
  intros (k & K & ->) (l & L & ->). exists (omul F k l). split; [now apply (kill_mul F kill KL)|ring].
Qed.
Lemma upto_inv f g : g <> o0 F -> upto F kill f g -> upto F kill (tinv F f) (tinv F g).
Proof.
  intros N (k & K & ->). exists (tinv F k). split; [now apply (kill_inv F kill KL)|].
  field. split; auto. now apply (kill_0 F kill KL).
Qed.
Lemma upto_0 f g : upto F kill f g -> f = o0 F <-> g = o0 F.
Proof.
  intros (k & K & ->). split; [|intros ->; ring]. intros H. apply (fk_mul_0 F FK) in H. destruct H; auto.
  exfalso. now apply (kill_0 F kill KL k).
Qed.
(** Dropping a vertical line. *)
Lemma upto_div f g v : upto F kill f g -> v <> o0 F -> kill v -> upto F kill f (tdiv F g v).
Proof.
  intros (k & K & ->) N V. exists (omul F k v). split; [now apply (kill_mul F kill KL)|]. field. auto.
Qed.
End Upto.

Section Loop.
Context {T St A : Type} (F : Fops T) (FK : field_ok F) (a : T) (kill : T -> Prop) (KL : kills F kill).
Variables (rep : St -> apt T -> Prop) (dbl add : St -> St * A) (ln1 ln2 : A -> T) (Q : apt T) (xP yP : T).
Hypothesis dbl_ok : forall R S, rep R S -> regular_dbl F a S xP ->
  rep (fst (dbl R)) (sw_add F a S S) /\ upto F kill (ln1 (snd (dbl R))) (line_at F a S S xP yP).
Hypothesis add_ok : forall R S, rep R S -> regular_add F a S Q xP ->
  rep (fst (add R)) (sw_add F a S Q) /\ upto F kill (ln2 (snd (add R))) (line_at F a S Q xP yP).
Hypothesis vert_ok : forall R S, rep R S -> vertical_at F S xP <> o0 F -> kill (vertical_at F S xP).

Lemma dbl_ratio R S : rep R S -> regular_dbl F a S xP ->
  rep (fst (dbl R)) (sw_add F a S S) /\ upto F kill (ln1 (snd (dbl R))) (line_ratio F a S S xP yP).
Proof.
  intros H N. destruct (dbl_ok R S H N) as [H1 H2]. split; auto. unfold line_ratio.
  assert (V : vertical_at F (sw_add F a S S) xP <> o0 F) by (unfold regular_dbl in N; destruct S; tauto).
  apply (upto_div F FK kill KL); eauto.
Qed.
Lemma add_ratio R S : rep R S -> regular_add F a S Q xP ->
  rep (fst (add R)) (sw_add F a S Q) /\ upto F kill (ln2 (snd (add R))) (line_ratio F a S Q xP yP).
Proof.
  intros H N. destruct (add_ok R S H N) as [H1 H2]. split; auto. unfold line_ratio.
  assert (V : vertical_at F (sw_add F a S Q) xP <> o0 F) by (unfold regular_add in N; destruct S, Q; tauto).
  apply (upto_div F FK kill KL); eauto.
Qed.

Lemma at_idx_app {B} (l1 : list B) x l2 : at_idx (l1 ++ x :: l2) (length l1) = Ok x.
Proof. unfold at_idx. rewrite nth_error_app2, Nat.sub_diag; auto. Qed.

Lemma miller_loop R0 n : rep R0 Q -> regular F a n Q xP ->
  exists R cs f, mfold (push_body dbl add) (below (Z.pos n)) (R0, []) = Ok (R, cs) /\
    rep R (mult F a n Q) /\ upto F kill f (miller F a n Q xP yP) /\
    forall ds, mfold (one_body F ln1 ln2 (cs ++ ds)) (below (Z.pos n)) (o1 F, O) = Ok (f, length cs).
Proof.
  intros H0. induction n as [n IH|n IH|]; cbn [regular mult miller].
  - intros (Hr & Hd & Ha). destruct (IH Hr) as (R & cs & f & E1 & H1 & U & E2). clear IH.
    destruct (dbl_ratio R _ H1 Hd) as [H2 U2]. destruct (add_ratio _ _ H2 Ha) as [H3 U3].
    change (Z.pos n~1) with (2 * Z.pos n + Z.b2z true)%Z. rewrite below_double.
    destruct (dbl R) as [R1 c1] eqn:ED. cbn [fst snd] in *. destruct (add R1) as [R2 c2] eqn:EA. cbn [fst snd] in *.
    exists R2, ((cs ++ [c1]) ++ [c2]), (omul F (omul F (omul F f f) (ln1 c1)) (ln2 c2)). split; [|split; [exact H3|split]].
    + rewrite mfold_app, E1. cbn [bind mfold]. unfold push_body. rewrite ED, EA. reflexivity.
    + repeat apply upto_mul; auto.
    + intros ds. rewrite mfold_app, <- !app_assoc, E2. cbn [bind mfold one_body app].
      rewrite at_idx_app. cbn [bind].
      replace (S (length cs)) with (length (cs ++ [c1])) by (rewrite app_length; cbn; lia).
      replace (cs ++ c1 :: c2 :: ds) with ((cs ++ [c1]) ++ c2 :: ds) by now rewrite <- app_assoc.
      rewrite at_idx_app. cbn [bind]. f_equal. f_equal. rewrite !app_length. cbn. lia.
  - intros (Hr & Hd). destruct (IH Hr) as (R & cs & f & E1 & H1 & U & E2). clear IH.
    destruct (dbl_ratio R _ H1 Hd) as [H2 U2].
    replace (Z.pos n~0) with (2 * Z.pos n + Z.b2z false)%Z by (cbn; lia). rewrite below_double.
    destruct (dbl R) as [R1 c1] eqn:ED. cbn [fst snd] in *.
    exists R1, (cs ++ [c1]), (omul F (omul F f f) (ln1 c1)). split; [|split; [exact H2|split]].
    + rewrite mfold_app, E1. cbn [bind mfold]. unfold push_body. rewrite ED. reflexivity.
    + repeat apply upto_mul; auto.
    + intros ds. rewrite mfold_app, <- !app_assoc, E2. cbn [bind mfold one_body app].
      rewrite at_idx_app. cbn [bind]. f_equal. f_equal. rewrite !app_length. cbn. lia.
  - intros _. exists R0, [], (o1 F). split; [reflexivity|]. split; [exact H0|]. split; [now apply upto_refl|].
    intros ds. reflexivity.
Qed.
End Loop.

(** The sum is on the curve. *)
Section ThirdOn.
Context {K : Type} (F : Fops K) (FK : field_ok F) (a b : K).
Let R : ring_ok F := fk_ring F FK.
Add Ring MOring : (rk_ring F (fk_ring F FK)).
Local Notation "x + y" := (oadd F x y).
Local Notation "x - y" := (osub F x y).
Local Notation "x * y" := (omul F x y).
Lemma line_third_on x1 y1 x2 y2 l : line F a b x1 y1 x2 y2 l -> sw_on F a b (third F l x1 y1 x2).
Proof.
  intros L. apply (line_third F FK) in L. apply (line_on2 F FK) in L. apply (sw_on_opp F FK) in L.
  cbn [sw_opp] in L. unfold third. cbv zeta.
  replace (l * (x1 - (l * l - x1 - x2)) - y1) with (oopp F (y1 + l * (l * l - x1 - x2 - x1))) by ring. exact L.
Qed.
Lemma third_dbl_on x y l : sw_on F a b (Aff x y) -> l * (y + y) = x * x + x * x + x * x + a -> sw_on F a b (third F l x y x).
Proof.
  intros O H. apply (line_third_on x y x y). apply (line_on F FK); auto; [ring|].
  transitivity (l * (y + y) - (x * x + x * x + x * x)); [|ring]. rewrite H. ring.
Qed.
Lemma third_add_on x1 y1 x2 y2 l : sw_on F a b (Aff x1 y1) -> sw_on F a b (Aff x2 y2) -> x1 <> x2 ->
  l * (x2 - x1) = y2 - y1 -> sw_on F a b (third F l x1 y1 x2).
Proof.
  intros O1 O2 N H. destruct (line_exists F FK a b x1 y1 x2 y2 O1 O2) as [l' L]; [intros; contradiction|].
  replace l with l'; [now apply (line_third_on x1 y1 x2 y2)|].
  assert (N2 : x2 - x1 <> o0 F) by (intros Z; apply N; symmetry; now apply (rk_sub_0 F R)).
  apply (fk_mul_cancel F FK _ _ (x2 - x1) N2). rewrite H. destruct L as (-> & _). ring.
Qed.
End ThirdOn.

(** Normalisation of a non-zero Jacobian point. *)
Section ToAffine.
Context {K : Type} (F : Fops K) (FK : field_ok F).
Add Ring MAring : (rk_ring F (fk_ring F FK)).
Lemma jac_to_affine_at A x y : jac_den F A = Aff x y -> jac_to_affine F A = Ok (x, y, o1 F).
Proof.
  intros D. destruct (jac_to_affine_spec F FK A) as (r & E & D' & Hr & _). rewrite E, D in *. f_equal.
  destruct Hr as [->|(x' & y' & ->)].
  - rewrite (jac_den_0 F FK) in D'. discriminate.
  - rewrite (jac_den_at F FK x' y') in D' by (first [apply (fk_1_neq_0 F FK) | ring]). now injection D' as -> ->.
Qed.
End ToAffine.
