(** Point multiplication computed with plain integers modulo p: the point
    formulas commute with the maps of [Hom]. *)
From Coq Require Import ZArith List Bool Lia.
From Verif Require Import Result Algebra FieldOps CurveSpec CurveGroup CurveModel CurveProofs GroupOps GroupProofs MillerSpec MillerRegular Hom TowerProofs.
Open Scope Z_scope.

(** Left-to-right double and add. *)
Fixpoint pmul {T} (dbl : T -> T) (add : T -> T -> T) (p : T) (n : positive) : T :=
  match n with
  | xH => p
  | xO n => dbl (pmul dbl add p n)
  | xI n => add (dbl (pmul dbl add p n)) p
  end.
Lemma pmul_map {A B} (f : A -> B) dbl add dbl' add' : (forall x, f (dbl x) = dbl' (f x)) -> (forall x y, f (add x y) = add' (f x) (f y)) ->
  forall p n, f (pmul dbl add p n) = pmul dbl' add' (f p) n.
Proof. intros Hd Ha p n. induction n as [n IH|n IH|]; cbn [pmul]; rewrite ?Ha, ?Hd, ?IH; reflexivity. Qed.
Lemma pmul_mult {K} (F : Fops K) a (ok : K * K * K -> Prop) (den : K * K * K -> apt K) dbl add :
  (forall p, ok p -> ok (dbl p) /\ den (dbl p) = sw_add F a (den p) (den p)) ->
  (forall p q, ok p -> ok q -> ok (add p q) /\ den (add p q) = sw_add F a (den p) (den q)) ->
  forall p n, ok p -> ok (pmul dbl add p n) /\ den (pmul dbl add p n) = mult F a n (den p).
Proof.
  intros Hd Ha p n O. induction n as [n [O1 IH]|n [O1 IH]|]; cbn [pmul mult]; auto.
  - destruct (Hd _ O1) as [O2 D2]. destruct (Ha _ _ O2 O) as [O3 D3]. split; auto. now rewrite D3, D2, IH.
  - destruct (Hd _ O1) as [O2 D2]. split; auto. now rewrite D2, IH.
Qed.

Section Formulas.
Context {A B : Type} (F : Fops A) (G : Fops B) (h : A -> B) (lift : B -> A) (rng : B -> bool).
Hypothesis H : hom F G h lift rng.
Hypothesis R : ring_ok F.
Local Ltac push := repeat rewrite ?(hm_0 _ _ _ _ _ H), ?(hm_1 _ _ _ _ _ H), ?(hm_add _ _ _ _ _ H), ?(hm_sub _ _ _ _ _ H),
  ?(hm_mul _ _ _ _ _ H), ?(hm_opp _ _ _ _ _ H), ?(hm_sqr _ _ _ _ _ H).
Lemma hom_eqb x y : oeqb F x y = oeqb G (h x) (h y).
Proof.
  destruct (oeqb F x y) eqn:E.
  - apply (rk_eqb F R) in E. subst y. symmetry. now apply (hm_eqb _ _ _ _ _ H).
  - destruct (oeqb G (h x) (h y)) eqn:E2; auto. apply (hm_eqb _ _ _ _ _ H) in E2. apply (hm_inj H) in E2.
    apply (rk_eqb F R) in E2. congruence.
Qed.
Lemma hom_eqb0 x : oeqb F x (o0 F) = oeqb G (h x) (o0 G).
Proof. now rewrite hom_eqb, (hm_0 _ _ _ _ _ H). Qed.

Lemma hom_jac_dbl p : map3 h (jac_dbl F p) = jac_dbl G (map3 h p).
Proof.
  destruct p as [[X Y] Z]. unfold map3. cbn [fst snd]. unfold jac_dbl, jac_is_zero. cbv zeta. rewrite <- hom_eqb0.
  destruct (oeqb F Z (o0 F)); cbn [fst snd]; [reflexivity|]. push. reflexivity.
Qed.
Lemma hom_jac_add p q : map3 h (jac_add F p q) = jac_add G (map3 h p) (map3 h q).
Proof.
  destruct p as [[X Y] Z], q as [[X2 Y2] Z2]. cbn [map3 fst snd]. unfold jac_add, jac_is_zero. cbv zeta. 
  change (map3 h (X, Y, Z)) with (h X, h Y, h Z). change (map3 h (X2, Y2, Z2)) with (h X2, h Y2, h Z2). cbv beta iota zeta.
  rewrite <- !hom_eqb0. destruct (oeqb F Z (o0 F)); [reflexivity|]. destruct (oeqb F Z2 (o0 F)); [reflexivity|].
  rewrite !hom_eqb. push.
  destruct (_ && _).
  - exact (hom_jac_dbl (X, Y, Z)).
  - unfold map3. cbn [fst snd]. push. reflexivity.
Qed.
Lemma hom_jac_eqb p q : jac_eqb F p q = jac_eqb G (map3 h p) (map3 h q).
Proof.
  destruct p as [[X Y] Z], q as [[X2 Y2] Z2]. unfold jac_eqb, jac_is_zero.
  change (map3 h (X, Y, Z)) with (h X, h Y, h Z). change (map3 h (X2, Y2, Z2)) with (h X2, h Y2, h Z2). cbv beta iota zeta.
  rewrite <- !hom_eqb0. rewrite !hom_eqb. push. reflexivity.
Qed.
Variables (maF : A -> A) (maG : B -> B).
Hypothesis Hma : forall x, h (maF x) = maG (h x).
Lemma hom_prj_core p : map3 h (prj_dbl_core F maF p) = prj_dbl_core G maG (map3 h p).
Proof.
  destruct p as [[X Y] Z]. change (map3 h (X, Y, Z)) with (h X, h Y, h Z). unfold prj_dbl_core. cbv zeta. unfold map3. cbn [fst snd].
  repeat (push; rewrite ?Hma). reflexivity.
Qed.
Lemma hom_prj_dbl p : map3 h (prj_dbl F maF p) = prj_dbl G maG (map3 h p).
Proof.
  unfold prj_dbl. rewrite <- hom_prj_core. destruct p as [[X Y] Z]. unfold prj_is_zero. change (map3 h (X, Y, Z)) with (h X, h Y, h Z).
  cbv beta iota. rewrite <- !hom_eqb0. destruct (_ && _); reflexivity.
Qed.
Lemma hom_prj_add p q : map3 h (prj_add F maF p q) = prj_add G maG (map3 h p) (map3 h q).
Proof.
  destruct p as [[X Y] Z], q as [[X2 Y2] Z2]. unfold prj_add, prj_is_zero.
  change (map3 h (X, Y, Z)) with (h X, h Y, h Z). change (map3 h (X2, Y2, Z2)) with (h X2, h Y2, h Z2). cbv beta iota zeta.
  rewrite <- !hom_eqb0. destruct (_ && _); [reflexivity|]. destruct (_ && _); [reflexivity|].
  rewrite !hom_eqb. push.
  destruct (_ && _).
  - exact (hom_prj_core (X, Y, Z)).
  - unfold map3. cbn [fst snd]. repeat (push; rewrite ?Hma). reflexivity.
Qed.
End Formulas.
