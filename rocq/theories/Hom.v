(** Computing in the extension fields over the model's prime fields with plain
    integers modulo p: maps that commute with the field operations, and their
    lifting to the tower constructions.  Used to check concrete constants. *)
From Coq Require Import ZArith List Bool Lia.
From Verif Require Import Result Limbs LimbsProofs Algebra FieldOps FpModel FpSpec FpProofs FpField FpInst ExtModel Mul63.
Import ListNotations.
Open Scope Z_scope.

(** Integers modulo p; no inverse. *)
Definition zq_ctx (c : mctx) : Fops Z :=
  let p := mc_m c in
  {| o0 := 0; o1 := 1; oadd a b := fmod p (a + b); osub a b := fmod p (a - b); omul := mulmod c;
     oopp a := fmod p (- a); osqr a := mulmod c a a; oinv := fun _ => UB; oeqb := Z.eqb |}.
Definition zq (p : Z) : Fops Z := zq_ctx (mk_ctx p).

Record hom {A B} (F : Fops A) (G : Fops B) (h : A -> B) (lift : B -> A) (rng : B -> bool) : Prop := {
  hm_0 : h (o0 F) = o0 G;
  hm_1 : h (o1 F) = o1 G;
  hm_add : forall x y, h (oadd F x y) = oadd G (h x) (h y);
  hm_sub : forall x y, h (osub F x y) = osub G (h x) (h y);
  hm_mul : forall x y, h (omul F x y) = omul G (h x) (h y);
  hm_opp : forall x, h (oopp F x) = oopp G (h x);
  hm_sqr : forall x, h (osqr F x) = osqr G (h x);
  hm_inj : forall x y, h x = h y -> x = y;
  hm_lift : forall b, rng b = true -> h (lift b) = b;
  hm_eqb : forall a b, oeqb G a b = true <-> a = b
}.
Arguments hm_inj {A B F G h lift rng} _ {x y}.
Arguments hm_lift {A B F G h lift rng} _ {b}.

(** Left-to-right binary powering. *)
Fixpoint bpow {B} (G : Fops B) (x : B) (e : positive) : B :=
  match e with
  | xH => x
  | xO e' => let y := bpow G x e' in omul G y y
  | xI e' => let y := bpow G x e' in omul G x (omul G y y)
  end.

Lemma bpow_spec {A} (F : Fops A) (R : ring_ok F) x e : bpow F x e = fpow F x (Pos.to_nat e).
Proof.
  pose proof (rk_monoid F R) as M. induction e; cbn [bpow]; cbv zeta.
  - rewrite IHe, Pos2Nat.inj_xI, <- (npow_double _ _ M). reflexivity.
  - rewrite IHe, Pos2Nat.inj_xO. now rewrite (npow_double _ _ M).
  - symmetry. apply (npow_1 _ _ M).
Qed.
Lemma hom_bpow {A B} (F : Fops A) (G : Fops B) h lift rng (H : hom F G h lift rng) x e :
  h (bpow F x e) = bpow G (h x) e.
Proof.
  induction e; cbn [bpow]; cbv zeta; rewrite ?(hm_mul _ _ _ _ _ H), ?IHe; reflexivity.
Qed.
Lemma hom_pow {A B} (F : Fops A) (G : Fops B) h lift rng (R : ring_ok F) (H : hom F G h lift rng) x e :
  h (fpow F x (Pos.to_nat e)) = bpow G (h x) e.
Proof. rewrite <- (bpow_spec F R). apply (hom_bpow F G h lift rng H). Qed.

(** ** Quadratic and cubic towers *)
Definition map2 {A B} (f : A -> B) (x : A * A) : B * B := (f (fst x), f (snd x)).
Definition map3 {A B} (f : A -> B) (x : A * A * A) : B * B * B := (f (fst (fst x)), f (snd (fst x)), f (snd x)).
Definition rng2 {B} (r : B -> bool) (x : B * B) : bool := r (fst x) && r (snd x).
Definition rng3 {B} (r : B -> bool) (x : B * B * B) : bool := r (fst (fst x)) && r (snd (fst x)) && r (snd x).

Section Towers.
Context {A B : Type} (F : Fops A) (G : Fops B) (h : A -> B) (lift : B -> A) (rng : B -> bool).
Hypothesis H : hom F G h lift rng.
Local Ltac push := rewrite ?(hm_0 _ _ _ _ _ H), ?(hm_1 _ _ _ _ _ H), ?(hm_add _ _ _ _ _ H), ?(hm_sub _ _ _ _ _ H),
  ?(hm_mul _ _ _ _ _ H), ?(hm_opp _ _ _ _ _ H), ?(hm_sqr _ _ _ _ _ H).

Lemma hom_quad mF mG : (forall x, h (mF x) = mG (h x)) ->
  hom (quad_ops F mF) (quad_ops G mG) (map2 h) (map2 lift) (rng2 rng).
Proof.
  intros Hm. constructor; unfold map2.
  - cbn. now push.
  - cbn. now push.
  - intros [a b] [c d]. cbn. now push.
  - intros [a b] [c d]. cbn. now push.
  - intros [a b] [c d]. cbn. do 4 (push; rewrite ?Hm). reflexivity.
  - intros [a b]. cbn. now push.
  - intros [a b]. cbn. do 4 (push; rewrite ?Hm). reflexivity.
  - intros [a b] [c d]. cbn. intros E. inversion E as [[E1 E2]].
    now rewrite (hm_inj H E1), (hm_inj H E2).
  - intros [a b]. unfold rng2. cbn. rewrite andb_true_iff. intros [H1 H2].
    now rewrite (hm_lift H H1), (hm_lift H H2).
  - intros [a b] [c d]. cbn. rewrite andb_true_iff, !(hm_eqb _ _ _ _ _ H). split; [intros [-> ->]; reflexivity|].
    intros E. now inversion E.
Qed.
Lemma hom_cubic mF mG : (forall x, h (mF x) = mG (h x)) ->
  hom (cubic_ops F mF) (cubic_ops G mG) (map3 h) (map3 lift) (rng3 rng).
Proof.
  intros Hm. constructor; unfold map3.
  - cbn. now push.
  - cbn. now push.
  - intros [[a b] c] [[d e] f]. cbn. now push.
  - intros [[a b] c] [[d e] f]. cbn. now push.
  - intros [[a b] c] [[d e] f]. cbn. do 4 (push; rewrite ?Hm). reflexivity.
  - intros [[a b] c]. cbn. now push.
  - intros [[a b] c]. cbn. do 4 (push; rewrite ?Hm). reflexivity.
  - intros [[a b] c] [[d e] f]. cbn. intros E. inversion E as [[E1 E2 E3]].
    now rewrite (hm_inj H E1), (hm_inj H E2), (hm_inj H E3).
  - intros [[a b] c]. unfold rng3. cbn. rewrite !andb_true_iff. intros [[H1 H2] H3].
    now rewrite (hm_lift H H1), (hm_lift H H2), (hm_lift H H3).
  - intros [[a b] c] [[d e] f]. cbn. rewrite !andb_true_iff, !(hm_eqb _ _ _ _ _ H).
    split; [intros [[-> ->] ->]; reflexivity|]. intros E. now inversion E.
Qed.
Lemma hom_fp2 nr : rng nr = true ->
  hom (fp2_ops F (lift nr)) (fp2_ops G nr) (map2 h) (map2 lift) (rng2 rng).
Proof. intros E. apply hom_quad. intros x. push. now rewrite (hm_lift H E). Qed.
Lemma hom_fp3 nr : rng nr = true ->
  hom (fp3_ops F (lift nr)) (fp3_ops G nr) (map3 h) (map3 lift) (rng3 rng).
Proof. intros E. apply hom_cubic. intros x. push. now rewrite (hm_lift H E). Qed.
Lemma hom_rot nr : rng nr = true -> forall x, map3 h (rot_mnr F (lift nr) x) = rot_mnr G nr (map3 h x).
Proof. intros E [[a b] c]. unfold map3. cbn. push. now rewrite (hm_lift H E). Qed.
Lemma hom_fp4_mnr nr : rng nr = true -> forall x, map2 h (fp4_mnr F (lift nr) x) = fp4_mnr G nr (map2 h x).
Proof. intros E [a b]. unfold map2. cbn. push. now rewrite (hm_lift H E). Qed.
End Towers.

Section Towers2.
Context {A B : Type} (F : Fops A) (G : Fops B) (h : A -> B) (lift : B -> A) (rng : B -> bool).
Hypothesis H : hom F G h lift rng.
Lemma hom_fp4 nr2 nr4 : rng nr2 = true -> rng nr4 = true ->
  hom (fp4_ops F (lift nr2) (lift nr4)) (fp4_ops G nr2 nr4) (map2 (map2 h)) (map2 (map2 lift)) (rng2 (rng2 rng)).
Proof.
  intros E2 E4. apply hom_quad; [now apply hom_fp2|]. now apply (hom_fp4_mnr F G h lift rng).
Qed.
Lemma hom_fp6_2over3 nr3 nr6 : rng nr3 = true -> rng nr6 = true ->
  hom (fp6_2over3_ops F (lift nr3) (lift nr6)) (fp6_2over3_ops G nr3 nr6)
    (map2 (map3 h)) (map2 (map3 lift)) (rng2 (rng3 rng)).
Proof.
  intros E2 E4. apply hom_quad; [now apply hom_fp3|]. now apply (hom_rot F G h lift rng).
Qed.
Lemma hom_fp6_3over2 nr2 nr6 : rng nr2 = true -> rng2 rng nr6 = true ->
  hom (fp6_3over2_ops F (lift nr2) (map2 lift nr6)) (fp6_3over2_ops G nr2 nr6)
    (map3 (map2 h)) (map3 (map2 lift)) (rng3 (rng2 rng)).
Proof.
  intros E2 E6. apply (hom_fp3 _ _ (map2 h) (map2 lift) (rng2 rng)); auto. now apply hom_fp2.
Qed.
Lemma hom_fp12 nr2 nr6 nr12 : rng nr2 = true -> rng2 rng nr6 = true -> rng2 rng nr12 = true ->
  hom (fp12_ops F (lift nr2) (map2 lift nr6) (map2 lift nr12)) (fp12_ops G nr2 nr6 nr12)
    (map2 (map3 (map2 h))) (map2 (map3 (map2 lift))) (rng2 (rng3 (rng2 rng))).
Proof.
  intros E2 E6 E12. apply hom_quad; [now apply hom_fp6_3over2|].
  apply (hom_rot _ _ (map2 h) (map2 lift) (rng2 rng)); auto. now apply hom_fp2.
Qed.
End Towers2.

(** ** The prime field *)
Definition rngZ (p : Z) (a : Z) : bool := (0 <=? a) && (a <? p).
Lemma hom_fp P OK OKI : ctx_check (val (fp_modulus P)) = true ->
  hom (fp_ops P OK OKI) (zq (val (fp_modulus P))) (toZ P) (fofZ P OK) (rngZ (val (fp_modulus P))).
Proof.
  intros Hc. pose proof (p_gt1 P OK) as Hp. constructor.
  - apply (toZ_zero P OK).
  - apply (toZ_one P OK).
  - intros x y. unfold zq, zq_ctx. cbn [oadd mc_m mk_ctx]. unfold mk_ctx. cbn [mc_m].
    rewrite fmod_spec by exact Hp. apply (toZ_add P OK).
  - intros x y. unfold zq, zq_ctx. cbn [osub]. unfold mk_ctx. cbn [mc_m].
    rewrite fmod_spec by exact Hp. apply (toZ_sub P OK).
  - intros x y. unfold zq, zq_ctx. cbn [omul]. rewrite mulmod_spec by exact Hc. apply (toZ_mul P OK).
  - intros x. unfold zq, zq_ctx. cbn [oopp]. unfold mk_ctx. cbn [mc_m].
    rewrite fmod_spec by exact Hp. apply (toZ_opp P OK).
  - intros x. rewrite (rk_sqr _ (fp_ops_ring P OK OKI)). unfold zq, zq_ctx. cbn [osqr].
    rewrite mulmod_spec by exact Hc. apply (toZ_mul P OK).
  - apply (toZ_inj P OK).
  - intros b E. unfold rngZ in E. apply andb_true_iff in E as [E1 E2].
    apply Z.leb_le in E1. apply Z.ltb_lt in E2.
    pose proof (ok_half P OK). rewrite (toZ_ofZ P OK) by lia. apply Z.mod_small. lia.
  - intros a b. apply Z.eqb_eq.
Qed.
