(** Maps that commute with the field operations and with inverses, lifted to the
    towers, and the map from the prime fields of the model to [MontRing]. *)
From Coq Require Import ZArith List Bool Lia Znumtheory.
From Verif Require Import Result Limbs LimbsProofs Algebra FieldOps FpModel FpSpec FpProofs FpField FpInst ExtModel ExtFrob ExtInst
  CurveModel Hom HomCurve Mod63 MontRing.
Import ListNotations.
Open Scope Z_scope.

Record homi {A B} (F : Fops A) (G : Fops B) (h : A -> B) : Prop := {
  hi_hom : hom F G h (fun _ => o0 F) (fun _ => false);
  hi_eqb : forall x y, oeqb G (h x) (h y) = oeqb F x y;
  hi_inv : forall x, oinv G (h x) = rmap h (oinv F x)
}.

Section Push.
Context {A B : Type} {F : Fops A} {G : Fops B} {h : A -> B} (H : homi F G h).
Lemma hi_0 : h (o0 F) = o0 G. Proof. exact (hm_0 _ _ _ _ _ (hi_hom _ _ _ H)). Qed.
Lemma hi_1 : h (o1 F) = o1 G. Proof. exact (hm_1 _ _ _ _ _ (hi_hom _ _ _ H)). Qed.
Lemma hi_add x y : h (oadd F x y) = oadd G (h x) (h y). Proof. apply (hm_add _ _ _ _ _ (hi_hom _ _ _ H)). Qed.
Lemma hi_sub x y : h (osub F x y) = osub G (h x) (h y). Proof. apply (hm_sub _ _ _ _ _ (hi_hom _ _ _ H)). Qed.
Lemma hi_mul x y : h (omul F x y) = omul G (h x) (h y). Proof. apply (hm_mul _ _ _ _ _ (hi_hom _ _ _ H)). Qed.
Lemma hi_opp x : h (oopp F x) = oopp G (h x). Proof. apply (hm_opp _ _ _ _ _ (hi_hom _ _ _ H)). Qed.
Lemma hi_sqr x : h (osqr F x) = osqr G (h x). Proof. apply (hm_sqr _ _ _ _ _ (hi_hom _ _ _ H)). Qed.
Lemma hi_eqb0 x : oeqb G (h x) (o0 G) = oeqb F x (o0 F). Proof. rewrite <- hi_0. apply (hi_eqb _ _ _ H). Qed.
Lemma hi_tinv x : tinv G (h x) = h (tinv F x).
Proof. unfold tinv. rewrite (hi_inv _ _ _ H). destruct (oinv F x); cbn; auto using hi_0. all: symmetry; apply hi_0. Qed.
End Push.
Ltac push H := repeat rewrite ?(hi_0 H), ?(hi_1 H), ?(hi_add H), ?(hi_sub H), ?(hi_mul H), ?(hi_opp H), ?(hi_sqr H).
(** Pull the map out of the operations of the copy. *)
Ltac pull H := rewrite <- ?(hi_0 H), <- ?(hi_1 H); repeat (rewrite <- ?(hi_add H), <- ?(hi_sub H), <- ?(hi_mul H), <- ?(hi_opp H), <- ?(hi_sqr H)).

Section Towers.
Context {A B : Type} {F : Fops A} {G : Fops B} {h : A -> B} (H : homi F G h).
Lemma homi_quad mF mG : (forall x, h (mF x) = mG (h x)) -> homi (quad_ops F mF) (quad_ops G mG) (map2 h).
Proof.
  intros Hm. pose proof (hom_quad F G h _ _ (hi_hom _ _ _ H) mF mG Hm) as Q. constructor.
  - destruct Q as [q0 q1 q2 q3 q4 q5 q6 q7 q8 q9]. constructor; auto; discriminate.
  - intros [a b] [c d]. cbn. now rewrite !(hi_eqb _ _ _ H).
  - intros [a b]. unfold map2. cbn. rewrite <- !(hi_sqr H), <- Hm, <- (hi_sub H), (hi_inv _ _ _ H).
    destruct (oinv F _); cbn; [|reflexivity..]. now push H.
Qed.
Lemma homi_cubic mF mG : (forall x, h (mF x) = mG (h x)) -> homi (cubic_ops F mF) (cubic_ops G mG) (map3 h).
Proof.
  intros Hm. pose proof (hom_cubic F G h _ _ (hi_hom _ _ _ H) mF mG Hm) as Q. constructor.
  - destruct Q as [q0 q1 q2 q3 q4 q5 q6 q7 q8 q9]. constructor; auto; discriminate.
  - intros [[a b] c] [[a' b'] c']. cbn. now rewrite !(hi_eqb _ _ _ H).
  - intros [[a b] c]. unfold map3. cbn.
    repeat (pull H; rewrite <- ?Hm). rewrite (hi_inv _ _ _ H).
    destruct (oinv F _); cbn; [|reflexivity..]. now push H.
Qed.
End Towers.

(** The low n limbs of z as an element. *)
Definition mont_e (C : rctx) (n : nat) (z : Z) : list PrimInt63.int := r_of C (z mod Bn n).
(** ** The prime field *)
Section Prime.
Variables (P : fp_params) (OK : fp_ok P) (OKI : fp_ok_inv P).
Notation p := (val (fp_modulus P)).
Hypothesis CK : rctx_check p = true.
Notation C := (mk_rctx p).
Definition mont (x : Fp P) : list PrimInt63.int := r_of C (toZ P x).
Let F := fp_ops P OK OKI.
Lemma mont_hom : hom F (r_ops C) mont (fun _ => o0 F) (fun _ => false).
Proof.
  constructor; unfold mont.
  - cbn [o0 r_ops]. rewrite (r_of_0 p CK). now rewrite (toZ_zero P OK : toZ P (o0 F) = 0).
  - cbn [o1 r_ops]. rewrite (r_of_1 p). now rewrite (toZ_one P OK : toZ P (o1 F) = 1).
  - intros x y. cbn [oadd r_ops]. rewrite (r_of_add p CK), <- (r_of_mod p CK (_ + _)). f_equal. apply (toZ_add P OK).
  - intros x y. cbn [osub r_ops]. rewrite (r_of_sub p CK), <- (r_of_mod p CK (_ - _)). f_equal. apply (toZ_sub P OK).
  - intros x y. cbn [omul r_ops]. rewrite (r_of_mul p CK), <- (r_of_mod p CK (_ * _)). f_equal. apply (toZ_mul P OK).
  - intros x. cbn [oopp r_ops]. rewrite (r_of_0 p CK), (r_of_sub p CK), <- (r_of_mod p CK (_ - _)). f_equal. apply (toZ_opp P OK).
  - intros x. rewrite (rk_sqr _ (fp_ops_ring P OK OKI)). cbn [osqr r_ops]. rewrite (r_of_mul p CK), <- (r_of_mod p CK (_ * _)). f_equal. apply (toZ_mul P OK).
  - intros x y E. apply (r_of_inj p CK) in E. rewrite !(toZ_mod P OK) in E. now apply (toZ_inj P OK).
  - discriminate.
  - intros a b. apply eql_spec.
Qed.
Lemma mont_of z : mont_e C (fp_n P) z = mont (fofZ P OK z).
Proof.
  symmetry. unfold mont, mont_e. destruct (fp_of_bigint_spec P OK (limbs_of (fp_n P) z)) as (r & E & Cn & D); auto using limbs_of_limbs, limbs_of_length.
  unfold toZ, fofZ. rewrite (repr_lift P _ _ r E), D, val_limbs_of. apply (r_of_mod p CK).
Qed.
Lemma mont_homi : homi F (r_ops C) mont.
Proof.
  pose proof mont_hom as H. constructor; [exact H|intros x y; symmetry; exact (hom_eqb F _ _ _ _ H (fp_ops_ring P OK OKI) x y)|].
  intros x. cbn [oinv r_ops]. unfold r_inv. pose proof (fp_ops_field P OK OKI) as FK. fold F in FK. pose proof (fk_ring F FK) as R.
  change (rc_z C) with (o0 (r_ops C)). change (eql (mont x) (o0 (r_ops C))) with (oeqb (r_ops C) (mont x) (o0 (r_ops C))).
  rewrite <- (hom_eqb0 F _ _ _ _ H R). destruct (rk_eqb_spec F R x (o0 F)) as [->|N].
  - now rewrite (fk_inv_0 F FK).
  - destruct (fk_inv F FK x N) as (y & E & M). rewrite E. change (rmap mont (Ok y)) with (Ok (mont y)). f_equal. change (mont x) with (r_of C (toZ P x)). rewrite (r_of_pow p CK).
    pose proof (p_gt1 P OK) as G1. assert (G2 : 2 < p).
    { pose proof CK as K. unfold rctx_check in K. cbv zeta in K. rewrite !andb_true_iff in K. destruct K as [[[O _] _] _].
      destruct (Z.eq_dec p 2) as [E2|]; [rewrite E2 in O; discriminate|lia]. }
    change (rc_m C) with p. rewrite Z2Pos.id by lia.
    assert (Y : y = fpow F x (Z.to_nat (p - 2))).
    { apply (fk_mul_cancel F FK _ _ x N). rewrite (rk_mul_comm F R y), M, (rk_mul_comm F R).
      symmetry. change (omul F x (fpow F x (Z.to_nat (p - 2)))) with (fpow F x (S (Z.to_nat (p - 2)))).
      replace (S (Z.to_nat (p - 2))) with (Z.to_nat (p - 1)) by lia. exact (fp_order P OK OKI x N). }
    rewrite Y. unfold mont. rewrite (toZ_pow P OK OKI x), (r_of_mod p CK), Z2Nat.id by lia. reflexivity.
Qed.
End Prime.
