(** The type of canonical prime-field elements, its operations (the model
    functions of FpModel.v, which never fail on canonical elements), and the
    proof that they form a commutative ring, and a field for prime modulus. *)
From Coq Require Import ZArith List Lia Bool Znumtheory Eqdep_dec Ring_theory Field_theory.
From Verif Require Import Result Limbs LimbsProofs BigintModel BigintProofs FpModel FpSpec FpProofs.
Import ListNotations.
Open Scope Z_scope.

Section Fp.
Variable P : fp_params.

Definition Fp : Type := { l : list Z | canonb P l = true }.

Definition repr (x : Fp) : list Z := proj1_sig x.

Lemma repr_canon (x : Fp) : canon P (repr x).
Proof. apply canonb_iff. exact (proj2_sig x). Qed.

Lemma Fp_ext (x y : Fp) : repr x = repr y -> x = y.
Proof.
  destruct x as [x Hx], y as [y Hy]. cbn. intros ->. f_equal.
  apply UIP_dec, bool_dec.
Qed.

Hypothesis OK : fp_ok P.
Let p := val (fp_modulus P).

Definition toZ (x : Fp) : Z := den P (repr x).

Lemma toZ_bound x : 0 <= toZ x < p.
Proof.
  pose proof (repr_canon x). unfold toZ. apply den_spec; auto; apply H.
Qed.

Lemma toZ_mod x : toZ x mod p = toZ x.
Proof. apply Z.mod_small, toZ_bound. Qed.

Lemma toZ_inj x y : toZ x = toZ y -> x = y.
Proof.
  intros E. apply Fp_ext. apply (den_inj P OK); auto using repr_canon.
Qed.

(** Lift a model operation whose result is canonical. *)
Definition lift (r : result (list Z)) (H : exists l, r = Ok l /\ canon P l) : Fp.
Proof.
  exists (get_ok (fp_zero P) r).
  abstract (destruct H as (l & -> & C); now apply canonb_iff).
Defined.

Lemma repr_lift r H l : r = Ok l -> repr (lift r H) = l.
Proof. unfold repr, lift. cbn. now intros ->. Qed.

Lemma ok_weak r (Q : list Z -> Prop) :
  (exists l, r = Ok l /\ canon P l /\ Q l) -> exists l, r = Ok l /\ canon P l.
Proof. intros (l & E & C & _); eauto. Qed.

Definition fadd (x y : Fp) : Fp :=
  lift (fp_add P (repr x) (repr y))
    (ok_weak _ _ (fp_add_spec P OK _ _ (repr_canon x) (repr_canon y))).
Definition fsub (x y : Fp) : Fp :=
  lift (fp_sub P (repr x) (repr y))
    (ok_weak _ _ (fp_sub_spec P OK _ _ (repr_canon x) (repr_canon y))).
Definition fmul (x y : Fp) : Fp :=
  lift (fp_mul P (repr x) (repr y))
    (ok_weak _ _ (fp_mul_spec P OK _ _ (repr_canon x) (repr_canon y))).
Definition fopp (x : Fp) : Fp :=
  exist _ (fp_neg P (repr x))
    (proj2 (canonb_iff P _) (proj1 (fp_neg_spec P OK _ (repr_canon x)))).
Definition fzero : Fp :=
  exist _ (fp_zero P) (proj2 (canonb_iff P _) (proj1 (fp_zero_spec P OK))).
Definition fone : Fp := lift (fp_one P) (ok_weak _ _ (fp_one_spec P OK)).
Definition feqb (x y : Fp) : bool := fp_eqb (repr x) (repr y).

Lemma fof_ok z : exists l, fp_of_bigint P (limbs_of (fp_n P) z) = Ok l /\ canon P l.
Proof.
  eapply ok_weak. apply fp_of_bigint_spec; auto using limbs_of_limbs, limbs_of_length.
Qed.
(** [Fp(bigint)] applied to the n low limbs of z. *)
Definition fofZ (z : Z) : Fp := lift (fp_of_bigint P (limbs_of (fp_n P) z)) (fof_ok z).

Lemma toZ_add x y : toZ (fadd x y) = (toZ x + toZ y) mod p.
Proof.
  destruct (fp_add_spec P OK _ _ (repr_canon x) (repr_canon y)) as (r & E & C & D).
  unfold toZ at 1, fadd. rewrite (repr_lift _ _ r E). exact D.
Qed.
Lemma toZ_sub x y : toZ (fsub x y) = (toZ x - toZ y) mod p.
Proof.
  destruct (fp_sub_spec P OK _ _ (repr_canon x) (repr_canon y)) as (r & E & C & D).
  unfold toZ at 1, fsub. rewrite (repr_lift _ _ r E). exact D.
Qed.
Lemma toZ_mul x y : toZ (fmul x y) = (toZ x * toZ y) mod p.
Proof.
  destruct (fp_mul_spec P OK _ _ (repr_canon x) (repr_canon y)) as (r & E & C & D).
  unfold toZ at 1, fmul. rewrite (repr_lift _ _ r E). exact D.
Qed.
Lemma toZ_opp x : toZ (fopp x) = (- toZ x) mod p.
Proof.
  destruct (fp_neg_spec P OK _ (repr_canon x)) as (C & D). exact D.
Qed.
Lemma toZ_zero : toZ fzero = 0.
Proof. apply (fp_zero_spec P OK). Qed.
Lemma toZ_one : toZ fone = 1.
Proof.
  destruct (fp_one_spec P OK) as (r & E & C & D).
  unfold toZ, fone. rewrite (repr_lift _ _ r E). exact D.
Qed.
Lemma toZ_ofZ z : 0 <= z < Bn (fp_n P) -> toZ (fofZ z) = z mod p.
Proof.
  intros Hz.
  destruct (fp_of_bigint_spec P OK (limbs_of (fp_n P) z)) as (r & E & C & D);
    auto using limbs_of_limbs, limbs_of_length.
  unfold toZ, fofZ. rewrite (repr_lift _ _ r E), D.
  now rewrite val_limbs_of_small.
Qed.

Lemma feqb_eq x y : feqb x y = true <-> x = y.
Proof.
  unfold feqb. rewrite (fp_eqb_spec P OK) by apply repr_canon.
  rewrite Z.eqb_eq. split; [apply toZ_inj|now intros ->].
Qed.

Lemma p_pos : 0 < p. Proof. pose proof (p_gt1 P OK). fold p in H. lia. Qed.

Lemma fp_ring_theory : ring_theory fzero fone fadd fmul fsub fopp eq.
Proof.
  constructor; intros; apply toZ_inj; pose proof p_pos as Hp;
    repeat rewrite ?toZ_add, ?toZ_mul, ?toZ_sub, ?toZ_opp, ?toZ_zero, ?toZ_one.
  - rewrite Z.add_0_l. apply toZ_mod.
  - f_equal; ring.
  - rewrite Z.add_mod_idemp_r, Z.add_mod_idemp_l by lia. f_equal; ring.
  - rewrite Z.mul_1_l. apply toZ_mod.
  - f_equal; ring.
  - rewrite Z.mul_mod_idemp_r, Z.mul_mod_idemp_l by lia. f_equal; ring.
  - rewrite Z.mul_mod_idemp_l, <- Z.add_mod by lia. f_equal; ring.
  - rewrite Z.add_mod_idemp_r by lia. f_equal; ring.
  - rewrite Z.add_mod_idemp_r, Z.add_opp_diag_r by lia. apply Z.mod_0_l; lia.
Qed.

Hypothesis OKI : fp_ok_inv P.

Lemma den_coprime a : canon P a -> den P a <> 0 -> Z.gcd (den P a) p = 1.
Proof.
  intros C N. destruct (den_spec P OK a) as [[H0 H1] _]; try apply C.
  apply Zgcd_1_rel_prime. apply rel_prime_sym.
  apply prime_rel_prime; [apply OKI|].
  intros D. apply Z.divide_pos_le in D; fold p in H1; lia.
Qed.

Theorem fp_invert_prime_spec a : canon P a -> den P a <> 0 ->
  exists r, fp_invert P a = Ok r /\ canon P r /\ (den P a * den P r) mod p = 1.
Proof.
  intros C N. apply fp_invert_spec; auto; try apply OKI.
  now apply den_coprime.
Qed.

Lemma inv_ok (x : Fp) : exists l, (if fp_is_zero (repr x) then Ok (fp_zero P)
   else fp_invert P (repr x)) = Ok l /\ canon P l.
Proof.
  pose proof (repr_canon x) as C. rewrite (fp_is_zero_spec P OK) by auto.
  destruct (den P (repr x) =? 0) eqn:E.
  - eexists; split; [reflexivity|]. apply fp_zero_spec; auto.
  - apply Z.eqb_neq in E. eapply ok_weak. apply (fp_invert_prime_spec _ C E).
Qed.

(** [inverse()] made total by 0 at 0 (where the code's assertion fires). *)
Definition finv (x : Fp) : Fp :=
  lift (if fp_is_zero (repr x) then Ok (fp_zero P) else fp_invert P (repr x)) (inv_ok x).

Lemma finv_is_invert x : x <> fzero -> fp_invert P (repr x) = Ok (repr (finv x)).
Proof.
  intros N. pose proof (repr_canon x) as C.
  assert (D : den P (repr x) <> 0).
  { intros E. apply N, toZ_inj. rewrite toZ_zero. exact E. }
  destruct (fp_invert_prime_spec _ C D) as (r & E & Cr & _).
  transitivity (Ok r); auto. f_equal. symmetry. apply repr_lift.
  rewrite (fp_is_zero_spec P OK) by auto.
  now replace (den P (repr x) =? 0) with false by (symmetry; now apply Z.eqb_neq).
Qed.

Lemma finv_0 : finv fzero = fzero.
Proof.
  apply Fp_ext. unfold finv. rewrite (repr_lift _ _ (fp_zero P)); auto.
  rewrite (fp_is_zero_spec P OK) by apply repr_canon.
  change (den P (repr fzero)) with (toZ fzero). now rewrite toZ_zero.
Qed.

Lemma finv_mul x : x <> fzero -> fmul (finv x) x = fone.
Proof.
  intros N. apply toZ_inj. rewrite toZ_mul, toZ_one.
  pose proof (repr_canon x) as C.
  assert (D : den P (repr x) <> 0).
  { intros E. apply N, toZ_inj. rewrite toZ_zero. exact E. }
  destruct (fp_invert_prime_spec _ C D) as (r & E & Cr & V).
  rewrite Z.mul_comm. unfold toZ. pose proof (finv_is_invert x N) as E2.
  assert (H : repr (finv x) = r) by congruence. rewrite H. exact V.
Qed.

Lemma fone_neq_fzero : fone <> fzero.
Proof. intros E. apply (f_equal toZ) in E. rewrite toZ_one, toZ_zero in E. discriminate. Qed.

Lemma fp_field_theory :
  field_theory fzero fone fadd fmul fsub fopp (fun x y => fmul x (finv y)) finv eq.
Proof.
  constructor.
  - apply fp_ring_theory.
  - apply fone_neq_fzero.
  - reflexivity.
  - intros. now apply finv_mul.
Qed.

End Fp.
