(** The generic algorithms specialised to fields and to Fp_model. *)
From Coq Require Import ZArith List Lia Bool Znumtheory.
From Verif Require Import Result Limbs LimbsProofs BigintModel BigintProofs UtilsModel UtilsProofs
  Algebra NumTheory FieldOps AlgorithmsModel AlgorithmsProofs FpModel FpSpec FpProofs FpField Certs
  ParamsModel ParamsProofs FpInst Examples.
Import ListNotations.
Open Scope Z_scope.

(** [tonelli_shanks_sqrt<FieldT>]. *)
Definition field_sqrt {K} (F : Fops K) (S : sqrt_params K) (debug : bool) (fuel : nat) (a : K) : result K :=
  tonelli_shanks_sqrt (o0 F) (o1 F) (omul F) (osqr F) (oeqb F) S debug fuel a.

(** Parameters (s, t, (t-1)/2, nqr, nqr^t) are right for a field with q elements. *)
Definition sqrt_ok {K} (F : Fops K) (S : sqrt_params K) (q : Z) : Prop :=
  sqrt_params_ok (o0 F) (o1 F) (omul F) S (oopp F (o1 F)) (q - 1).
(** Every non-zero element has order dividing q - 1. *)
Definition order_divides {K} (F : Fops K) (q : Z) : Prop :=
  forall x, x <> o0 F -> fpow F x (Z.to_nat (q - 1)) = o1 F.
Definition char_not_2 {K} (F : Fops K) : Prop := oadd F (o1 F) (o1 F) <> o0 F.

Section Sqrt.
Context {K : Type} (F : Fops K) (S : sqrt_params K).

Lemma field_sqrt_sound debug fuel a r : ring_ok F ->
  field_sqrt F S debug fuel a = Ok r -> omul F r r = a.
Proof.
  intros R. apply tonelli_shanks_sound.
  - now apply rk_monoid.
  - now apply rk_mul_comm.
  - now apply rk_sqr.
  - now apply rk_eqb.
  - now apply rk_mul_0_l.
Qed.

Lemma field_sqrt_square q debug fuel y : field_ok F -> char_not_2 F -> sqrt_ok F S q -> order_divides F q ->
  sq_s S < Z.of_nat fuel ->
  exists r, field_sqrt F S debug fuel (omul F y y) = Ok r /\ (r = y \/ r = oopp F y).
Proof.
  intros FK C2 SO OD Hf. pose proof (fk_ring F FK) as R.
  destruct (tonelli_shanks_total (o0 F) (o1 F) (omul F) (osqr F) (oeqb F)) with
    (S := S) (minus_one := oopp F (o1 F)) (q1 := q - 1) (debug := debug) (fuel := fuel) (y := y)
    as [r E]; auto.
  - now apply rk_monoid.
  - now apply rk_mul_comm.
  - now apply rk_sqr.
  - now apply rk_eqb.
  - now apply rk_mul_0_l.
  - now apply rk_m1_sqr.
  - now apply fk_roots_1.
  - exists r. split; auto. apply fk_sqr_eq; auto. eapply field_sqrt_sound; eauto.
Qed.

Lemma field_sqrt_nonsquare q debug fuel a : field_ok F -> char_not_2 F -> sqrt_ok F S q -> order_divides F q ->
  (forall y, omul F y y <> a) ->
  field_sqrt F S debug fuel a = if debug then AssertFail else OutOfFuel.
Proof.
  intros FK C2 SO OD Hns. pose proof (fk_ring F FK) as R.
  apply (tonelli_shanks_nonsquare (o0 F) (o1 F) (omul F) (osqr F) (oeqb F)) with
    (minus_one := oopp F (o1 F)) (q1 := q - 1); auto.
  - now apply rk_monoid.
  - now apply rk_mul_comm.
  - now apply rk_sqr.
  - now apply rk_eqb.
  - now apply rk_mul_0_l.
  - now apply fk_m1_neq_1.
  - now apply rk_m1_sqr.
  - now apply fk_roots_1.
Qed.

(** Roots of unity. *)
Lemma field_root_of_unity s rou k : ring_ok F -> 0 <= k <= s -> k < 32 -> 1 <= s ->
  fpow F rou (Z.to_nat (2 ^ (s - 1))) = oopp F (o1 F) ->
  exists w, get_root_of_unity (omul F) s rou (2 ^ k) = Ok w /\
    fpow F w (Z.to_nat (2 ^ k)) = o1 F /\
    (1 <= k -> fpow F w (Z.to_nat (2 ^ (k - 1))) = oopp F (o1 F)).
Proof.
  intros R Hk H32 Hs Hr. apply root_of_unity_spec; auto.
  - now apply rk_monoid.
  - now apply rk_m1_sqr.
Qed.

Lemma field_batch_invert vec : field_ok F -> Forall (fun x => x <> o0 F) vec ->
  exists out, batch_invert (o0 F) (o1 F) (omul F) (oeqb F) (oinv F) vec = Ok out /\
    Forall2 (fun x y => omul F x y = o1 F) vec out.
Proof.
  intros FK H. pose proof (fk_ring F FK) as R.
  destruct (batch_invert_spec (o0 F) (o1 F) (omul F) (oeqb F) (oinv F)
    (rk_monoid F R) (rk_mul_comm F R) (rk_eqb F R) (fk_inv F FK) (fk_mul_neq_0 F FK)
    (fk_1_neq_0 F FK) vec H) as (out & E & L & I).
  exists out. split; auto. clear -L I. revert out L I.
  induction vec as [|x vec IH]; intros [|y out] L I; try discriminate; constructor.
  - apply (I 0%nat x). cbn. lia.
  - apply IH; [now injection L|]. intros i d Hi. apply (I (Datatypes.S i) d). cbn. lia.
Qed.
Lemma field_batch_invert_zero vec : ring_ok F -> In (o0 F) vec ->
  batch_invert (o0 F) (o1 F) (omul F) (oeqb F) (oinv F) vec = AssertFail.
Proof. intros R H. apply batch_invert_zero; auto. now apply rk_eqb. Qed.
End Sqrt.

(** Prime fields with the data of [field_consts]. *)
Section Prime.
Variable C : field_consts.
Hypothesis CO : field_consts_ok C.
Let F := fp_ops (fc_P C) (fco_ok C CO) (fco_inv C CO).

Lemma prime_field_ok : field_ok F. Proof. apply fp_ops_field. Qed.
Lemma prime_order : order_divides F (fc_p C).
Proof. intros x N. now apply fp_order. Qed.
Lemma prime_sqrt_ok : fc_s C < 2 ^ 31 -> sqrt_ok F (fp_sqrt_params C CO) (fc_p C).
Proof. apply fp_sqrt_params_ok. Qed.
Lemma prime_char : char_not_2 F.
Proof.
  intros E. apply (fp_m1_neq_1 C CO). fold F.
  exact (rk_m1_1 F (fk_ring F prime_field_ok) E).
Qed.

Lemma prime_sqrt_square debug fuel y : fc_s C < 2 ^ 31 -> fc_s C < Z.of_nat fuel ->
  exists r, fp_sqrt C CO debug fuel (omul F y y) = Ok r /\ (r = y \/ r = oopp F y).
Proof.
  intros Hs Hf. apply (field_sqrt_square F (fp_sqrt_params C CO) (fc_p C));
    auto using prime_field_ok, prime_char, prime_sqrt_ok, prime_order.
Qed.
Lemma prime_sqrt_nonsquare debug fuel a : fc_s C < 2 ^ 31 -> (forall y, omul F y y <> a) ->
  fp_sqrt C CO debug fuel a = if debug then AssertFail else OutOfFuel.
Proof.
  intros Hs Hn. apply (field_sqrt_nonsquare F (fp_sqrt_params C CO) (fc_p C));
    auto using prime_field_ok, prime_char, prime_sqrt_ok, prime_order.
Qed.
Lemma prime_sqrt_sound debug fuel a r : fp_sqrt C CO debug fuel a = Ok r -> omul F r r = a.
Proof. apply field_sqrt_sound. apply fp_ops_ring. Qed.

Lemma prime_root_of_unity k : 0 <= k <= fc_s C -> k < 32 ->
  exists w, get_root_of_unity (omul F) (fc_s C) (fofZ (fc_P C) (fco_ok C CO) (fc_rou C)) (2 ^ k) = Ok w /\
    fpow F w (Z.to_nat (2 ^ k)) = o1 F /\
    (1 <= k -> fpow F w (Z.to_nat (2 ^ (k - 1))) = oopp F (o1 F)).
Proof.
  intros Hk H32. apply field_root_of_unity; auto.
  - apply fp_ops_ring.
  - apply (fco_s C CO).
  - apply rou_ok.
Qed.

Lemma prime_power x e : limbs e ->
  toZ (fc_P C) (power_bigint (o1 F) (omul F) x e) = toZ (fc_P C) x ^ val e mod fc_p C.
Proof.
  intros He. rewrite power_bigint_spec by (auto; apply rk_monoid, fp_ops_ring).
  unfold F. rewrite toZ_pow, Z2Nat.id by (now apply val_nonneg). reflexivity.
Qed.
End Prime.

(** The toy field of 65537 elements with all its constants (s = 16, t = 1). *)
Definition toy_C : field_consts :=
  {| fc_P := toy; fc_euler := 32768; fc_s := 16; fc_t := 1; fc_tm1 := 0; fc_gen := 3; fc_rou := 3;
     fc_nqr := 3; fc_nqr_to_t := 3 |}.
Lemma toy_C_ok : field_consts_ok toy_C.
Proof.
  apply (consts_check_sound _ (Pock 65537 3 [(Small 2, 16)])); vm_compute; reflexivity.
Qed.

Lemma root_of_unity_throw {T} (mul : T -> T -> T) s rou n : 0 <= n <= 2 ^ 31 ->
  (forall k, 0 <= k <= s -> n <> 2 ^ k) -> get_root_of_unity mul s rou n = Throw.
Proof.
  intros Hn Hnot. rewrite root_of_unity_reject by (auto; lia).
  replace (n <=? 2 ^ 31) with true; auto. symmetry. apply Z.leb_le. lia.
Qed.
Lemma root_of_unity_refuted : exists s n, n = 2 ^ 32 /\ 32 <= s /\
  forall T (mul : T -> T -> T) rou, get_root_of_unity mul s rou n = UB.
Proof.
  exists 32, (2 ^ 32). split; [reflexivity|]. split; [lia|].
  intros. apply root_of_unity_ub. lia.
Qed.
