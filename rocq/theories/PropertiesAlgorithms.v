(** Property theorems for the generic field algorithms: C09, C10, C11, C12.
    [npow one mul b n] (Algebra.v) is b multiplied by itself n times;
    [fpow F] is that power for a field type F. *)
From Coq Require Import ZArith List.
From Verif Require Import Result Limbs LimbsProofs UtilsModel Algebra FieldOps AlgorithmsModel AlgorithmsProofs
  FpModel FpSpec FpField ParamsModel ParamsProofs FpInst AlgorithmsField Examples.
Import ListNotations.
Open Scope Z_scope.

(** *** C09 *)
Theorem C09_bigint {T} one (mul : T -> T -> T) b e : monoid_laws one mul -> limbs e ->
  power_bigint one mul b e = npow one mul b (Z.to_nat (val e)).
Proof. intros M. exact (power_bigint_spec one mul M b e). Qed.
Print Assumptions C09_bigint.

Theorem C09_unsigned_long {T} one (mul : T -> T -> T) b e : monoid_laws one mul -> 0 <= e < 2 ^ 64 ->
  power_ulong one mul b e = npow one mul b (Z.to_nat e).
Proof. intros M. exact (power_ulong_spec one mul M b e). Qed.
Print Assumptions C09_unsigned_long.

Theorem C09_unsigned_long_long {T} one (mul : T -> T -> T) sqr b e : monoid_laws one mul ->
  (forall x, sqr x = mul x x) -> 0 <= e < 2 ^ 64 ->
  power_ull one mul sqr b e = npow one mul b (Z.to_nat e).
Proof. intros M S. exact (power_ull_spec one mul sqr M S b e). Qed.
Print Assumptions C09_unsigned_long_long.

(** The vector is read most significant word first. *)
Theorem C09_vector {T} one (mul : T -> T -> T) sqr b e : monoid_laws one mul ->
  (forall x, sqr x = mul x x) -> Forall (fun w => 0 <= w < 2 ^ 64) e ->
  power_vector one mul sqr b e =
    npow one mul b (Z.to_nat (fold_left (fun acc w => acc * 2 ^ 64 + w) e 0)).
Proof. intros M S. exact (power_vector_spec one mul sqr M S b e). Qed.
Print Assumptions C09_vector.

Theorem C09_prime_field C (CO : field_consts_ok C) x e : limbs e ->
  let F := fp_ops (fc_P C) (fco_ok C CO) (fco_inv C CO) in
  toZ (fc_P C) (power_bigint (o1 F) (omul F) x e) = toZ (fc_P C) x ^ val e mod fc_p C.
Proof. exact (prime_power C CO x e). Qed.
Print Assumptions C09_prime_field.

Example C09_hypotheses_met : power_vector 0 Z.add (fun x => x + x) 3 [0; 1; 5] = 3 * (2 ^ 64 + 5)
  /\ monoid_laws 0 Z.add /\ power_bigint 0 Z.add 7 [0; 0] = 0.
Proof. split; [vm_compute; reflexivity|]. split; [|reflexivity]. constructor; intros; ring. Qed.

(** *** C10: [sqrt_ok F S q] says (s, t, (t-1)/2, nqr, nqr^t) fit a field of
    q elements; [order_divides F q] is x^(q-1) = 1 for x <> 0. *)
Theorem C10_result_is_root {K} (F : Fops K) S debug fuel a r : ring_ok F ->
  field_sqrt F S debug fuel a = Ok r -> omul F r r = a.
Proof. exact (field_sqrt_sound F S debug fuel a r). Qed.
Print Assumptions C10_result_is_root.

Theorem C10_square {K} (F : Fops K) S q debug fuel y : field_ok F -> char_not_2 F ->
  sqrt_ok F S q -> order_divides F q -> sq_s S < Z.of_nat fuel ->
  exists r, field_sqrt F S debug fuel (omul F y y) = Ok r /\ (r = y \/ r = oopp F y).
Proof. exact (field_sqrt_square F S q debug fuel y). Qed.
Print Assumptions C10_square.

(** Non-squares: no number of iterations suffices (DEBUG builds assert). *)
Theorem C10_nonsquare {K} (F : Fops K) S q debug fuel a : field_ok F -> char_not_2 F ->
  sqrt_ok F S q -> order_divides F q -> (forall y, omul F y y <> a) ->
  field_sqrt F S debug fuel a = if debug then AssertFail else OutOfFuel.
Proof. exact (field_sqrt_nonsquare F S q debug fuel a). Qed.
Print Assumptions C10_nonsquare.

Theorem C10_prime_field C (CO : field_consts_ok C) debug fuel y :
  fc_s C < 2 ^ 31 -> fc_s C < Z.of_nat fuel ->
  let F := fp_ops (fc_P C) (fco_ok C CO) (fco_inv C CO) in
  exists r, fp_sqrt C CO debug fuel (omul F y y) = Ok r /\ (r = y \/ r = oopp F y).
Proof. exact (prime_sqrt_square C CO debug fuel y). Qed.
Print Assumptions C10_prime_field.

Example C10_hypotheses_met : exists (K : Type) (F : Fops K) S, field_ok F /\ char_not_2 F /\
  sqrt_ok F S 65537 /\ order_divides F 65537 /\ sq_s S = 16.
Proof.
  exists (Fp toy), (fp_ops toy (fco_ok _ toy_C_ok) (fco_inv _ toy_C_ok)), (fp_sqrt_params toy_C toy_C_ok).
  split; [exact (prime_field_ok toy_C toy_C_ok)|]. split; [exact (prime_char toy_C toy_C_ok)|].
  split; [exact (prime_sqrt_ok toy_C toy_C_ok eq_refl)|].
  split; [exact (prime_order toy_C toy_C_ok)|reflexivity].
Qed.

(** *** C11 *)
Theorem C11_exact_order {K} (F : Fops K) s rou k : ring_ok F -> 0 <= k <= s -> k < 32 -> 1 <= s ->
  fpow F rou (Z.to_nat (2 ^ (s - 1))) = oopp F (o1 F) ->
  exists w, get_root_of_unity (omul F) s rou (2 ^ k) = Ok w /\
    fpow F w (Z.to_nat (2 ^ k)) = o1 F /\
    (1 <= k -> fpow F w (Z.to_nat (2 ^ (k - 1))) = oopp F (o1 F)).
Proof. exact (field_root_of_unity F s rou k). Qed.
Print Assumptions C11_exact_order.

Theorem C11_other_sizes {T} (mul : T -> T -> T) s rou n : 0 <= n <= 2 ^ 31 ->
  (forall k, 0 <= k <= s -> n <> 2 ^ k) -> get_root_of_unity mul s rou n = Throw.
Proof. exact (root_of_unity_throw mul s rou n). Qed.
Print Assumptions C11_other_sizes.

(** Above 2^31 the check itself shifts a 32-bit 1 by 32 or more: undefined
    behaviour, even for n = 2^32 where the field has such a root (s = 32 for
    the bls12_381 scalar field). *)
Theorem C11_refuted : exists s n, n = 2 ^ 32 /\ 32 <= s /\
  forall T (mul : T -> T -> T) rou, get_root_of_unity mul s rou n = UB.
Proof. exact root_of_unity_refuted. Qed.
Print Assumptions C11_refuted.

Theorem C11_prime_field C (CO : field_consts_ok C) k : 0 <= k <= fc_s C -> k < 32 ->
  let F := fp_ops (fc_P C) (fco_ok C CO) (fco_inv C CO) in
  exists w, get_root_of_unity (omul F) (fc_s C) (fofZ (fc_P C) (fco_ok C CO) (fc_rou C)) (2 ^ k) = Ok w /\
    fpow F w (Z.to_nat (2 ^ k)) = o1 F /\
    (1 <= k -> fpow F w (Z.to_nat (2 ^ (k - 1))) = oopp F (o1 F)).
Proof. exact (prime_root_of_unity C CO k). Qed.
Print Assumptions C11_prime_field.

Example C11_hypotheses_met : let F := fp_ops toy (fco_ok _ toy_C_ok) (fco_inv _ toy_C_ok) in
  ring_ok F /\ fpow F (fofZ toy (fco_ok _ toy_C_ok) 3) (Z.to_nat (2 ^ (16 - 1))) = oopp F (o1 F).
Proof. split; [exact (fp_ops_ring _ _ _)|exact (rou_ok toy_C toy_C_ok)]. Qed.

(** *** C12 *)
Theorem C12_batch_invert {K} (F : Fops K) vec : field_ok F -> Forall (fun x => x <> o0 F) vec ->
  exists out, batch_invert (o0 F) (o1 F) (omul F) (oeqb F) (oinv F) vec = Ok out /\
    Forall2 (fun x y => omul F x y = o1 F) vec out.
Proof. exact (field_batch_invert F vec). Qed.
Print Assumptions C12_batch_invert.

Theorem C12_zero {K} (F : Fops K) vec : ring_ok F -> In (o0 F) vec ->
  batch_invert (o0 F) (o1 F) (omul F) (oeqb F) (oinv F) vec = AssertFail.
Proof. exact (field_batch_invert_zero F vec). Qed.
Print Assumptions C12_zero.

Example C12_hypotheses_met : let F := fp_ops toy toy_ok toy_oki in
  field_ok F /\ Forall (fun x => x <> o0 F) [o1 F; o1 F].
Proof.
  split; [exact (fp_ops_field _ _ _)|].
  repeat constructor; exact (fone_neq_fzero toy toy_ok).
Qed.
