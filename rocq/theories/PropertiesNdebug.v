(** Property theorems about builds without assertions (NDEBUG, the default build
    type): C67.  Names ending in [_nd] are the functions with their assertions
    removed; the others are the functions with assertions. *)
From Coq Require Import ZArith NArith List Bool.
From Verif Require Import Result Limbs LimbsProofs BigintModel FpModel FpSpec FpProofs FieldOps AlgorithmsModel BinaryModel BinaryProofs ExtModel
  StreamModel SerializationModel PackingModel PackingProofs UtilsModel NdebugModel NdebugProofs NdebugTower.
Import ListNotations.
Open Scope Z_scope.

(** When the function with assertions returns, the other returns the same. *)
Theorem C67_inverse_agrees : forall mul g a r P x y,
  (gf_inverse mul g a = Ok r -> gf_inverse_nd mul g a = r) /\
  (fp_invert P x = Ok y -> fp_invert_nd P x = Ok y).
Proof.
  exact (fun mul g a r P x y => conj
    (fun H => f_equal (get_ok a) (gf_inverse_nd_agree mul g a r H))
    (fp_invert_nd_agree P x y)).
Qed.
Print Assumptions C67_inverse_agrees.

Theorem C67_batch_invert_agrees : forall T (zero one : T) mul eqb inverse inverse_nd vec out,
  (forall x y, inverse x = Ok y -> inverse_nd x = Ok y) ->
  batch_invert zero one mul eqb inverse vec = Ok out -> batch_invert_nd one mul inverse_nd vec = Ok out.
Proof. exact (fun T zero one mul eqb inverse inverse_nd vec out => batch_invert_agree zero one mul eqb inverse inverse_nd vec out). Qed.
Print Assumptions C67_batch_invert_agrees.

(** Prime fields: the inverse of zero is undefined behaviour, and so is
    batch_invert with a zero among its elements. *)
Theorem C67_prime_zero : forall P a, fp_ok P -> fp_ok_inv P -> canon P a ->
  (den P a <> 0 -> exists r, fp_invert_nd P a = Ok r /\ fp_invert P a = Ok r) /\
  (den P a = 0 -> fp_invert_nd P a = UB).
Proof. exact fp_invert_nd_spec. Qed.
Print Assumptions C67_prime_zero.

Theorem C67_prime_batch : forall K (F : Fops K), ring_ok F -> forall inverse vec, inverse (o0 F) = UB -> In (o0 F) vec ->
  batch_invert_nd (o1 F) (omul F) inverse vec = UB.
Proof. exact (fun K F R inverse vec => ring_batch_ub F R inverse vec). Qed.
Print Assumptions C67_prime_batch.

(** Extension fields: the same ([nd_inverse F i]: i returns what oinv F returns,
    and is undefined at zero). *)
Theorem C67_tower : forall K (F : Fops K), field_ok F -> forall nr2 nr3 nr4 nr6 nr6' nr12,
  let Fn := with_inv F (prime_inv_nd F) in
  nd_inverse (fp2_ops F nr2) (oinv (fp2_ops Fn nr2)) /\
  nd_inverse (fp3_ops F nr3) (oinv (fp3_ops Fn nr3)) /\
  nd_inverse (fp4_ops F nr2 nr4) (oinv (fp4_ops Fn nr2 nr4)) /\
  nd_inverse (fp6_2over3_ops F nr3 nr6) (oinv (fp6_2over3_ops Fn nr3 nr6)) /\
  nd_inverse (fp6_3over2_ops F nr2 nr6') (oinv (fp6_3over2_ops Fn nr2 nr6')) /\
  nd_inverse (fp12_ops F nr2 nr6' nr12) (oinv (fp12_ops Fn nr2 nr6' nr12)).
Proof. exact (fun K F FK => tower_nd_field F FK). Qed.
Print Assumptions C67_tower.

(** Binary fields: the inverse of zero is zero, without any sign of failure; a
    single zero given to batch_invert turns every inverse into zero. *)
Theorem C67_binary_zero_refuted : forall asm kara g,
  gf_inverse_nd (gf_mul_cfg asm kara g) g (gf_zero (gf_of g)) = gf_zero (gf_of g).
Proof. exact gf_inverse_nd_zero. Qed.
Print Assumptions C67_binary_zero_refuted.

Theorem C67_binary_batch_refuted : forall asm kara g vec, Forall (gok (gf_of g)) vec -> In (gf_zero (gf_of g)) vec ->
  batch_invert_nd (gf_one (gf_of g)) (gf_mul_cfg asm kara g)
    (fun a => Ok (gf_inverse_nd (gf_mul_cfg asm kara g) g a)) vec = Ok (repeat (gf_zero (gf_of g)) (length vec)).
Proof. exact gf_batch_zero. Qed.
Print Assumptions C67_binary_batch_refuted.

(** bigint(mpz_t) keeps the low limbs of a number that does not fit. *)
Theorem C67_mpz_truncated : forall n r, 0 <= r ->
  length (bigint_of_mpz_nd n r) = n /\ limbs (bigint_of_mpz_nd n r) /\
  val (bigint_of_mpz_nd n r) = r mod 2 ^ (64 * Z.of_nat n).
Proof. exact bigint_of_mpz_nd_spec. Qed.
Print Assumptions C67_mpz_truncated.

(** input_bool reads every number other than 1 as false. *)
Theorem C67_input_bool : forall v rest, 0 <= v < 2 ^ 64 ->
  input_bool_nd (dec v ++ [ch_nl] ++ rest) = Ok (v =? 1, rest).
Proof. exact input_bool_nd_spec. Qed.
Print Assumptions C67_input_bool.

(** convert_bit_vector_to_field_element reduces bit vectors of any length. *)
Theorem C67_bits_to_field : forall P v, fp_ok P ->
  exists r, bits_to_field_nd P v = Ok r /\ canon P r /\ den P r = bits_val v mod val (fp_modulus P).
Proof. exact bits_to_field_nd_spec. Qed.
Print Assumptions C67_bits_to_field.

(** to_twos_complement: right in range, the number itself when it is too large
    for w bits, far more than w bits when it is below -2^w. *)
Theorem C67_twos_complement : forall i w, 1 <= w <= 62 -> - 2 ^ 31 <= i < 2 ^ 31 ->
  (- 2 ^ (w - 1) <= i < 2 ^ (w - 1) -> to_twos_complement_nd i w = Ok (i mod 2 ^ w)) /\
  (2 ^ (w - 1) <= i -> to_twos_complement_nd i w = Ok i) /\
  (i < - 2 ^ w -> to_twos_complement_nd i w = Ok (2 ^ 64 + i + 2 ^ w)).
Proof. exact twos_complement_nd_spec. Qed.
Print Assumptions C67_twos_complement.

(** Between -2^w and -2^(w-1) the result is that of a positive number. *)
Theorem C67_twos_complement_alias : forall i w, 1 <= w <= 62 -> - 2 ^ w <= i < - 2 ^ (w - 1) ->
  to_twos_complement_nd i w = Ok (i + 2 ^ w) /\ 0 <= i + 2 ^ w < 2 ^ (w - 1).
Proof. exact to_twos_complement_nd_alias. Qed.
Print Assumptions C67_twos_complement_alias.

(** from_twos_complement: a number of more than w bits is reduced to an int. *)
Theorem C67_from_twos_complement : forall i w, 1 <= w <= 32 -> 0 <= i < 2 ^ 64 ->
  (forall r, from_twos_complement i w = Ok r -> from_twos_complement_nd i w = Ok r) /\
  (i < 2 ^ (w - 1) -> from_twos_complement_nd i w = Ok i) /\
  (2 ^ (w - 1) <= i < 2 ^ w -> from_twos_complement_nd i w = Ok (i - 2 ^ w)) /\
  (2 ^ w <= i -> exists r, from_twos_complement_nd i w = Ok r /\ - 2 ^ 31 <= r < 2 ^ 31 /\ r mod 2 ^ 32 = (i - 2 ^ w) mod 2 ^ 32).
Proof. exact from_twos_complement_nd_spec. Qed.
Print Assumptions C67_from_twos_complement.

(** mul_by_023 and mul_by_2345 on factors outside their domain: the product of
    the low part with the coefficients that should be zero is taken from the
    first coordinate and added to the second. *)
Theorem C67_mul_by_023 : forall K (F : Fops K), ring_ok F -> forall nr2 nr4 a b A0 A1 B,
  let F2 := fp2_ops F nr2 in
  let e := omul F2 a (o0 F, A1) in
  let xy := omul (fp4_ops F nr2 nr4) (a, b) ((A0, A1), B) in
  fp4_mul_by_023_nd F nr2 nr4 (a, b) ((A0, A1), B) = (osub F2 (fst xy) e, oadd F2 (snd xy) e).
Proof. exact (fun K F R nr2 nr4 a b A0 A1 B => fp4_mul_by_023_nd_spec F R nr2 nr4 a b A0 A1 B). Qed.
Print Assumptions C67_mul_by_023.

Theorem C67_mul_by_2345 : forall K (F : Fops K), ring_ok F -> forall nr a b A0 A1 A2 B,
  let F3 := fp3_ops F nr in
  let e := omul F3 a (A0, A1, o0 F) in
  let xy := omul (fp6_2over3_ops F nr nr) (a, b) ((A0, A1, A2), B) in
  fp6_mul_by_2345_nd F nr nr (a, b) ((A0, A1, A2), B) = (osub F3 (fst xy) e, oadd F3 (snd xy) e).
Proof. exact (fun K F R nr a b A0 A1 A2 B => fp6_mul_by_2345_nd_spec F R nr a b A0 A1 A2 B). Qed.
Print Assumptions C67_mul_by_2345.

(** Zero among elements of gf64 spoils the inverses of all of them. *)
Example C67_example : let mul := gf_mul_cfg false false G64 in
  batch_invert_nd (gf_one gf64) mul (fun a => Ok (gf_inverse_nd mul G64 a)) [[2%N]; [0%N]; [3%N]] = Ok [[0%N]; [0%N]; [0%N]] /\
  batch_invert_nd (gf_one gf64) mul (fun a => Ok (gf_inverse_nd mul G64 a)) [[2%N]; [3%N]] =
    batch_invert (gf_zero gf64) (gf_one gf64) mul gf_eqb (gf_inverse mul G64) [[2%N]; [3%N]].
Proof. exact batch_example. Qed.
Example C67_examples :
  to_twos_complement_nd 5 3 = Ok 5 /\ to_twos_complement_nd (-3) 3 = Ok 5 /\
  input_bool_nd (dec 7 ++ [ch_nl]) = Ok (false, []) /\ val (bigint_of_mpz_nd 1 (2 ^ 64 + 9)) = 9.
Proof. exact ndebug_examples. Qed.
