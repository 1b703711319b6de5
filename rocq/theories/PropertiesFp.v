(** Property theorems about bigint and prime fields: C01, C02, C03, C05, C06,
    C07, C08 and the field part of C30.  [den P a] is the integer returned by
    [a.as_bigint()], [canon P a] says that a is a limb array below the modulus
    and [fp_ok P] that the static parameters satisfy their defining equations
    (FpSpec.v). *)
From Coq Require Import ZArith List Bool Znumtheory.
From Verif Require Import Result Limbs StreamModel StreamProofs BigintModel BigintProofs FpModel FpSpec FpProofs
  FpField FpIoProofs FpReach FpExtra FpWidth Examples.
Import ListNotations.
Open Scope Z_scope.

(** *** C01 *)
Theorem C01_add P a b : fp_ok P -> canon P a -> canon P b ->
  exists r, fp_add P a b = Ok r /\ canon P r /\
            den P r = (den P a + den P b) mod val (fp_modulus P).
Proof. intros OK. exact (fp_add_spec P OK a b). Qed.
Print Assumptions C01_add.

Theorem C01_sub P a b : fp_ok P -> canon P a -> canon P b ->
  exists r, fp_sub P a b = Ok r /\ canon P r /\
            den P r = (den P a - den P b) mod val (fp_modulus P).
Proof. intros OK. exact (fp_sub_spec P OK a b). Qed.
Print Assumptions C01_sub.

Theorem C01_mul P a b : fp_ok P -> canon P a -> canon P b ->
  exists r, fp_mul P a b = Ok r /\ canon P r /\
            den P r = (den P a * den P b) mod val (fp_modulus P).
Proof. intros OK. exact (fp_mul_spec P OK a b). Qed.
Print Assumptions C01_mul.

Theorem C01_squared P a : fp_ok P -> canon P a ->
  exists r, fp_squared P a = Ok r /\ canon P r /\
            den P r = (den P a * den P a) mod val (fp_modulus P).
Proof. intros OK. exact (fp_squared_spec P OK a). Qed.
Print Assumptions C01_squared.

Theorem C01_neg P a : fp_ok P -> canon P a ->
  canon P (fp_neg P a) /\ den P (fp_neg P a) = (- den P a) mod val (fp_modulus P).
Proof. intros OK. exact (fp_neg_spec P OK a). Qed.
Print Assumptions C01_neg.

Theorem C01_of_bigint P b : fp_ok P -> limbs b -> length b = fp_n P ->
  exists r, fp_of_bigint P b = Ok r /\ canon P r /\ den P r = val b mod val (fp_modulus P).
Proof. intros OK. exact (fp_of_bigint_spec P OK b). Qed.
Print Assumptions C01_of_bigint.

Theorem C01_of_long P x is_unsigned : fp_ok P -> - 2 ^ 63 < x < 2 ^ 63 ->
  (is_unsigned = true \/ - x <= val (fp_modulus P)) ->
  exists r, fp_of_long P x is_unsigned = Ok r /\ canon P r /\
    den P r = (if is_unsigned then x mod 2 ^ 64 else x) mod val (fp_modulus P).
Proof. intros OK. exact (fp_of_long_spec P OK x is_unsigned). Qed.
Print Assumptions C01_of_long.

Theorem C01_zero_one P : fp_ok P ->
  (canon P (fp_zero P) /\ den P (fp_zero P) = 0) /\
  exists r, fp_one P = Ok r /\ canon P r /\ den P r = 1.
Proof. intros OK. exact (conj (fp_zero_spec P OK) (fp_one_spec P OK)). Qed.
Print Assumptions C01_zero_one.

Example C01_hypotheses_met : fp_ok toy2 /\ canon toy2 [3; 2 ^ 35] /\
  (exists r, fp_mul toy2 [3; 2 ^ 35] [17; 2 ^ 36 - 1] = Ok r /\ r <> [3; 2 ^ 35]).
Proof.
  split; [exact toy2_ok|]. split; [apply canonb_iff; vm_compute; reflexivity|].
  eexists. split; [vm_compute; reflexivity|discriminate].
Qed.

(** A modulus without a spare bit: the carry assertion fp.tcc:179 fires. *)
Theorem C01_full_width_modulus_refuted :
  exists P a b, (fp_n P = 1)%nat /\ 1 < val (fp_modulus P) < 2 ^ 64 /\ Z.odd (val (fp_modulus P)) = true /\
    (fp_inv P * val (fp_modulus P) + 1) mod 2 ^ 64 = 0 /\
    val (fp_Rsquared P) = (2 ^ 64 * 2 ^ 64) mod val (fp_modulus P) /\
    canon P a /\ canon P b /\ fp_mul P a b = AssertFail.
Proof. exact full_width_refuted. Qed.
Print Assumptions C01_full_width_modulus_refuted.

(** Addition and subtraction do not need the spare bit. *)
Theorem C01_add_any_width P a b : length (fp_modulus P) = fp_n P -> limbs (fp_modulus P) ->
  canon P a -> canon P b ->
  exists r, fp_add P a b = Ok r /\ canon P r /\ val r = (val a + val b) mod val (fp_modulus P).
Proof. intros L H. exact (add_any_width P L H a b). Qed.
Print Assumptions C01_add_any_width.

Theorem C01_sub_any_width P a b : length (fp_modulus P) = fp_n P -> limbs (fp_modulus P) ->
  canon P a -> canon P b ->
  exists r, fp_sub P a b = Ok r /\ canon P r /\ val r = (val a - val b) mod val (fp_modulus P).
Proof. intros L H. exact (sub_any_width P L H a b). Qed.
Print Assumptions C01_sub_any_width.

(** *** C02 *)
Theorem C02_inverse P a : fp_ok P -> fp_ok_inv P -> canon P a ->
  (den P a <> 0 ->
   exists r o, fp_invert P a = Ok r /\ canon P r /\ fp_one P = Ok o /\ fp_mul P a r = Ok o) /\
  (den P a = 0 -> fp_invert P a = AssertFail).
Proof. exact (invert_full P a). Qed.
Print Assumptions C02_inverse.

Example C02_hypotheses_met : fp_ok toy /\ fp_ok_inv toy /\ canon toy [12345] /\ den toy [12345] <> 0.
Proof.
  split; [exact toy_ok|]. split; [exact toy_oki|].
  split; [apply canonb_iff; vm_compute; reflexivity|]. vm_compute. discriminate.
Qed.

(** *** C03 *)
Theorem C03_canonical P a : fp_ok P -> fp_ok_inv P ->
  fp_num_bits P = bit_length (val (fp_modulus P)) ->
  produced P a -> canon P a.
Proof. intros OK OKI NB. exact (produced_canon P OK OKI NB a). Qed.
Print Assumptions C03_canonical.

Theorem C03_equality P a b : fp_ok P -> fp_ok_inv P ->
  fp_num_bits P = bit_length (val (fp_modulus P)) ->
  produced P a -> produced P b ->
  (fp_eqb a b = true <-> den P a = den P b) /\ (fp_is_zero a = true <-> den P a = 0) /\
  (den P a = den P b -> a = b).
Proof. intros OK OKI NB. exact (produced_equality P OK OKI NB a b). Qed.
Print Assumptions C03_equality.

Example C03_hypotheses_met : fp_num_bits toy = bit_length (val (fp_modulus toy)) /\
  exists r, fp_of_long toy (-5) false = Ok r /\ produced toy (fp_neg toy r) /\ den toy (fp_neg toy r) = 5.
Proof.
  split; [reflexivity|]. eexists. split; [vm_compute; reflexivity|]. split; [|vm_compute; reflexivity].
  apply pr_neg. apply (pr_of_long toy (-5) false); [split; [discriminate|reflexivity]|vm_compute; reflexivity].
Qed.

(** *** C05 *)
Theorem C05_num_bits a : limbs a ->
  (bigint_num_bits a = 0 <-> val a = 0) /\
  (val a <> 0 -> 2 ^ (bigint_num_bits a - 1) <= val a < 2 ^ bigint_num_bits a).
Proof. exact (num_bits_full a). Qed.
Print Assumptions C05_num_bits.

Theorem C05_test_bit a i : limbs a -> 0 <= i -> bigint_test_bit a i = Z.testbit (val a) i.
Proof. exact (bigint_test_bit_spec a i). Qed.
Print Assumptions C05_test_bit.

Theorem C05_observers a b : limbs a -> limbs b -> length a = length b ->
  bigint_is_zero a = (val a =? 0) /\ bigint_is_even a = Z.even (val a) /\
  bigint_as_ulong a = val a mod 2 ^ 64 /\ val (bigint_clear a) = 0 /\
  bigint_eqb a b = (val a =? val b) /\ bigint_neqb a b = negb (val a =? val b) /\
  bigint_ltb a b = (val a <? val b) /\ (val a = val b <-> a = b).
Proof. exact (bigint_observers a b). Qed.
Print Assumptions C05_observers.

Example C05_hypotheses_met : limbs [0; 5; 0] /\ bigint_num_bits [0; 5; 0] = 67.
Proof. split; [apply LimbsProofs.limbsb_iff; reflexivity|reflexivity]. Qed.

(** *** C06: [dec] is the decimal rendering of an integer. *)
Theorem C06_decimal n v : 0 <= v < 2 ^ (64 * Z.of_nat n) ->
  exists b, bigint_of_string n (dec v) = Ok b /\ length b = n /\ limbs b /\ val b = v.
Proof. exact (decimal_full n v). Qed.
Print Assumptions C06_decimal.

(** Leading zeros are allowed. *)
Theorem C06_digits n s : s <> [] -> Forall (fun c => is_digit c = true) s -> digits_val s < 2 ^ (64 * Z.of_nat n) ->
  exists b, bigint_of_string n s = Ok b /\ val b = digits_val s /\ limbs b /\ length b = n.
Proof. exact (bigint_of_string_ok n s). Qed.
Print Assumptions C06_digits.

(** Construction from an mpz_t. *)
Theorem C06_mpz n r :
  (0 <= r < 2 ^ (64 * Z.of_nat n) ->
   exists b, bigint_of_mpz n r = Ok b /\ length b = n /\ limbs b /\ val b = r) /\
  (~ 0 <= r < 2 ^ (64 * Z.of_nat n) -> bigint_of_mpz n r = AssertFail).
Proof. exact (bigint_of_mpz_full n r). Qed.
Print Assumptions C06_mpz.

Theorem C06_decimal_only n s b : bigint_of_string n s = Ok b ->
  s <> [] /\ Forall (fun c => is_digit c = true) s /\ digits_val s < 2 ^ (64 * Z.of_nat n) /\
  val b = digits_val s /\ limbs b /\ length b = n.
Proof. exact (bigint_of_string_ok_inv n s b). Qed.
Print Assumptions C06_decimal_only.

Theorem C06_non_digit n s : (exists c, In c s /\ is_digit c = false) -> bigint_of_string n s = AssertFail.
Proof. exact (of_string_non_digit n s). Qed.
Print Assumptions C06_non_digit.

(** Too large an integer is not caught by the assertion in time: the write of
    GMP overruns the array first. *)
Theorem C06_too_large n s : s <> [] -> Forall (fun c => is_digit c = true) s ->
  2 ^ (64 * Z.of_nat n) <= digits_val s -> bigint_of_string n s = UB.
Proof. exact (of_string_too_large n s). Qed.
Print Assumptions C06_too_large.

Theorem C06_stream_text ws a rest : limbs a -> token_end rest ->
  Forall (fun c => is_space c = true) ws ->
  bigint_read_text (length a) (ws ++ bigint_write_text a ++ rest) = Ok (a, rest).
Proof. exact (bigint_text_roundtrip ws a rest). Qed.
Print Assumptions C06_stream_text.

Theorem C06_stream_binary a rest : limbs a ->
  bigint_read_bin (length a) (bigint_write_bin a ++ rest) = Ok (a, rest).
Proof. exact (bigint_bin_roundtrip a rest). Qed.
Print Assumptions C06_stream_binary.

Example C06_hypotheses_met : bigint_read_text 2 ([32] ++ bigint_write_text [7; 1] ++ [10; 65]) = Ok ([7; 1], [10; 65])
  /\ token_end [10; 65] /\ dec 120 = [49; 50; 48].
Proof. split; [vm_compute; reflexivity|]. split; reflexivity. Qed.

(** *** C07 *)
Theorem C07_stream P (bin mont : bool) a ws rest : fp_ok P -> canon P a ->
  (if bin then ws = [] else Forall (fun c => is_space c = true) ws /\ token_end rest) ->
  exists w, fp_write P bin mont a = Ok w /\ fp_read P bin mont (ws ++ w ++ rest) = Ok (a, rest).
Proof. intros OK. exact (fp_stream_roundtrip P OK bin mont a ws rest). Qed.
Print Assumptions C07_stream.

Theorem C07_words P mont a old : fp_ok P -> fp_num_bits P = bit_length (val (fp_modulus P)) ->
  nth (fp_n P - 1) (fp_modulus P) 0 <> 0 ->
  canon P a -> length old = fp_n P ->
  exists w, fp_to_words P mont a = Ok w /\ length w = fp_n P /\ limbs w /\
            fp_from_words P mont old w = Ok (a, true).
Proof. intros OK NB T. exact (fp_words_roundtrip P OK NB T mont a old). Qed.
Print Assumptions C07_words.

Example C07_hypotheses_met : canon toy2 [3; 2 ^ 35] /\
  fp_num_bits toy2 = bit_length (val (fp_modulus toy2)) /\ nth 1 (fp_modulus toy2) 0 <> 0.
Proof. split; [apply canonb_iff; vm_compute; reflexivity|]. split; [vm_compute; reflexivity|discriminate]. Qed.

(** *** C08: with MONTGOMERY_OUTPUT the flag is right (for the bits that are
    looked at); in the default build it is always true. *)
Theorem C08_montgomery_partial P old w r b : fp_ok P ->
  fp_num_bits P = bit_length (val (fp_modulus P)) -> nth (fp_n P - 1) (fp_modulus P) 0 <> 0 ->
  limbs w -> length w = fp_n P -> length old = fp_n P ->
  fp_from_words P true old w = Ok (r, b) ->
  (b = true <-> val w mod 2 ^ fp_num_bits P < val (fp_modulus P)).
Proof. intros OK NB T. exact (from_words_flag_mont P OK NB T old w r b). Qed.
Print Assumptions C08_montgomery_partial.

Theorem C08_refuted : exists P old w r, fp_ok P /\ fp_ok_inv P /\
  fp_num_bits P = bit_length (val (fp_modulus P)) /\
  length w = fp_n P /\ limbs w /\ canon P old /\
  val (fp_modulus P) <= val w < 2 ^ fp_num_bits P /\
  fp_from_words P false old w = Ok (r, true).
Proof. exact from_words_refuted. Qed.
Print Assumptions C08_refuted.

(** *** C30, prime fields: [attempt_val P src k] is the k-th block of random
    words with the bits above the modulus' bit length cleared. *)
Theorem C30_random_element P fuel src : fp_ok P ->
  fp_num_bits P = bit_length (val (fp_modulus P)) -> nth (fp_n P - 1) (fp_modulus P) 0 <> 0 ->
  (forall r, fp_random_element P fuel src = Ok r ->
     exists k, (k < fuel)%nat /\ canon P r /\ val r = attempt_val P src k /\
       forall j, (j < k)%nat -> val (fp_modulus P) <= attempt_val P src j) /\
  (forall k, (k < fuel)%nat -> attempt_val P src k < val (fp_modulus P) ->
     exists r, fp_random_element P fuel src = Ok r).
Proof. intros OK NB T. exact (fp_random_element_spec P OK NB T fuel src). Qed.
Print Assumptions C30_random_element.

Example C30_hypotheses_met :
  exists r, fp_random_element toy 3 (fun i => if (i <? 2)%nat then 2 ^ 32 - 1 else Z.of_nat i) = Ok r.
Proof. eexists. vm_compute. reflexivity. Qed.
