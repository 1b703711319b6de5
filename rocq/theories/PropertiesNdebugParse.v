(** C67 for the parsers and square roots: what happens, in builds without
    assertions, to arguments the assertions would have stopped. *)
From Coq Require Import ZArith List Bool.
From Verif Require Import Result Limbs FpModel FieldOps AlgorithmsModel AlgorithmsField BigintModel StreamModel NdebugParseModel NdebugParseProofs Examples.
Import ListNotations.
Open Scope Z_scope.

(** Strings of digits are parsed as before; any other character reaches
    mpn_set_str as a digit out of range. *)
Theorem C67_string n s : bytes s ->
  bigint_of_string_nd n s = match bigint_of_string n s with AssertFail => UB | r => r end.
Proof. exact (of_string_nd n s). Qed.
Print Assumptions C67_string.

Theorem C67_read_text n s : bytes s ->
  bigint_read_text_nd n s = match bigint_read_text n s with AssertFail => UB | r => r end.
Proof. exact (read_text_nd n s). Qed.
Print Assumptions C67_read_text.

Theorem C67_read_element P bin mont s : bytes s -> bigint_read_text (fp_n P) s <> AssertFail ->
  fp_read_nd P bin mont s = fp_read P bin mont s.
Proof. exact (fp_read_nd_agrees P bin mont s). Qed.
Print Assumptions C67_read_element.

Theorem C67_read_malformed P mont s : bytes s -> bigint_read_text (fp_n P) s = AssertFail ->
  fp_read P false mont s = AssertFail /\ fp_read_nd P false mont s = UB.
Proof. exact (fp_read_nd_malformed P mont s). Qed.
Print Assumptions C67_read_malformed.

Theorem C67_from_words P mont old words : fp_num_bits P <= 64 * Z.of_nat (length words) ->
  fp_from_words_nd P mont old words = fp_from_words P mont old words.
Proof. exact (from_words_nd_agrees P mont old words). Qed.
Print Assumptions C67_from_words.

Theorem C67_from_words_short P mont old words : 64 * Z.of_nat (length words) < fp_num_bits P ->
  fp_from_words P mont old words = AssertFail /\ fp_from_words_nd P mont old words = UB.
Proof. exact (from_words_nd_short P mont old words). Qed.
Print Assumptions C67_from_words_short.

(** Square roots of squares are as before; on a non-square the function does not
    return, DEBUG or not. *)
Theorem C67_sqrt_square {K} (F : Fops K) S q fuel y : field_ok F -> char_not_2 F ->
  sqrt_ok F S q -> order_divides F q -> sq_s S < Z.of_nat fuel ->
  exists r, field_sqrt_nd F S fuel (omul F y y) = Ok r /\ (r = y \/ r = oopp F y).
Proof. exact (sqrt_nd_square F S q fuel y). Qed.
Print Assumptions C67_sqrt_square.

Theorem C67_sqrt_nonsquare {K} (F : Fops K) S q fuel a : field_ok F -> char_not_2 F ->
  sqrt_ok F S q -> order_divides F q -> (forall y, omul F y y <> a) ->
  field_sqrt_nd F S fuel a = OutOfFuel.
Proof. exact (sqrt_nd_nonsquare F S q fuel a). Qed.
Print Assumptions C67_sqrt_nonsquare.

Example C67_parse_examples :
  bigint_of_string 1 [49; 97] = AssertFail /\ bigint_of_string_nd 1 [49; 97] = UB /\
  bigint_of_string_nd 1 [49; 50] = Ok [12] /\
  fp_from_words toy false [0] [] = AssertFail /\ fp_from_words_nd toy false [0] [] = UB.
Proof. exact parse_examples. Qed.
