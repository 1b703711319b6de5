(** Property theorems for packing between bits, integers and field elements: C13.
    [bits_val] is the little-endian value of a bit list, [bit_chunk c i v] the
    i-th group of c bits of v, [words_to_bits w v] the words' low w bits in
    order (PackingProofs.v). *)
From Coq Require Import ZArith List.
From Verif Require Import Result Limbs BigintProofs FpModel FpSpec PackingModel PackingProofs Examples.
Import ListNotations.
Open Scope Z_scope.

Theorem C13_pack_bits P v c : fp_ok P -> fp_num_bits P = bit_length (val (fp_modulus P)) ->
  nth (fp_n P - 1) (fp_modulus P) 0 <> 0 -> 64 * Z.of_nat (fp_n P) < 2 ^ 62 ->
  (0 < c)%nat -> Z.of_nat c <= floor_size_in_bits P -> Z.of_nat (length v) + Z.of_nat c < 2 ^ 63 ->
  exists r, pack_bit_vector P v c = Ok r /\ Forall (canon P) r /\
    map (den P) r = map (fun i => bits_val (bit_chunk c i v)) (seq 0 (length r)) /\
    (length v <= length r * c < length v + c)%nat.
Proof. intros OK NB T S. exact (pack_bit_vector_spec P OK NB T S v c). Qed.
Print Assumptions C13_pack_bits.

Theorem C13_pack_bits_too_wide P v c : floor_size_in_bits P < Z.of_nat c ->
  pack_bit_vector P v c = AssertFail.
Proof. exact (pack_bit_vector_too_wide P v c). Qed.
Print Assumptions C13_pack_bits_too_wide.

Theorem C13_pack_unpack P v c : fp_ok P -> fp_num_bits P = bit_length (val (fp_modulus P)) ->
  nth (fp_n P - 1) (fp_modulus P) 0 <> 0 -> 64 * Z.of_nat (fp_n P) < 2 ^ 62 ->
  (0 < c)%nat -> Z.of_nat c <= floor_size_in_bits P -> Z.of_nat (length v) + Z.of_nat c < 2 ^ 63 ->
  exists r ls, pack_bit_vector P v c = Ok r /\
    mapM (fun a => field_to_bits_n P a c) r = Ok ls /\
    concat ls = v ++ repeat false (length r * c - length v) /\
    (length v <= length r * c < length v + c)%nat.
Proof. intros OK NB T S. exact (pack_unpack P OK NB T S v c). Qed.
Print Assumptions C13_pack_unpack.

Theorem C13_pack_ints P v w : fp_ok P -> fp_num_bits P = bit_length (val (fp_modulus P)) ->
  nth (fp_n P - 1) (fp_modulus P) 0 <> 0 -> 64 * Z.of_nat (fp_n P) < 2 ^ 62 ->
  0 <= w <= 64 -> Z.of_nat (length v) * w < 2 ^ 63 ->
  pack_int_vector P v w = pack_bit_vector_default P (words_to_bits (Z.to_nat w) v).
Proof. intros OK NB T S. exact (pack_int_vector_spec P OK NB T S v w). Qed.
Print Assumptions C13_pack_ints.

(** Words wider than 64 bits: the shift is undefined. *)
Theorem C13_pack_ints_too_wide P v w : fp_ok P -> fp_num_bits P = bit_length (val (fp_modulus P)) ->
  nth (fp_n P - 1) (fp_modulus P) 0 <> 0 -> 64 * Z.of_nat (fp_n P) < 2 ^ 62 ->
  v <> [] -> 64 < w -> Z.of_nat (length v) * w < 2 ^ 62 ->
  pack_int_vector P v w = UB.
Proof. intros OK NB T S. exact (pack_int_vector_wide_ub P OK NB T S v w). Qed.
Print Assumptions C13_pack_ints_too_wide.

Theorem C13_field_to_bits P a : fp_ok P -> fp_num_bits P = bit_length (val (fp_modulus P)) ->
  nth (fp_n P - 1) (fp_modulus P) 0 <> 0 -> canon P a ->
  exists l, field_to_bits P a = Ok l /\ Z.of_nat (length l) = fp_num_bits P /\ bits_val l = den P a.
Proof. intros OK NB T. exact (field_to_bits_spec P OK NB T a). Qed.
Print Assumptions C13_field_to_bits.

Theorem C13_bits_to_field P v : fp_ok P -> Z.of_nat (length v) <= fp_num_bits P ->
  exists r, bits_to_field P v = Ok r /\ canon P r /\ den P r = bits_val v mod val (fp_modulus P).
Proof. intros OK. exact (bits_to_field_spec P OK v). Qed.
Print Assumptions C13_bits_to_field.

Theorem C13_bits_to_field_too_long P v : fp_num_bits P < Z.of_nat (length v) ->
  bits_to_field P v = AssertFail.
Proof. exact (bits_to_field_too_long P v). Qed.
Print Assumptions C13_bits_to_field_too_long.

Theorem C13_field_bits_roundtrip P a : fp_ok P -> fp_num_bits P = bit_length (val (fp_modulus P)) ->
  nth (fp_n P - 1) (fp_modulus P) 0 <> 0 -> canon P a ->
  exists l, field_to_bits P a = Ok l /\ bits_to_field P l = Ok a.
Proof. intros OK NB T. exact (field_bits_roundtrip P OK NB T a). Qed.
Print Assumptions C13_field_bits_roundtrip.

Theorem C13_bits_field_roundtrip P l : fp_ok P -> fp_num_bits P = bit_length (val (fp_modulus P)) ->
  nth (fp_n P - 1) (fp_modulus P) 0 <> 0 ->
  Z.of_nat (length l) = fp_num_bits P -> bits_val l < val (fp_modulus P) ->
  exists a, bits_to_field P l = Ok a /\ field_to_bits P a = Ok l.
Proof. intros OK NB T. exact (bits_field_roundtrip P OK NB T l). Qed.
Print Assumptions C13_bits_field_roundtrip.

Theorem C13_bits_to_field_vector P v : fp_ok P ->
  exists r, bits_to_field_vector P v = Ok r /\ Forall (canon P) r /\ map (den P) r = map Z.b2z v.
Proof. intros OK. exact (bits_to_field_vector_spec P OK v). Qed.
Print Assumptions C13_bits_to_field_vector.

Theorem C13_field_vector_to_bits P v : fp_ok P -> fp_num_bits P = bit_length (val (fp_modulus P)) ->
  nth (fp_n P - 1) (fp_modulus P) 0 <> 0 -> Forall (canon P) v ->
  exists ls, mapM (field_to_bits P) v = Ok ls /\ field_vector_to_bits P v = Ok (concat ls) /\
    map bits_val ls = map (den P) v /\ Forall (fun l => Z.of_nat (length l) = fp_num_bits P) ls.
Proof. intros OK NB T. exact (field_vector_to_bits_spec P OK NB T v). Qed.
Print Assumptions C13_field_vector_to_bits.

(** The hypotheses hold of a two-limb field, and the functions do real work. *)
Example C13_example :
  fp_num_bits toy2 = bit_length (val (fp_modulus toy2)) /\ nth (fp_n toy2 - 1) (fp_modulus toy2) 0 <> 0 /\
  floor_size_in_bits toy2 = 100 /\
  (exists r, pack_bit_vector toy2 (repeat true 130) 70 = Ok r /\ length r = 2%nat).
Proof.
  split; [reflexivity|]. split; [intro H; vm_compute in H; discriminate|]. split; [reflexivity|].
  destruct (pack_bit_vector toy2 (repeat true 130) 70) as [r| | | | |] eqn:E; vm_compute in E; try discriminate.
  exists r. injection E as <-. split; reflexivity.
Qed.
