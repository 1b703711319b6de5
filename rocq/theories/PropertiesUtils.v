(** Property theorems about the integer helpers of common/utils.cpp: C28. *)
From Coq Require Import ZArith List Bool.
From Verif Require Import Result UtilsModel UtilsProofs UtilsExtra.
Import ListNotations.
Open Scope Z_scope.

(** [log2 n] is the least k with n <= 2^k (0 for n = 0). *)
Theorem C28_log2 n : 0 <= n < 2 ^ 64 ->
  exists k, log2 n = Ok k /\ 0 <= k /\ n <= 2 ^ k /\ (forall j, 0 <= j -> n <= 2 ^ j -> k <= j).
Proof. exact (log2_least n). Qed.
Print Assumptions C28_log2.

(** The two round-up functions return the least power of two that is >= n. *)
Theorem C28_round_up n : 1 <= n <= 2 ^ 63 ->
  exists k, 0 <= k /\ round_to_next_power_of_2 n = Ok (2 ^ k) /\ get_power_of_two n = 2 ^ k /\
    n <= 2 ^ k /\ (forall j, 0 <= j -> n <= 2 ^ j -> 2 ^ k <= 2 ^ j).
Proof. exact (round_up_least n). Qed.
Print Assumptions C28_round_up.

(** Above 2^63 there is no such 64-bit power: the shift is undefined. *)
Theorem C28_round_up_overflow n : 2 ^ 63 < n < 2 ^ 64 -> round_to_next_power_of_2 n = UB.
Proof. exact (round_to_next_power_of_2_ub n). Qed.
Print Assumptions C28_round_up_overflow.

Theorem C28_is_power_of_2 n : 0 <= n < 2 ^ 64 ->
  (is_power_of_2 n = true <-> exists k, 0 <= k < 64 /\ n = 2 ^ k).
Proof. exact (is_power_of_2_spec n). Qed.
Print Assumptions C28_is_power_of_2.

Theorem C28_bitreverse n l : 0 <= n -> (l <= 64)%nat ->
  0 <= bitreverse n l < 2 ^ Z.of_nat l /\
  forall i, 0 <= i < Z.of_nat l ->
    Z.testbit (bitreverse n l) i = Z.testbit n (Z.of_nat l - 1 - i).
Proof. exact (bitreverse_spec n l). Qed.
Print Assumptions C28_bitreverse.

Theorem C28_bitreverse_involutive n l : 0 <= n < 2 ^ Z.of_nat l -> (l <= 64)%nat ->
  bitreverse (bitreverse n l) l = n.
Proof. exact (bitreverse_involutive n l). Qed.
Print Assumptions C28_bitreverse_involutive.

Theorem C28_twos_complement i w : 1 <= w <= 62 ->
  - 2 ^ 31 <= i < 2 ^ 31 -> - 2 ^ (w - 1) <= i < 2 ^ (w - 1) ->
  exists u, to_twos_complement i w = Ok u /\ 0 <= u < 2 ^ w /\ u = i mod 2 ^ w /\
            from_twos_complement u w = Ok i.
Proof. exact (twos_complement_roundtrip i w). Qed.
Print Assumptions C28_twos_complement.

Theorem C28_twos_complement_reject i w : 1 <= w <= 62 ->
  ~ (- 2 ^ (w - 1) <= i < 2 ^ (w - 1)) -> to_twos_complement i w = AssertFail.
Proof. exact (to_twos_complement_reject i w). Qed.
Print Assumptions C28_twos_complement_reject.

Theorem C28_int_list_to_bits l wordsize : (wordsize <= 64)%nat ->
  exists bs, int_list_to_bits l wordsize = Ok bs /\
    length bs = (wordsize * length l)%nat /\
    forall i j d, (i < length l)%nat -> (j < wordsize)%nat ->
      nth (i * wordsize + j) bs d =
      Z.testbit (nth i l 0) (Z.of_nat wordsize - 1 - Z.of_nat j).
Proof. exact (int_list_to_bits_spec l wordsize). Qed.
Print Assumptions C28_int_list_to_bits.

Theorem C28_div_ceil x y : 0 <= x -> 0 < y -> x + (y - 1) < 2 ^ 63 ->
  exists q, div_ceil x y = Ok q /\ (q - 1) * y < x <= q * y.
Proof. exact (div_ceil_spec x y). Qed.
Print Assumptions C28_div_ceil.

Theorem C28_div_ceil_zero x : div_ceil x 0 = Throw.
Proof. exact (div_ceil_zero x). Qed.
Print Assumptions C28_div_ceil_zero.

(** The signature takes signed operands; for a negative divisor the result is
    not the ceiling quotient. *)
Theorem C28_div_ceil_negative_refuted :
  exists x y q, y <> 0 /\ div_ceil x y = Ok q /\ q * y <> x /\ Z.rem x y = 0.
Proof. exact div_ceil_negative. Qed.
Print Assumptions C28_div_ceil_negative_refuted.

Example C28_examples : log2 5 = Ok 3 /\ get_power_of_two 5 = 8 /\ bitreverse 6 4 = 6 /\
  bitreverse 1 4 = 8 /\ to_twos_complement (-3) 8 = Ok 253 /\ div_ceil 7 2 = Ok 4 /\
  int_list_to_bits [5] 4 = Ok [false; true; false; true].
Proof. repeat (split; [vm_compute; reflexivity|]). vm_compute. reflexivity. Qed.
