(** Model of the integer helpers in libff/common/utils.cpp.
    [size_t] / [unsigned long] values are [Z] in [0, 2^64) with explicit
    wrap-around; oversized shifts and signed overflow are UB. *)
From Coq Require Import ZArith List Lia Bool.
From Verif Require Import Result Limbs.
Import ListNotations.
Open Scope Z_scope.
Open Scope result_scope.

Definition wrap64 (z : Z) : Z := z mod B.

(** A shift count must be smaller than the width of the promoted left operand. *)
Definition shl64 (x k : Z) : result Z :=
  if (0 <=? k) && (k <? 64) then Ok (wrap64 (Z.shiftl x k)) else UB.

(** utils.cpp:24-36 [get_power_of_two]. *)
Definition get_power_of_two (n : Z) : Z :=
  let n := wrap64 (n - 1) in
  let n := Z.lor n (Z.shiftr n 1) in
  let n := Z.lor n (Z.shiftr n 2) in
  let n := Z.lor n (Z.shiftr n 4) in
  let n := Z.lor n (Z.shiftr n 8) in
  let n := Z.lor n (Z.shiftr n 16) in
  let n := Z.lor n (Z.shiftr n 32) in
  wrap64 (n + 1).

(** utils.cpp:55-59, the [while (n > 1)] loop of [log2]. *)
Fixpoint log2_loop (fuel : nat) (n r : Z) : result Z :=
  match fuel with
  | O => OutOfFuel
  | S f => if 1 <? n then log2_loop f (Z.shiftr n 1) (r + 1) else Ok r
  end.

(** utils.cpp:49-62 [log2]. *)
Definition log2 (n : Z) : result Z :=
  let r := if Z.land n (wrap64 (n - 1)) =? 0 then 0 else 1 in
  log2_loop 65 n r.

(** utils.cpp:39-42 [round_to_next_power_of_2]. *)
Definition round_to_next_power_of_2 (n : Z) : result Z :=
  l <- log2 n ;; shl64 1 l.

(** utils.cpp:44-47 [is_power_of_2]. *)
Definition is_power_of_2 (n : Z) : bool :=
  negb (n =? 0) && (Z.land n (wrap64 (n - 1)) =? 0).

(** utils.cpp:64-69 [to_twos_complement(int i, size_t w)]; the shifts are
    signed 64-bit, so w-1 and w must be in [0,62] for defined results; the
    returned value is converted to size_t. *)
Definition to_twos_complement (i w : Z) : result Z :=
  if (1 <=? w) && (w <=? 62) then
    assert_then (- 2 ^ (w - 1) <=? i) (
    assert_then (i <? 2 ^ (w - 1)) (
    Ok (wrap64 (if 0 <=? i then i else i + 2 ^ w))))
  else UB.

(** Conversion of a 64-bit unsigned value to a 32-bit int (modular). *)
Definition to_int32 (z : Z) : Z :=
  let m := z mod 2 ^ 32 in if m <? 2 ^ 31 then m else m - 2 ^ 32.

(** utils.cpp:71-75 [from_twos_complement(size_t i, size_t w)]: the
    subtraction is unsigned and the result is converted to int. *)
Definition from_twos_complement (i w : Z) : result Z :=
  if (1 <=? w) && (w <=? 63) then
    assert_then (i <? 2 ^ w) (
    Ok (to_int32 (if i <? 2 ^ (w - 1) then i else wrap64 (i - 2 ^ w))))
  else UB.

(** utils.cpp:77-86 [bitreverse]: [todo] iterations remain. *)
Fixpoint bitreverse_loop (todo : nat) (n r : Z) : Z :=
  match todo with
  | O => r
  | S t => bitreverse_loop t (Z.shiftr n 1)
             (Z.lor (wrap64 (Z.shiftl r 1)) (Z.land n 1))
  end.
Definition bitreverse (n : Z) (l : nat) : Z := bitreverse_loop l n 0.

(** utils.cpp:88-99 [int_list_to_bits]; shifting by wordsize-1-j >= 64 is UB,
    which happens when wordsize > 64 and the list is non-empty. *)
Definition word_bits (wordsize : nat) (x : Z) : list bool :=
  map (fun j => negb (Z.land x (Z.shiftl 1 (Z.of_nat (wordsize - 1 - j))) =? 0))
      (seq 0 wordsize).
Definition int_list_to_bits (l : list Z) (wordsize : nat) : result (list bool) :=
  if (64 <? wordsize)%nat && negb (length l =? 0)%nat then UB
  else Ok (flat_map (word_bits wordsize) l).

(** Conversion of a size_t to a 64-bit long. *)
Definition to_s64 (z : Z) : Z := if z <? 2 ^ 63 then z else z - B.

(** utils.cpp:101-108 [div_ceil]: signed 64-bit; C++ division truncates. *)
Definition fits_s64 (z : Z) : bool := (- 2 ^ 63 <=? z) && (z <? 2 ^ 63).
Definition div_ceil (x y : Z) : result Z :=
  if y =? 0 then Throw
  else if fits_s64 (y - 1) && fits_s64 (x + (y - 1)) && fits_s64 (Z.quot (x + (y - 1)) y)
  then Ok (Z.quot (x + (y - 1)) y)
  else UB.
