(** Model of the packing functions of libff/algebra/field_utils/field_utils.tcc
    (lines 116-232) for prime fields. *)
From Coq Require Import ZArith List Bool.
From Verif Require Import Result Limbs BigintModel UtilsModel FpModel.
Import ListNotations.
Open Scope Z_scope.
Open Scope result_scope.

(** Run a partial function over a list, left to right. *)
Fixpoint mapM {A C} (f : A -> result C) (l : list A) : result (list C) :=
  match l with
  | [] => Ok []
  | x :: l' => y <- f x ;; ys <- mapM f l' ;; Ok (y :: ys)
  end.

Section Packing.
Variable P : fp_params.
(** fp.hpp:128-129 *)
Definition ceil_size_in_bits : Z := fp_num_bits P.
Definition floor_size_in_bits : Z := wrap64 (fp_num_bits P - 1).

(** field_utils.tcc:126-134 and 152-155: bit j of the chunk is or-ed into limb
    j/64 at position j%64. *)
Fixpoint or_bits (j todo : nat) (bit : nat -> bool) (b : list Z) : list Z :=
  match todo with
  | O => b
  | S t =>
      or_bits (S j) t bit
        (upd b (j / 64) (Z.lor (nth (j / 64) b 0) (Z.shiftl (Z.b2z (bit j)) (Z.of_nat (j mod 64)))))
  end.
(** The bigint of chunk i; writing past [data] is UB. *)
Definition chunk_bigint (chunk_bits : nat) (bit : nat -> bool) : result (list Z) :=
  if (64 * fp_n P <? chunk_bits)%nat then UB
  else Ok (or_bits 0 chunk_bits bit (bigint_zero (fp_n P))).

(** Bit k of the stream of w-bit words, or 0 past the end. *)
Definition word_bit (v : list Z) (w k : nat) : bool :=
  Z.testbit (nth (k / w) v 0) (Z.of_nat (k mod w)).

(** field_utils.tcc:116-139 [pack_int_vector_into_field_element_vector].
    [v.size() * w] wraps and is then converted to long.  Shifting a 64-bit
    word by 64 or more is UB, so w > 64 is UB when anything is packed. *)
Definition pack_int_vector (v : list Z) (w : Z) : result (list (list Z)) :=
  repacked_size <- div_ceil (to_s64 (wrap64 (Z.of_nat (length v) * w))) (to_s64 floor_size_in_bits) ;;
  let chunk_bits := Z.to_nat floor_size_in_bits in
  if (0 <? repacked_size) && (64 <? w) then UB else
  mapM (fun i =>
    b <- chunk_bigint chunk_bits (fun j => word_bit v (Z.to_nat w) (i * chunk_bits + j)) ;;
    fp_of_bigint P b) (seq 0 (Z.to_nat repacked_size)).

(** field_utils.tcc:141-160 [pack_bit_vector_into_field_element_vector].
    ([1ll << 63] is taken as two's complement.) *)
Definition pack_bit_vector (v : list bool) (chunk_bits : nat) : result (list (list Z)) :=
  assert_then (Z.of_nat chunk_bits <=? floor_size_in_bits) (
  repacked_size <- div_ceil (to_s64 (Z.of_nat (length v))) (to_s64 (Z.of_nat chunk_bits)) ;;
  mapM (fun i =>
    b <- chunk_bigint chunk_bits (fun j => nth (i * chunk_bits + j) v false) ;;
    fp_of_bigint P b) (seq 0 (Z.to_nat repacked_size))).
(** field_utils.tcc:162-166 *)
Definition pack_bit_vector_default (v : list bool) : result (list (list Z)) :=
  pack_bit_vector v (Z.to_nat floor_size_in_bits).

(** field_utils.tcc:168-180 [convert_bit_vector_to_field_element_vector]. *)
Definition bits_to_field_vector (v : list bool) : result (list (list Z)) :=
  mapM (fun b : bool => if b then fp_one P else Ok (fp_zero P)) v.

(** field_utils.tcc:196-208 [convert_field_element_to_bit_vector]. *)
Definition field_to_bits (el : list Z) : result (list bool) :=
  b <- fp_as_bigint P el ;;
  Ok (map (fun i => bigint_test_bit b (Z.of_nat i)) (seq 0 (Z.to_nat ceil_size_in_bits))).
(** field_utils.tcc:210-217: [resize(bitcount)]. *)
Definition resize_bits (n : nat) (l : list bool) : list bool :=
  firstn n l ++ repeat false (n - length l).
Definition field_to_bits_n (el : list Z) (bitcount : nat) : result (list bool) :=
  l <- field_to_bits el ;; Ok (resize_bits bitcount l).
(** field_utils.tcc:182-194 [convert_field_element_vector_to_bit_vector]. *)
Definition field_vector_to_bits (v : list (list Z)) : result (list bool) :=
  ls <- mapM field_to_bits v ;; Ok (concat ls).

(** field_utils.tcc:219-232 [convert_bit_vector_to_field_element]. *)
Fixpoint bits_to_field_loop (v : list bool) (res c : list Z) : result (list Z) :=
  match v with
  | [] => Ok res
  | b :: v' =>
      res <- fp_add P res (if b then c else fp_zero P) ;;
      c <- fp_add P c c ;;
      bits_to_field_loop v' res c
  end.
Definition bits_to_field (v : list bool) : result (list Z) :=
  assert_then (Z.of_nat (length v) <=? ceil_size_in_bits) (
  one <- fp_one P ;; bits_to_field_loop v (fp_zero P) one).
End Packing.
