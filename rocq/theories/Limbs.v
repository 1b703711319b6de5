(** 64-bit limbs, limb lists and the documented semantics of the GMP [mpn_*]
    functions used by libff.

    A limb is a [Z] in [0, 2^64).  A limb array is a little-endian [list Z].
    The [mpn_*] functions are external (GMP): they are represented here by
    executable definitions of the semantics documented in the GMP manual
    ("Low-level Functions").  They are part of the trusted base. *)
From Coq Require Import ZArith List Lia Bool.
Import ListNotations.
Open Scope Z_scope.

(** [GMP_NUMB_BITS] is 64: libff/algebra/field_utils/bigint.hpp and the
    static_asserts in fp.tcc:779. *)
Definition limb_bits : Z := 64.
Definition B : Z := 18446744073709551616. (* 2^64 *)

Definition is_limb (x : Z) : Prop := 0 <= x < B.
Definition limbs (l : list Z) : Prop := Forall is_limb l.

Definition is_limbb (x : Z) : bool := (0 <=? x) && (x <? B).
Definition limbsb (l : list Z) : bool := forallb is_limbb l.

(** Integer denoted by a little-endian limb array. *)
Fixpoint val (l : list Z) : Z :=
  match l with
  | [] => 0
  | x :: l' => x + B * val l'
  end.

(** [2^(64 n)], the Montgomery radix for n limbs. *)
Definition Bn (n : nat) : Z := 2 ^ (64 * Z.of_nat n).

(** The n least significant limbs of an integer. *)
Fixpoint limbs_of (n : nat) (z : Z) : list Z :=
  match n with
  | O => []
  | S n' => z mod B :: limbs_of n' (z / B)
  end.

(** [mpn_add_n(rp, s1p, s2p, n)]: n low limbs of the sum, and the carry. *)
Definition mpn_add_n (a b : list Z) : list Z * Z :=
  let s := val a + val b in
  (limbs_of (length a) s, s / Bn (length a)).

(** [mpn_sub_n(rp, s1p, s2p, n)] / [mpn_sub(rp, s1p, n1, s2p, n2)]: n1 low
    limbs of the difference, and the borrow. *)
Definition mpn_sub (a b : list Z) : list Z * Z :=
  let d := val a - val b in
  (limbs_of (length a) d, - (d / Bn (length a))).

(** [mpn_add_1(rp, s1p, n, s2limb)] / [mpn_sub_1]. *)
Definition mpn_add_1 (a : list Z) (c : Z) : list Z * Z :=
  let s := val a + c in
  (limbs_of (length a) s, s / Bn (length a)).
Definition mpn_sub_1 (a : list Z) (c : Z) : list Z * Z :=
  let d := val a - c in
  (limbs_of (length a) d, - (d / Bn (length a))).

(** [mpn_addmul_1(rp, s1p, n, s2limb)]: rp + s1p * s2limb, carry-out limb. *)
Definition mpn_addmul_1 (r a : list Z) (k : Z) : list Z * Z :=
  let s := val r + val a * k in
  (limbs_of (length a) s, s / Bn (length a)).

(** [mpn_mul_1(rp, s1p, n, s2limb)]. *)
Definition mpn_mul_1 (a : list Z) (k : Z) : list Z * Z :=
  let s := val a * k in
  (limbs_of (length a) s, s / Bn (length a)).

(** [mpn_mul_n(rp, s1p, s2p, n)]: full 2n-limb product. *)
Definition mpn_mul_n (a b : list Z) : list Z :=
  limbs_of (2 * length a) (val a * val b).

(** [mpn_cmp(s1p, s2p, n)]. *)
Definition mpn_cmp (a b : list Z) : comparison := val a ?= val b.

(** [mpn_rshift(rp, sp, n, count)], result part only. *)
Definition mpn_rshift (a : list Z) (c : Z) : list Z :=
  limbs_of (length a) (val a / 2 ^ c).

(** [mpn_tdiv_qr(qp, rp, 0, np, nn, dp, dn)]: remainder part, dn limbs. *)
Definition mpn_tdiv_r (num d : list Z) : list Z :=
  limbs_of (length d) (val num mod val d).
