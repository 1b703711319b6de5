(** Model of [bigint<n>]: libff/algebra/field_utils/bigint.{hpp,tcc}.

    A [bigint<n>] is the little-endian array [data] of n limbs.  The template
    parameter n is the length of the list.  In-place methods are modelled as
    functions returning the new value. *)
From Coq Require Import ZArith List Lia Bool.
From Verif Require Import Result Limbs StreamModel.
Import ListNotations.
Open Scope Z_scope.
Open Scope result_scope.

Notation bigint := (list Z) (only parsing).

(** bigint.hpp:39 [mp_limb_t data[n] = {0}] then bigint.tcc:20-25
    [bigint(const unsigned long x)]. n >= 1. *)
Definition bigint_zero (n : nat) : bigint := repeat 0 n.
Definition bigint_of_ulong (n : nat) (x : Z) : bigint := x :: repeat 0 (n - 1).

(** bigint.tcc:66-72 [bigint<n>::one]. *)
Definition bigint_one (n : nat) : bigint := bigint_of_ulong n 1.

(** Number of limbs GMP's [mpn_set_str] reports for a value: no leading zero
    limbs (GMP manual, mpn_set_str). *)
Definition set_str_size (v : Z) : nat :=
  if v =? 0 then O else S (Z.to_nat (Z.log2 v / 64)).

(** bigint.tcc:27-47 [bigint(const char* s)].  The per-character asserts come
    first.  [mpn_set_str] requires at least one digit (the empty string is UB)
    and writes [limbs_written] limbs before the assert at line 41 looks at it,
    so a value of more than n limbs overruns [data]: UB. *)
Definition bigint_of_string (n : nat) (s : list Z) : result bigint :=
  if forallb is_digit s then
    match s with
    | [] => UB
    | _ => let v := digits_val s in
           if (n <? set_str_size v)%nat then UB else Ok (limbs_of n v)
    end
  else AssertFail.

(** bigint.tcc:49-63 [bigint(const mpz_t r)].  [mpz_get_ui] is the low limb of
    the absolute value, [mpz_fdiv_q_2exp] the floor shift. *)
Fixpoint bigint_of_mpz_loop (n : nat) (k : Z) : list Z * Z :=
  match n with
  | O => ([], k)
  | S n' => let '(l, k') := bigint_of_mpz_loop n' (k / B) in
            (Z.abs k mod B :: l, k')
  end.
Definition bigint_of_mpz (n : nat) (r : Z) : result bigint :=
  let '(l, k) := bigint_of_mpz_loop n r in
  assert_then (k =? 0) (Ok l).

(** bigint.tcc:86-90, 92-96, 98-102: [==], [!=], [<]. *)
Definition bigint_eqb (a b : bigint) : bool :=
  match mpn_cmp a b with Eq => true | _ => false end.
Definition bigint_neqb (a b : bigint) : bool := negb (bigint_eqb a b).
Definition bigint_ltb (a b : bigint) : bool :=
  match mpn_cmp a b with Lt => true | _ => false end.

(** bigint.tcc:104-108 [clear]. *)
Definition bigint_clear (a : bigint) : bigint := repeat 0 (length a).

(** bigint.tcc:110-122 [is_zero]. *)
Fixpoint bigint_is_zero (a : bigint) : bool :=
  match a with
  | [] => true
  | x :: a' => if negb (x =? 0) then false else bigint_is_zero a'
  end.

(** bigint.tcc:124-128 [is_even]. *)
Definition bigint_is_even (a : bigint) : bool := Z.land (nth 0 a 0) 1 =? 0.

(** [__builtin_clzl] of a non-zero 64-bit value. *)
Definition clzl (x : Z) : Z := 63 - Z.log2 x.

(** bigint.tcc:130-157 [num_bits]: scan limbs from the top; [i] limbs are left. *)
Fixpoint num_bits_loop (a : bigint) (i : nat) : Z :=
  match i with
  | O => 0
  | S j => let x := nth j a 0 in
           if x =? 0 then num_bits_loop a j
           else (Z.of_nat j + 1) * 64 - clzl x
  end.
Definition bigint_num_bits (a : bigint) : Z := num_bits_loop a (length a).

(** bigint.tcc:159-163 [as_ulong]. *)
Definition bigint_as_ulong (a : bigint) : Z := nth 0 a 0.

(** bigint.tcc:165-175 [to_mpz]: Horner from the top limb. *)
Definition bigint_to_mpz (a : bigint) : Z :=
  fold_left (fun r x => r * 2 ^ 64 + x) (rev a) 0.

(** bigint.tcc:177-191 [test_bit]; bitno is a size_t. *)
Definition bigint_test_bit (a : bigint) (bitno : Z) : bool :=
  if Z.of_nat (length a) * 64 <=? bitno then false
  else
    let part := bitno / 64 in
    let bit := bitno - 64 * part in
    negb (Z.land (nth (Z.to_nat part) a 0) (Z.shiftl 1 bit) =? 0).

(** bigint.tcc:193-206 [randomize]: 2n 32-bit words from [std::random_device]
    (an arbitrary source) stored little-endian into n limbs. *)
Fixpoint bigint_randomize (n : nat) (src : nat -> Z) : bigint :=
  match n with
  | O => []
  | S n' => (src 0%nat mod 2^32 + 2^32 * (src 1%nat mod 2^32))
            :: bigint_randomize n' (fun i => src (S (S i)))
  end.

(** bigint.tcc:209-224 [operator<<], text ([BINARY_OUTPUT] undefined) and
    binary. *)
Definition bigint_write_text (a : bigint) : stream := dec (bigint_to_mpz a).
Definition bigint_write_bin (a : bigint) : stream :=
  flat_map (le_bytes 8) a.

(** bigint.tcc:226-254 [operator>>], text mode.  An empty token reaches
    [mpn_set_str] with length 0: UB; too many limbs overrun [b.data]: UB. *)
Definition bigint_read_text (n : nat) (s : stream) : result (bigint * stream) :=
  let '(t, r) := read_string s in
  b <- bigint_of_string n t ;; Ok (b, r).

Fixpoint limbs_of_bytes (n : nat) (l : list Z) : list Z :=
  match n with
  | O => []
  | S n' => le_val (firstn 8 l) :: limbs_of_bytes n' (skipn 8 l)
  end.
(** bigint.tcc:226-254 [operator>>], binary mode ([in.read] of 8n bytes). *)
Definition bigint_read_bin (n : nat) (s : stream) : result (bigint * stream) :=
  '(bs, r) <- read_bytes (8 * n) s ;; Ok (limbs_of_bytes n bs, r).
