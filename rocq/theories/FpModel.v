(** Model of [Fp_model<n, modulus>] (portable code paths):
    libff/algebra/fields/prime_base/fp.{hpp,tcc}.

    An element is its [mont_repr] limb array.  Template parameter n and the
    static members are collected in [fp_params].  In-place operators return
    the new [mont_repr].  Operation counters are in OpcountModel.v.  The USE_ASM
    paths are modelled separately (FpAsmModel.v). *)
From Coq Require Import ZArith List Lia Bool.
From Verif Require Import Result Limbs StreamModel BigintModel.
Import ListNotations.
Open Scope Z_scope.
Open Scope result_scope.

(** fp.hpp:45-64 template parameters and the static members used by the
    arithmetic. *)
Record fp_params : Type := mkFp {
  fp_n : nat;                 (* number of limbs *)
  fp_modulus : list Z;        (* modulus *)
  fp_inv : Z;                 (* modulus^(-1) mod W, negated; fp.hpp:55 *)
  fp_Rsquared : list Z;       (* R^2 mod modulus, R = W^n; fp.hpp:56 *)
  fp_Rcubed : list Z;         (* R^3 mod modulus; fp.hpp:57 *)
  fp_num_bits : Z             (* fp.hpp:53 *)
}.

Section Fp.
Variable P : fp_params.
Let n := fp_n P.
Let md := fp_modulus P.

(** fp.tcc:173-180: one iteration of the reduction loop; [res] has 2n limbs. *)
Definition reduce_step (i : nat) (res : list Z) : result (list Z) :=
  let k := (fp_inv P * nth i res 0) mod B in
  let '(mid, c) := mpn_addmul_1 (firstn n (skipn i res)) md k in
  let '(hi, c') := mpn_add_1 (skipn (n + i) res) c in
  assert_then (c' =? 0) (Ok (firstn i res ++ mid ++ hi)).

(** fp.tcc:173-180: [for (i = 0; i < n; ++i)]; [todo] iterations remain. *)
Fixpoint reduce_loop (todo : nat) (i : nat) (res : list Z) : result (list Z) :=
  match todo with
  | O => Ok res
  | S t => res' <- reduce_step i res ;; reduce_loop t (S i) res'
  end.

(** fp.tcc:182-192: final conditional subtraction. *)
Definition cond_sub (hi : list Z) : result (list Z) :=
  match mpn_cmp hi md with
  | Lt => Ok hi
  | _ => let '(r, borrow) := mpn_sub hi md in
         assert_then (borrow =? 0) (Ok r)
  end.

(** fp.tcc:164-193 [mul_reduce], portable branch. *)
Definition mul_reduce (a b : list Z) : result (list Z) :=
  res <- reduce_loop n 0 (mpn_mul_n a b) ;;
  cond_sub (skipn n res).

(** fp.tcc:196-201 [Fp_model(const bigint<n> &b)]. *)
Definition fp_of_bigint (b : list Z) : result (list Z) :=
  mul_reduce (fp_Rsquared P) b.

(** fp.tcc:203-222 [Fp_model(const long x, const bool is_unsigned)];
    x is a 64-bit signed integer; negating LONG_MIN is UB. *)
Definition fp_of_long (x : Z) (is_unsigned : bool) : result (list Z) :=
  if is_unsigned || (0 <=? x) then
    mul_reduce (bigint_of_ulong n (x mod B)) (fp_Rsquared P)
  else if x =? - 2 ^ 63 then UB
  else
    let '(r, borrow) := mpn_sub_1 md (- x) in
    assert_then (borrow =? 0) (mul_reduce r (fp_Rsquared P)).

(** fp.tcc:224-230 [set_ulong]. *)
Definition fp_set_ulong (x : Z) : result (list Z) :=
  mul_reduce (bigint_of_ulong n x) (fp_Rsquared P).

(** fp.tcc:232-236 [clear], 286-292 [zero]. *)
Definition fp_zero : list Z := bigint_zero n.

(** fp.tcc:294-301 [one]: [mont_repr.data[0] = 1; mul_reduce(Rsquared)]. *)
Definition fp_one : result (list Z) :=
  mul_reduce (bigint_of_ulong n 1) (fp_Rsquared P).

(** fp.tcc:244-252 [as_bigint]. *)
Definition fp_as_bigint (a : list Z) : result (list Z) :=
  mul_reduce a (bigint_one n).

(** fp.tcc:254-258 [as_ulong]. *)
Definition fp_as_ulong (a : list Z) : result Z :=
  rmap bigint_as_ulong (fp_as_bigint a).

(** fp.tcc:260-276 [==], [!=], [is_zero]. *)
Definition fp_eqb (a b : list Z) : bool := bigint_eqb a b.
Definition fp_neqb (a b : list Z) : bool := bigint_neqb a b.
Definition fp_is_zero (a : list Z) : bool := bigint_is_zero a.

(** fp.tcc:419-435 [operator+=], portable branch.  [scratch] has n+1 limbs;
    the assignment [scratch[n] = carry] is the append. *)
Definition fp_add (a b : list Z) : result (list Z) :=
  let '(s, carry) := mpn_add_n a b in
  let scratch := s ++ [carry] in
  if negb (carry =? 0) ||
     match mpn_cmp s md with Lt => false | _ => true end
  then
    let '(d, borrow) := mpn_sub scratch md in
    assert_then (borrow =? 0) (Ok (firstn n d))
  else Ok (firstn n scratch).

(** fp.tcc:509-530 [operator-=], portable branch. *)
Definition fp_sub (a b : list Z) : result (list Z) :=
  let scratch :=
    match mpn_cmp a b with
    | Lt => let '(s, carry) := mpn_add_n a md in s ++ [carry]
    | _ => a ++ [0]
    end in
  let '(d, borrow) := mpn_sub scratch b in
  assert_then (borrow =? 0) (Ok (firstn n d)).

(** fp.tcc:534-543 [operator*=]. *)
Definition fp_mul (a b : list Z) : result (list Z) := mul_reduce a b.

(** fp.tcc:596-613 unary [operator-]. *)
Definition fp_neg (a : list Z) : list Z :=
  if fp_is_zero a then a else fst (mpn_sub md a).

(** fp.tcc:656-660 [squared], portable branch; 663-668 [square]. *)
Definition fp_squared (a : list Z) : result (list Z) := fp_mul a a.

(** Extended Euclid, reference for GMP's [mpn_gcdext]. *)
Fixpoint egcd (fuel : nat) (r0 r1 s0 s1 : Z) : Z * Z :=
  match fuel with
  | O => (r0, s0)
  | S f => if r1 =? 0 then (r0, s0)
           else egcd f r1 (r0 mod r1) s1 (s0 - r0 / r1 * s1)
  end.

(** GMP's [mpn_gcdext(gp, sp, &sn, up, un, vp, vn)]: G = gcd(U,V) and the
    cofactor S of U with |S| < V/(2G) (or S = 1), which the manual's conditions
    determine uniquely. *)
Definition gcdext (u v : Z) : Z * Z :=
  let '(g, s) := egcd (Z.to_nat (2 * (Z.log2 v + 2))) v (u mod v) 0 1 in
  let m := v / g in
  let s := s mod m in
  (g, if 2 * s <? m then s else if m =? 2 then 1 else s - m).

(** fp.tcc:670-722 [invert].  [mpn_gcdext] requires the top limb of the
    modulus to be non-zero (GMP manual), otherwise UB.  [mpn_tdiv_qr] writes
    |sn|-n+1 quotient limbs to the single limb q. *)
Definition fp_invert (a : list Z) : result (list Z) :=
  assert_then (negb (fp_is_zero a)) (
  if nth (n - 1) md 0 =? 0 then UB else
  let '(g, s) := gcdext (val a) (val md) in
  assert_then (g =? 1) (
  let abs_sn := set_str_size (Z.abs s) in
  let sl := limbs_of abs_sn (Z.abs s) in
  r <- (if (n <=? abs_sn)%nat then
          if (n <? abs_sn)%nat then UB else Ok (mpn_tdiv_r sl md)
        else Ok (sl ++ repeat 0 (n - abs_sn))) ;;
  r <- (if s <? 0 then
          let '(d, borrow) := mpn_sub md r in assert_then (borrow =? 0) (Ok d)
        else Ok r) ;;
  mul_reduce r (fp_Rcubed P))).

(** fp.tcc:739-767 [random_element]: clear the bits above the modulus' most
    significant bit, [bitno] counting down (the inner while loop stops at the
    top set bit of the modulus; [todo] bounds it). *)
Fixpoint upd {A} (l : list A) (i : nat) (x : A) : list A :=
  match l, i with
  | [], _ => []
  | _ :: l', O => x :: l'
  | y :: l', S i' => y :: upd l' i' x
  end.
Fixpoint clear_high (todo : nat) (r : list Z) : list Z :=
  match todo with
  | O => r
  | S bitno =>
      if bigint_test_bit md (Z.of_nat bitno) then r
      else
        let part := Nat.div bitno 64 in
        let bit := Z.of_nat bitno - 64 * Z.of_nat part in
        clear_high bitno
          (upd r part (Z.land (nth part r 0) (B - 1 - Z.shiftl 1 bit)))
  end.
(** One attempt of the do-while body. *)
Definition random_attempt (src : nat -> Z) : list Z :=
  clear_high (64 * n) (bigint_randomize n src).
(** The do-while loop; attempt k uses the random words from 2nk on. *)
Fixpoint fp_random_element (fuel : nat) (src : nat -> Z) : result (list Z) :=
  match fuel with
  | O => OutOfFuel
  | S f =>
      let r := random_attempt src in
      match mpn_cmp r md with
      | Lt => Ok r
      | _ => fp_random_element f (fun i => src (2 * n + i)%nat)
      end
  end.

(** fp.tcc:826-836 [bigint_repr]; [mont] says whether MONTGOMERY_OUTPUT is
    defined. *)
Definition fp_bigint_repr (mont : bool) (a : list Z) : result (list Z) :=
  if mont then Ok a else fp_as_bigint a.

(** fp.tcc:775-785 [to_words]. *)
Definition fp_to_words (mont : bool) (a : list Z) : result (list Z) :=
  fp_bigint_repr mont a.

(** fp.tcc:787-807 [from_words]; fp.hpp:128 [ceil_size_in_bits() = num_bits].
    [words.size()*64 - ceil_size_in_bits()] is converted to long.  The copy
    writes [words.size() - start_word] limbs into [data[n]]: more than n is UB. *)
Definition fp_from_words (mont : bool) (old words : list Z)
  : result (list Z * bool) :=
  let start_bit := Z.of_nat (length words) * 64 - fp_num_bits P in
  assert_then (0 <=? start_bit) (
  let start_word := Z.to_nat (start_bit / 64) in
  let bit_offset := start_bit mod 64 in
  let src := skipn start_word words in
  if (n <? length src)%nat then UB else
  let d := src ++ skipn (length src) old in
  let top := nth (n - 1) d 0 in
  let d := upd d (n - 1) (Z.shiftr ((Z.shiftl top bit_offset) mod B) bit_offset) in
  r <- (if mont then Ok d else mul_reduce d (fp_Rsquared P)) ;;
  Ok (r, bigint_ltb r md)).

(** fp.tcc:809-814 [operator<<]; [bin] is BINARY_OUTPUT. *)
Definition fp_write (bin mont : bool) (a : list Z) : result stream :=
  b <- fp_bigint_repr mont a ;;
  Ok (if bin then bigint_write_bin b else bigint_write_text b).

(** fp.tcc:816-824 [operator>>]. *)
Definition fp_read (bin mont : bool) (s : stream) : result (list Z * stream) :=
  '(b, rest) <- (if bin then bigint_read_bin n s else bigint_read_text n s) ;;
  r <- (if mont then Ok b else mul_reduce b (fp_Rsquared P)) ;;
  Ok (r, rest).

End Fp.
