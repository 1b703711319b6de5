(** Model of libff/algebra/fields/binary/gf{32,64,128,192,256}.{hpp,cpp,tcc}.

    An element is the list of its value_ words, least significant first (one
    uint32_t for gf32, 1/2/3/4 uint64_t for the others).  The five classes
    repeat the same code for different word counts, so the portable operations
    are written once, over a description of the class; the PCLMUL paths and
    inverses are per class.  Words are non-negative binary numbers and every
    left shift is cut to the word size.

    Not modelled: randomize/random_element (a call to libsodium's
    randombytes_buf), print.  The PROFILE_OP_COUNTS counters are in
    OpcountModel.v. *)
From Coq Require Import NArith ZArith List Bool.
From Verif Require Import Result Limbs StreamModel AlgorithmsModel Gf2Poly.
Import ListNotations.
Open Scope N_scope.

(** Word size, number of words, [modulus_] (the field polynomial without its
    leading term) and the exponent literal in sqrt(). *)
Record gf_class := mkGf { gW : N; gn : nat; gmod : N; gsqrt : Z }.

(** gf32.hpp:30-31, gf32.cpp:202 *)
Definition gf32 : gf_class := mkGf 32 1 4194311 2147483648.
(** gf64.hpp:30-32, gf64.cpp:243 *)
Definition gf64 : gf_class := mkGf 64 1 27 9223372036854775808.
(** gf128.hpp:30-31, gf128.cpp:241 *)
Definition gf128 : gf_class := mkGf 64 2 135 170141183460469231731687303715884105728.
(** gf192.hpp:30-31, gf192.cpp:292 *)
Definition gf192 : gf_class := mkGf 64 3 135 3138550867693340381917894711603833208051177722232017256448.
(** gf256.hpp:31-32, gf256.cpp:364 *)
Definition gf256 : gf_class :=
  mkGf 64 4 1061 57896044618658097711785492504343953926634992332820282019728792003956564819968.

Section Portable.
Variable G : gf_class.
Let W := gW G.

(** Conversion to the word type. *)
Definition cut (w : N) : N := N.land w (N.ones W).

(** The one-argument constructor, gf64.cpp:28, gf128.cpp:28, gf192.cpp:28,
    gf256.cpp:28; zero() and one() call it with 0 and 1. *)
Definition gf_of_low (v : N) : list N := cut v :: repeat 0 (gn G - 1).
Definition gf_zero : list N := gf_of_low 0.
Definition gf_one : list N := gf_of_low 1.
(** gf32.cpp:22 and the same line of the others. *)
Definition gf_multiplicative_generator : list N := gf_of_low 2.

(** operator+= and operator-=: the same code, gf256.cpp:52-74. *)
Fixpoint xor_words (a b : list N) : list N :=
  match a, b with x :: a', y :: b' => N.lxor x y :: xor_words a' b' | _, _ => [] end.
Definition gf_add := xor_words.
Definition gf_sub := xor_words.
(** operator-(): gf32.cpp:130-134, gf64.cpp:147-151, gf192.cpp:220-223,
    gf256.cpp:301-304; gf128.cpp:178-181 rebuilds the element from its two
    words (constructor at 32-35 takes the high word first). *)
Definition gf128_make (high low : N) : list N := [low; high].
Definition gf_neg (a : list N) : list N := a.
Definition gf128_neg (a : list N) : list N := match a with [a0; a1] => gf128_make a1 a0 | _ => a end.

(** operator== and is_zero. *)
Fixpoint gf_eqb (a b : list N) : bool :=
  match a, b with
  | [], [] => true
  | x :: a', y :: b' => (x =? y) && gf_eqb a' b'
  | _, _ => false
  end.
Definition gf_is_zero (a : list N) : bool := forallb (fun w => w =? 0) a.

(** [w & (1ull << j)] *)
Definition bit_set (w j : N) : bool := negb (N.land w (N.shiftl 1 j) =? 0).

(** Shift of the whole array by one bit, gf256.cpp:245-248: word i becomes
    [(shifted[i] << 1) | (shifted[i-1] >> 63)]; [c] is what word i-1
    contributes. *)
Fixpoint shl1 (c : N) (l : list N) : list N :=
  match l with
  | [] => []
  | w :: r => N.lor (cut (N.shiftl w 1)) c :: shl1 (N.shiftr w (W - 1)) r
  end.
Definition xor_low (l : list N) (m : N) : list N :=
  match l with [] => [] | w :: r => cut (N.lxor w m) :: r end.

(** One iteration of the inner loop, gf32.cpp:76-88, gf64.cpp:92-104,
    gf128.cpp:119-133, gf192.cpp:157-173, gf256.cpp:235-253; the state is
    (result, shifted). *)
Definition mul_step (bit : bool) (st : list N * list N) : list N * list N :=
  let '(result, shifted) := st in
  let result := if bit then xor_words result shifted else result in
  let reduce := bit_set (last shifted 0) (W - 1) in
  let shifted := shl1 0 shifted in
  (result, if reduce then xor_low shifted (gmod G) else shifted).
Fixpoint mul_word (todo : nat) (j w : N) (st : list N * list N) : list N * list N :=
  match todo with
  | O => st
  | S t => mul_word t (N.succ j) w (mul_step (bit_set w j) st)
  end.
(** Portable operator*=: gf32.cpp:62-94, gf64.cpp:85-109, gf128.cpp:110-140,
    gf192.cpp:148-182, gf256.cpp:225-264.  [square] calls it with other = *this;
    the operands are only overwritten after the loop. *)
Definition gf_mul (a b : list N) : list N :=
  fst (fold_left (fun st w => mul_word (N.to_nat W) 0 w st) b (gf_zero, a)).
End Portable.

(** * The PCLMUL paths *)
Section Asm.
(** A __m128i register is a number below 2^128.  The intrinsics, from the
    Intel intrinsics guide; they are part of the trusted base. *)
Definition lo64 (r : N) : N := N.land r (N.ones 64).
Definition hi64 (r : N) : N := N.shiftr r 64.
Definition mm_set_epi64x (hi lo : N) : N := N.lor (N.shiftl hi 64) lo.
Definition mm_loadl (w : N) : N := w.
Definition mm_xor (a b : N) : N := N.lxor a b.
(** [_mm_slli_si128(r, 8)], [_mm_srli_si128(r, 8)]: by 8 bytes. *)
Definition mm_slli8 (r : N) : N := N.land (N.shiftl r 64) (N.ones 128).
Definition mm_srli8 (r : N) : N := N.shiftr r 64.
(** [_mm_clmulepi64_si128(a, b, imm)]: bit 0 of imm selects the half of a,
    bit 4 the half of b. *)
Definition mm_clmul (a b imm : N) : N :=
  pmul (if N.testbit imm 0 then hi64 a else lo64 a) (if N.testbit imm 4 then hi64 b else lo64 b).
Definition mm_loadu (w0 w1 : N) : N := mm_set_epi64x w1 w0.
Definition mm_storeu (r : N) : list N := [lo64 r; hi64 r].

(** gf64.cpp:69-84 *)
Definition gf64_mul_asm (a b : list N) : list N :=
  match a, b with
  | [a0], [b0] =>
      let modulus := mm_loadl (gmod gf64) in
      let mul128 := mm_clmul (mm_loadl a0) (mm_loadl b0) 0 in
      let mul96 := mm_clmul modulus mul128 16 in
      let rem := mm_xor mul128 mul96 in
      let mul64 := mm_clmul modulus mul96 16 in
      let rem := mm_xor rem mul64 in
      [lo64 rem]
  | _, _ => []
  end.

(** gf128.cpp:76-109 *)
Definition gf128_mul_asm (a b : list N) : list N :=
  match a, b with
  | [a0; a1], [b0; b1] =>
      let a := mm_loadu a0 a1 in
      let b := mm_loadu b0 b1 in
      let modulus := mm_loadl (gmod gf128) in
      let mul256_high := mm_clmul a b 17 in
      let mul256_low := mm_clmul a b 0 in
      let mul256_mid1 := mm_clmul a b 1 in
      let mul256_mid2 := mm_clmul a b 16 in
      let mul256_mid := mm_xor mul256_mid1 mul256_mid2 in
      let mul256_high := mm_xor mul256_high (mm_srli8 mul256_mid) in
      let mul256_low := mm_xor mul256_low (mm_slli8 mul256_mid) in
      let tmp := mm_clmul mul256_high modulus 1 in
      let mul256_low := mm_xor mul256_low (mm_slli8 tmp) in
      let mul256_high := mm_xor mul256_high (mm_srli8 tmp) in
      let tmp := mm_clmul mul256_high modulus 0 in
      let mul256_low := mm_xor mul256_low tmp in
      mm_storeu mul256_low
  | _, _ => []
  end.

(** gf192.cpp:79-147 *)
Definition gf192_mul_asm (a b : list N) : list N :=
  match a, b with
  | [a0; a1; a2], [b0; b1; b2] =>
      let ab0 := mm_set_epi64x a0 b0 in
      let ab1 := mm_set_epi64x a1 b1 in
      let ab2 := mm_set_epi64x a2 b2 in
      let modulus := mm_loadl (gmod gf192) in
      let c0 := mm_clmul ab0 ab0 1 in
      let c4 := mm_clmul ab2 ab2 1 in
      let t := mm_clmul ab1 ab1 1 in
      let xor01 := mm_xor ab0 ab1 in
      let c1 := mm_clmul xor01 xor01 1 in
      let c1 := mm_xor (mm_xor c1 c0) t in
      let xor12 := mm_xor ab1 ab2 in
      let c3 := mm_clmul xor12 xor12 1 in
      let c3 := mm_xor (mm_xor c3 c4) t in
      let xor02 := mm_xor ab0 ab2 in
      let c2 := mm_clmul xor02 xor02 1 in
      let c2 := mm_xor (mm_xor (mm_xor c2 c0) c4) t in
      let d0 := mm_xor c0 (mm_slli8 c1) in
      let d2 := mm_xor c4 (mm_srli8 c3) in
      let d1 := mm_xor (mm_xor c2 (mm_srli8 c1)) (mm_slli8 c3) in
      let tmp := mm_clmul d2 modulus 1 in
      let d1 := mm_xor d1 tmp in
      let tmp := mm_clmul d2 modulus 0 in
      let d1 := mm_xor d1 (mm_srli8 tmp) in
      let d0 := mm_xor d0 (mm_slli8 tmp) in
      let tmp := mm_clmul d1 modulus 1 in
      let d0 := mm_xor d0 tmp in
      mm_storeu d0 ++ [lo64 d1]
  | _, _ => []
  end.

(** gf256.cpp:190-224, common to both variants. *)
Definition gf256_reduce (c0 c1 c2 c3 c4 c5 c6 : N) : list N :=
  let modulus := mm_loadl (gmod gf256) in
  let d0 := mm_xor c0 (mm_slli8 c1) in
  let d1 := mm_xor (mm_xor c2 (mm_srli8 c1)) (mm_slli8 c3) in
  let d2 := mm_xor (mm_xor c4 (mm_srli8 c3)) (mm_slli8 c5) in
  let d3 := mm_xor c6 (mm_srli8 c5) in
  let tmp := mm_clmul d3 modulus 1 in
  let d2 := mm_xor d2 (mm_srli8 tmp) in
  let d1 := mm_xor d1 (mm_slli8 tmp) in
  let tmp := mm_clmul d3 modulus 0 in
  let d1 := mm_xor d1 tmp in
  let tmp := mm_clmul d2 modulus 1 in
  let d1 := mm_xor d1 (mm_srli8 tmp) in
  let d0 := mm_xor d0 (mm_slli8 tmp) in
  let tmp := mm_clmul d2 modulus 0 in
  let d0 := mm_xor d0 tmp in
  mm_storeu d0 ++ mm_storeu d1.

(** gf256.cpp:94-152 (ASM_MINIMIZE_CLMULS) *)
Definition gf256_mul_karatsuba (a b : list N) : list N :=
  match a, b with
  | [a0; a1; a2; a3], [b0; b1; b2; b3] =>
      let ab0 := mm_set_epi64x a0 b0 in
      let ab1 := mm_set_epi64x a1 b1 in
      let ab2 := mm_set_epi64x a2 b2 in
      let ab3 := mm_set_epi64x a3 b3 in
      let c0 := mm_clmul ab0 ab0 1 in
      let c6 := mm_clmul ab3 ab3 1 in
      let t := mm_clmul ab1 ab1 1 in
      let u := mm_clmul ab2 ab2 1 in
      let xor01 := mm_xor ab0 ab1 in
      let c1 := mm_clmul xor01 xor01 1 in
      let xor_c0_t := mm_xor c0 t in
      let c1 := mm_xor c1 xor_c0_t in
      let xor02 := mm_xor ab0 ab2 in
      let c2 := mm_clmul xor02 xor02 1 in
      let c2 := mm_xor (mm_xor c2 xor_c0_t) u in
      let xor23 := mm_xor ab2 ab3 in
      let c5 := mm_clmul xor23 xor23 1 in
      let xor_c6_u := mm_xor c6 u in
      let c5 := mm_xor c5 xor_c6_u in
      let xor13 := mm_xor ab1 ab3 in
      let c4 := mm_clmul xor13 xor13 1 in
      let c4 := mm_xor (mm_xor c4 xor_c6_u) t in
      let xor0123 := mm_xor xor02 xor13 in
      let c3 := mm_clmul xor0123 xor0123 1 in
      let c3 := mm_xor (mm_xor (mm_xor (mm_xor (mm_xor (mm_xor c3 c0) c1) c2) c4) c5) c6 in
      gf256_reduce c0 c1 c2 c3 c4 c5 c6
  | _, _ => []
  end.

(** gf256.cpp:153-188 *)
Definition gf256_mul_naive (a b : list N) : list N :=
  match a, b with
  | [a0; a1; a2; a3], [b0; b1; b2; b3] =>
      let a_low := mm_loadu a0 a1 in
      let a_high := mm_loadu a2 a3 in
      let b_low := mm_loadu b0 b1 in
      let b_high := mm_loadu b2 b3 in
      let m00 := mm_clmul a_low b_low 0 in
      let m01 := mm_clmul a_low b_low 16 in
      let m10 := mm_clmul a_low b_low 1 in
      let m11 := mm_clmul a_low b_low 17 in
      let m20 := mm_clmul a_high b_low 0 in
      let m21 := mm_clmul a_high b_low 16 in
      let m30 := mm_clmul a_high b_low 1 in
      let m31 := mm_clmul a_high b_low 17 in
      let m02 := mm_clmul a_low b_high 0 in
      let m03 := mm_clmul a_low b_high 16 in
      let m12 := mm_clmul a_low b_high 1 in
      let m13 := mm_clmul a_low b_high 17 in
      let m22 := mm_clmul a_high b_high 0 in
      let m23 := mm_clmul a_high b_high 16 in
      let m32 := mm_clmul a_high b_high 1 in
      let m33 := mm_clmul a_high b_high 17 in
      let c0 := m00 in
      let c1 := mm_xor m01 m10 in
      let c2 := mm_xor (mm_xor m02 m11) m20 in
      let c3 := mm_xor (mm_xor (mm_xor m03 m12) m21) m30 in
      let c4 := mm_xor (mm_xor m13 m22) m31 in
      let c5 := mm_xor m23 m32 in
      let c6 := m33 in
      gf256_reduce c0 c1 c2 c3 c4 c5 c6
  | _, _ => []
  end.
End Asm.

(** * Inverse and square root, over either multiplication *)
Section Chains.
Context {T : Type} (mul : T -> T -> T).
Let sqr (x : T) : T := mul x x.

(** The loop of gf32.cpp:175-195, gf128.cpp:214-234, gf192.cpp:257-278 and
    gf256.cpp:337-357: [cnt] iterations starting at i; returns (result,
    prev_result), where only gf192 keeps prev_result (line 269). *)
Fixpoint inv_loop (cnt i : nat) (a result prev : T) : T * T :=
  match cnt with
  | O => (result, prev)
  | S c =>
      let b := sqr_times sqr (2 ^ i) a in
      let a := mul a b in
      let result' := match i with O => b | S _ => mul result b end in
      inv_loop c (S i) a result' result
  end.

(** gf32 (4), gf128 (6), gf256 (7): loop for i = 0 .. imax. *)
Definition inv_pow2 (imax : nat) (zero el : T) : T := fst (inv_loop (S imax) 0 el zero zero).

(** gf192.cpp:245-288 *)
Definition inv_192 (zero el : T) : T :=
  let '(result, prev_result) := inv_loop 7 0 el zero zero in
  let result := sqr_times sqr 64 result in
  let prev_result := sqr prev_result in
  mul (mul result prev_result) (sqr el).

(** gf64.cpp:184-239; runs of [t0.square()] are written as repeated
    squaring. *)
Definition inv_64 (el : T) : T :=
  let t0 := el in
  let t1 := mul t0 t0 in
  let t2 := mul t1 t0 in
  let t0 := mul t2 t2 in
  let t0 := sqr_times sqr 1 t0 in
  let t1 := mul t1 t0 in
  let t2 := mul t2 t0 in
  let t0 := mul t2 t2 in
  let t0 := sqr_times sqr 3 t0 in
  let t1 := mul t1 t0 in
  let t2 := mul t2 t0 in
  let t0 := mul t2 t2 in
  let t0 := sqr_times sqr 7 t0 in
  let t1 := mul t1 t0 in
  let t2 := mul t2 t0 in
  let t0 := mul t2 t2 in
  let t0 := sqr_times sqr 15 t0 in
  let t1 := mul t1 t0 in
  let t0 := mul t0 t2 in
  let t0 := sqr_times sqr 32 t0 in
  mul t0 t1.
End Chains.

(** The chain of each class (gf32.cpp:164-198, gf64.cpp:184-239,
    gf128.cpp:203-237, gf192.cpp:245-288, gf256.cpp:326-360). *)
Inductive gf_name := G32 | G64 | G128 | G192 | G256.
Definition gf_of (g : gf_name) : gf_class :=
  match g with G32 => gf32 | G64 => gf64 | G128 => gf128 | G192 => gf192 | G256 => gf256 end.
Definition inv_chain (g : gf_name) {T} (mul : T -> T -> T) (zero el : T) : T :=
  match g with
  | G32 => inv_pow2 mul 4 zero el
  | G64 => inv_64 mul el
  | G128 => inv_pow2 mul 6 zero el
  | G192 => inv_192 mul zero el
  | G256 => inv_pow2 mul 7 zero el
  end.
(** operator*= with and without USE_ASM; [kara] is ASM_MINIMIZE_CLMULS.  gf32
    has only the portable loop. *)
Definition gf_mul_cfg (use_asm kara : bool) (g : gf_name) : list N -> list N -> list N :=
  if use_asm then
    match g with
    | G32 => gf_mul gf32
    | G64 => gf64_mul_asm
    | G128 => gf128_mul_asm
    | G192 => gf192_mul_asm
    | G256 => if kara then gf256_mul_karatsuba else gf256_mul_naive
    end
  else gf_mul (gf_of g).
Definition gf_squared (mul : list N -> list N -> list N) (a : list N) : list N := mul a a.
Definition gf_inverse (mul : list N -> list N -> list N) (g : gf_name) (a : list N) : result (list N) :=
  assert_then (negb (gf_is_zero a)) (Ok (inv_chain g mul (gf_zero (gf_of g)) a)).
(** operator-() per class. *)
Definition gf_neg_of (g : gf_name) (a : list N) : list N :=
  match g with G128 => gf128_neg a | _ => gf_neg a end.

(** operator^ and sqrt: [power<gf>] of the element with the exponent literal
    parsed by bigint's string constructor (BigintModel.bigint_of_string). *)
Definition gf_pow_bigint (mul : list N -> list N -> list N) (g : gf_name) (a : list N) (e : list Z) : list N :=
  power_bigint (gf_one (gf_of g)) mul a e.
Definition gf_pow_ulong (mul : list N -> list N -> list N) (g : gf_name) (a : list N) (e : Z) : list N :=
  power_ulong (gf_one (gf_of g)) mul a e.
Definition gf_sqrt (mul : list N -> list N -> list N) (g : gf_name) (a : list N) : list N :=
  gf_pow_bigint mul g a (limbs_of (gn (gf_of g)) (gsqrt (gf_of g))).

(** * Conversions and streams *)
(** to_words: gf32.cpp:32-35, gf256.cpp:38-41. *)
Definition gf_to_words (a : list N) : list N := a.
(** from_words: gf32.cpp:37-41 (truncates to uint32_t), gf64.cpp:37-41,
    gf128.cpp:42-47, gf192.cpp:42-48, gf256.cpp:43-50.  words[i] is not bounds
    checked: a vector that is too short is read out of bounds. *)
Definition gf_from_words (G : gf_class) (ws : list N) : result (list N) :=
  if (length ws <? gn G)%nat then UB else Ok (map (cut G) (firstn (gn G) ws)).

(** operator<<: words separated by single blanks. *)
Fixpoint gf_write (a : list N) : stream :=
  match a with
  | [] => []
  | [w] => dec (Z.of_N w)
  | w :: r => dec (Z.of_N w) ++ [ch_sp] ++ gf_write r
  end.
(** [in >> word], for uint64_t and uint32_t (gf32.cpp:258-262). *)
Definition read_word (G : gf_class) (s : stream) : result (N * stream) :=
  (' (v, r) <- read_u64 s ;;
   if Z.ltb v (2 ^ Z.of_N (gW G))%Z then Ok (Z.to_N v, r) else StreamFail)%result.
Fixpoint read_words (G : gf_class) (n : nat) (s : stream) : result (list N * stream) :=
  match n with
  | O => Ok ([], s)
  | S n' =>
      (' (w, s) <- read_word G s ;;
       ' (l, s) <- read_words G n' s ;; Ok (w :: l, s))%result
  end.
Definition gf_read (G : gf_class) (s : stream) : result (list N * stream) := read_words G (gn G) s.

(** randomize() and random_element(): gf32.cpp:205-208, 246-250,
    gf64.cpp:246-249, gf128.cpp:244-247, gf192.cpp:295-298, gf256.cpp:367-370.
    libsodium's randombytes_buf overwrites the words with k/8 bytes [bs]; the
    machine is little-endian (x86-64). *)
Fixpoint le_word (bs : list N) : N := match bs with [] => 0 | b :: r => b + 256 * le_word r end.
Fixpoint words_of_bytes (w n : nat) (bs : list N) : list N :=
  match n with O => [] | S n' => le_word (firstn w bs) :: words_of_bytes w n' (skipn w bs) end.
Definition gf_randomize (G : gf_class) (bs : list N) : list N :=
  words_of_bytes (N.to_nat (gW G / 8)) (gn G) bs.
