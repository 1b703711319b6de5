(** Property theorems for the binary fields: C31, C32, C33, C47, C48 and the
    binary part of C09 and C30. *)
From Coq Require Import NArith ZArith List Bool Lia Ring_theory.
From Verif Require Import Result Limbs LimbsProofs Algebra StreamModel StreamProofs FieldOps Gf2Poly BinaryModel BinaryProofs
  BinaryInst BinaryOrder BinaryIo BinaryExtra.
Import ListNotations.
Open Scope N_scope.

(** [gok G a]: a has the class's number of words, each in range; [gval] is the
    polynomial the words stand for (bit i is the coefficient of x^i); [gpoly G]
    is x^k + modulus_.  [asm] and [kara] are USE_ASM and ASM_MINIMIZE_CLMULS. *)

(** ** C31: arithmetic of GF(2)[x]/(f) *)
Theorem C31_mul asm kara g a b : gok (gf_of g) a -> gok (gf_of g) b ->
  gok (gf_of g) (gf_mul_cfg asm kara g a b) /\
  exists c, pmul (gval (gW (gf_of g)) a) (gval (gW (gf_of g)) b) =
            N.lxor (gval (gW (gf_of g)) (gf_mul_cfg asm kara g a b)) (pmul c (gpoly (gf_of g))).
Proof. exact (cfg_mul_explicit asm kara g a b). Qed.
Print Assumptions C31_mul.

(** The product in C31_mul is the product of polynomials over GF(2): its
    coefficient n is the sum of the a_i b_(n-i). *)
Theorem C31_pmul_coefficients a b n i : n < N.of_nat i ->
  N.testbit (pmul a b) n = conv a b n i.
Proof. exact (pmul_testbit a b n i). Qed.
Print Assumptions C31_pmul_coefficients.

Theorem C31_add g a b : gok (gf_of g) a -> gok (gf_of g) b ->
  gok (gf_of g) (gf_add a b) /\ gf_sub a b = gf_add a b /\
  gval (gW (gf_of g)) (gf_add a b) = N.lxor (gval (gW (gf_of g)) a) (gval (gW (gf_of g)) b).
Proof. exact (class_add g a b). Qed.
Print Assumptions C31_add.

(** Different elements are different polynomials, and every polynomial of
    degree below k is an element. *)
Theorem C31_representation g : (forall a b, gok (gf_of g) a -> gok (gf_of g) b ->
    gval (gW (gf_of g)) a = gval (gW (gf_of g)) b -> a = b) /\
  (forall v, v < 2 ^ gk (gf_of g) <-> exists a, gok (gf_of g) a /\ gval (gW (gf_of g)) a = v).
Proof. exact (class_representation g). Qed.
Print Assumptions C31_representation.

(** The elements with the class's operations are a field (GF is the type of
    word lists satisfying [gok], rep its first projection). *)
Theorem C31_field asm kara g : field_ok (cfg_ops asm kara g).
Proof. exact (cfg_field asm kara g). Qed.
Print Assumptions C31_field.
Theorem C31_field_is_code asm kara g (x y : GF (gf_of g)) : let F := cfg_ops asm kara g in
  rep (o0 F) = gf_zero (gf_of g) /\ rep (o1 F) = gf_one (gf_of g) /\
  rep (oadd F x y) = gf_add (rep x) (rep y) /\ rep (osub F x y) = gf_sub (rep x) (rep y) /\
  rep (omul F x y) = gf_mul_cfg asm kara g (rep x) (rep y) /\ rep (oopp F x) = gf_neg_of g (rep x) /\
  rep (osqr F x) = gf_squared (gf_mul_cfg asm kara g) (rep x) /\
  rmap rep (oinv F x) = gf_inverse (gf_mul_cfg asm kara g) g (rep x) /\
  oeqb F x y = gf_eqb (rep x) (rep y).
Proof. exact (cfg_ops_code asm kara g x y). Qed.
Print Assumptions C31_field_is_code.

Theorem C31_char2 g a : gok (gf_of g) a -> gf_add a a = gf_zero (gf_of g) /\ gf_neg_of g a = a.
Proof. exact (class_char2 g a). Qed.
Print Assumptions C31_char2.

Theorem C31_irreducible g a b : pmul a b = gpoly (gf_of g) -> a = 1 \/ b = 1.
Proof. exact (class_irreducible g a b). Qed.
Print Assumptions C31_irreducible.

Example C31_example :
  gok gf128 [0xF000000000000001; 0x8000000000000003] /\
  gf_mul gf128 [0xF000000000000001; 0x8000000000000003] [3; 1] = [10376293541461623053; 8070450532247928902].
Proof. split; [apply gokb_spec; reflexivity|vm_compute; reflexivity]. Qed.

(** ** C32: inverse and square root *)
Theorem C32_inverse asm kara g a : gok (gf_of g) a -> a <> gf_zero (gf_of g) ->
  exists b, gf_inverse (gf_mul_cfg asm kara g) g a = Ok b /\ gok (gf_of g) b /\
            gf_mul_cfg asm kara g a b = gf_one (gf_of g).
Proof. exact (cfg_inverse asm kara g a). Qed.
Print Assumptions C32_inverse.
Theorem C32_inverse_zero asm kara g :
  gf_inverse (gf_mul_cfg asm kara g) g (gf_zero (gf_of g)) = AssertFail.
Proof. exact (cfg_inverse_zero asm kara g). Qed.
Print Assumptions C32_inverse_zero.
Theorem C32_sqrt asm kara g a : gok (gf_of g) a ->
  gok (gf_of g) (gf_sqrt (gf_mul_cfg asm kara g) g a) /\
  gf_mul_cfg asm kara g (gf_sqrt (gf_mul_cfg asm kara g) g a) (gf_sqrt (gf_mul_cfg asm kara g) g a) = a.
Proof. exact (cfg_sqrt asm kara g a). Qed.
Print Assumptions C32_sqrt.
Theorem C32_sqrt_unique asm kara g a b : gok (gf_of g) a -> gok (gf_of g) b ->
  gf_mul_cfg asm kara g b b = a -> b = gf_sqrt (gf_mul_cfg asm kara g) g a.
Proof. exact (cfg_sqrt_unique asm kara g a b). Qed.
Print Assumptions C32_sqrt_unique.

Example C32_example : gok gf64 [5] /\ [5] <> gf_zero gf64 /\
  gf_inverse (gf_mul_cfg true false G64) G64 [5] = Ok [6148914691236517202] /\
  gf_sqrt (gf_mul_cfg true false G64) G64 [5] = [3].
Proof. split; [apply gokb_spec; reflexivity|]. split; [discriminate|]. split; vm_compute; reflexivity. Qed.

(** ** C33: the carry-less-multiply path equals the portable path *)
Theorem C33_same kara g a b : gok (gf_of g) a -> gok (gf_of g) b ->
  gf_mul_cfg true kara g a b = gf_mul_cfg false kara g a b.
Proof. exact (cfg_same true kara g a b). Qed.
Print Assumptions C33_same.

Example C33_example : gok gf256 [1; 2; 3; 0x8000000000000000] /\
  gf_mul_cfg true true G256 [1; 2; 3; 0x8000000000000000] [7; 0; 0; 0xC000000000000000] =
  gf_mul_cfg false true G256 [1; 2; 3; 0x8000000000000000] [7; 0; 0; 0xC000000000000000].
Proof.
  assert (A : forall w, In w [[1; 2; 3; 0x8000000000000000]; [7; 0; 0; 0xC000000000000000]] -> gok gf256 w).
  { intros w H. apply gokb_spec. destruct H as [<-|[<-|[]]]; reflexivity. }
  split; [apply A; cbn; auto|]. apply C33_same; apply A; cbn; auto.
Qed.

(** ** C47: multiplicative_generator *)
(** gf32, gf64, gf128, gf256: its powers are 1 exactly at the multiples of
    2^k - 1, so it generates the 2^k - 1 non-zero elements. *)
Theorem C47_order asm kara g e : g <> G192 -> limbs e ->
  gf_pow_bigint (gf_mul_cfg asm kara g) g (gf_multiplicative_generator (gf_of g)) e = gf_one (gf_of g) <->
  (2 ^ Z.of_N (gk (gf_of g)) - 1 | val e)%Z.
Proof. exact (generator_order asm kara g e). Qed.
Print Assumptions C47_order.

(** gf192: it does not generate; a smaller power is already 1, and x^2 + x + 1
    is not a power of it. *)
Theorem C47_gf192_refuted asm kara :
  (exists e, limbs e /\ (0 < val e < 2 ^ 192 - 1)%Z /\
    gf_pow_bigint (gf_mul_cfg asm kara G192) G192 (gf_multiplicative_generator gf192) e = gf_one gf192) /\
  (exists a, gok gf192 a /\ a <> gf_zero gf192 /\ forall e, limbs e ->
    gf_pow_bigint (gf_mul_cfg asm kara G192) G192 (gf_multiplicative_generator gf192) e <> a).
Proof. exact (gf192_not_generator asm kara). Qed.
Print Assumptions C47_gf192_refuted.

Example C47_example : G64 <> G192 /\
  gf_pow_bigint (gf_mul gf64) G64 (gf_multiplicative_generator gf64) [(2 ^ 64 - 1)%Z] = gf_one gf64.
Proof.
  split; [discriminate|]. apply (C47_order false false G64); [discriminate| |exists 1%Z; reflexivity].
  constructor; [|constructor]. split; [discriminate|reflexivity].
Qed.

(** ** C48: words and streams *)
Theorem C48_words_roundtrip g a : gok (gf_of g) a -> gf_from_words (gf_of g) (gf_to_words a) = Ok a.
Proof. exact (words_roundtrip (gf_of g) a). Qed.
Print Assumptions C48_words_roundtrip.
Theorem C48_from_words g ws : (gn (gf_of g) <= length ws)%nat ->
  exists a, gf_from_words (gf_of g) ws = Ok a /\ gok (gf_of g) a /\
            a = map (fun w => w mod 2 ^ gW (gf_of g)) (firstn (gn (gf_of g)) ws).
Proof. exact (from_words_ok (gf_of g) ws). Qed.
Print Assumptions C48_from_words.
(** A vector that is too short is read out of bounds. *)
Theorem C48_from_words_short g ws : (length ws < gn (gf_of g))%nat -> gf_from_words (gf_of g) ws = UB.
Proof. exact (from_words_short (gf_of g) ws). Qed.
Print Assumptions C48_from_words_short.
Theorem C48_stream_roundtrip g a ws rest : gok (gf_of g) a -> number_end rest ->
  Forall (fun c => is_space c = true) ws -> gf_read (gf_of g) (ws ++ gf_write a ++ rest) = Ok (a, rest).
Proof. exact (class_read_write g a ws rest). Qed.
Print Assumptions C48_stream_roundtrip.
Theorem C48_stream_valid g s a r : gf_read (gf_of g) s = Ok (a, r) -> gok (gf_of g) a.
Proof. exact (class_read_ok g s a r). Qed.
Print Assumptions C48_stream_valid.

Example C48_example : gf_write [12; 345] = [49; 50; 32; 51; 52; 53]%Z /\
  gf_read gf128 ([32; 49; 50; 32; 51; 52; 53; 32])%Z = Ok ([12; 345], [32]%Z) /\
  gf_from_words gf256 [1; 2; 3] = UB.
Proof. split; [|split]; vm_compute; reflexivity. Qed.

(** ** C09: operator^ is repeated multiplication *)
Theorem C09_binary_bigint asm kara g a e : gok (gf_of g) a -> limbs e ->
  gf_pow_bigint (gf_mul_cfg asm kara g) g a e =
  npow (gf_one (gf_of g)) (gf_mul_cfg asm kara g) a (Z.to_nat (val e)).
Proof. exact (pow_bigint asm kara g a e). Qed.
Print Assumptions C09_binary_bigint.
Theorem C09_binary_unsigned_long asm kara g a e : gok (gf_of g) a -> (0 <= e < 2 ^ 64)%Z ->
  gf_pow_ulong (gf_mul_cfg asm kara g) g a e =
  npow (gf_one (gf_of g)) (gf_mul_cfg asm kara g) a (Z.to_nat e).
Proof. exact (pow_ulong asm kara g a e). Qed.
Print Assumptions C09_binary_unsigned_long.

Example C09_binary_example : gok gf32 [0x80000001] /\
  gf_pow_ulong (gf_mul gf32) G32 [0x80000001] 3 = gf_mul gf32 [0x80000001] (gf_mul gf32 [0x80000001] [0x80000001]).
Proof. split; [apply gokb_spec; reflexivity|vm_compute; reflexivity]. Qed.

(** ** C30: random_element *)
(** Every block of random bytes gives an element, and every element comes from
    exactly one block, so uniform bytes give uniform elements. *)
Theorem C30_binary_in_range g bs : bytes bs -> length bs = N.to_nat (gk (gf_of g) / 8) ->
  gok (gf_of g) (gf_randomize (gf_of g) bs).
Proof. exact (randomize_element g bs). Qed.
Print Assumptions C30_binary_in_range.
Theorem C30_binary_uniform g a : gok (gf_of g) a ->
  exists! bs, bytes bs /\ length bs = N.to_nat (gk (gf_of g) / 8) /\ gf_randomize (gf_of g) bs = a.
Proof. exact (randomize_uniform g a). Qed.
Print Assumptions C30_binary_uniform.

Example C30_binary_example : bytes [1; 2; 3; 4; 5; 6; 7; 255] /\
  gf_randomize gf64 [1; 2; 3; 4; 5; 6; 7; 255] = [0xFF07060504030201].
Proof. split; [repeat constructor|reflexivity]. Qed.
