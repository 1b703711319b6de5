(** Model of the functions whose assertions guard against wrong arguments, in
    a build with NDEBUG, where [assert] expands to nothing.  CMakeLists.txt:5-7
    makes RelWithDebInfo the default build type (CMake compiles it with
    -DNDEBUG) and CMakeLists.txt:182 defines NDEBUG for PERFORMANCE builds; the
    other Model files describe builds with assertions.  Assertions on facts that
    hold for all arguments (the borrows of fp.tcc:179-215, C01) are kept. *)
From Coq Require Import ZArith NArith List Bool.
From Verif Require Import Result Limbs LimbsProofs BigintModel FpModel FieldOps AlgorithmsModel BinaryModel ExtModel StreamModel
  SerializationModel PackingModel UtilsModel.
Import ListNotations.
Open Scope result_scope.

(** gf32.cpp:164-198, gf64.cpp:184-239, gf128.cpp:203-237, gf192.cpp:245-288,
    gf256.cpp:326-360 without the assertion that the element is not zero. *)
Definition gf_inverse_nd (mul : list N -> list N -> list N) (g : gf_name) (a : list N) : list N :=
  inv_chain g mul (gf_zero (gf_of g)) a.

(** field_utils.tcc:234-257 [batch_invert] without line 244. *)
Section Batch.
Context {T : Type} (one : T) (mul : T -> T -> T).
Fixpoint batch_prods_nd (vec : list T) (acc : T) : list T * T :=
  match vec with
  | [] => ([], acc)
  | el :: vec' => let '(prod, last) := batch_prods_nd vec' (mul acc el) in (acc :: prod, last)
  end.
Definition batch_invert_nd (inverse : T -> result T) (vec : list T) : result (list T) :=
  let '(prod, acc) := batch_prods_nd vec one in
  acc_inverse <- inverse acc ;;
  Ok (fst (batch_back mul vec prod acc_inverse)).
End Batch.

Open Scope Z_scope.

(** fp.tcc:670-722 [invert] without lines 677, 689 and 714: [mpn_gcdext]
    requires operands that are not zero (GMP manual), otherwise UB. *)
Definition fp_invert_nd (P : fp_params) (a : list Z) : result (list Z) :=
  let md := fp_modulus P in
  let n := fp_n P in
  if fp_is_zero a then UB else
  if nth (n - 1) md 0 =? 0 then UB else
  let '(_, s) := gcdext (val a) (val md) in
  let abs_sn := set_str_size (Z.abs s) in
  let sl := limbs_of abs_sn (Z.abs s) in
  r <- (if (n <=? abs_sn)%nat then
          if (n <? abs_sn)%nat then UB else Ok (mpn_tdiv_r sl md)
        else Ok (sl ++ repeat 0 (n - abs_sn))) ;;
  let r := if s <? 0 then fst (mpn_sub md r) else r in
  mul_reduce P r (fp_Rcubed P).

(** bigint.tcc:49-63 [bigint(const mpz_t r)] without line 61. *)
Definition bigint_of_mpz_nd (n : nat) (r : Z) : bigint := fst (bigint_of_mpz_loop n r).

(** serialization.tcc:56-64 [input_bool] without line 61. *)
Definition input_bool_nd (s : stream) : result (bool * stream) :=
  '(tmp, s) <- read_u64 s ;;
  s <- consume_newline s ;;
  Ok (tmp =? 1, s).

(** field_utils.tcc:219-232 [convert_bit_vector_to_field_element] without line
    222. *)
Definition bits_to_field_nd (P : fp_params) (v : list bool) : result (list Z) :=
  one <- fp_one P ;; bits_to_field_loop P v (fp_zero P) one.

(** utils.cpp:64-75 without lines 66, 67 and 73. *)
Definition to_twos_complement_nd (i w : Z) : result Z :=
  if (1 <=? w) && (w <=? 62) then Ok (wrap64 (if 0 <=? i then i else i + 2 ^ w)) else UB.
Definition from_twos_complement_nd (i w : Z) : result Z :=
  if (1 <=? w) && (w <=? 63) then Ok (to_int32 (if i <? 2 ^ (w - 1) then i else wrap64 (i - 2 ^ w))) else UB.

Section Sparse.
Context {K : Type} (F : Fops K).
(** fp4.tcc:128-145 [mul_by_023] without line 135. *)
Definition fp4_mul_by_023_nd (nr2 nr4 : K) (x y : K * K * (K * K)) : K * K * (K * K) :=
  let F2 := fp2_ops F nr2 in
  let '(a, b) := x in let '(A, B) := y in
  let aA := (omul F (fst a) (fst A), omul F (snd a) (fst A)) in
  let bB := omul F2 b B in
  (oadd F2 aA (fp4_mnr F nr4 bB),
   osub F2 (osub F2 (omul F2 (oadd F2 a b) (oadd F2 A B)) aA) bB).
(** fp6_2over3.tcc:113-131 [mul_by_2345] without lines 120 and 121. *)
Definition fp6_mul_by_2345_nd (nr3 nr6 : K) (x y : K * K * K * (K * K * K)) : K * K * K * (K * K * K) :=
  let F3 := fp3_ops F nr3 in
  let '(a, b) := x in let '(A, B) := y in
  let '(a0, a1, a2) := a in let '(A0, A1, A2) := A in
  let aA := (omul F (omul F a1 A2) nr6, omul F (omul F a2 A2) nr6, omul F a0 A2) in
  let bB := omul F3 b B in
  (oadd F3 aA (rot_mnr F nr6 bB),
   osub F3 (osub F3 (omul F3 (oadd F3 a b) (oadd F3 A B)) aA) bB).
End Sparse.

(** The field whose inverse is another function: extension fields have no
    assertions of their own (fp2.tcc:205-222, fp3.tcc:198-219, ...) and take the
    inverse of the prime field, here [fp_invert_nd]. *)
Definition with_inv {K} (F : Fops K) (inv : K -> result K) : Fops K :=
  mkFops (o0 F) (o1 F) (oadd F) (osub F) (omul F) (oopp F) (osqr F) inv (oeqb F).
