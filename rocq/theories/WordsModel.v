(** Word vectors, sizes and random points: [to_words] / [from_words] of the
    extension fields, the size functions of field_utils.tcc and of the field
    classes, [get_word_of_field_elem], and [random_element()] of the curves. *)
From Coq Require Import ZArith List Bool.
From Verif Require Import Result Limbs FpModel GroupOps WnafModel.
Import ListNotations.
Open Scope Z_scope.
Open Scope result_scope.

(** [to_words()] and [from_words()] of a field class.  [from_words] assigns to
    *this, so it takes the old value and returns the new one with the Boolean. *)
Record words (K : Type) := mkWords {
  wd_to : K -> result (list Z);
  wd_from : K -> list Z -> result (K * bool)
}.
Arguments mkWords {K}. Arguments wd_to {K}. Arguments wd_from {K}.

(** An element of Fp is its mont_repr. *)
Definition fp_words (P : fp_params) (mont : bool) : words (list Z) :=
  {| wd_to := fp_to_words P mont; wd_from := fp_from_words P mont |}.

Section Ext.
Context {K : Type} (W : words K).
(** fp2.tcc:244-263; the same text in fp4.tcc:323-342, fp6_2over3.tcc:350-369 and
    fp12_2over3over2.tcc:501-520.  [&&] does not evaluate its right operand when
    the left one is false: c1 keeps its value. *)
Definition quad_words : words (K * K) :=
  {| wd_to := fun x => w0 <- wd_to W (fst x) ;; w1 <- wd_to W (snd x) ;; Ok (w0 ++ w1);
     wd_from := fun old ws =>
       let c := (length ws / 2)%nat in
       '(c0, b0) <- wd_from W (fst old) (firstn c ws) ;;
       if b0 then '(c1, b1) <- wd_from W (snd old) (skipn c ws) ;; Ok ((c0, c1), b1)
       else Ok ((c0, snd old), false) |}.
(** fp3.tcc:242-265, fp6_3over2.tcc:257-280. *)
Definition cubic_words : words (K * K * K) :=
  {| wd_to := fun x => w0 <- wd_to W (fst (fst x)) ;; w1 <- wd_to W (snd (fst x)) ;; w2 <- wd_to W (snd x) ;;
       Ok (w0 ++ w1 ++ w2);
     wd_from := fun old ws =>
       let c1 := (length ws / 3)%nat in let c2 := (2 * length ws / 3)%nat in
       let '(o0, o1, o2) := old in
       '(e0, b0) <- wd_from W o0 (firstn c1 ws) ;;
       if b0 then
         '(e1, b1) <- wd_from W o1 (firstn (c2 - c1) (skipn c1 ws)) ;;
         if b1 then '(e2, b2) <- wd_from W o2 (skipn c2 ws) ;; Ok ((e0, e1, e2), b2)
         else Ok ((e0, e1, o2), false)
       else Ok ((e0, o1, o2), false) |}.
End Ext.
Definition fp2_words P mont := quad_words (fp_words P mont).
Definition fp3_words P mont := cubic_words (fp_words P mont).
Definition fp4_words P mont := quad_words (fp2_words P mont).
Definition fp6_2over3_words P mont := quad_words (fp3_words P mont).
Definition fp6_3over2_words P mont := cubic_words (fp2_words P mont).
Definition fp12_words P mont := quad_words (fp6_3over2_words P mont).

(** ** Sizes.  [size_t] does not wrap around here. *)
(** fp.hpp:128-129 *)
Definition fp_ceil_size (P : fp_params) : Z := fp_num_bits P.
Definition fp_floor_size (P : fp_params) : Z := fp_num_bits P - 1.
(** fp2.hpp:104-105, fp3.hpp:103-104, fp4.hpp:112-113, fp6_2over3.hpp:115-116,
    fp6_3over2.hpp:107-108, fp12_2over3over2.hpp:120-121: from the size of the
    coordinate field; the constant is the number of coordinates. *)
Definition fp2_size (base : Z) : Z := 2 * base.
Definition fp3_size (base : Z) : Z := 3 * base.
Definition fp4_size (base : Z) : Z := 2 * fp2_size base.
Definition fp6_2over3_size (base : Z) : Z := 2 * fp3_size base.
Definition fp6_3over2_size (base : Z) : Z := 3 * fp2_size base.
Definition fp12_size (base : Z) : Z := 2 * fp6_3over2_size base.
(** fp2.hpp:107 and so on. *)
Definition fp2_extension_degree : Z := 2.
Definition fp3_extension_degree : Z := 3.
Definition fp4_extension_degree : Z := 4.
Definition fp6_extension_degree : Z := 6.
Definition fp12_extension_degree : Z := 12.
(** field_utils.tcc:34-40, 50-62: prime fields; 42-48, 64-70: binary fields, the
    extension degree. *)
Definition log_of_field_size (P : fp_params) : Z := fp_ceil_size P.
Definition soundness_log_of_field_size (P : fp_params) : Z := fp_ceil_size P - 1.
(** field_utils.tcc:79-84: [data[word]] is not bounds checked. *)
Definition get_word_of_field_elem (P : fp_params) (a : list Z) (word : nat) : result Z :=
  b <- fp_as_bigint P a ;; if (word <? fp_n P)%nat then Ok (nth word b 0) else UB.

(** ** Random points *)
(** alt_bn128_g1.cpp:362-365 and the same text in the other curves (bn128_g1.cpp:356-359,
    bls12_381_g1.cpp:346-349, mnt4_g1.cpp:391-394, mnt6_g1.cpp:391-394,
    edwards_g1.cpp:298-301, and in *_g2.cpp): a random scalar times the
    generator.  [src] and [fuel] are those of [fp_random_element]; [Pr] is the
    scalar field. *)
Definition curve_random_element {T} (O : gops T) (Pr : fp_params) (one : T) (fuel : nat) (src : nat -> Z) : result T :=
  k <- fp_random_element Pr fuel src ;;
  e <- fp_as_bigint Pr k ;;
  Ok (scalar_mul O one e).
