(** Model of libff/algebra/scalar_multiplication/multiexp_profile.cpp, the program
    that times the multi-exponentiation methods and compares their answers.

    T is the group type (members in [gops], operator== in [eqb]), S the scalar
    type.  The times are clock readings and only counted; of the output the
    model keeps, for each line, its exponent, the number of times printed and
    which of the two "Answers NOT MATCHING" messages were written to stderr.
    print_compilation_info and init_public_params are left out of main. *)
From Coq Require Import ZArith List Bool.
From Verif Require Import Result Limbs BigintModel UtilsModel GroupOps MultiexpModel MultiexpExtra PackingModel.
Import ListNotations.
Open Scope result_scope.

Section Profile.
Context {T S : Type} (O : gops T) (eqb : T -> T -> bool) (as_bigint : S -> list Z).
(** T::wnaf_window_table, std::make_heap, FieldT::num_limbs, USE_MIXED_ADDITION. *)
Variables (wnaf_table : list Z) (make_heap : list (nat * list Z) -> list (nat * list Z)) (nl : nat) (mixed : bool).
(** The i-th call of GroupT::random_element(), and SHA512_rng<FieldT>. *)
Variables (random_element : nat -> T) (sha512_rng : Z -> S).

(** lines 29-46; [first] calls of random_element came before. *)
Definition generate_group_elements (first count size : nat) : result (list (list T)) :=
  mapM (fun i => x <- g_to_special O (random_element (first + i)) ;; Ok (repeat x size)) (seq 0 count).

(** lines 48-62 *)
Definition generate_scalars (count size : nat) : list (list S) :=
  map (fun i => map (fun j => sha512_rng (wrap64 (Z.of_nat (i * size + j)))) (seq 0 size)) (seq 0 count).

(** lines 64-82; [scalars[i]] past the end is UB. *)
Fixpoint profile_multiexp (method : list T -> list S -> result T) (group_elements : list (list T)) (scalars : list (list S))
  : result (list T) :=
  match group_elements, scalars with
  | [], _ => Ok []
  | _ :: _, [] => UB
  | g :: gs, s :: ss =>
      a <- multi_exp O method 1 [] g s ;;
      answers <- profile_multiexp method gs ss ;;
      Ok (a :: answers)
  end.

(** operator!= of std::vector. *)
Fixpoint answers_differ (a b : list T) : bool :=
  match a, b with
  | [], [] => false
  | x :: a', y :: b' => negb (eqb x y) || answers_differ a' b'
  | _, _ => true
  end.

Record csv_line := mkLine { line_expn : nat; line_times : nat; not_matching_djb : bool; not_matching_naive : bool }.

(** lines 91-125: one iteration; [1 << expn] is UB from 31 on. *)
Definition csv_row (expn_end_naive : nat) (compare_answers : bool) (first expn : nat) : result csv_line :=
  if (31 <=? expn)%nat then UB else
  group_elements <- generate_group_elements first 10 (2 ^ expn) ;;
  let scalars := generate_scalars 10 (2 ^ expn) in
  bc <- profile_multiexp (bos_coster O as_bigint wnaf_table make_heap nl) group_elements scalars ;;
  djb <- profile_multiexp (multi_exp_BDLO12 O as_bigint mixed) group_elements scalars ;;
  let m1 := compare_answers && answers_differ bc djb in
  if (expn <=? expn_end_naive)%nat then
    naive <- profile_multiexp (multi_exp_naive O as_bigint wnaf_table) group_elements scalars ;;
    Ok (mkLine expn 3 m1 (compare_answers && answers_differ bc naive))
  else Ok (mkLine expn 2 m1 false).

(** lines 84-126 *)
Definition print_performance_csv (expn_start expn_end_fast expn_end_naive : nat) (compare_answers : bool) : result (list csv_line) :=
  mapM (fun k => csv_row expn_end_naive compare_answers (10 * k) (expn_start + k)) (seq 0 (expn_end_fast + 1 - expn_start)).
End Profile.
