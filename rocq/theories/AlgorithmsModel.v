(** Model of libff/algebra/field_utils/algorithms.tcc and of the generic parts
    of libff/algebra/field_utils/field_utils.tcc.

    The field type is an arbitrary type T with its operations as parameters;
    FpInst.v and the extension-field files instantiate it. *)
From Coq Require Import ZArith List Bool.
From Verif Require Import Result Limbs BigintModel UtilsModel.
Import ListNotations.
Open Scope Z_scope.
Open Scope result_scope.

Section Power.
Context {T : Type} (one : T) (mul : T -> T -> T) (sqr : T -> T).

(** Body shared by the [power] overloads: bits i-1 .. 0, most significant
    first; [sq] is the squaring used by the overload. *)
Fixpoint power_loop (sq : T -> T) (bit : Z -> bool) (base : T) (i : nat) (found_one : bool) (result : T)
  : bool * T :=
  match i with
  | O => (found_one, result)
  | S j =>
      let r := if found_one then sq result else result in
      if bit (Z.of_nat j) then power_loop sq bit base j true (mul r base)
      else power_loop sq bit base j found_one r
  end.

(** algorithms.tcc:21-42 [power(base, const bigint<m>&)]: squares with
    [result * result]; [max_bits() = m * 64]. *)
Definition power_bigint (base : T) (e : list Z) : T :=
  snd (power_loop (fun x => mul x x) (bigint_test_bit e) base (64 * length e) false one).

(** algorithms.tcc:44-48 [power(base, unsigned long)]. *)
Definition power_ulong (base : T) (e : Z) : T := power_bigint base (bigint_of_ulong 1 e).

(** [exponent & (1ull << i)] *)
Definition ull_bit (e i : Z) : bool := negb (Z.land e (Z.shiftl 1 i) =? 0).

(** algorithms.tcc:50-72 [power(base, unsigned long long)]: uses [squared()]. *)
Definition power_ull (base : T) (e : Z) : T :=
  snd (power_loop sqr (ull_bit e) base 64 false one).

(** algorithms.tcc:74-100 [power(base, std::vector<unsigned long long>)]:
    exponent[0] is processed first. *)
Definition power_vec_step (base : T) (st : bool * T) (cur : Z) : bool * T :=
  let '(found_one, result) := st in power_loop sqr (ull_bit cur) base 64 found_one result.
Definition power_vector (base : T) (e : list Z) : T :=
  snd (fold_left (power_vec_step base) e (false, one)).

(** Square k times. *)
Fixpoint sqr_times (k : nat) (x : T) : T :=
  match k with O => x | S k' => sqr_times k' (sqr x) end.
End Power.

Section Sqrt.
Context {T : Type} (zero one : T) (mul : T -> T -> T) (sqr : T -> T) (eqb : T -> T -> bool).

(** Static members used by sqrt: fp.hpp:60-67. *)
Record sqrt_params := {
  sq_s : Z;                     (* size_t s *)
  sq_t : list Z;                (* bigint t *)
  sq_tm1 : list Z;              (* bigint t_minus_1_over_2 *)
  sq_nqr : T;
  sq_nqr_to_t : T }.
Variable S : sqrt_params.

(** algorithms.tcc:136-143 inner loop: returns m. *)
Fixpoint sqrt_order (fuel : nat) (b2m : T) (m : Z) : result Z :=
  match fuel with
  | O => OutOfFuel
  | Datatypes.S f => if eqb b2m one then Ok m else sqrt_order f (sqr b2m) (wrap64 (m + 1))
  end.

(** algorithms.tcc:134-158 outer loop.  [int j = v-m-1] converts an unsigned
    difference to int. *)
Fixpoint sqrt_loop (fuel : nat) (v : Z) (z b x : T) : result T :=
  match fuel with
  | O => OutOfFuel
  | Datatypes.S f =>
      if eqb b one then Ok x
      else
        m <- sqrt_order fuel b 0 ;;
        let j := to_int32 (wrap64 (v - m - 1)) in
        let w := sqr_times sqr (Z.to_nat j) z in
        let z := sqr w in
        sqrt_loop f m z (mul b z) (mul x w)
  end.

(** algorithms.tcc:102-162 [tonelli_shanks_sqrt]; [debug] says whether DEBUG
    is set (lines 122-130). *)
Definition tonelli_shanks_sqrt (debug : bool) (fuel : nat) (value : T) : result T :=
  assert_then (negb (sq_s S =? 0)) (
  assert_then (negb (bigint_is_even (sq_t S))) (
  assert_then (negb (eqb (sq_nqr S) zero)) (
  if eqb value zero then Ok zero
  else
    let w := power_bigint one mul value (sq_tm1 S) in
    let x := mul value w in
    let b := mul x w in
    assert_then (negb debug || eqb (sqr_times sqr (Z.to_nat (sq_s S - 1)) b) one)
      (sqrt_loop fuel (sq_s S) (sq_nqr_to_t S) b x)))).

(** field_utils.tcc:86-90 [coset_shift]. *)
Definition coset_shift (multiplicative_generator : T) : T := sqr multiplicative_generator.

(** field_utils.tcc:99-114 [get_root_of_unity]; [1u << logn] is UB for
    logn >= 32.  The loop runs from s down to logn. *)
Definition get_root_of_unity (s : Z) (root_of_unity : T) (n : Z) : result T :=
  logn <- log2 n ;;
  if negb (logn <? 32) then UB else
  if negb (n =? Z.shiftl 1 logn) then Throw else
  if s <? logn then Throw else
  Ok (sqr_times (fun x => mul x x) (Z.to_nat (s - logn)) root_of_unity).

(** field_utils.tcc:234-257 [batch_invert]: first loop, producing the list of
    prefix products and the total. *)
Fixpoint batch_prods (vec : list T) (acc : T) : result (list T * T) :=
  match vec with
  | [] => Ok ([], acc)
  | el :: vec' =>
      assert_then (negb (eqb el zero)) (
      '(prod, last) <- batch_prods vec' (mul acc el) ;; Ok (acc :: prod, last))
  end.
(** Second loop, [i] from the last index down to 0: the recursive call handles
    the higher indices and returns the running [acc_inverse]. *)
Fixpoint batch_back (vec prod : list T) (acc_inverse : T) : list T * T :=
  match vec, prod with
  | old_el :: vec', p :: prod' =>
      let '(out, ai) := batch_back vec' prod' acc_inverse in
      (mul ai p :: out, mul ai old_el)
  | _, _ => ([], acc_inverse)
  end.
Definition batch_invert (inverse : T -> result T) (vec : list T) : result (list T) :=
  '(prod, acc) <- batch_prods vec one ;;
  acc_inverse <- inverse acc ;;
  Ok (fst (batch_back vec prod acc_inverse)).
End Sqrt.
Arguments sqrt_params T : clear implicits.
