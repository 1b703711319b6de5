(** Model of libff/algebra/scalar_multiplication/wnaf.tcc and of scalar_mul in
    libff/algebra/curves/curve_utils.tcc. *)
From Coq Require Import ZArith List Bool.
From Verif Require Import Result Limbs BigintModel GroupOps.
Import ListNotations.
Open Scope Z_scope.
Open Scope result_scope.

(** wnaf.tcc:30-34: the digit of an odd c; [c0 = c.data[0]].  [1u << 32] and
    the signed [1 << 31] are UB. *)
Definition wnaf_digit (w : nat) (c0 : Z) : result Z :=
  if (31 <=? w)%nat then UB
  else
    let u := c0 mod 2 ^ (Z.of_nat w + 1) in
    if 2 ^ Z.of_nat w <? u then
      if (w =? 30)%nat then UB else Ok (u - 2 ^ (Z.of_nat w + 1))
    else Ok u.

(** wnaf.tcc:26-55: one loop iteration; returns (u, new c). The carry of
    mpn_add_1 is discarded as in the code. *)
Definition wnaf_step (w : nat) (c : list Z) : result (Z * list Z) :=
  ' (u, c) <-
    (if Z.land (nth 0 c 0) 1 =? 1 then
       u <- wnaf_digit w (nth 0 c 0) ;;
       Ok (u, if 0 <? u then fst (mpn_sub_1 c u) else fst (mpn_add_1 c (- u)))
     else Ok (0, c)) ;;
  Ok (u, mpn_rshift c 1).

(** wnaf.tcc:26-55 the while loop; [room] is how many entries of [res] are
    left, writing past the end is UB. *)
Fixpoint wnaf_loop (fuel : nat) (room : nat) (w : nat) (c : list Z) : result (list Z) :=
  match fuel with
  | O => OutOfFuel
  | S f =>
      if bigint_is_zero c then Ok (repeat 0 room)
      else
        ' (u, c') <- wnaf_step w c ;;
        match room with
        | O => UB
        | S r => ds <- wnaf_loop f r w c' ;; Ok (u :: ds)
        end
  end.

(** wnaf.tcc:20-58 [find_wnaf]: [length = max_bits() = 64 n]. *)
Definition find_wnaf (w : nat) (scalar : list Z) : result (list Z) :=
  wnaf_loop (64 * length scalar + 2) (64 * length scalar + 1) w scalar.

Section Group.
Context {T : Type} (O : gops T).

(** curve_utils.tcc:14-34 [scalar_mul]: bits i-1 .. 0. *)
Fixpoint scalar_mul_loop (i : nat) (scalar : list Z) (base : T) (found_one : bool) (result : T) : T :=
  match i with
  | 0%nat => result
  | S j =>
      let r := if found_one then g_dbl O result else result in
      if bigint_test_bit scalar (Z.of_nat j)
      then scalar_mul_loop j scalar base true (g_add O r base)
      else scalar_mul_loop j scalar base found_one r
  end.
Definition scalar_mul (base : T) (scalar : list Z) : T :=
  scalar_mul_loop (64 * length scalar) scalar base false (g_zero O).

(** wnaf.tcc:66-71: the table of odd multiples. *)
Fixpoint wnaf_table (count : nat) (tmp dbl : T) : list T :=
  match count with
  | 0%nat => []
  | S k => tmp :: wnaf_table k (g_add O tmp dbl) dbl
  end.

(** Bounds-checked vector access. *)
Definition vec_at {A} (l : list A) (i : Z) : result A :=
  if i <? 0 then UB else
  match nth_error l (Z.to_nat i) with Some x => Ok x | None => UB end.

(** wnaf.tcc:75-94, digits most significant first. *)
Fixpoint wnaf_eval (ds : list Z) (table : list T) (found_nonzero : bool) (res : T) : result T :=
  match ds with
  | [] => Ok res
  | d :: ds' =>
      let r := if found_nonzero then g_dbl O res else res in
      if d =? 0 then wnaf_eval ds' table found_nonzero r
      else if 0 <? d then
        t <- vec_at table (Z.quot d 2) ;; wnaf_eval ds' table true (g_add O r t)
      else
        t <- vec_at table (Z.quot (- d) 2) ;; wnaf_eval ds' table true (g_sub O r t)
  end.

(** wnaf.tcc:60-97 [fixed_window_wnaf_exp]; [1ul << (window_size-1)] is UB for
    window_size 0 or above 64. *)
Definition fixed_window_wnaf_exp (w : nat) (base : T) (scalar : list Z) : result T :=
  naf <- find_wnaf w scalar ;;
  if (w =? 0)%nat || (64 <? w)%nat then UB else
  wnaf_eval (rev naf) (wnaf_table (Z.to_nat (2 ^ (Z.of_nat w - 1))) base (g_dbl O base)) false (g_zero O).

(** wnaf.tcc:102-110: the largest i with [scalar_bits >= table[i]], plus 1;
    [rt] is the table reversed. *)
Fixpoint best_window (rt : list Z) (scalar_bits : Z) : nat :=
  match rt with
  | [] => 0
  | x :: rt' => if x <=? scalar_bits then S (length rt') else best_window rt' scalar_bits
  end.

(** wnaf.tcc:99-120 [opt_window_wnaf_exp]; [tbl] is T::wnaf_window_table. *)
Definition opt_window_wnaf_exp (tbl : list Z) (base : T) (scalar : list Z) (scalar_bits : Z) : result T :=
  match best_window (rev tbl) scalar_bits with
  | 0%nat => Ok (scalar_mul base scalar)
  | best => fixed_window_wnaf_exp best base scalar
  end.
End Group.
