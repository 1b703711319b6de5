(** Model of libff/algebra/scalar_multiplication/multiexp.tcc.

    T is the group type (its members in [gops]); S is the scalar type FieldT,
    of which only as_bigint(), operator* with a group element and comparison
    with zero/one are used.  Iterators are modelled by the sublists they
    delimit.  Profiling output is not modelled.  Vector accesses are bounds
    checked: an access outside is UB. *)
From Coq Require Import ZArith List Bool.
From Verif Require Import Result Limbs BigintModel UtilsModel FpModel GroupOps WnafModel.
Import ListNotations.
Open Scope Z_scope.
Open Scope result_scope.

(** ** naive_plain (multiexp.tcc:141-161), any type with zero and + *)
Section Plain.
Context {T S : Type} (zero : T) (add : T -> T -> T) (smul : S -> T -> T).
Fixpoint naive_plain_loop (vec : list T) (sc : list S) (res : T) : result T :=
  match vec, sc with
  | [], [] => Ok res
  | [], _ :: _ => AssertFail               (* assert(scalar_it == scalar_end) *)
  | _ :: _, [] => UB                       (* reads past the scalars *)
  | v :: vec', s :: sc' => naive_plain_loop vec' sc' (add res (smul s v))
  end.
Definition multi_exp_naive_plain (vec : list T) (sc : list S) : result T :=
  naive_plain_loop vec sc zero.
End Plain.

Section Multiexp.
Context {T S : Type} (O : gops T) (as_bigint : S -> list Z).
(** T::wnaf_window_table *)
Variable wnaf_table : list Z.
(** [FieldT * T] is scalar_mul with as_bigint(): e.g. alt_bn128_g1.hpp:97-107. *)
Definition field_smul (s : S) (v : T) : T := scalar_mul O v (as_bigint s).

(** ** naive (multiexp.tcc:118-139) *)
Fixpoint naive_loop (vec : list T) (sc : list S) (res : T) : result T :=
  match vec, sc with
  | [], [] => Ok res
  | [], _ :: _ => AssertFail
  | _ :: _, [] => UB
  | v :: vec', s :: sc' =>
      let b := as_bigint s in
      t <- opt_window_wnaf_exp O wnaf_table v b (bigint_num_bits b) ;;
      naive_loop vec' sc' (g_add O res t)
  end.
Definition multi_exp_naive (vec : list T) (sc : list S) : result T := naive_loop vec sc (g_zero O).

(** ** batch_to_special (multiexp.tcc:689-721) *)
Fixpoint put_back (vec nz : list T) (zero_special : T) : result (list T) :=
  match vec with
  | [] => Ok []
  | v :: vec' =>
      if negb (g_is_zero O v) then
        match nz with
        | [] => UB
        | x :: nz' => r <- put_back vec' nz' zero_special ;; Ok (x :: r)
        end
      else r <- put_back vec' nz zero_special ;; Ok (zero_special :: r)
  end.
Definition batch_to_special (vec : list T) : result (list T) :=
  nz <- g_batch_special O (filter (fun v => negb (g_is_zero O v)) vec) ;;
  zs <- g_to_special O (g_zero O) ;;
  put_back vec nz zs.

(** ** BDLO12 (multiexp.tcc:163-280) *)
Section BDLO12.
(** USE_MIXED_ADDITION *)
Variable mixed : bool.
Definition add_bucket (a b : T) : T := if mixed then g_mixed_add O a b else g_add O a b.

(** line 177: the window width. *)
Definition bdlo_c (length : Z) : result Z :=
  l <- log2 length ;; Ok (wrap64 (l - wrap64 (l / 3 - 2))).

(** lines 213-221: bits k*c .. k*c+c-1 of an exponent. *)
Fixpoint bucket_id (e : list Z) (start : Z) (j todo : nat) (id : Z) : Z :=
  match todo with
  | 0%nat => id
  | Datatypes.S t =>
      bucket_id e start (Datatypes.S j) t
        (if bigint_test_bit e (start + Z.of_nat j) then Z.lor id (Z.shiftl 1 (Z.of_nat j)) else id)
  end.

(** lines 211-240: distribute the bases; a bucket is its bucket_nonzero flag
    and its value. *)
Fixpoint fill_buckets (bases : list T) (exps : list (list Z)) (start : Z) (c : nat)
    (buckets : list (bool * T)) : result (list (bool * T)) :=
  match bases, exps with
  | b :: bases', e :: exps' =>
      let id := bucket_id e start 0 c 0 in
      if id =? 0 then fill_buckets bases' exps' start c buckets
      else
        ' (nz, v) <- vec_at buckets id ;;
        fill_buckets bases' exps' start c
          (upd buckets (Z.to_nat id) (true, if nz : bool then add_bucket v b else b))
  | _, _ => Ok buckets
  end.

(** lines 246-278: running sums, buckets from the highest index to 1
    (the list is given in that order). *)
Fixpoint sum_buckets (buckets : list (bool * T)) (rs : bool * T) (res : bool * T) : bool * T :=
  match buckets with
  | [] => res
  | (nz, v) :: bs =>
      let rs := if nz then (true, if fst rs then add_bucket (snd rs) v else v) else rs in
      let res := if fst rs then (true, if fst res then g_add O (snd res) (snd rs) else snd rs) else res in
      sum_buckets bs rs res
  end.

Fixpoint dbl_times (k : nat) (x : T) : T :=
  match k with 0%nat => x | Datatypes.S k' => dbl_times k' (g_dbl O x) end.

(** lines 199-279: groups k-1 .. 0. *)
Fixpoint bdlo_groups (k : nat) (c : nat) (bases : list T) (exps : list (list Z)) (res : bool * T)
  : result T :=
  match k with
  | 0%nat => Ok (snd res)
  | Datatypes.S k' =>
      let res := if fst res then (true, dbl_times c (snd res)) else res in
      buckets <- fill_buckets bases exps (Z.of_nat k' * Z.of_nat c) c
                   (repeat (false, g_default O) (Z.to_nat (2 ^ Z.of_nat c))) ;;
      buckets <- (if mixed then
                    vs <- batch_to_special (map snd buckets) ;; Ok (combine (map fst buckets) vs)
                  else Ok buckets) ;;
      bdlo_groups k' c bases exps
        (sum_buckets (rev (skipn 1 buckets)) (false, g_default O) res)
  end.

(** [1 << c] is an int shift: UB from c = 31 on. *)
Definition multi_exp_BDLO12 (bases : list T) (sc : list S) : result T :=
  c <- bdlo_c (Z.of_nat (length bases)) ;;
  if (length sc <? length bases)%nat then UB else
  let exps := map as_bigint (firstn (length bases) sc) in
  let num_bits := fold_left (fun m e => Z.max m (bigint_num_bits e)) exps 0 in
  let num_groups := (num_bits + c - 1) / c in
  if (0 <? num_groups) && (31 <=? c) then UB else
  bdlo_groups (Z.to_nat num_groups) (Z.to_nat c) bases exps (false, g_default O).
End BDLO12.

(** ** Bos-Coster (multiexp.tcc:282-398) *)
Section BosCoster.
(** [ordered_exponent]: index and exponent; lines 28-103, portable branch. *)
Notation oexp := (nat * list Z)%type.
Definition oexp_lt (a b : oexp) : bool :=
  match mpn_cmp (snd a) (snd b) with Lt => true | _ => false end.

(** std::make_heap, an external function. *)
Variable make_heap : list oexp -> list oexp.

Definition q_at (q : list oexp) (i : nat) : result oexp :=
  match nth_error q i with Some x => Ok x | None => UB end.
Definition swap (q : list oexp) (i j : nat) : result (list oexp) :=
  x <- q_at q i ;; y <- q_at q j ;; Ok (upd (upd q i y) j x).

(** lines 366-381: push down to a leaf. *)
Fixpoint sift_down (fuel : nat) (q : list oexp) (pos : nat) : result (list oexp * nat) :=
  match fuel with
  | 0%nat => OutOfFuel
  | Datatypes.S f =>
      if (2 * pos + 2 <? length q)%nat then
        l <- q_at q (2 * pos + 1) ;; r <- q_at q (2 * pos + 2) ;;
        if oexp_lt l r then
          q' <- swap q pos (2 * pos + 2) ;; sift_down f q' (2 * pos + 2)%nat
        else
          q' <- swap q pos (2 * pos + 1) ;; sift_down f q' (2 * pos + 1)%nat
      else Ok (q, pos)
  end.
(** lines 383-388: bring up again. *)
Fixpoint sift_up (fuel : nat) (q : list oexp) (pos : nat) : result (list oexp) :=
  match fuel with
  | 0%nat => OutOfFuel
  | Datatypes.S f =>
      if (0 <? pos)%nat then
        p <- q_at q ((pos - 1) / 2) ;; a <- q_at q pos ;;
        if oexp_lt p a then
          q' <- swap q pos ((pos - 1) / 2) ;; sift_up f q' ((pos - 1) / 2)%nat
        else Ok q
      else Ok q
  end.

Definition g_at (g : list T) (i : nat) : result T :=
  match nth_error g i with Some x => Ok x | None => UB end.

(** lines 326-389: the main loop.  [odd_vec_len] is the length of q. *)
Fixpoint bos_coster_loop (fuel : nat) (q : list oexp) (g : list T) (res : T) : result T :=
  match fuel with
  | 0%nat => OutOfFuel
  | Datatypes.S f =>
      a <- q_at q 0 ;; q1 <- q_at q 1 ;; q2 <- q_at q 2 ;;
      let b := if oexp_lt q1 q2 then q2 else q1 in
      let abits := bigint_num_bits (snd a) in
      ga <- g_at g (fst a) ;;
      if bigint_is_zero (snd b) then
        t <- opt_window_wnaf_exp O wnaf_table ga (snd a) abits ;; Ok (g_add O res t)
      else
        let bbits := bigint_num_bits (snd b) in
        let d := wrap64 (abits - bbits) in
        let limit := if 20 <=? d then 20 else d in
        ' (ar, g, res) <-
          (if bbits <? Z.shiftl 1 limit then
             t <- opt_window_wnaf_exp O wnaf_table ga (snd a) abits ;;
             Ok (bigint_clear (snd a), g, g_add O res t)
           else
             gb <- g_at g (fst b) ;;
             Ok (fst (mpn_sub (snd a) (snd b)), upd g (fst b) (g_add O gb ga), res)) ;;
        let q := upd q 0 (fst a, ar) in
        ' (q, pos) <- sift_down (length q + 1) q 0 ;;
        q <- sift_up (length q + 1) q pos ;;
        bos_coster_loop f q g res
  end.

(** lines 287-324; [nl] is FieldT::num_limbs. *)
Definition multi_exp_bos_coster (nl : nat) (fuel : nat) (vec : list T) (sc : list S) : result T :=
  match vec with
  | [] => Ok (g_zero O)
  | [v] => match sc with [] => UB | s :: _ => Ok (field_smul s v) end
  | _ =>
      if (length sc <? length vec)%nat then UB else
      assert_then (length sc =? length vec)%nat (
      let vec_len := length sc in
      let q := make_heap (combine (seq 0 vec_len) (map as_bigint sc)) in
      let '(q, g) :=
        if Nat.odd vec_len then (q, vec)
        else (q ++ [(vec_len, bigint_of_ulong nl 0)], vec ++ [g_zero O]) in
      assert_then (Nat.odd (length g)) (
      assert_then (length q =? length g)%nat (
      bos_coster_loop fuel q g (g_zero O))))
  end.
End BosCoster.

(** ** multi_exp (multiexp.tcc:400-439) for a method [inner] *)
Section Chunks.
Variable inner : list T -> list S -> result T.

(** The sublists of chunk i. *)
Definition chunk_of {A} (chunks one i : nat) (l : list A) : list A :=
  if (i =? chunks - 1)%nat then skipn (i * one) l else firstn one (skipn (i * one) l).

(** The parallel loop: [order] is the order in which the iterations finish;
    each writes its own entry of [partial]. *)
Fixpoint run_schedule {A} (f : nat -> result A) (order : list nat) (partial : list A) : result (list A) :=
  match order with
  | [] => Ok partial
  | i :: order' => r <- f i ;; run_schedule f order' (upd partial i r)
  end.

Definition multi_exp (chunks : nat) (order : list nat) (vec : list T) (sc : list S) : result T :=
  let total := length vec in
  if (total <? chunks)%nat || (chunks =? 1)%nat then inner vec sc
  else if (chunks =? 0)%nat then UB      (* total / chunks *)
  else
    let one := (total / chunks)%nat in
    partial <- run_schedule (fun i => inner (chunk_of chunks one i vec) (chunk_of chunks one i sc)) order
                 (repeat (g_zero O) chunks) ;;
    Ok (fold_left (g_add O) partial (g_zero O)).

(** ** multi_exp_with_mixed_addition (multiexp.tcc:441-502); [s_is0], [s_is1]
    are the comparisons with FieldT::zero() and FieldT::one(). *)
Variable mixed : bool.
Variables s_is0 s_is1 : S -> bool.
Fixpoint split_scalars (vec : list T) (sc : list S) (acc : T) (g : list T) (p : list S)
  : T * list T * list S :=
  match vec, sc with
  | v :: vec', s :: sc' =>
      if s_is0 s then split_scalars vec' sc' acc g p
      else if s_is1 s then
        split_scalars vec' sc' (if mixed then g_mixed_add O acc v else g_add O acc v) g p
      else split_scalars vec' sc' acc (g ++ [v]) (p ++ [s])
  | _, _ => (acc, g, p)
  end.
Definition multi_exp_with_mixed_addition (chunks : nat) (order : list nat) (vec : list T) (sc : list S)
  : result T :=
  assert_then (length vec =? length sc)%nat (
  let '(acc, g, p) := split_scalars vec sc (g_zero O) [] [] in
  r <- multi_exp chunks order g p ;; Ok (g_add O acc r)).
End Chunks.

(** ** Fixed-base windows *)
(** multiexp.tcc:515-551 [get_exp_window_size]: scan from the last entry. *)
Fixpoint exp_window (rt : list Z) (num_scalars : Z) : Z :=
  match rt with
  | [] => 1
  | x :: rt' => if negb (x =? 0) && (x <=? num_scalars) then Z.of_nat (length rt') + 1
                else exp_window rt' num_scalars
  end.
Definition get_exp_window_size (lowmem : bool) (tbl : list Z) (num_scalars : Z) : Z :=
  match tbl with
  | [] => if lowmem then 14 else 17
  | _ => let w := exp_window (rev tbl) num_scalars in if lowmem then Z.min 14 w else w
  end.

(** multiexp.tcc:575-579: the inner loop: [cur] multiples, then zeros. *)
Fixpoint window_row (cur : nat) (ginner gouter : T) : list T :=
  match cur with
  | 0%nat => []
  | Datatypes.S k => ginner :: window_row k (g_add O ginner gouter) gouter
  end.
(** multiexp.tcc:581-584 *)
Fixpoint add_self_times (k : nat) (x : T) : T :=
  match k with 0%nat => x | Datatypes.S k' => add_self_times k' (g_add O x x) end.
(** multiexp.tcc:571-586: [rows] rows are left. *)
Fixpoint window_rows (rows window : nat) (last_in_window : nat) (gouter : T) : list (list T) :=
  match rows with
  | 0%nat => []
  | Datatypes.S r =>
      let in_window := Z.to_nat (2 ^ Z.of_nat window) in
      let cur := if (r =? 0)%nat then last_in_window else in_window in
      (window_row cur (g_zero O) gouter ++ repeat (g_zero O) (in_window - cur))
        :: window_rows r window last_in_window (add_self_times window gouter)
  end.
(** multiexp.tcc:553-589 [get_window_table].  Shifts by 64 or more and
    division by a zero window are UB. *)
Definition window_outerc (scalar_size window : Z) : Z := wrap64 (scalar_size + window - 1) / window.
Definition get_window_table (scalar_size window : Z) (g : T) : result (list (list T)) :=
  if (64 <=? window) || (window =? 0) then UB else
  let outerc := window_outerc scalar_size window in
  let sh := wrap64 (scalar_size - wrap64 ((outerc - 1) * window)) in
  if 64 <=? sh then UB else
  Ok (window_rows (Z.to_nat outerc) (Z.to_nat window) (Z.to_nat (2 ^ sh)) g).

(** multiexp.tcc:606-613: the table index of one window; [1u << i] is UB from
    i = 32 on. *)
Fixpoint window_index (e : list Z) (start : Z) (i todo : nat) (inner : Z) : result Z :=
  match todo with
  | 0%nat => Ok inner
  | Datatypes.S t =>
      if bigint_test_bit e (start + Z.of_nat i) then
        if (32 <=? i)%nat then UB
        else window_index e start (Datatypes.S i) t (Z.lor inner (Z.shiftl 1 (Z.of_nat i)))
      else window_index e start (Datatypes.S i) t inner
  end.
Fixpoint windowed_loop (outer todo : nat) (window : nat) (table : list (list T)) (e : list Z) (res : T)
  : result T :=
  match todo with
  | 0%nat => Ok res
  | Datatypes.S t =>
      inner <- window_index e (Z.of_nat outer * Z.of_nat window) 0 window 0 ;;
      row <- vec_at table (Z.of_nat outer) ;;
      x <- vec_at row inner ;;
      windowed_loop (Datatypes.S outer) t window table e (g_add O res x)
  end.
(** multiexp.tcc:591-618 [windowed_exp]. *)
Definition windowed_exp (scalar_size window : Z) (table : list (list T)) (s : S) : result T :=
  if window =? 0 then UB else
  row <- vec_at table 0 ;;
  res <- vec_at row 0 ;;
  windowed_loop 0 (Z.to_nat (window_outerc scalar_size window)) (Z.to_nat window) table (as_bigint s) res.

(** multiexp.tcc:620-652 [batch_exp] and 654-687 [batch_exp_with_coeff];
    [smul] is FieldT multiplication.  The loop is parallel. *)
Definition batch_exp (scalar_size window : Z) (table : list (list T)) (order : list nat) (v : list S)
  : result (list T) :=
  row <- vec_at table 0 ;;
  x0 <- vec_at row 0 ;;
  run_schedule (fun i => match nth_error v i with
                         | Some s => windowed_exp scalar_size window table s
                         | None => UB
                         end) order (repeat x0 (length v)).
Definition batch_exp_with_coeff (mul : S -> S -> S) (scalar_size window : Z) (table : list (list T))
    (order : list nat) (coeff : S) (v : list S) : result (list T) :=
  row <- vec_at table 0 ;;
  x0 <- vec_at row 0 ;;
  run_schedule (fun i => match nth_error v i with
                         | Some s => windowed_exp scalar_size window table (mul coeff s)
                         | None => UB
                         end) order (repeat x0 (length v)).
End Multiexp.

(** multiexp.tcc:504-513 [inner_product]: T is a field and the scalars are
    field elements too; one chunk. *)
Definition inner_product {T} (zero : T) (add mul : T -> T -> T) (a b : list T) : result T :=
  multi_exp_naive_plain zero add mul a b.
