(** Model of multi-exponentiation, leave_block and bit packing in a build with
    NDEBUG, where [assert] expands to nothing (see NdebugModel.v). *)
From Coq Require Import ZArith List Bool.
From Verif Require Import Result Limbs BigintModel UtilsModel FpModel GroupOps WnafModel MultiexpModel PackingModel ProfilingModel.
Import ListNotations.
Open Scope Z_scope.
Open Scope result_scope.

(** multiexp.tcc:141-161 without line 158. *)
Section Plain.
Context {T S : Type} (zero : T) (add : T -> T -> T) (smul : S -> T -> T).
Fixpoint naive_plain_loop_nd (vec : list T) (sc : list S) (res : T) : result T :=
  match vec, sc with
  | [], _ => Ok res
  | _ :: _, [] => UB                       (* reads past the scalars *)
  | v :: vec', s :: sc' => naive_plain_loop_nd vec' sc' (add res (smul s v))
  end.
Definition multi_exp_naive_plain_nd (vec : list T) (sc : list S) : result T :=
  naive_plain_loop_nd vec sc zero.
End Plain.

Section Multiexp.
Context {T S : Type} (O : gops T) (as_bigint : S -> list Z).
Variable wnaf_table : list Z.

(** multiexp.tcc:118-139 without line 136. *)
Fixpoint naive_loop_nd (vec : list T) (sc : list S) (res : T) : result T :=
  match vec, sc with
  | [], _ => Ok res
  | _ :: _, [] => UB
  | v :: vec', s :: sc' =>
      let b := as_bigint s in
      t <- opt_window_wnaf_exp O wnaf_table v b (bigint_num_bits b) ;;
      naive_loop_nd vec' sc' (g_add O res t)
  end.
Definition multi_exp_naive_nd (vec : list T) (sc : list S) : result T := naive_loop_nd vec sc (g_zero O).

(** multiexp.tcc:282-398 without lines 319, 326 and 327.  The heap has as many
    entries as there are points, [odd_len] (odd_vec_len) comes from the number
    of scalars. *)
Section BosCoster.
Notation oexp := (nat * list Z)%type.
Variable make_heap : list oexp -> list oexp.
(** lines 372-387 *)
Fixpoint sift_down_nd (odd_len fuel : nat) (q : list oexp) (pos : nat) : result (list oexp * nat) :=
  match fuel with
  | 0%nat => OutOfFuel
  | Datatypes.S f =>
      if (2 * pos + 2 <? odd_len)%nat then
        l <- q_at q (2 * pos + 1) ;; r <- q_at q (2 * pos + 2) ;;
        if oexp_lt l r then
          q' <- swap q pos (2 * pos + 2) ;; sift_down_nd odd_len f q' (2 * pos + 2)%nat
        else
          q' <- swap q pos (2 * pos + 1) ;; sift_down_nd odd_len f q' (2 * pos + 1)%nat
      else Ok (q, pos)
  end.
(** lines 331-395 *)
Fixpoint bos_coster_loop_nd (odd_len fuel : nat) (q : list oexp) (g : list T) (res : T) : result T :=
  match fuel with
  | 0%nat => OutOfFuel
  | Datatypes.S f =>
      a <- q_at q 0 ;; q1 <- q_at q 1 ;; q2 <- q_at q 2 ;;
      let b := if oexp_lt q1 q2 then q2 else q1 in
      let abits := bigint_num_bits (snd a) in
      ga <- g_at g (fst a) ;;
      if bigint_is_zero (snd b) then
        t <- opt_window_wnaf_exp O wnaf_table ga (snd a) abits ;; Ok (g_add O res t)
      else
        let bbits := bigint_num_bits (snd b) in
        let d := wrap64 (abits - bbits) in
        let limit := if 20 <=? d then 20 else d in
        ' (ar, g, res) <-
          (if bbits <? Z.shiftl 1 limit then
             t <- opt_window_wnaf_exp O wnaf_table ga (snd a) abits ;;
             Ok (bigint_clear (snd a), g, g_add O res t)
           else
             gb <- g_at g (fst b) ;;
             Ok (fst (mpn_sub (snd a) (snd b)), upd g (fst b) (g_add O gb ga), res)) ;;
        let q := upd q 0 (fst a, ar) in
        ' (q, pos) <- sift_down_nd odd_len (odd_len + 1) q 0 ;;
        q <- sift_up (length q + 1) q pos ;;
        bos_coster_loop_nd odd_len f q g res
  end.
Definition multi_exp_bos_coster_nd (nl : nat) (fuel : nat) (vec : list T) (sc : list S) : result T :=
  match vec with
  | [] => Ok (g_zero O)
  | [v] => match sc with [] => UB | s :: _ => Ok (field_smul O as_bigint s v) end
  | _ =>
      if (length sc <? length vec)%nat then UB else
      let vec_len := length sc in
      let q := make_heap (combine (seq 0 (length vec)) (map as_bigint (firstn (length vec) sc))) in
      if Nat.odd vec_len then bos_coster_loop_nd vec_len fuel q vec (g_zero O)
      else bos_coster_loop_nd (vec_len + 1) fuel (q ++ [(vec_len, bigint_of_ulong nl 0)]) (vec ++ [g_zero O]) (g_zero O)
  end.
End BosCoster.

(** multiexp.tcc:441-502 with NDEBUG: the loop runs over the scalars; when they
    are more than the values an iterator leaves the values, which is UB. *)
Definition multi_exp_with_mixed_addition_nd (inner : list T -> list S -> result T) (mixed : bool) (s_is0 s_is1 : S -> bool)
    (chunks : nat) (order : list nat) (vec : list T) (sc : list S) : result T :=
  if (length vec <? length sc)%nat then UB else
  let '(acc, g, p) := split_scalars O mixed s_is0 s_is1 vec sc (g_zero O) [] [] in
  r <- multi_exp O inner chunks order g p ;; Ok (g_add O acc r).
End Multiexp.

(** profiling.cpp:287-330 without line 295, which is also left out of MULTICORE
    builds; the macro has no other effect on the state. *)
Definition leave_block_nd (C : prof_cfg) (n : list Z) (indent : bool) (t : Z) (cpu : option Z) (s : prof) : result prof :=
  leave_block {| inhibit_info := inhibit_info C; inhibit_counters := inhibit_counters C; multicore := true |} n indent t cpu s.

(** field_utils.tcc:141-160 without line 144. *)
Definition pack_bit_vector_nd (P : fp_params) (v : list bool) (chunk_bits : nat) : result (list (list Z)) :=
  repacked_size <- div_ceil (to_s64 (Z.of_nat (length v))) (to_s64 (Z.of_nat chunk_bits)) ;;
  mapM (fun i =>
    b <- chunk_bigint P chunk_bits (fun j => nth (i * chunk_bits + j) v false) ;;
    fp_of_bigint P b) (seq 0 (Z.to_nat repacked_size)).
