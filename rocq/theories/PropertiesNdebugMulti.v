(** Property theorems about multi-exponentiation, profiling blocks and packing
    in builds without assertions (NDEBUG): C67. *)
From Coq Require Import ZArith List Bool.
From Verif Require Import Result Limbs LimbsProofs UtilsModel FpModel FpSpec FpProofs GroupOps WnafModel MultiexpModel
  BosCosterProofs MultiexpExtra PackingModel PackingProofs ProfilingModel NdebugMultiModel NdebugMultiProofs.
Import ListNotations.
Open Scope Z_scope.
Open Scope result_scope.

(** More scalars than points: naive, naive_plain and BDLO12 ignore the extra
    scalars ([ignores_extra]: the result for the scalars cut to the number of
    points), and so does multi_exp for every number of chunks. *)
Theorem C67_extra_scalars : forall T S (O : gops T) (as_bigint : S -> list Z) tbl mixed,
  ignores_extra (multi_exp_naive_nd O as_bigint tbl) (multi_exp_naive O as_bigint tbl) /\
  ignores_extra (multi_exp_naive_plain_nd (g_zero O) (g_add O) (field_smul O as_bigint))
    (multi_exp_naive_plain (g_zero O) (g_add O) (field_smul O as_bigint)) /\
  ignores_extra (multi_exp_BDLO12 O as_bigint mixed) (multi_exp_BDLO12 O as_bigint mixed).
Proof.
  exact (fun T S O as_bigint tbl mixed =>
    conj (naive_nd_ignores O as_bigint tbl) (conj (plain_nd_ignores O as_bigint) (bdlo_ignores O as_bigint mixed))).
Qed.
Print Assumptions C67_extra_scalars.

Theorem C67_extra_scalars_chunks : forall T S (O : gops T) (inner_nd inner : list T -> list S -> result T) chunks order,
  ignores_extra inner_nd inner ->
  forall vec sc, (length vec <= length sc)%nat ->
    multi_exp O inner_nd chunks order vec sc = multi_exp O inner chunks order vec (firstn (length vec) sc).
Proof. exact (fun T S O inner_nd inner chunks order => multi_exp_ignores O inner_nd inner chunks order). Qed.
Print Assumptions C67_extra_scalars_chunks.

(** At most as many scalars as points: the same as with assertions. *)
Theorem C67_naive_agrees : forall T S (O : gops T) (as_bigint : S -> list Z) tbl vec sc, (length sc <= length vec)%nat ->
  multi_exp_naive_nd O as_bigint tbl vec sc = multi_exp_naive O as_bigint tbl vec sc /\
  multi_exp_naive_plain_nd (g_zero O) (g_add O) (field_smul O as_bigint) vec sc =
    multi_exp_naive_plain (g_zero O) (g_add O) (field_smul O as_bigint) vec sc.
Proof. exact (fun T S O as_bigint tbl => naive_nd_short O as_bigint tbl). Qed.
Print Assumptions C67_naive_agrees.

(** Bos-Coster: the same for equal lengths; undefined behaviour for two points
    and any odd number of scalars above two. *)
Theorem C67_bos_coster_agrees : forall T S (O : gops T) (as_bigint : S -> list Z) tbl make_heap, make_heap_ok make_heap ->
  forall nl fuel vec sc, length vec = length sc ->
  multi_exp_bos_coster_nd O as_bigint tbl make_heap nl fuel vec sc = multi_exp_bos_coster O as_bigint tbl make_heap nl fuel vec sc.
Proof. exact (fun T S O as_bigint tbl make_heap MH => bos_coster_nd_agree O as_bigint tbl make_heap MH). Qed.
Print Assumptions C67_bos_coster_agrees.

Theorem C67_bos_coster_refuted : forall T S (O : gops T) (as_bigint : S -> list Z) tbl make_heap, make_heap_ok make_heap ->
  forall nl fuel v0 v1 sc, (3 <= length sc)%nat -> Nat.odd (length sc) = true -> (1 <= fuel)%nat ->
  multi_exp_bos_coster_nd O as_bigint tbl make_heap nl fuel [v0; v1] sc = UB.
Proof. exact (fun T S O as_bigint tbl make_heap MH => bos_coster_nd_ub O as_bigint tbl make_heap MH). Qed.
Print Assumptions C67_bos_coster_refuted.

(** multi_exp_with_mixed_addition ignores extra points instead. *)
Theorem C67_mixed_addition : forall T S (O : gops T) (inner : list T -> list S -> result T) mixed s0 s1 chunks order vec sc,
  ((length sc <= length vec)%nat ->
    multi_exp_with_mixed_addition_nd O inner mixed s0 s1 chunks order vec sc =
    multi_exp_with_mixed_addition O inner mixed s0 s1 chunks order (firstn (length sc) vec) sc) /\
  ((length vec < length sc)%nat -> multi_exp_with_mixed_addition_nd O inner mixed s0 s1 chunks order vec sc = UB).
Proof. exact (fun T S O => mixed_nd_spec O). Qed.
Print Assumptions C67_mixed_addition.

(** leave_block closes the innermost block whatever its name, and books the time
    under the name it was given. *)
Theorem C67_leave_block_agrees : forall C n i t cpu s s',
  leave_block C n i t cpu s = Ok s' -> leave_block_nd C n i t cpu s = Ok s'.
Proof. exact leave_block_nd_agree. Qed.
Print Assumptions C67_leave_block_agrees.

Theorem C67_leave_block : forall C n i t cpu s s' top rest, inhibit_counters C = false -> block_names s = top :: rest ->
  leave_block_nd C n i t cpu s = Ok s' ->
  block_names s' = rest /\ invocation_counts s' n = wrap64 (invocation_counts s n + 1) /\
  (top <> n -> invocation_counts s' top = invocation_counts s top) /\
  last_times s' n = t - enter_times s n.
Proof. exact leave_block_nd_pops. Qed.
Print Assumptions C67_leave_block.

(** pack_bit_vector_into_field_element_vector: the same where the other returns;
    chunks as wide as the limbs are reduced modulo p, wider ones are undefined
    behaviour. *)
Theorem C67_pack_agrees : forall P v c r, pack_bit_vector P v c = Ok r -> pack_bit_vector_nd P v c = Ok r.
Proof. exact pack_nd_agree. Qed.
Print Assumptions C67_pack_agrees.

Theorem C67_pack : forall P, fp_ok P -> forall v c, (0 < c <= 64 * fp_n P)%nat -> Z.of_nat (length v) + Z.of_nat c < 2 ^ 63 ->
  exists r, pack_bit_vector_nd P v c = Ok r /\ Forall (canon P) r /\
    map (den P) r = map (fun i => bits_val (bit_chunk c i v) mod val (fp_modulus P)) (seq 0 (length r)) /\
    (length v <= length r * c < length v + c)%nat.
Proof. exact pack_nd_spec. Qed.
Print Assumptions C67_pack.

Theorem C67_pack_too_wide : forall P v c, v <> [] -> (64 * fp_n P < c)%nat -> Z.of_nat (length v) + Z.of_nat c < 2 ^ 63 ->
  pack_bit_vector_nd P v c = UB.
Proof. exact pack_nd_ub. Qed.
Print Assumptions C67_pack_too_wide.

(** Two points, three or four scalars (the integers as the group). *)
Example C67_multi_example :
  multi_exp_naive_nd zgops (fun s => s) [11; 24; 60; 127] [5; 7] [[2]; [3]; [4]] = Ok 31 /\
  multi_exp_naive zgops (fun s => s) [11; 24; 60; 127] [5; 7] [[2]; [3]; [4]] = AssertFail /\
  multi_exp_bos_coster_nd zgops (fun s => s) [11; 24; 60; 127] (@rev _) 1 9 [5; 7] [[2]; [3]; [4]] = UB /\
  multi_exp_bos_coster_nd zgops (fun s => s) [11; 24; 60; 127] (@rev _) 1 9 [5; 7] [[200]; [300]; [4]; [4]] = UB /\
  multi_exp_bos_coster_nd zgops (fun s => s) [11; 24; 60; 127] (@rev _) 1 9 [5; 7] [[2]; [3]] = Ok 31.
Proof. exact multi_nd_examples. Qed.
(** Blocks closed in the wrong order. *)
Example C67_leave_example :
  let C := {| inhibit_info := false; inhibit_counters := false; multicore := false |} in
  let s := mkProf [] 0 (fun _ => 0) (fun _ => 0) (fun _ => 0) (fun _ => 0) (fun _ => 0) (fun _ => 0) in
  let s2 := (s <- enter_block C [1] true 10 (Some 10) s ;; enter_block C [2] true 20 (Some 20) s) in
  (s <- s2 ;; leave_block C [1] true 35 (Some 35) s) = AssertFail /\
  match (s <- s2 ;; s <- leave_block_nd C [1] true 35 (Some 35) s ;; leave_block_nd C [2] true 50 (Some 50) s) with
  | Ok s => block_names s = [] /\ indentation s = 0 /\ last_times s [1] = 25 /\ last_times s [2] = 30
  | _ => False
  end.
Proof. exact leave_nd_example. Qed.
