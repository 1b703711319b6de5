(** C70: profiler reports after clear_profiling_counters. *)
From Coq Require Import ZArith List Bool.
From Verif Require Import Result Limbs UtilsModel ProfilingModel ProfilingProofs ProfilingExtra OpcountModel OpcountProofs ReportModel ReportProofs.
Import ListNotations.
Open Scope Z_scope.

(** From any state, inside any open blocks: the times are those of the blocks that
    follow, and the open blocks are still open. *)
Theorem C70_times C T f s : inhibit_counters C = false -> 0 <= T < 2 ^ 63 -> within T f ->
  0 <= indentation s < 2 ^ 64 -> blocks f * T < 2 ^ 63 -> no_self_nesting f ->
  exists s', run C (history f) (clear_profiling_counters s) = Ok s' /\
  block_names s' = block_names s /\ indentation s' = indentation s /\
  forall n, cumulative_times s' n = total n f /\ invocation_counts s' n = wrap64 (count n f) /\
    last_times s' n = match last_block n f with Some (d, _) => d | None => 0 end /\
    last_cpu_times s' n = match last_block n f with Some (_, c) => c | None => 0 end.
Proof. exact (clear_run C T f s). Qed.
Print Assumptions C70_times.

(** print_cumulative_time_entry shows the sum and the number of the blocks that
    follow, and throws for a name that none of them has. *)
Theorem C70_time_entry C T f s : inhibit_counters C = false -> 0 <= T < 2 ^ 63 -> within T f ->
  0 <= indentation s < 2 ^ 64 -> blocks f * T < 2 ^ 63 -> no_self_nesting f -> blocks f < 2 ^ 64 ->
  exists s', run C (history f) (clear_profiling_counters s) = Ok s' /\
  forall n, time_entry n s' = if count n f =? 0 then Throw else Ok (total n f, count n f).
Proof. exact (clear_entry C T f s). Qed.
Print Assumptions C70_time_entry.

(** A block that was open at the call is reported with its whole duration. *)
Theorem C70_open_block C n i t c s rest : inhibit_counters C = false -> block_names s = n :: rest ->
  - 2 ^ 63 <= t - enter_times s n < 2 ^ 63 -> - 2 ^ 63 <= c - enter_cpu_times s n < 2 ^ 63 ->
  exists s', leave_block C n i t (Some c) (clear_profiling_counters s) = Ok s' /\ block_names s' = rest /\
    time_entry n s' = Ok (t - enter_times s n, 1) /\ last_cpu_times s' n = c - enter_cpu_times s n.
Proof. exact (clear_open C n i t c s rest). Qed.
Print Assumptions C70_open_block.

(** The operation counts are not cleared: the sum over the blocks before (g) and
    after (f) is divided by the number of blocks after. *)
Theorem C70_op_entry C T f g s o o1 : inhibit_counters C = false -> inhibit_info C = false -> 0 <= T < 2 ^ 63 ->
  within T f -> within T g -> no_self_nesting f -> no_self_nesting g -> 0 <= indentation s < 2 ^ 64 ->
  (forall n, cumulative_op_counts o n = 0) -> (blocks g + blocks f) * T < 2 ^ 63 -> blocks f < 2 ^ 64 ->
  op_run C (op_history g) o = Ok o1 ->
  exists s' o', run C (history f) (clear_profiling_counters s) = Ok s' /\ op_run C (op_history f) (clear_op_counters o1) = Ok o' /\
    forall n, op_entry n s' o' = if count n f =? 0 then None else Some (total n g + total n f, count n f).
Proof. exact (clear_ops C T f g s o o1). Qed.
Print Assumptions C70_op_entry.

(** So one block of two operations is reported with an average of five. *)
Theorem C70_op_entry_refuted : exists s' o1 o', op_run cfg0 (op_history three_ops) opprof0 = Ok o1 /\
  run cfg0 (history two_ops) (clear_profiling_counters prof0) = Ok s' /\
  op_run cfg0 (op_history two_ops) (clear_op_counters o1) = Ok o' /\
  op_entry [102] s' o' = Some (5, 1) /\ total [102] two_ops = 2 /\ count [102] two_ops = 1.
Proof. exact clear_ops_wrong. Qed.
Print Assumptions C70_op_entry_refuted.

(** The number leave_block shows: the operations since the block was entered. *)
Theorem C70_leave_shown C T n v0 v1 f o : inhibit_counters C = false -> inhibit_info C = false -> 0 <= T < 2 ^ 63 ->
  within T f -> no_self_nesting f -> occurs n f = false -> 0 <= v0 <= T -> 0 <= v1 <= T ->
  (forall m, Z.abs (cumulative_op_counts o m) + blocks f * T < 2 ^ 63) ->
  exists o', op_run C (OpEnter n v0 :: op_history f) o = Ok o' /\ op_shown n v1 o' = Ok (v1 - v0).
Proof. exact (leave_shown C T n v0 v1 f o). Qed.
Print Assumptions C70_leave_shown.

(** The number print_time shows does not depend on blocks of other names: with no
    block of the name of the message it is the count since the program started. *)
Theorem C70_print_time C f o o' n v : inhibit_counters C = false -> op_run C (op_history f) o = Ok o' -> occurs n f = false ->
  op_shown n v o' = op_shown n v o.
Proof. exact (print_time_shown C f o o' n v). Qed.
Print Assumptions C70_print_time.

(** only_fq leaves Fqadd, Fqsub, Fqmul and Fqinv of the twelve data points. *)
Example C70_example :
  within 105 two_ops /\ no_self_nesting two_ops /\ op_shown [103] 7 opprof0 = Ok 7 /\
  length (shown_points false) = 12%nat /\
  shown_points true = [[70; 113; 97; 100; 100]; [70; 113; 115; 117; 98]; [70; 113; 109; 117; 108]; [70; 113; 105; 110; 118]].
Proof. cbn. repeat split; reflexivity || discriminate. Qed.
