(** Property theorems for profiling blocks: C45. *)
From Coq Require Import ZArith List Bool Lia.
From Verif Require Import Result Limbs UtilsModel ProfilingModel ProfilingProofs ProfilingExtra.
Import ListNotations.
Open Scope Z_scope.

(** Every well-nested history, from any state: no failure, the stack of open
    blocks and the indentation return to what they were, and each name's
    invocation count grows by the number of completed blocks.  T bounds the
    clock readings; the last premise excludes overflow of long long. *)
Theorem C45_nested C T f s : inhibit_counters C = false -> 0 <= T < 2 ^ 63 -> within T f ->
  0 <= indentation s < 2 ^ 64 -> (forall n, 0 <= invocation_counts s n < 2 ^ 64) ->
  (forall n, Z.abs (cumulative_times s n) + blocks f * T < 2 ^ 63) ->
  exists s', run C (history f) s = Ok s' /\ block_names s' = block_names s /\ indentation s' = indentation s /\
    (forall n, invocation_counts s' n = wrap64 (invocation_counts s n + count n f)).
Proof. exact (nested_counts C T f s). Qed.
Print Assumptions C45_nested.

(** If no block contains a block of its own name, cumulative times are exact. *)
Theorem C45_times C T f s : inhibit_counters C = false -> 0 <= T < 2 ^ 63 -> within T f ->
  0 <= indentation s < 2 ^ 64 -> (forall n, Z.abs (cumulative_times s n) + blocks f * T < 2 ^ 63) ->
  no_self_nesting f ->
  exists s', run C (history f) s = Ok s' /\
    forall n, cumulative_times s' n = cumulative_times s n + total n f.
Proof. exact (nested_times C T f s). Qed.
Print Assumptions C45_times.

(** So are the wall and cpu times reported for the last invocation. *)
Theorem C45_last_times C f s s' : inhibit_counters C = false -> run C (history f) s = Ok s' -> no_self_nesting f ->
  forall n, last_times s' n = match last_block n f with Some (d, _) => d | None => last_times s n end /\
    last_cpu_times s' n = match last_block n f with Some (_, c) => c | None => last_cpu_times s n end.
Proof. intros Hc. exact (last_times_spec C Hc f s s'). Qed.
Print Assumptions C45_last_times.

(** Otherwise they are not: the entry time of the outer block is overwritten. *)
Theorem C45_recursive_time_refuted : exists f s', within 30 f /\ run cfg0 (history f) prof0 = Ok s' /\
  exists n, cumulative_times s' n <> total n f.
Proof. exact recursive_time_wrong. Qed.
Print Assumptions C45_recursive_time_refuted.

Theorem C45_mismatch C s n i t c top rest : inhibit_counters C = false -> multicore C = false ->
  block_names s = top :: rest -> top <> n -> leave_block C n i t c s = AssertFail.
Proof. exact (leave_mismatch C s n i t c top rest). Qed.
Print Assumptions C45_mismatch.

Theorem C45_leave_empty C s n i t c : inhibit_counters C = false -> block_names s = [] ->
  leave_block C n i t c s = UB.
Proof. exact (leave_empty C s n i t c). Qed.
Print Assumptions C45_leave_empty.

Theorem C45_inhibited C h s : inhibit_counters C = true -> run C h s = Ok s.
Proof. exact (inhibited C h s). Qed.
Print Assumptions C45_inhibited.

Example C45_example :
  let f := FBlock [97] true 1 1 (FBlock [98] true 3 2 FNil 7 5 FNil) 9 6 FNil in
  within 10 f /\ no_self_nesting f /\
  exists s', run cfg0 (history f) prof0 = Ok s' /\ block_names s' = [] /\
    invocation_counts s' [97] = 1 /\ cumulative_times s' [98] = 4 /\ cumulative_times s' [97] = 8.
Proof.
  cbv zeta. split; [cbn; lia|]. split; [cbn; auto|].
  eexists. split; [reflexivity|]. split; [reflexivity|]. split; [reflexivity|]. split; reflexivity.
Qed.
