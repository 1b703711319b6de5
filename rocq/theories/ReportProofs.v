(** Reports after clear_profiling_counters. *)
From Coq Require Import ZArith List Bool Lia.
From Verif Require Import Result Limbs LimbsProofs UtilsModel ProfilingModel ProfilingProofs ProfilingExtra OpcountModel OpcountProofs ReportModel.
Import ListNotations.
Open Scope Z_scope.

Lemma count_nonneg n f : 0 <= count n f.
Proof. induction f; cbn [count]; [lia|]. destruct (name_eqb _ _); lia. Qed.
Lemma count_blocks n f : count n f <= blocks f.
Proof. induction f; cbn [count blocks]; [lia|]. destruct (name_eqb _ _); lia. Qed.

Section Clear.
Variables (C : prof_cfg) (T : Z) (f : forest) (s : prof).
Hypothesis Hc : inhibit_counters C = false.
Hypothesis HT : 0 <= T < 2 ^ 63.
Hypothesis W : within T f.
Hypothesis I : 0 <= indentation s < 2 ^ 64.
Hypothesis Bd : blocks f * T < 2 ^ 63.

Lemma clear_run : no_self_nesting f -> exists s', run C (history f) (clear_profiling_counters s) = Ok s' /\
  block_names s' = block_names s /\ indentation s' = indentation s /\
  forall n, cumulative_times s' n = total n f /\ invocation_counts s' n = wrap64 (count n f) /\
    last_times s' n = match last_block n f with Some (d, _) => d | None => 0 end /\
    last_cpu_times s' n = match last_block n f with Some (_, c) => c | None => 0 end.
Proof.
  intros NS. destruct HT as [T0 T1].
  destruct (nested_run C Hc T T0 f (clear_profiling_counters s) W I) as (s' & R & N & Ind & V & _ & _ & _ & _ & Tt); auto.
  exists s'. split; [exact R|]. split; [exact N|]. split; [exact Ind|]. intros n.
  split; [rewrite (Tt NS n); reflexivity|]. split; [rewrite (V n); [reflexivity|cbn; lia]|].
  exact (last_times_spec C Hc f _ s' R NS n).
Qed.

Lemma clear_entry : no_self_nesting f -> blocks f < 2 ^ 64 -> exists s', run C (history f) (clear_profiling_counters s) = Ok s' /\
  forall n, time_entry n s' = if count n f =? 0 then Throw else Ok (total n f, count n f).
Proof.
  intros NS BB. destruct (clear_run NS) as (s' & R & _ & _ & E). exists s'. split; [exact R|]. intros n.
  destruct (E n) as (E1 & E2 & _). unfold time_entry. rewrite E1, E2. pose proof (count_nonneg n f). pose proof (count_blocks n f).
  unfold wrap64, B. rewrite Z.mod_small by lia. reflexivity.
Qed.
End Clear.

(** A block that was open at the call counts from where it was entered. *)
Lemma clear_open C n i t c s rest : inhibit_counters C = false -> block_names s = n :: rest ->
  - 2 ^ 63 <= t - enter_times s n < 2 ^ 63 -> - 2 ^ 63 <= c - enter_cpu_times s n < 2 ^ 63 ->
  exists s', leave_block C n i t (Some c) (clear_profiling_counters s) = Ok s' /\ block_names s' = rest /\
    time_entry n s' = Ok (t - enter_times s n, 1) /\ last_cpu_times s' n = c - enter_cpu_times s n.
Proof.
  intros Hc N B1 B2. unfold leave_block. rewrite Hc. cbn [clear_profiling_counters block_names]. rewrite N.
  rewrite name_eqb_refl, orb_true_r. cbn [assert_then enter_times enter_cpu_times cumulative_times].
  rewrite ll_ok by exact B1. cbn [bind]. rewrite Z.add_0_l, ll_ok by exact B1. cbn [bind]. rewrite ll_ok by exact B2. cbn [bind].
  eexists. split; [reflexivity|]. split; [reflexivity|]. unfold time_entry. cbn [invocation_counts cumulative_times last_cpu_times].
  unfold update. rewrite name_eqb_refl. split; reflexivity.
Qed.

(** The operation counts go on from their values before the call. *)
Lemma clear_ops C T f g s o o1 : inhibit_counters C = false -> inhibit_info C = false -> 0 <= T < 2 ^ 63 ->
  within T f -> within T g -> no_self_nesting f -> no_self_nesting g -> 0 <= indentation s < 2 ^ 64 ->
  (forall n, cumulative_op_counts o n = 0) -> (blocks g + blocks f) * T < 2 ^ 63 -> blocks f < 2 ^ 64 ->
  op_run C (op_history g) o = Ok o1 ->
  exists s' o', run C (history f) (clear_profiling_counters s) = Ok s' /\ op_run C (op_history f) (clear_op_counters o1) = Ok o' /\
    forall n, op_entry n s' o' = if count n f =? 0 then None else Some (total n g + total n f, count n f).
Proof.
  intros Hc Hi HT Wf Wg Nf Ng I Z0 Bd BB R1. destruct HT as [T0 T1].
  pose proof (blocks_nonneg f). pose proof (blocks_nonneg g).
  assert (0 <= blocks f * T) by (apply Z.mul_nonneg_nonneg; lia). assert (0 <= blocks g * T) by (apply Z.mul_nonneg_nonneg; lia).
  rewrite Z.mul_add_distr_r in Bd.
  destruct (op_nested C Hc Hi T T0 g o Wg Ng) as (o1' & R1' & _ & D1 & E1); auto.
  { intros n. rewrite Z0. cbn [Z.abs]. lia. }
  assert (o1' = o1) by congruence. subst o1'.
  destruct (op_nested C Hc Hi T T0 f (clear_op_counters o1) Wf Nf) as (o' & R2 & _ & _ & E2); auto.
  { intros n. unfold clear_op_counters. specialize (D1 n). rewrite Z0 in D1. lia. }
  destruct (clear_run C T f s Hc (conj T0 T1) Wf I ltac:(lia) Nf) as (s' & R & _ & _ & E).
  exists s', o'. split; [exact R|]. split; [exact R2|]. intros n. unfold op_entry. destruct (E n) as (_ & -> & _).
  pose proof (count_nonneg n f). pose proof (count_blocks n f). unfold wrap64, B. rewrite Z.mod_small by lia.
  rewrite E2. unfold clear_op_counters. rewrite E1, Z0. reflexivity.
Qed.

(** A block of three operations before the call and one of two after it. *)
Definition two_ops : forest := FBlock [102] true 103 0 FNil 105 0 FNil.
Lemma clear_ops_wrong : exists s' o1 o', op_run cfg0 (op_history three_ops) opprof0 = Ok o1 /\
  run cfg0 (history two_ops) (clear_profiling_counters prof0) = Ok s' /\
  op_run cfg0 (op_history two_ops) (clear_op_counters o1) = Ok o' /\
  op_entry [102] s' o' = Some (5, 1) /\ total [102] two_ops = 2 /\ count [102] two_ops = 1.
Proof. do 3 eexists. split; [reflexivity|]. split; [reflexivity|]. split; [reflexivity|]. repeat split. Qed.

(** What leave_block shows: the operations since the block was entered. *)
Lemma leave_shown C T n v0 v1 f o : inhibit_counters C = false -> inhibit_info C = false -> 0 <= T < 2 ^ 63 ->
  within T f -> no_self_nesting f -> occurs n f = false -> 0 <= v0 <= T -> 0 <= v1 <= T ->
  (forall m, Z.abs (cumulative_op_counts o m) + blocks f * T < 2 ^ 63) ->
  exists o', op_run C (OpEnter n v0 :: op_history f) o = Ok o' /\ op_shown n v1 o' = Ok (v1 - v0).
Proof.
  intros Hc Hi [T0 T1] W NS Oc H0 H1 Bd. cbn [op_run op_step]. unfold op_enter. rewrite Hc, Hi. cbn [bind].
  destruct (op_nested C Hc Hi T T0 f (mkOpprof (update (op_counts o) n v0) (cumulative_op_counts o)) W NS) as (o' & R & O & _); auto.
  exists o'. split; [exact R|]. unfold op_shown. rewrite (O n Oc). cbn [op_counts]. unfold update. rewrite name_eqb_refl.
  apply ll_ok. lia.
Qed.
(** print_time shows the whole count if no block had the name of the message. *)
Lemma print_time_shown C f o o' n v : inhibit_counters C = false -> op_run C (op_history f) o = Ok o' -> occurs n f = false ->
  op_shown n v o' = op_shown n v o.
Proof.
  intros Hc R Oc. unfold op_shown. do 2 f_equal. revert o o' R. induction f as [|m i t0 c0 k IHk t1 c1 a IHa]; intros o o' R.
  - cbn in R. now injection R as <-.
  - cbn [occurs] in Oc. apply orb_false_iff in Oc as [Oc Oa]. apply orb_false_iff in Oc as [Om Ok'].
    rewrite name_eqb_sym in Om.
    cbn [op_history op_run op_step] in R. unfold op_enter in R at 1. rewrite Hc in R.
    assert (E : exists o1, op_counts o1 n = op_counts o n /\ bind (Ok o1) (op_run C (op_history k ++ OpLeave m t1 :: op_history a)) = Ok o').
    { destruct (inhibit_info C); eexists; (split; [|exact R]); [reflexivity|]. cbn [op_counts]. unfold update. now rewrite Om. }
    destruct E as (o1 & E1 & R1). cbn [bind] in R1. rewrite op_run_app in R1.
    destruct (op_run C (op_history k) o1) as [o2| | | | |] eqn:E2; try discriminate. cbn [bind op_run op_step] in R1.
    unfold op_leave in R1. rewrite Hc in R1.
    unfold ll in R1. destruct (_ && _) in R1; cbn [bind] in R1; [|discriminate].
    destruct (_ && _) in R1; cbn [bind] in R1; [|discriminate].
    rewrite (IHa Oa _ _ R1). cbn [op_counts]. now rewrite (IHk Ok' _ _ E2).
Qed.
