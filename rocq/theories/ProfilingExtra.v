(** The times reported for the last invocation of a block. *)
From Coq Require Import ZArith List Bool Lia.
From Verif Require Import Result Limbs UtilsModel ProfilingModel ProfilingProofs.
Import ListNotations.
Open Scope Z_scope.

(** Wall and cpu time of the block named n that was left last. *)
Fixpoint last_block (n : name) (f : forest) : option (Z * Z) :=
  match f with
  | FNil => None
  | FBlock m _ t0 c0 k t1 c1 a =>
      match last_block n a with
      | Some x => Some x
      | None => if name_eqb m n then Some (t1 - t0, c1 - c0) else last_block n k
      end
  end.

Lemma ll_inv z z' : ll z = Ok z' -> z' = z.
Proof. unfold ll. destruct (_ && _); intros E; inversion E; auto. Qed.

Lemma run_block_inv C n i t0 c0 k t1 c1 a s s' : inhibit_counters C = false ->
  run C (history (FBlock n i t0 c0 k t1 c1 a)) s = Ok s' ->
  exists ind s2 ind2, let s1 := mkProf (n :: block_names s) ind (invocation_counts s) (update (enter_times s) n t0)
      (last_times s) (cumulative_times s) (update (enter_cpu_times s) n c0) (last_cpu_times s) in
    run C (history k) s1 = Ok s2 /\
    exists rest, run C (history a) (mkProf rest ind2 (update (invocation_counts s2) n (wrap64 (invocation_counts s2 n + 1)))
      (enter_times s2) (update (last_times s2) n (t1 - enter_times s2 n))
      (update (cumulative_times s2) n (cumulative_times s2 n + (t1 - enter_times s2 n)))
      (enter_cpu_times s2) (update (last_cpu_times s2) n (c1 - enter_cpu_times s2 n))) = Ok s'.
Proof.
  intros Hc. cbn [history run]. unfold step at 1, enter_block. rewrite Hc. cbn [bind].
  rewrite run_app. intros E.
  match type of E with bind (run C _ ?s1) _ = _ => destruct (run C (history k) s1) as [s2| | | | |] eqn:R; cbn [bind] in E; try discriminate end.
  cbn [run] in E. unfold step at 1, leave_block in E. rewrite Hc in E.
  destruct (block_names s2) as [|top rest]; [discriminate|].
  destruct (multicore C || name_eqb top n); cbn [assert_then bind] in E; [|discriminate].
  destruct (ll (t1 - enter_times s2 n)) as [d| | | | |] eqn:L1; cbn [bind] in E; try discriminate. apply ll_inv in L1. subst d.
  destruct (ll (cumulative_times s2 n + _)) as [d| | | | |] eqn:L2; cbn [bind] in E; try discriminate. apply ll_inv in L2. subst d.
  destruct (ll (c1 - enter_cpu_times s2 n)) as [d| | | | |] eqn:L3; cbn [bind] in E; try discriminate. apply ll_inv in L3. subst d.
  eexists _, s2, _. cbv zeta. split; [exact R|]. exists rest. exact E.
Qed.

Section Last.
Variable C : prof_cfg.
Hypothesis Hc : inhibit_counters C = false.

Lemma enter_kept f : forall s s' n, run C (history f) s = Ok s' -> occurs n f = false ->
  enter_times s' n = enter_times s n /\ enter_cpu_times s' n = enter_cpu_times s n.
Proof.
  induction f as [|m i t0 c0 k IHk t1 c1 a IHa]; intros s s' n R O.
  - cbn in R. inversion R. auto.
  - apply run_block_inv in R; auto. destruct R as (ind & s2 & ind2 & R2 & rest & R3). cbv zeta in R2.
    cbn [occurs] in O. apply orb_false_iff in O as [O Oa]. apply orb_false_iff in O as [Om Ok'].
    destruct (IHa _ _ _ R3 Oa) as [-> ->]. cbn [enter_times enter_cpu_times].
    destruct (IHk _ _ _ R2 Ok') as [-> ->]. cbn [enter_times enter_cpu_times]. unfold update.
    rewrite name_eqb_sym, Om. auto.
Qed.

Theorem last_times_spec f : forall s s', run C (history f) s = Ok s' -> no_self_nesting f ->
  forall n, last_times s' n = match last_block n f with Some (d, _) => d | None => last_times s n end /\
    last_cpu_times s' n = match last_block n f with Some (_, c) => c | None => last_cpu_times s n end.
Proof.
  induction f as [|m i t0 c0 k IHk t1 c1 a IHa]; intros s s' R NS n.
  - cbn in R. inversion R. auto.
  - apply run_block_inv in R; auto. destruct R as (ind & s2 & ind2 & R2 & rest & R3). cbv zeta in R2.
    cbn [no_self_nesting] in NS. destruct NS as (NO & NK & NA).
    destruct (IHa _ _ R3 NA n) as [-> ->]. cbn [last_block last_times last_cpu_times].
    destruct (last_block n a) as [[d c]|]; [auto|].
    destruct (enter_kept _ _ _ m R2 NO) as [E1 E2]. cbn [enter_times enter_cpu_times] in E1, E2.
    unfold update in *. rewrite name_eqb_refl in E1, E2. rewrite (name_eqb_sym m n).
    destruct (name_eqb_spec n m) as [->|N].
    + rewrite E1, E2. auto.
    + destruct (IHk _ _ R2 NK n) as [-> ->]. cbn [last_times last_cpu_times]. auto.
Qed.
End Last.
