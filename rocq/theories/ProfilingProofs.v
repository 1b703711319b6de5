(** Well-nested histories of enter_block and leave_block. *)
From Coq Require Import ZArith List Bool Lia.
From Verif Require Import Result Limbs LimbsProofs UtilsModel ProfilingModel.
Import ListNotations.
Open Scope Z_scope.

(** A well-nested history: a sequence of blocks, each with its readings at
    entry and exit and the blocks inside it. *)
Inductive forest :=
| FNil
| FBlock (n : name) (indent : bool) (t0 c0 : Z) (inside : forest) (t1 c1 : Z) (after : forest).
Fixpoint history (f : forest) : list event :=
  match f with
  | FNil => []
  | FBlock n i t0 c0 k t1 c1 a =>
      Enter n i t0 (Some c0) :: history k ++ Leave n i t1 (Some c1) :: history a
  end.
Fixpoint blocks (f : forest) : Z :=
  match f with FNil => 0 | FBlock _ _ _ _ k _ _ a => 1 + blocks k + blocks a end.
(** Completed blocks named n, and the time between their entries and exits. *)
Fixpoint count (n : name) (f : forest) : Z :=
  match f with
  | FNil => 0
  | FBlock m _ _ _ k _ _ a => (if name_eqb m n then 1 else 0) + count n k + count n a
  end.
Fixpoint total (n : name) (f : forest) : Z :=
  match f with
  | FNil => 0
  | FBlock m _ t0 _ k t1 _ a => (if name_eqb m n then t1 - t0 else 0) + total n k + total n a
  end.
(** All clock readings are within 0 .. T. *)
Fixpoint within (T : Z) (f : forest) : Prop :=
  match f with
  | FNil => True
  | FBlock _ _ t0 c0 k t1 c1 a =>
      (0 <= t0 <= T /\ 0 <= t1 <= T) /\ (0 <= c0 <= T /\ 0 <= c1 <= T) /\ within T k /\ within T a
  end.
Fixpoint occurs (n : name) (f : forest) : bool :=
  match f with FNil => false | FBlock m _ _ _ k _ _ a => name_eqb m n || occurs n k || occurs n a end.
(** No block has a block of the same name inside it. *)
Fixpoint no_self_nesting (f : forest) : Prop :=
  match f with
  | FNil => True
  | FBlock m _ _ _ k _ _ a => occurs m k = false /\ no_self_nesting k /\ no_self_nesting a
  end.

Lemma name_eqb_spec a b : reflect (a = b) (name_eqb a b).
Proof. unfold name_eqb. destruct (list_eq_dec Z.eq_dec a b); constructor; auto. Qed.
Lemma name_eqb_refl a : name_eqb a a = true.
Proof. destruct (name_eqb_spec a a); auto. Qed.
Lemma name_eqb_sym a b : name_eqb a b = name_eqb b a.
Proof. destruct (name_eqb_spec a b), (name_eqb_spec b a); congruence. Qed.
Lemma ll_ok z : - 2 ^ 63 <= z < 2 ^ 63 -> ll z = Ok z.
Proof.
  intros [H1 H2]. unfold ll. apply Z.leb_le in H1. apply Z.ltb_lt in H2. now rewrite H1, H2.
Qed.
Lemma blocks_nonneg f : 0 <= blocks f. Proof. induction f; cbn [blocks]; lia. Qed.
Lemma wrap64_range z : 0 <= wrap64 z < 2 ^ 64. Proof. apply Z.mod_pos_bound. reflexivity. Qed.
Lemma wrap_down x : 0 <= x < 2 ^ 64 -> wrap64 (wrap64 (x + 1) - 1) = x.
Proof.
  intros H. unfold wrap64, B in *. change (2 ^ 64) with 18446744073709551616 in *.
  rewrite <- Zdiv.Zminus_mod_idemp_l, Z.mod_mod by lia. rewrite Zdiv.Zminus_mod_idemp_l.
  replace (x + 1 - 1) with x by lia. now apply Z.mod_small.
Qed.
Lemma wrap_add x y : wrap64 (wrap64 x + y) = wrap64 (x + y).
Proof. unfold wrap64. apply Zdiv.Zplus_mod_idemp_l. Qed.

Section Nest.
Variable C : prof_cfg.
Hypothesis Hc : inhibit_counters C = false.

Lemma run_app h1 : forall h2 s, run C (h1 ++ h2) s = bind (run C h1 s) (run C h2).
Proof.
  induction h1 as [|e h1 IH]; intros h2 s; cbn [run app]; auto.
  destruct (step C s e); cbn [bind]; auto.
Qed.

Variable T : Z.
Hypothesis HT : 0 <= T.
Theorem nested_run : forall f s, within T f -> 0 <= indentation s < 2 ^ 64 ->
  (forall n, Z.abs (cumulative_times s n) + blocks f * T < 2 ^ 63) -> T < 2 ^ 63 ->
  exists s', run C (history f) s = Ok s' /\ block_names s' = block_names s /\ indentation s' = indentation s /\
    (forall n, 0 <= invocation_counts s n < 2 ^ 64 ->
       invocation_counts s' n = wrap64 (invocation_counts s n + count n f)) /\
    (forall n, Z.abs (cumulative_times s' n - cumulative_times s n) <= blocks f * T) /\
    (forall n, 0 <= enter_times s n <= T -> 0 <= enter_times s' n <= T) /\
    (forall n, 0 <= enter_cpu_times s n <= T -> 0 <= enter_cpu_times s' n <= T) /\
    (forall n, occurs n f = false -> enter_times s' n = enter_times s n) /\
    (no_self_nesting f -> forall n, cumulative_times s' n = cumulative_times s n + total n f).
Proof.
  induction f as [|n i t0 c0 k IHk t1 c1 a IHa]; intros s W I Bd TT.
  - exists s. cbn [history run]. repeat split; auto; intros.
    + rewrite Z.add_0_r. unfold wrap64. symmetry. now apply Z.mod_small.
    + cbn [blocks]. rewrite Z.sub_diag. cbn. lia.
    + lia.
    + lia.
    + lia.
    + lia.
    + cbn [total]. lia.
  - cbn [within] in W. destruct W as ((Ht0 & Ht1) & (Hc0 & Hc1) & Wk & Wa).
    pose proof (blocks_nonneg k) as Bk. pose proof (blocks_nonneg a) as Ba. cbn [blocks] in Bd.
    assert (BdE : forall z, (1 + blocks k + blocks a) * z = z + blocks k * z + blocks a * z) by (intros; ring).
    assert (PkT : 0 <= blocks k * T) by (apply Z.mul_nonneg_nonneg; lia).
    assert (PaT : 0 <= blocks a * T) by (apply Z.mul_nonneg_nonneg; lia).
    cbn [history]. cbn [run]. unfold step at 1, enter_block. rewrite Hc. cbn [bind].
    set (s1 := mkProf _ _ _ _ _ _ _ _).
    destruct (IHk s1) as (s2 & R2 & N2 & I2 & V2 & D2 & E2 & F2 & U2 & T2); auto.
    { unfold s1. cbn [indentation]. destruct (inhibit_info C); auto. destruct i; auto. apply wrap64_range. }
    { intros m. unfold s1. cbn [cumulative_times]. specialize (Bd m). rewrite BdE in Bd. lia. }
    rewrite run_app, R2. cbn [bind run]. unfold step at 1, leave_block. rewrite Hc, N2. unfold s1 at 1. cbn [block_names].
    rewrite name_eqb_refl, orb_true_r. cbn [assert_then].
    assert (En : 0 <= enter_times s2 n <= T).
    { apply E2. unfold s1. cbn [enter_times]. unfold update. rewrite name_eqb_refl. lia. }
    assert (Fn : 0 <= enter_cpu_times s2 n <= T).
    { apply F2. unfold s1. cbn [enter_cpu_times]. unfold update. rewrite name_eqb_refl. lia. }
    pose proof (D2 n) as D2n. unfold s1 in D2n at 1. cbn [cumulative_times] in D2n.
    pose proof (Bd n) as Bdn. rewrite BdE in Bdn.
    assert (Dn : Z.abs (t1 - enter_times s2 n) <= T) by lia.
    rewrite ll_ok by lia. cbn [bind]. rewrite ll_ok by lia. cbn [bind]. rewrite ll_ok by lia. cbn [bind].
    set (s3 := mkProf _ _ _ _ _ _ _ _).
    assert (Ind : indentation s3 = indentation s).
    { unfold s3. cbn [indentation]. rewrite I2. unfold s1. cbn [indentation].
      destruct (inhibit_info C); auto. destruct i; auto. now apply wrap_down. }
    assert (Cum3 : forall m, Z.abs (cumulative_times s3 m - cumulative_times s m) <= T + blocks k * T).
    { intros m. unfold s3. cbn [cumulative_times]. unfold update. pose proof (D2 m) as D2m.
      unfold s1 in D2m at 1. cbn [cumulative_times] in D2m. destruct (name_eqb_spec m n) as [->|]; lia. }
    destruct (IHa s3) as (s4 & R4 & N4 & I4 & V4 & D4 & E4 & F4 & U4 & T4); auto.
    { now rewrite Ind. }
    { intros m. specialize (Cum3 m). specialize (Bd m). rewrite BdE in Bd. lia. }
    exists s4. rewrite R4. split; [reflexivity|]. split; [now rewrite N4|]. split; [congruence|].
    split; [|split; [|split; [|split; [|split]]]].
    + intros m Hm. rewrite V4; [|unfold s3; cbn [invocation_counts]; unfold update; destruct (name_eqb m n);
        [apply wrap64_range|rewrite V2 by exact Hm; apply wrap64_range]].
      unfold s3. cbn [invocation_counts count]. unfold update. rewrite (name_eqb_sym n m).
      destruct (name_eqb_spec m n) as [->|Nm]; rewrite V2 by exact Hm; unfold s1; cbn [invocation_counts];
        rewrite wrap_add, <- ?Z.add_assoc, ?wrap_add; f_equal; lia.
    + intros m. specialize (Cum3 m). specialize (D4 m). cbn [blocks]. rewrite BdE. lia.
    + intros m Hm. apply E4. unfold s3. cbn [enter_times]. apply E2. unfold s1. cbn [enter_times]. unfold update.
      destruct (name_eqb m n); lia.
    + intros m Hm. apply F4. unfold s3. cbn [enter_cpu_times]. apply F2. unfold s1. cbn [enter_cpu_times]. unfold update.
      destruct (name_eqb m n); lia.
    + intros m Hm. cbn [occurs] in Hm. apply orb_false_iff in Hm as [Hm Hm3]. apply orb_false_iff in Hm as [Hm1 Hm2].
      rewrite U4 by auto. unfold s3. cbn [enter_times]. rewrite U2 by auto. unfold s1. cbn [enter_times]. unfold update.
      now rewrite name_eqb_sym, Hm1.
    + intros NS m. cbn [no_self_nesting] in NS. destruct NS as (NS1 & NS2 & NS3).
      rewrite (T4 NS3). unfold s3. cbn [cumulative_times total]. unfold update. rewrite (name_eqb_sym n m).
      destruct (name_eqb_spec m n) as [->|Nm].
      * rewrite (U2 n NS1), (T2 NS2). unfold s1. cbn [enter_times cumulative_times]. unfold update.
        rewrite name_eqb_refl. lia.
      * rewrite (T2 NS2). unfold s1. cbn [cumulative_times]. lia.
Qed.
End Nest.

(** Calls while counters are inhibited change nothing. *)
Theorem inhibited C h s : inhibit_counters C = true -> run C h s = Ok s.
Proof.
  intros H. induction h as [|e h IH]; cbn [run]; auto.
  destruct e; cbn [step]; unfold enter_block, leave_block; rewrite H; cbn [bind]; auto.
Qed.
(** leave_block with another name than the innermost open block. *)
Theorem leave_mismatch C s n i t c top rest : inhibit_counters C = false -> multicore C = false ->
  block_names s = top :: rest -> top <> n -> leave_block C n i t c s = AssertFail.
Proof.
  intros H1 H2 E N. unfold leave_block. rewrite H1, H2, E. cbn [orb].
  destruct (name_eqb_spec top n); [contradiction|]. reflexivity.
Qed.
Theorem leave_empty C s n i t c : inhibit_counters C = false -> block_names s = [] -> leave_block C n i t c s = UB.
Proof. intros H1 E. unfold leave_block. now rewrite H1, E. Qed.

Definition prof0 : prof := mkProf [] 0 (fun _ => 0) (fun _ => 0) (fun _ => 0) (fun _ => 0) (fun _ => 0) (fun _ => 0).
Definition cfg0 : prof_cfg := {| inhibit_info := false; inhibit_counters := false; multicore := false |}.
(** f calls itself: entered at 0 and 10, left at 20 and 30; 40 in all, 30 recorded. *)
Definition recursive : forest := FBlock [102] true 0 0 (FBlock [102] true 10 0 FNil 20 0 FNil) 30 0 FNil.
Theorem recursive_time : exists s', run cfg0 (history recursive) prof0 = Ok s' /\
  cumulative_times s' [102] = 30 /\ total [102] recursive = 40.
Proof. eexists. split; [reflexivity|]. split; reflexivity. Qed.

Theorem nested_counts C T f s : inhibit_counters C = false -> 0 <= T < 2 ^ 63 -> within T f ->
  0 <= indentation s < 2 ^ 64 -> (forall n, 0 <= invocation_counts s n < 2 ^ 64) ->
  (forall n, Z.abs (cumulative_times s n) + blocks f * T < 2 ^ 63) ->
  exists s', run C (history f) s = Ok s' /\ block_names s' = block_names s /\ indentation s' = indentation s /\
    (forall n, invocation_counts s' n = wrap64 (invocation_counts s n + count n f)).
Proof.
  intros Hc [T0 T1] W I V Bd. destruct (nested_run C Hc T T0 f s W I Bd T1) as (s' & R & N & Ind & V' & _).
  exists s'. auto 6.
Qed.
Theorem nested_times C T f s : inhibit_counters C = false -> 0 <= T < 2 ^ 63 -> within T f ->
  0 <= indentation s < 2 ^ 64 -> (forall n, Z.abs (cumulative_times s n) + blocks f * T < 2 ^ 63) ->
  no_self_nesting f ->
  exists s', run C (history f) s = Ok s' /\
    forall n, cumulative_times s' n = cumulative_times s n + total n f.
Proof.
  intros Hc [T0 T1] W I Bd NS. destruct (nested_run C Hc T T0 f s W I Bd T1) as (s' & R & _ & _ & _ & _ & _ & _ & _ & Tt).
  exists s'. auto.
Qed.
Theorem recursive_time_wrong : exists f s', within 30 f /\ run cfg0 (history f) prof0 = Ok s' /\
  exists n, cumulative_times s' n <> total n f.
Proof.
  destruct recursive_time as (s' & R & C1 & C2). exists recursive, s'. split; [cbn; lia|]. split; auto.
  exists [102]. rewrite C1, C2. discriminate.
Qed.
