(** Proofs about NdebugMultiModel.v. *)
From Coq Require Import ZArith List Bool Lia Permutation.
From Verif Require Import Result Limbs LimbsProofs BigintModel UtilsModel UtilsProofs FpModel FpSpec FpProofs FpIoProofs GroupOps WnafModel
  MultiexpModel MultiexpProofs BosCosterProofs MultiexpExtra PackingModel PackingProofs ProfilingModel NdebugMultiModel.
Import ListNotations.
Open Scope Z_scope.
Open Scope result_scope.

Section Plain.
Context {T S : Type} (zero : T) (add : T -> T -> T) (smul : S -> T -> T).
Lemma plain_nd_short vec : forall sc res, (length sc <= length vec)%nat ->
  naive_plain_loop_nd add smul vec sc res = naive_plain_loop add smul vec sc res.
Proof. induction vec as [|v vec IH]; intros [|s sc] res H; cbn in *; auto; try lia. apply IH. lia. Qed.
Lemma plain_nd_long vec : forall sc res, (length vec <= length sc)%nat ->
  naive_plain_loop_nd add smul vec sc res = naive_plain_loop add smul vec (firstn (length vec) sc) res.
Proof. induction vec as [|v vec IH]; intros [|s sc] res H; cbn in *; auto; try lia. apply IH. lia. Qed.
End Plain.

(** What "extra scalars are ignored" means for a method. *)
Definition ignores_extra {T S} (inner_nd inner : list T -> list S -> result T) : Prop :=
  forall vec sc, (length vec <= length sc)%nat -> inner_nd vec sc = inner vec (firstn (length vec) sc).

Section Multi.
Context {T S : Type} (O : gops T) (as_bigint : S -> list Z) (tbl : list Z).
Lemma plain_nd_ignores : ignores_extra (multi_exp_naive_plain_nd (g_zero O) (g_add O) (field_smul O as_bigint))
  (multi_exp_naive_plain (g_zero O) (g_add O) (field_smul O as_bigint)).
Proof. intros vec sc H. apply plain_nd_long, H. Qed.

Lemma naive_nd_short_loop vec : forall sc res, (length sc <= length vec)%nat ->
  naive_loop_nd O as_bigint tbl vec sc res = naive_loop O as_bigint tbl vec sc res.
Proof.
  induction vec as [|v vec IH]; intros [|s sc] res H; cbn in *; auto; try lia.
  destruct (opt_window_wnaf_exp _ _ _ _ _); cbn [bind]; auto. apply IH. lia.
Qed.
Lemma naive_nd_long_loop vec : forall sc res, (length vec <= length sc)%nat ->
  naive_loop_nd O as_bigint tbl vec sc res = naive_loop O as_bigint tbl vec (firstn (length vec) sc) res.
Proof.
  induction vec as [|v vec IH]; intros [|s sc] res H; cbn in *; auto; try lia.
  destruct (opt_window_wnaf_exp _ _ _ _ _); cbn [bind]; auto. apply IH. lia.
Qed.
Lemma naive_nd_ignores : ignores_extra (multi_exp_naive_nd O as_bigint tbl) (multi_exp_naive O as_bigint tbl).
Proof. intros vec sc H. apply naive_nd_long_loop, H. Qed.

Lemma bdlo_ignores mixed : ignores_extra (multi_exp_BDLO12 O as_bigint mixed) (multi_exp_BDLO12 O as_bigint mixed).
Proof.
  intros vec sc H. unfold multi_exp_BDLO12. destruct (bdlo_c _); cbn [bind]; auto.
  rewrite firstn_length, Nat.min_l, Nat.ltb_irrefl by auto.
  replace (length sc <? length vec)%nat with false by (symmetry; apply Nat.ltb_ge; auto).
  rewrite firstn_firstn, Nat.min_id. reflexivity.
Qed.

Lemma naive_nd_short : forall vec sc, (length sc <= length vec)%nat ->
  multi_exp_naive_nd O as_bigint tbl vec sc = multi_exp_naive O as_bigint tbl vec sc /\
  multi_exp_naive_plain_nd (g_zero O) (g_add O) (field_smul O as_bigint) vec sc =
    multi_exp_naive_plain (g_zero O) (g_add O) (field_smul O as_bigint) vec sc.
Proof. intros vec sc H. split; [apply naive_nd_short_loop | apply plain_nd_short]; auto. Qed.

(** Chunks cut the extra scalars off too. *)
Lemma chunk_firstn (vec : list T) (sc : list S) chunks one i :
  firstn (length (chunk_of chunks one i vec)) (chunk_of chunks one i sc) = chunk_of chunks one i (firstn (length vec) sc).
Proof.
  unfold chunk_of. destruct (i =? chunks - 1)%nat.
  - rewrite skipn_length, skipn_firstn_comm. reflexivity.
  - rewrite firstn_length, skipn_length, skipn_firstn_comm, !firstn_firstn. f_equal. lia.
Qed.
Lemma chunk_length_le (vec : list T) (sc : list S) chunks one i : (length vec <= length sc)%nat ->
  (length (chunk_of chunks one i vec) <= length (chunk_of chunks one i sc))%nat.
Proof. intros H. unfold chunk_of. destruct (i =? chunks - 1)%nat; rewrite ?firstn_length, !skipn_length; lia. Qed.
Lemma run_schedule_ext {A} (f g : nat -> result A) order : (forall i, f i = g i) ->
  forall partial, run_schedule f order partial = run_schedule g order partial.
Proof.
  intros H. induction order as [|i order IH]; intros partial; cbn; auto.
  rewrite H. destruct (g i); cbn [bind]; auto.
Qed.
Theorem multi_exp_ignores (inner_nd inner : list T -> list S -> result T) chunks order : ignores_extra inner_nd inner ->
  ignores_extra (multi_exp O inner_nd chunks order) (multi_exp O inner chunks order).
Proof.
  intros I vec sc H. unfold multi_exp.
  destruct ((length vec <? chunks)%nat || (chunks =? 1)%nat); [apply I, H|].
  destruct (chunks =? 0)%nat; auto.
  erewrite run_schedule_ext; [reflexivity|]. intros i.
  rewrite I by (apply chunk_length_le, H). now rewrite chunk_firstn.
Qed.

(** Mixed addition: extra points are ignored, extra scalars are UB. *)
Lemma split_firstn mixed s0 s1 (sc : list S) : forall (vec : list T) acc g p, (length sc <= length vec)%nat ->
  split_scalars O mixed s0 s1 vec sc acc g p = split_scalars O mixed s0 s1 (firstn (length sc) vec) sc acc g p.
Proof.
  induction sc as [|s sc IH]; intros [|v vec] acc g p H; cbn in *; auto; try lia.
  destruct (s0 s); [|destruct (s1 s)]; apply IH; lia.
Qed.
Theorem mixed_nd_spec (inner : list T -> list S -> result T) mixed s0 s1 chunks order vec sc :
  ((length sc <= length vec)%nat ->
    multi_exp_with_mixed_addition_nd O inner mixed s0 s1 chunks order vec sc =
    multi_exp_with_mixed_addition O inner mixed s0 s1 chunks order (firstn (length sc) vec) sc) /\
  ((length vec < length sc)%nat -> multi_exp_with_mixed_addition_nd O inner mixed s0 s1 chunks order vec sc = UB).
Proof.
  unfold multi_exp_with_mixed_addition_nd, multi_exp_with_mixed_addition. split; intros H.
  - replace (length vec <? length sc)%nat with false by (symmetry; apply Nat.ltb_ge; auto).
    rewrite firstn_length, Nat.min_l, Nat.eqb_refl by auto. cbn [assert_then].
    now rewrite (split_firstn mixed s0 s1 sc vec) by auto.
  - replace (length vec <? length sc)%nat with true by (symmetry; apply Nat.ltb_lt; auto). reflexivity.
Qed.

(** ** Bos-Coster *)
Notation oexp := (nat * list Z)%type.
Lemma swap_length (q q' : list oexp) i j : swap q i j = Ok q' -> length q' = length q.
Proof.
  unfold swap, q_at. destruct (nth_error q i); cbn [bind]; [|discriminate].
  destruct (nth_error q j); cbn [bind]; [|discriminate]. intros E. injection E as <-. now rewrite !upd_length.
Qed.
Lemma sift_down_nd_eq fuel : forall (q : list oexp) pos, sift_down_nd (length q) fuel q pos = sift_down fuel q pos.
Proof.
  induction fuel as [|f IH]; intros q pos; cbn [sift_down_nd sift_down]; auto.
  destruct (_ <? _)%nat; auto.
  destruct (q_at q (2 * pos + 1)); cbn [bind]; auto. destruct (q_at q (2 * pos + 2)); cbn [bind]; auto.
  destruct (oexp_lt _ _); (destruct (swap q pos _) eqn:E; cbn [bind]; auto);
    rewrite <- IH, (swap_length _ _ _ _ E); reflexivity.
Qed.
Lemma sift_down_length fuel : forall (q : list oexp) pos q' p', sift_down fuel q pos = Ok (q', p') -> length q' = length q.
Proof.
  induction fuel as [|f IH]; intros q pos q' p'; cbn [sift_down]; [discriminate|].
  destruct (_ <? _)%nat; [|now intros [= <- _]].
  destruct (q_at q (2 * pos + 1)); cbn [bind]; try discriminate. destruct (q_at q (2 * pos + 2)); cbn [bind]; try discriminate.
  destruct (oexp_lt _ _); (destruct (swap q pos _) eqn:E; cbn [bind]; try discriminate);
    intros H; rewrite (IH _ _ _ _ H); apply (swap_length _ _ _ _ E).
Qed.
Lemma sift_up_length fuel : forall (q : list oexp) pos q', sift_up fuel q pos = Ok q' -> length q' = length q.
Proof.
  induction fuel as [|f IH]; intros q pos q'; cbn [sift_up]; [discriminate|].
  destruct (_ <? _)%nat; [|now intros [= <-]].
  destruct (q_at q ((pos - 1) / 2)); cbn [bind]; try discriminate. destruct (q_at q pos); cbn [bind]; try discriminate.
  destruct (oexp_lt _ _); [|now intros [= <-]].
  destruct (swap q pos _) eqn:E; cbn [bind]; try discriminate.
  intros H. rewrite (IH _ _ _ H). apply (swap_length _ _ _ _ E).
Qed.
Lemma bos_coster_loop_nd_eq fuel : forall (q : list oexp) g res len, len = length q ->
  bos_coster_loop_nd O tbl len fuel q g res = bos_coster_loop O tbl fuel q g res.
Proof.
  induction fuel as [|f IH]; intros q g res len L; cbn [bos_coster_loop_nd bos_coster_loop]; auto.
  destruct (q_at q 0) as [a| | | | |]; cbn [bind]; auto. destruct (q_at q 1) as [q1| | | | |]; cbn [bind]; auto.
  destruct (q_at q 2) as [q2| | | | |]; cbn [bind]; auto. cbv zeta.
  destruct (g_at g (fst a)) as [ga| | | | |]; cbn [bind]; auto.
  destruct (bigint_is_zero _); auto.
  match goal with |- bind ?x _ = bind ?x _ => destruct x as [[[ar g'] res']| | | | |]; cbn [bind]; auto end.
  rewrite L, <- (upd_length q 0 (fst a, ar)), sift_down_nd_eq.
  destruct (sift_down _ _ _) as [[q' pos]| | | | |] eqn:E; cbn [bind]; auto. apply sift_down_length in E.
  destruct (sift_up _ _ _) as [q''| | | | |] eqn:E'; cbn [bind]; auto. apply sift_up_length in E'.
  apply IH. congruence.
Qed.

Variable make_heap : list oexp -> list oexp.
Hypothesis MH : make_heap_ok make_heap.
Theorem bos_coster_nd_agree nl fuel vec sc : length vec = length sc ->
  multi_exp_bos_coster_nd O as_bigint tbl make_heap nl fuel vec sc = multi_exp_bos_coster O as_bigint tbl make_heap nl fuel vec sc.
Proof.
  intros L. unfold multi_exp_bos_coster_nd, multi_exp_bos_coster.
  destruct vec as [|v0 [|v1 vec]]; auto. set (vs := v0 :: v1 :: vec) in *. clearbody vs.
  rewrite <- L, Nat.ltb_irrefl, Nat.eqb_refl. cbn [assert_then].
  rewrite L, firstn_all.
  set (q := make_heap _).
  assert (Lq : length q = length sc).
  { subst q. rewrite (Permutation_length (proj1 (MH _))), combine_length, seq_length, map_length. lia. }
  clearbody q. destruct (Nat.odd (length sc)) eqn:Od.
  - rewrite L, Od, Lq, Nat.eqb_refl. cbn [assert_then]. apply bos_coster_loop_nd_eq. auto.
  - rewrite !app_length, L, Lq. cbn [length].
    replace (Nat.odd (length sc + 1)) with true
      by (symmetry; rewrite Nat.add_1_r, Nat.odd_succ, <- Nat.negb_odd, Od; reflexivity).
    rewrite Nat.eqb_refl. cbn [assert_then]. apply bos_coster_loop_nd_eq. rewrite app_length, Lq. reflexivity.
Qed.

(** Two points and an odd number of scalars: the third heap entry is read. *)
Theorem bos_coster_nd_ub nl fuel v0 v1 sc : (3 <= length sc)%nat -> Nat.odd (length sc) = true -> (1 <= fuel)%nat ->
  multi_exp_bos_coster_nd O as_bigint tbl make_heap nl fuel [v0; v1] sc = UB.
Proof.
  intros L Od Hf. unfold multi_exp_bos_coster_nd.
  replace (length sc <? length [v0; v1])%nat with false by (symmetry; apply Nat.ltb_ge; cbn; lia).
  rewrite Od. set (q := make_heap _).
  assert (Lq : length q = 2%nat).
  { subst q. rewrite (Permutation_length (proj1 (MH _))), combine_length, seq_length, map_length, firstn_length. cbn [length]. lia. }
  clearbody q. destruct fuel as [|f]; [lia|].
  destruct q as [|a [|b [|? ?]]]; try discriminate. reflexivity.
Qed.
End Multi.

(** ** Profiling *)
Theorem leave_block_nd_agree C n i t cpu s s' : leave_block C n i t cpu s = Ok s' -> leave_block_nd C n i t cpu s = Ok s'.
Proof.
  unfold leave_block_nd, leave_block. cbn [inhibit_counters inhibit_info multicore].
  destruct (inhibit_counters C); auto. destruct (block_names s); [discriminate|].
  cbn [orb assert_then]. now destruct (multicore C || _); [|discriminate].
Qed.
(** The innermost block is closed whatever its name. *)
Theorem leave_block_nd_pops C n i t cpu s s' top rest : inhibit_counters C = false -> block_names s = top :: rest ->
  leave_block_nd C n i t cpu s = Ok s' ->
  block_names s' = rest /\ invocation_counts s' n = wrap64 (invocation_counts s n + 1) /\
  (top <> n -> invocation_counts s' top = invocation_counts s top) /\
  last_times s' n = t - enter_times s n.
Proof.
  intros IC BN. unfold leave_block_nd, leave_block. cbn [inhibit_counters inhibit_info multicore].
  rewrite IC, BN. cbn [orb assert_then].
  destruct (ll (t - enter_times s n)) as [d| | | | |] eqn:Ed; cbn [bind]; try discriminate.
  destruct (ll (cumulative_times s n + d)); cbn [bind]; try discriminate.
  destruct cpu as [c|]; try discriminate. destruct (ll (c - _)); cbn [bind]; try discriminate.
  intros E. injection E as <-. cbn [block_names invocation_counts last_times]. unfold update, name_eqb.
  split; [reflexivity|]. split; [|split].
  - destruct (list_eq_dec _ n n); [reflexivity|contradiction].
  - intros N. destruct (list_eq_dec _ top n); [contradiction|reflexivity].
  - destruct (list_eq_dec _ n n); [|contradiction].
    unfold ll in Ed. destruct (_ && _); [now injection Ed as <-|discriminate].
Qed.

(** ** Packing *)
Section Pack.
Variable P : fp_params.
Hypothesis OK : fp_ok P.
Notation p := (val (fp_modulus P)).
Theorem pack_nd_agree v c r : pack_bit_vector P v c = Ok r -> pack_bit_vector_nd P v c = Ok r.
Proof. unfold pack_bit_vector, pack_bit_vector_nd. now destruct (_ <=? _); [|discriminate]. Qed.
Theorem pack_nd_spec v c : (0 < c <= 64 * fp_n P)%nat -> Z.of_nat (length v) + Z.of_nat c < 2 ^ 63 ->
  exists r, pack_bit_vector_nd P v c = Ok r /\ Forall (canon P) r /\
    map (den P) r = map (fun i => bits_val (bit_chunk c i v) mod p) (seq 0 (length r)) /\
    (length v <= length r * c < length v + c)%nat.
Proof.
  intros Hc Hv. unfold pack_bit_vector_nd.
  rewrite !(to_s64_small P) by lia.
  destruct (div_ceil_spec (Z.of_nat (length v)) (Z.of_nat c)) as (q & E & Hq); try lia.
  rewrite E. cbn [bind].
  destruct (mapM_spec
    (fun i => b <- chunk_bigint P c (fun j => nth (i * c + j) v false);; fp_of_bigint P b)
    (fun i a => canon P a /\ den P a = bits_val (bit_chunk c i v) mod p) (seq 0 (Z.to_nat q)))
    as (r & Er & F).
  { intros i Hi.
    destruct (chunk_bigint_spec P c (fun j => nth (i * c + j) v false)) as (b & Eb & Lb & Nb & Vb); [lia|].
    rewrite Eb. cbn [bind]. destruct (fp_of_bigint_spec P OK b Lb Nb) as (a & Ea & Ca & Da).
    exists a. split; auto. split; auto. now rewrite Da, Vb, bit_chunk_map. }
  exists r. split; auto.
  pose proof (Forall2_len _ _ _ F) as Lr. rewrite seq_length in Lr.
  assert (Hq0 : 0 <= q) by (destruct (Z_lt_ge_dec q 0); nia).
  split; [|split].
  - clear -F. induction F; constructor; tauto.
  - rewrite <- Lr. clear -F. induction F; cbn [map]; auto. f_equal; tauto.
  - nia.
Qed.
(** More bits than the limbs hold: a write past the array. *)
Theorem pack_nd_ub v c : v <> [] -> (64 * fp_n P < c)%nat -> Z.of_nat (length v) + Z.of_nat c < 2 ^ 63 ->
  pack_bit_vector_nd P v c = UB.
Proof.
  intros Hv Hc Hl. unfold pack_bit_vector_nd. rewrite !(to_s64_small P) by lia.
  destruct (div_ceil_spec (Z.of_nat (length v)) (Z.of_nat c)) as (q & E & Hq); try lia.
  rewrite E. cbn [bind]. assert (0 < length v)%nat by (destruct v; [contradiction|cbn; lia]).
  assert (1 <= q) by nia. replace (Z.to_nat q) with (S (Z.to_nat q - 1)) by lia.
  cbn [seq mapM]. unfold chunk_bigint at 1. replace (64 * fp_n P <? c)%nat with true by (symmetry; apply Nat.ltb_lt; lia).
  reflexivity.
Qed.
End Pack.

(** ** Examples *)
Notation zl := (fun s : list Z => s).
Theorem multi_nd_examples :
  multi_exp_naive_nd zgops zl [11; 24; 60; 127] [5; 7] [[2]; [3]; [4]] = Ok 31 /\
  multi_exp_naive zgops zl [11; 24; 60; 127] [5; 7] [[2]; [3]; [4]] = AssertFail /\
  multi_exp_bos_coster_nd zgops zl [11; 24; 60; 127] (@rev _) 1 9 [5; 7] [[2]; [3]; [4]] = UB /\
  multi_exp_bos_coster_nd zgops zl [11; 24; 60; 127] (@rev _) 1 9 [5; 7] [[200]; [300]; [4]; [4]] = UB /\
  multi_exp_bos_coster_nd zgops zl [11; 24; 60; 127] (@rev _) 1 9 [5; 7] [[2]; [3]] = Ok 31.
Proof. vm_compute. repeat split. Qed.
(** Blocks closed in the wrong order. *)
Theorem leave_nd_example :
  let C := {| inhibit_info := false; inhibit_counters := false; multicore := false |} in
  let s := mkProf [] 0 (fun _ => 0) (fun _ => 0) (fun _ => 0) (fun _ => 0) (fun _ => 0) (fun _ => 0) in
  let s2 := (s <- enter_block C [1] true 10 (Some 10) s ;; enter_block C [2] true 20 (Some 20) s) in
  (s <- s2 ;; leave_block C [1] true 35 (Some 35) s) = AssertFail /\
  match (s <- s2 ;; s <- leave_block_nd C [1] true 35 (Some 35) s ;; leave_block_nd C [2] true 50 (Some 50) s) with
  | Ok s => block_names s = [] /\ indentation s = 0 /\ last_times s [1] = 25 /\ last_times s [2] = 30
  | _ => False
  end.
Proof. vm_compute. repeat split. Qed.
