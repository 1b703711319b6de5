(** Correctness of the integer helpers. *)
From Coq Require Import ZArith List Lia Bool.
From Verif Require Import Result Limbs LimbsProofs BigintProofs UtilsModel.
Import ListNotations.
Open Scope Z_scope.

Lemma land_pred_pow2 n : 0 < n ->
  (Z.land n (n - 1) = 0 <-> n = 2 ^ Z.log2 n).
Proof.
  intros Hn. pose proof (Z.log2_nonneg n). pose proof (Z.log2_spec n Hn) as [H1 H2].
  split.
  - intros E. destruct (Z.eq_dec n (2 ^ Z.log2 n)) as [|N]; auto. exfalso.
    (* top bit of n is also set in n-1 *)
    assert (T : Z.testbit (Z.land n (n - 1)) (Z.log2 n) = true).
    { rewrite Z.land_spec, Z.bit_log2 by lia. cbn [andb].
      replace (Z.log2 n) with (Z.log2 (n - 1)).
      - apply Z.bit_log2. lia.
      - apply Z.log2_unique; lia. }
    rewrite E, Z.bits_0 in T. discriminate.
  - intros E. rewrite E. set (k := Z.log2 n) in *.
    replace (2 ^ k - 1) with (Z.ones k) by (rewrite Z.ones_equiv; lia).
    rewrite Z.land_ones by lia. apply Z.mod_same. lia.
Qed.

Lemma wrap64_small z : 0 <= z < B -> wrap64 z = z.
Proof. apply Z.mod_small. Qed.

Theorem is_power_of_2_spec n : 0 <= n < B ->
  (is_power_of_2 n = true <-> exists k, 0 <= k < 64 /\ n = 2 ^ k).
Proof.
  intros Hn. unfold is_power_of_2.
  rewrite andb_true_iff, negb_true_iff, Z.eqb_neq, Z.eqb_eq. split.
  - intros [N E]. rewrite wrap64_small in E by lia.
    apply land_pred_pow2 in E; [|lia]. exists (Z.log2 n).
    split; auto. split; [apply Z.log2_nonneg|].
    apply Z.log2_lt_pow2; [lia|]. rewrite <- B_eq. lia.
  - intros (k & Hk & ->). assert (0 < 2 ^ k) by (apply Z.pow_pos_nonneg; lia).
    split; [lia|]. rewrite wrap64_small by lia.
    apply land_pred_pow2; auto. rewrite Z.log2_pow2 by lia. auto.
Qed.

Lemma log2_loop_spec fuel n r : 0 <= n -> Z.log2 n < Z.of_nat fuel ->
  log2_loop fuel n r = Ok (r + Z.log2 n).
Proof.
  revert n r; induction fuel as [|f IH]; intros n r Hn Hf; cbn [log2_loop].
  - pose proof (Z.log2_nonneg n). lia.
  - destruct (1 <? n) eqn:E.
    + apply Z.ltb_lt in E.
      assert (L : Z.log2 n = Z.log2 (Z.shiftr n 1) + 1).
      { rewrite Z.log2_shiftr by lia.
        assert (1 <= Z.log2 n) by (apply Z.log2_le_pow2; lia). lia. }
      rewrite IH.
      * f_equal. lia.
      * apply Z.shiftr_nonneg; lia.
      * lia.
    + apply Z.ltb_ge in E. f_equal.
      replace (Z.log2 n) with 0; [lia|]. symmetry. apply Z.log2_null. lia.
Qed.

(** [log2 n] is ceil(log2 n) for every non-zero argument, and 0 for 0. *)
Theorem log2_spec n : 0 <= n < B ->
  log2 n = Ok (if n =? 0 then 0 else Z.log2_up n).
Proof.
  intros Hn. unfold log2.
  assert (Hlg : Z.log2 n < 64).
  { destruct (Z.eq_dec n 0) as [->|]; [reflexivity|].
    apply Z.log2_lt_pow2; [lia|]. rewrite <- B_eq; lia. }
  rewrite log2_loop_spec by lia.
  destruct (n =? 0) eqn:E0.
  - apply Z.eqb_eq in E0; subst. reflexivity.
  - apply Z.eqb_neq in E0. rewrite wrap64_small by lia. f_equal.
    pose proof (land_pred_pow2 n ltac:(lia)) as LP.
    destruct (Z.land n (n - 1) =? 0) eqn:E.
    + apply Z.eqb_eq in E. apply LP in E. rewrite E at 2.
      rewrite Z.log2_up_pow2; [lia|apply Z.log2_nonneg].
    + apply Z.eqb_neq in E. assert (N : n <> 2 ^ Z.log2 n) by tauto.
      pose proof (Z.log2_spec n ltac:(lia)).
      assert (1 < n).
      { destruct (Z.eq_dec n 1) as [->|]; [|lia]. cbn in N. lia. }
      symmetry. apply Z.log2_up_unique; [pose proof (Z.log2_nonneg n); lia|].
      replace (Z.pred (1 + Z.log2 n)) with (Z.log2 n) by lia.
      replace (1 + Z.log2 n) with (Z.succ (Z.log2 n)) by lia. lia.
Qed.

(** The least power of two not below n. *)
Definition next_pow2 (n : Z) : Z := 2 ^ Z.log2_up n.

Lemma next_pow2_least n : 1 <= n ->
  n <= next_pow2 n /\ forall k, 0 <= k -> n <= 2 ^ k -> next_pow2 n <= 2 ^ k.
Proof.
  intros Hn. unfold next_pow2. split.
  - destruct (Z.eq_dec n 1) as [->|]; [cbn; lia|].
    pose proof (Z.log2_up_spec n). lia.
  - intros k Hk H. apply Z.pow_le_mono_r; [lia|]. apply Z.log2_up_le_pow2; lia.
Qed.

Theorem round_to_next_power_of_2_spec n : 1 <= n <= 2 ^ 63 ->
  round_to_next_power_of_2 n = Ok (next_pow2 n).
Proof.
  intros Hn. unfold round_to_next_power_of_2.
  rewrite log2_spec by (rewrite B_eq; lia).
  replace (n =? 0) with false by (symmetry; apply Z.eqb_neq; lia).
  cbn [bind]. unfold shl64. pose proof (Z.log2_up_nonneg n).
  assert (Z.log2_up n <= 63) by (apply Z.log2_up_le_pow2; lia).
  replace (0 <=? Z.log2_up n) with true by (symmetry; apply Z.leb_le; lia).
  replace (Z.log2_up n <? 64) with true by (symmetry; apply Z.ltb_lt; lia).
  cbn [andb]. rewrite Z.shiftl_1_l, wrap64_small; auto.
  split; [apply Z.pow_nonneg; lia|]. rewrite B_eq. apply Z.pow_lt_mono_r; lia.
Qed.

Theorem round_to_next_power_of_2_ub n : 2 ^ 63 < n < B ->
  round_to_next_power_of_2 n = UB.
Proof.
  intros Hn. unfold round_to_next_power_of_2.
  rewrite log2_spec by lia.
  replace (n =? 0) with false by (symmetry; apply Z.eqb_neq; lia).
  cbn [bind]. unfold shl64.
  assert (63 < Z.log2_up n) by (apply Z.log2_up_lt_pow2; lia).
  replace (Z.log2_up n <? 64) with false by (symmetry; apply Z.ltb_ge; lia).
  now rewrite andb_false_r.
Qed.

(** *** Bit smearing in [get_power_of_two] *)

Definition smeared (x n w : Z) : Prop :=
  0 <= x /\ forall i, 0 <= i ->
    (Z.testbit x i = true <-> exists j, i <= j < i + w /\ Z.testbit n j = true).

Lemma smear_step x n w : 0 < w -> smeared x n w ->
  smeared (Z.lor x (Z.shiftr x w)) n (2 * w).
Proof.
  intros Hw [Hx H]. split.
  - apply Z.lor_nonneg; split; auto. now apply Z.shiftr_nonneg.
  - intros i Hi. rewrite Z.lor_spec, Z.shiftr_spec, orb_true_iff by lia.
    rewrite (H i) by lia. rewrite (H (i + w)) by lia. split.
    + intros [(j & Hj & T)|(j & Hj & T)]; exists j; split; auto; lia.
    + intros (j & Hj & T). destruct (Z_lt_ge_dec j (i + w)).
      * left. exists j. split; auto; lia.
      * right. exists j. split; auto; lia.
Qed.

Lemma smeared_64 x n : 0 < n < B -> smeared x n 64 -> x = 2 ^ (Z.log2 n + 1) - 1.
Proof.
  intros Hn [Hx H].
  replace (2 ^ (Z.log2 n + 1) - 1) with (Z.ones (Z.log2 n + 1))
    by (rewrite Z.ones_equiv; lia).
  pose proof (Z.log2_nonneg n).
  assert (Z.log2 n < 64) by (apply Z.log2_lt_pow2; rewrite <- ?B_eq; lia).
  apply Z.bits_inj'. intros i Hi.
  destruct (Z_lt_ge_dec i (Z.log2 n + 1)).
  - rewrite Z.ones_spec_low by lia. apply H; auto.
    exists (Z.log2 n). split; [lia|]. apply Z.bit_log2. lia.
  - rewrite Z.ones_spec_high by lia.
    destruct (Z.testbit x i) eqn:E; auto. apply H in E as (j & Hj & T); auto.
    rewrite Z.bits_above_log2 in T by lia. discriminate.
Qed.

Theorem get_power_of_two_spec n : 1 <= n <= 2 ^ 63 ->
  get_power_of_two n = next_pow2 n.
Proof.
  intros Hn. unfold get_power_of_two.
  rewrite (wrap64_small (n - 1)) by (rewrite B_eq; lia).
  destruct (Z.eq_dec n 1) as [->|N1]; [reflexivity|].
  set (m := n - 1).
  assert (S0 : smeared m m 1).
  { split; [unfold m; lia|]. intros i Hi. split.
    - intros T. exists i. split; auto; lia.
    - intros (j & Hj & T). now replace i with j by lia. }
  apply smear_step in S0; [|lia]. apply smear_step in S0; [|lia].
  apply smear_step in S0; [|lia]. apply smear_step in S0; [|lia].
  apply smear_step in S0; [|lia]. apply smear_step in S0; [|lia].
  change (2 * 1) with 2 in S0. change (2 * 2) with 4 in S0. change (2 * 4) with 8 in S0.
  change (2 * 8) with 16 in S0. change (2 * 16) with 32 in S0. change (2 * 32) with 64 in S0.
  cbv zeta. apply smeared_64 in S0; [|rewrite B_eq; unfold m; lia].
  rewrite S0. unfold next_pow2.
  assert (L : Z.log2_up n = Z.log2 m + 1).
  { unfold Z.log2_up. replace (1 ?= n) with Lt by (symmetry; apply Z.compare_lt_iff; lia).
    reflexivity. }
  rewrite L, Z.sub_add. apply wrap64_small.
  pose proof (Z.log2_nonneg m).
  split; [apply Z.pow_nonneg; lia|]. rewrite B_eq. apply Z.pow_lt_mono_r; try lia.
  assert (Z.log2 m < 63) by (apply Z.log2_lt_pow2; unfold m; lia). lia.
Qed.

(** *** Two's complement *)

Theorem twos_complement_roundtrip i w : 1 <= w <= 62 ->
  - 2 ^ 31 <= i < 2 ^ 31 -> - 2 ^ (w - 1) <= i < 2 ^ (w - 1) ->
  exists u, to_twos_complement i w = Ok u /\ 0 <= u < 2 ^ w /\ u = i mod 2 ^ w /\
            from_twos_complement u w = Ok i.
Proof.
  intros Hw Hi Hr. unfold to_twos_complement, from_twos_complement.
  assert (P2 : 2 ^ w = 2 * 2 ^ (w - 1)).
  { rewrite <- Z.pow_succ_r by lia. f_equal; lia. }
  assert (P0 : 0 < 2 ^ (w - 1)) by (apply Z.pow_pos_nonneg; lia).
  assert (P3 : 2 ^ w <= 2 ^ 62) by (apply Z.pow_le_mono_r; lia).
  replace ((1 <=? w) && (w <=? 62)) with true
    by (symmetry; apply andb_true_iff; rewrite !Z.leb_le; lia).
  replace ((1 <=? w) && (w <=? 63)) with true
    by (symmetry; apply andb_true_iff; rewrite !Z.leb_le; lia).
  replace (- 2 ^ (w - 1) <=? i) with true by (symmetry; apply Z.leb_le; lia).
  replace (i <? 2 ^ (w - 1)) with true by (symmetry; apply Z.ltb_lt; lia).
  cbn [assert_then]. eexists; split; [reflexivity|].
  destruct (0 <=? i) eqn:E.
  - apply Z.leb_le in E. rewrite wrap64_small by (rewrite B_eq; lia).
    split; [lia|]. split; [symmetry; apply Z.mod_small; lia|].
    replace (i <? 2 ^ w) with true by (symmetry; apply Z.ltb_lt; lia).
    replace (i <? 2 ^ (w - 1)) with true by (symmetry; apply Z.ltb_lt; lia).
    cbn [assert_then]. f_equal. unfold to_int32. rewrite Z.mod_small by lia.
    replace (i <? 2 ^ 31) with true by (symmetry; apply Z.ltb_lt; lia). auto.
  - apply Z.leb_gt in E. rewrite wrap64_small by (rewrite B_eq; lia).
    split; [lia|]. split.
    { replace i with (i + 2 ^ w + (-1) * 2 ^ w) at 2 by lia.
      rewrite Z_mod_plus_full. symmetry. apply Z.mod_small. lia. }
    replace (i + 2 ^ w <? 2 ^ w) with true by (symmetry; apply Z.ltb_lt; lia).
    replace (i + 2 ^ w <? 2 ^ (w - 1)) with false by (symmetry; apply Z.ltb_ge; lia).
    cbn [assert_then]. f_equal. replace (i + 2 ^ w - 2 ^ w) with i by lia.
    unfold to_int32, wrap64.
    assert (M : (i mod B) mod 2 ^ 32 = i + 2 ^ 32).
    { rewrite B_eq. replace (2 ^ 64) with (2 ^ 32 * 2 ^ 32) by reflexivity.
      rewrite Z.rem_mul_r, (Z.mul_comm (2 ^ 32) (_ mod _)), Z_mod_plus_full, Z.mod_mod by lia.
      replace i with (i + 2 ^ 32 + (-1) * 2 ^ 32) at 1 by lia.
      rewrite Z_mod_plus_full. apply Z.mod_small. lia. }
    rewrite M. replace (i + 2 ^ 32 <? 2 ^ 31) with false by (symmetry; apply Z.ltb_ge; lia).
    lia.
Qed.

Theorem to_twos_complement_reject i w : 1 <= w <= 62 ->
  ~ (- 2 ^ (w - 1) <= i < 2 ^ (w - 1)) -> to_twos_complement i w = AssertFail.
Proof.
  intros Hw Hr. unfold to_twos_complement.
  replace ((1 <=? w) && (w <=? 62)) with true
    by (symmetry; apply andb_true_iff; rewrite !Z.leb_le; lia).
  destruct (- 2 ^ (w - 1) <=? i) eqn:E1; auto. cbn [assert_then].
  destruct (i <? 2 ^ (w - 1)) eqn:E2; auto.
  apply Z.leb_le in E1. apply Z.ltb_lt in E2. lia.
Qed.

(** *** Bit reversal *)

Lemma land_1 n : Z.land n 1 = Z.b2z (Z.testbit n 0).
Proof.
  change 1 with (Z.ones 1) at 1. rewrite Z.land_ones by lia.
  now rewrite <- Z.bit0_mod.
Qed.

Lemma lor_double_b2z r b : Z.lor (2 * r) (Z.b2z b) = 2 * r + Z.b2z b.
Proof.
  rewrite Z.add_nocarry_lxor.
  - rewrite Z.lxor_lor; auto. destruct b; cbn [Z.b2z]; [|apply Z.land_0_r].
    change 1 with (Z.ones 1). rewrite Z.land_ones by lia.
    rewrite Z.mul_comm. apply Z_mod_mult.
  - destruct b; cbn [Z.b2z]; [|apply Z.land_0_r].
    change 1 with (Z.ones 1). rewrite Z.land_ones by lia.
    rewrite Z.mul_comm. apply Z_mod_mult.
Qed.

Lemma bitreverse_loop_spec t n r d : 0 <= n -> 0 <= r < 2 ^ d -> 0 <= d ->
  d + Z.of_nat t <= 64 ->
  let x := bitreverse_loop t n r in
  0 <= x < 2 ^ (d + Z.of_nat t) /\
  (forall i, 0 <= i < Z.of_nat t ->
     Z.testbit x i = Z.testbit n (Z.of_nat t - 1 - i)) /\
  (forall i, Z.of_nat t <= i -> Z.testbit x i = Z.testbit r (i - Z.of_nat t)).
Proof.
  revert n r d; induction t as [|t IH]; intros n r d Hn Hr Hd Hl; cbn [bitreverse_loop].
  - cbv zeta. change (Z.of_nat 0) with 0. rewrite Z.add_0_r. split; auto.
    split; intros; [lia|]. now rewrite Z.sub_0_r.
  - assert (P2 : 2 ^ (d + 1) = 2 ^ d * 2) by (rewrite Z.pow_add_r; lia).
    assert (P64 : 2 ^ (d + 1) <= B) by (rewrite B_eq; apply Z.pow_le_mono_r; lia).
    assert (Sh : wrap64 (Z.shiftl r 1) = 2 * r).
    { rewrite Z.shiftl_mul_pow2 by lia. change (2 ^ 1) with 2.
      rewrite wrap64_small; lia. }
    set (r' := Z.lor (wrap64 (Z.shiftl r 1)) (Z.land n 1)).
    assert (Er' : r' = 2 * r + Z.b2z (Z.testbit n 0)).
    { unfold r'. rewrite Sh, land_1.
      apply lor_double_b2z. }
    assert (Hb : 0 <= Z.b2z (Z.testbit n 0) < 2) by (destruct (Z.testbit n 0); cbn; lia).
    specialize (IH (Z.shiftr n 1) r' (d + 1)) as (I1 & I2 & I3); try lia.
    { apply Z.shiftr_nonneg; auto. }
    rewrite Nat2Z.inj_succ in *.
    split; [|split].
    + replace (d + Z.succ (Z.of_nat t)) with (d + 1 + Z.of_nat t) by lia. auto.
    + intros i Hi. destruct (Z_lt_ge_dec i (Z.of_nat t)).
      * rewrite I2, Z.shiftr_spec by lia. f_equal. lia.
      * rewrite I3 by lia. replace (i - Z.of_nat t) with 0 by lia.
        replace (Z.succ (Z.of_nat t) - 1 - i) with 0 by lia.
        rewrite Er', Z.add_comm, Z.add_b2z_double_bit0. reflexivity.
    + intros i Hi. rewrite I3 by lia.
      replace (i - Z.of_nat t) with (Z.succ (i - Z.succ (Z.of_nat t))) by lia.
      rewrite Er'. destruct (Z.testbit n 0); cbn [Z.b2z];
        [apply Z.testbit_odd_succ|rewrite Z.add_0_r; apply Z.testbit_even_succ]; lia.
Qed.

Theorem bitreverse_spec n l : 0 <= n -> (l <= 64)%nat ->
  0 <= bitreverse n l < 2 ^ Z.of_nat l /\
  forall i, 0 <= i < Z.of_nat l ->
    Z.testbit (bitreverse n l) i = Z.testbit n (Z.of_nat l - 1 - i).
Proof.
  intros Hn Hl.
  destruct (bitreverse_loop_spec l n 0 0) as (H1 & H2 & _); try lia.
  split; auto.
Qed.

Theorem bitreverse_involutive n l : 0 <= n < 2 ^ Z.of_nat l -> (l <= 64)%nat ->
  bitreverse (bitreverse n l) l = n.
Proof.
  intros Hn Hl. destruct (bitreverse_spec n l) as [B1 R1]; auto; try lia.
  destruct (bitreverse_spec (bitreverse n l) l) as [B2 R2]; auto; try lia.
  apply Z.bits_inj'. intros i Hi. destruct (Z_lt_ge_dec i (Z.of_nat l)).
  - rewrite R2, R1 by lia. f_equal. lia.
  - rewrite <- (Z.mod_small _ _ B2), <- (Z.mod_small _ _ Hn).
    rewrite !Z.mod_pow2_bits_high by lia. auto.
Qed.

(** *** Bits of a list of words *)

Theorem int_list_to_bits_spec l wordsize : (wordsize <= 64)%nat ->
  exists bs, int_list_to_bits l wordsize = Ok bs /\
    length bs = (wordsize * length l)%nat /\
    forall i j d, (i < length l)%nat -> (j < wordsize)%nat ->
      nth (i * wordsize + j) bs d =
      Z.testbit (nth i l 0) (Z.of_nat wordsize - 1 - Z.of_nat j).
Proof.
  intros Hw. unfold int_list_to_bits.
  replace (64 <? wordsize)%nat with false by (symmetry; apply Nat.ltb_ge; lia).
  cbn [andb]. eexists; split; [reflexivity|].
  assert (LW : forall x, length (word_bits wordsize x) = wordsize).
  { intros. unfold word_bits. now rewrite map_length, seq_length. }
  split.
  - induction l as [|x l IH]; cbn [flat_map length]; [lia|].
    rewrite app_length, LW, IH. lia.
  - induction l as [|x l IH]; intros i j d Hi Hj; cbn [length] in Hi; [lia|].
    cbn [flat_map]. destruct i as [|i].
    + rewrite app_nth1 by (rewrite LW; lia). cbn [Nat.mul Nat.add nth].
      unfold word_bits.
      rewrite (nth_indep _ d false) by (rewrite map_length, seq_length; lia).
      set (f := fun j => _).
      rewrite (nth_indep _ false (f 0%nat)) by (rewrite map_length, seq_length; lia).
      rewrite map_nth, seq_nth by lia. unfold f. rewrite land_pow2_testbit by lia.
      f_equal. lia.
    + rewrite app_nth2 by (rewrite LW; lia). rewrite LW.
      replace (S i * wordsize + j - wordsize)%nat with (i * wordsize + j)%nat by lia.
      cbn [nth]. apply IH; lia.
Qed.

(** *** Ceiling division *)

Theorem div_ceil_spec x y : 0 <= x -> 0 < y -> x + (y - 1) < 2 ^ 63 ->
  exists q, div_ceil x y = Ok q /\ (q - 1) * y < x <= q * y.
Proof.
  intros Hx Hy Hb. unfold div_ceil.
  replace (y =? 0) with false by (symmetry; apply Z.eqb_neq; lia).
  rewrite Z.quot_div_nonneg by lia.
  pose proof (Z.div_mod (x + (y - 1)) y ltac:(lia)) as D.
  pose proof (Z.mod_pos_bound (x + (y - 1)) y ltac:(lia)) as M.
  assert (Q : 0 <= (x + (y - 1)) / y <= x + (y - 1)).
  { split; [apply Z.div_pos; lia|]. apply Z.div_le_upper_bound; nia. }
  assert (F : forall z, 0 <= z < 2 ^ 63 -> fits_s64 z = true).
  { intros z Hz. unfold fits_s64. apply andb_true_iff. rewrite Z.leb_le, Z.ltb_lt. lia. }
  rewrite !F by lia. cbn [andb]. eexists; split; [reflexivity|]. nia.
Qed.

Theorem div_ceil_zero x : div_ceil x 0 = Throw.
Proof. reflexivity. Qed.
