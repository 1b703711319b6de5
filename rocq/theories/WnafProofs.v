(** Correctness of scalar_mul and of the wNAF routines. *)
From Coq Require Import ZArith List Lia Bool Znumtheory.
From Verif Require Import Result Limbs LimbsProofs BigintModel BigintProofs Algebra GroupOps GroupProofs WnafModel.
Import ListNotations.
Open Scope Z_scope.
Open Scope result_scope.

(** ** Specification vocabulary *)
(** Value of little-endian signed digits. *)
Fixpoint digits_val (ds : list Z) : Z :=
  match ds with [] => 0 | d :: ds' => d + 2 * digits_val ds' end.

Fixpoint wnaf_wf (w : nat) (ds : list Z) : Prop :=
  match ds with
  | [] => True
  | d :: ds' =>
      (d = 0 \/ (Z.odd d = true /\ Z.abs d < 2 ^ Z.of_nat w /\ digits_val ds' mod 2 ^ Z.of_nat w = 0))
      /\ wnaf_wf w ds'
  end.

Lemma digits_repeat n : digits_val (repeat 0 n) = 0.
Proof. induction n; cbn [repeat digits_val]; lia. Qed.
Lemma wf_repeat w n : wnaf_wf w (repeat 0 n).
Proof. induction n; cbn [repeat wnaf_wf]; auto. Qed.

Lemma pow2_pos k : 0 <= k -> 0 < 2 ^ k.
Proof. intros. apply Z.pow_pos_nonneg; lia. Qed.

Lemma zeros_spec w ds : wnaf_wf w ds ->
  forall k, digits_val ds mod 2 ^ Z.of_nat k = 0 -> forall i, (i < k)%nat -> nth i ds 0 = 0.
Proof.
  induction ds as [|d ds IH]; intros Wf k Hk i Hi; [now destruct i|].
  destruct Wf as [Hd Wf]. destruct k as [|k]; [lia|].
  cbn [digits_val] in Hk. rewrite Nat2Z.inj_succ, Z.pow_succ_r in Hk by lia.
  pose proof (pow2_pos (Z.of_nat k) ltac:(lia)) as Hp.
  apply Z.mod_divide in Hk as [q Hq]; [|lia].
  assert (d = 0).
  { destruct Hd as [|[Hodd _]]; auto. exfalso.
    rewrite Z.odd_spec in Hodd. destruct Hodd as [m Hm]. nia. }
  subst d. destruct i as [|i]; [reflexivity|]. cbn [nth].
  apply (IH Wf k); [|lia]. apply Z.mod_divide; [lia|]. exists q. nia.
Qed.

(** The digits have the advertised shape. *)
Lemma wf_digits w ds : wnaf_wf w ds ->
  forall i, nth i ds 0 = 0 \/ (Z.odd (nth i ds 0) = true /\ Z.abs (nth i ds 0) < 2 ^ Z.of_nat w).
Proof.
  induction ds as [|d ds IH]; intros Wf i; [left; now destruct i|].
  destruct Wf as [Hd Wf]. destruct i; cbn [nth]; [|now apply IH]. tauto.
Qed.
Lemma wf_sparse w ds : wnaf_wf w ds ->
  forall i j, (i < j)%nat -> nth i ds 0 <> 0 -> nth j ds 0 <> 0 -> (i + w < j)%nat.
Proof.
  induction ds as [|d ds IH]; intros Wf i j Hij Hi Hj; [now destruct i|].
  destruct Wf as [Hd Wf]. destruct j as [|j]; [lia|]. destruct i as [|i]; cbn [nth] in *.
  - destruct Hd as [|(_ & _ & Hm)]; [easy|].
    destruct (le_lt_dec w j); [lia|]. exfalso. apply Hj. now apply (zeros_spec w ds Wf w Hm).
  - specialize (IH Wf i j ltac:(lia) Hi Hj). lia.
Qed.

Lemma val_nth0 c : limbs c -> (1 <= length c)%nat -> nth 0 c 0 = val c mod B.
Proof.
  intros L N. destruct c as [|x c]; [cbn in N; lia|].
  apply limbs_cons in L as [Hx Hc]. cbn [nth]. symmetry. now apply val_mod_B.
Qed.
Lemma land1_odd x : (Z.land x 1 =? 1) = Z.odd x.
Proof.
  change 1 with (Z.ones 1). rewrite Z.land_ones by lia. change (2 ^ 1) with 2. change (Z.ones 1) with 1.
  rewrite Zmod_odd. now destruct (Z.odd x).
Qed.
Lemma pow_le_B w : (w <= 29)%nat -> 2 ^ Z.of_nat w * 4 <= B.
Proof.
  intros. rewrite B_eq. change 4 with (2 ^ 2). rewrite <- Z.pow_add_r by lia. apply Z.pow_le_mono_r; lia.
Qed.
Lemma Bn_half n : (1 <= n)%nat -> exists h, Bn n = 2 * h /\ 2 ^ 63 <= h.
Proof.
  intros H. exists (2 ^ (64 * Z.of_nat n - 1)). split.
  - unfold Bn. rewrite <- Z.pow_succ_r by lia. f_equal. lia.
  - apply Z.pow_le_mono_r; lia.
Qed.
Lemma Bn_multiple n w : (1 <= n)%nat -> (w <= 29)%nat -> exists q, Bn n = q * 2 ^ (Z.of_nat w + 1).
Proof.
  intros. exists (2 ^ (64 * Z.of_nat n - (Z.of_nat w + 1))). unfold Bn. rewrite <- Z.pow_add_r by lia.
  f_equal. lia.
Qed.

(** One digit. *)
Lemma wnaf_digit_spec w c : (1 <= w <= 29)%nat -> limbs c -> (1 <= length c)%nat -> Z.odd (val c) = true ->
  exists u, wnaf_digit w (nth 0 c 0) = Ok u /\ Z.odd u = true /\ Z.abs u < 2 ^ Z.of_nat w /\
    (val c - u) mod 2 ^ (Z.of_nat w + 1) = 0.
Proof.
  intros Hw L N Ho. unfold wnaf_digit.
  replace (31 <=? w)%nat with false by (symmetry; apply Nat.leb_gt; lia).
  replace (w =? 30)%nat with false by (symmetry; apply Nat.eqb_neq; lia).
  rewrite val_nth0 by auto. set (v := val c) in *.
  set (W := 2 ^ Z.of_nat w). assert (HW : 0 < W) by (apply pow2_pos; lia).
  assert (EW : 2 ^ (Z.of_nat w + 1) = 2 * W) by (rewrite Z.pow_add_r by lia; unfold W; lia).
  assert (HW2 : exists W', W = 2 * W').
  { exists (2 ^ (Z.of_nat w - 1)). unfold W. rewrite <- Z.pow_succ_r by lia. f_equal. lia. }
  rewrite EW.
  assert (E : (v mod B) mod (2 * W) = v mod (2 * W)).
  { symmetry. rewrite B_eq, <- EW.
    assert (E64 : 2 ^ 64 = 2 ^ (64 - (Z.of_nat w + 1)) * 2 ^ (Z.of_nat w + 1))
      by (rewrite <- Z.pow_add_r by lia; f_equal; lia).
    rewrite E64. pose proof (pow2_pos (64 - (Z.of_nat w + 1)) ltac:(lia)).
    pose proof (pow2_pos (Z.of_nat w + 1) ltac:(lia)).
    apply Zmod_div_mod; [lia|apply Z.mul_pos_pos; lia|]. exists (2 ^ (64 - (Z.of_nat w + 1))). reflexivity. }
  rewrite E. set (u := v mod (2 * W)).
  assert (Hu : 0 <= u < 2 * W) by (apply Z.mod_pos_bound; lia).
  assert (Dv : v = 2 * W * (v / (2 * W)) + u) by (apply Z.div_mod; lia).
  assert (Ou : Z.odd u = true).
  { rewrite Dv in Ho. rewrite Z.odd_add, <- Z.mul_assoc, Z.odd_mul in Ho. cbn in Ho.
    now destruct (Z.odd u). }
  assert (u <> W).
  { intros ->. destruct HW2 as [W' E']. rewrite E', Z.odd_mul in Ou. now cbn in Ou. }
  destruct (W <? u) eqn:Eu.
  - apply Z.ltb_lt in Eu. exists (u - 2 * W). split; auto. split; [|split].
    + rewrite Z.odd_sub, Ou, Z.odd_mul. reflexivity.
    + lia.
    + replace (v - (u - 2 * W)) with ((v / (2 * W) + 1) * (2 * W)) by lia. apply Z.mod_mul. lia.
  - apply Z.ltb_ge in Eu. exists u. split; auto. split; auto. split; [lia|].
    replace (v - u) with ((v / (2 * W)) * (2 * W)) by lia. apply Z.mod_mul. lia.
Qed.

Lemma wnaf_step_spec w c : (1 <= w <= 29)%nat -> limbs c -> (1 <= length c)%nat ->
  (val c <= Bn (length c) - 2 ^ Z.of_nat w \/ Z.odd (val c) = false) ->
  exists u c', wnaf_step w c = Ok (u, c') /\ limbs c' /\ length c' = length c /\
    val c = u + 2 * val c' /\
    (u = 0 \/ (Z.odd u = true /\ Z.abs u < 2 ^ Z.of_nat w /\ val c' mod 2 ^ Z.of_nat w = 0)) /\
    2 * val c' < Bn (length c).
Proof.
  intros Hw L N Hv. unfold wnaf_step. rewrite land1_odd.
  pose proof (val_bound c L) as Hb.
  assert (Eodd : Z.odd (nth 0 c 0) = Z.odd (val c)).
  { rewrite val_nth0 by auto. rewrite (Z.div_mod (val c) B) at 2 by (rewrite B_eq; lia).
    rewrite Z.odd_add, Z.odd_mul. change (Z.odd B) with false. cbn [andb]. now rewrite xorb_false_l. }
  assert (Hsh : forall m, 0 <= m < Bn (length c) ->
    val (mpn_rshift (limbs_of (length c) m) 1) = m / 2 /\ length (mpn_rshift (limbs_of (length c) m) 1) = length c).
  { intros m Hm. unfold mpn_rshift. rewrite limbs_of_length, limbs_of_length. split; auto.
    rewrite (val_limbs_of_small _ m) by auto. change (2 ^ 1) with 2.
    apply val_limbs_of_small. pose proof (Z.div_mod m 2 ltac:(lia)).
    pose proof (Z.mod_pos_bound m 2 ltac:(lia)). lia. }
  assert (HW : 0 < 2 ^ Z.of_nat w) by (apply pow2_pos; lia).
  rewrite Eodd. destruct (Z.odd (val c)) eqn:Ho.
  - destruct Hv as [Hv|]; [|discriminate].
    destruct (wnaf_digit_spec w c Hw L N Ho) as (u & Eu & Ou & Au & Mu). rewrite Eu. cbn [bind].
    apply Z.mod_divide in Mu as [q Hq]; [|rewrite Z.pow_add_r by lia; lia].
    rewrite Z.pow_add_r in Hq by lia. change (2 ^ 1) with 2 in Hq.
    assert (u <> 0) by (intros ->; discriminate).
    assert (R : 0 <= val c - u < Bn (length c)).
    { split; [|lia]. destruct (Z_lt_ge_dec u 0); [lia|].
      destruct (Z_lt_ge_dec (val c - u) 0); [exfalso|lia].
      assert (q < 0) by nia. assert (q * (2 ^ Z.of_nat w * 2) <= - (2 ^ Z.of_nat w * 2)) by nia. lia. }
    assert (E : (if 0 <? u then fst (mpn_sub_1 c u) else fst (mpn_add_1 c (- u)))
                = limbs_of (length c) (val c - u)).
    { unfold mpn_sub_1, mpn_add_1. destruct (0 <? u); cbn [fst]; auto. }
    rewrite E. destruct (Hsh _ R) as [V Len]. eexists _, _. split; [reflexivity|].
    assert (D : (val c - u) / 2 = q * 2 ^ Z.of_nat w).
    { rewrite Hq. replace (q * (2 ^ Z.of_nat w * 2)) with ((q * 2 ^ Z.of_nat w) * 2) by ring.
      apply Z.div_mul. lia. }
    rewrite V, D. split; [apply limbs_of_limbs|]. split; auto. split; [lia|]. split; [|lia].
    right. split; auto. split; auto. apply Z.mod_mul. lia.
  - cbn [bind]. exists 0, (mpn_rshift c 1). split; auto.
    assert (E : c = limbs_of (length c) (val c)) by (symmetry; now apply limbs_of_val).
    destruct (Hsh (val c) Hb) as [V Len]. rewrite <- E in V, Len. rewrite V.
    split; [apply limbs_of_limbs|]. split; auto.
    assert (Z.even (val c) = true) as Ev by (rewrite <- Z.negb_odd, Ho; auto).
    apply Z.even_spec in Ev as [m Hm]. rewrite Hm, Z.mul_comm, Z.div_mul by lia.
    split; [lia|]. split; [now left|lia].
Qed.

Lemma is_zero_val c : limbs c -> bigint_is_zero c = (val c =? 0).
Proof. apply bigint_is_zero_spec. Qed.

Lemma wnaf_loop_zero f room w c : limbs c -> val c = 0 ->
  wnaf_loop (S f) room w c = Ok (repeat 0 room).
Proof. intros L V. cbn [wnaf_loop]. rewrite is_zero_val, V by auto. reflexivity. Qed.

Lemma wnaf_loop_spec w : (1 <= w <= 29)%nat -> forall m fuel room c,
  limbs c -> (1 <= length c)%nat -> val c <= 2 ^ Z.of_nat m ->
  (val c <= Bn (length c) - 2 ^ Z.of_nat w \/ Z.odd (val c) = false) ->
  (m + 2 <= fuel)%nat -> (m + 1 <= room)%nat ->
  exists ds, wnaf_loop fuel room w c = Ok ds /\ length ds = room /\ digits_val ds = val c /\ wnaf_wf w ds.
Proof.
  intros Hw. induction m as [|m IH]; intros fuel room c L N Hm Hv Hf Hr.
  - destruct (Z.eq_dec (val c) 0) as [V|V].
    + destruct fuel; [lia|]. exists (repeat 0 room). rewrite wnaf_loop_zero by auto.
      rewrite repeat_length, digits_repeat. auto using wf_repeat.
    + pose proof (val_nonneg c L). assert (V1 : val c = 1) by (cbn in Hm; lia).
      destruct fuel as [|[|fuel]]; try lia. destruct room as [|room]; [lia|].
      destruct (wnaf_step_spec w c Hw L N Hv) as (u & c' & E & L' & N' & V' & D & _).
      rewrite V1 in V'. assert (c' = c' /\ val c' = 0) as [_ V0].
      { split; auto. pose proof (val_nonneg c' L').
        destruct D as [->|(O & A & M)]; [lia|].
        assert (HW : 0 < 2 ^ Z.of_nat w) by (apply pow2_pos; lia).
        apply Z.mod_divide in M as [q Hq]; [|lia].
        destruct (Z.eq_dec q 0) as [->|]; [lia|].
        exfalso. assert (0 < q) by nia. nia. }
      remember (S fuel) as f1. cbn [wnaf_loop]. rewrite is_zero_val, V1 by auto. cbn [Z.eqb].
      rewrite E. cbn [bind]. subst f1. rewrite wnaf_loop_zero by auto. cbn [bind].
      eexists; split; [reflexivity|]. cbn [length digits_val wnaf_wf].
      rewrite repeat_length, digits_repeat. split; auto. split; [lia|]. split; [|apply wf_repeat].
      rewrite V0 in D. tauto.
  - destruct (Z.eq_dec (val c) 0) as [V|V].
    { destruct fuel; [lia|]. exists (repeat 0 room). rewrite wnaf_loop_zero by auto.
      rewrite repeat_length, digits_repeat. auto using wf_repeat. }
    destruct fuel as [|fuel]; [lia|]. destruct room as [|room]; [lia|].
    destruct (wnaf_step_spec w c Hw L N Hv) as (u & c' & E & L' & N' & V' & D & Hlt).
    pose proof (val_nonneg c L). pose proof (val_nonneg c' L').
    cbn [wnaf_loop]. rewrite is_zero_val by auto.
    replace (val c =? 0) with false by (symmetry; now apply Z.eqb_neq).
    rewrite E. cbn [bind].
    assert (HW : 0 < 2 ^ Z.of_nat w) by (apply pow2_pos; lia).
    assert (HM : 0 < 2 ^ Z.of_nat m) by (apply pow2_pos; lia).
    rewrite Nat2Z.inj_succ, Z.pow_succ_r in Hm by lia.
    destruct (IH fuel room c' L' ltac:(lia)) as (ds & Es & Ls & Vs & Ws); try lia.
    { destruct D as [->|(O & A & M)]; [lia|].
      apply Z.mod_divide in M as [q Hq]; [|lia].
      destruct (Z_le_gt_dec (Z.of_nat w) (Z.of_nat m)) as [Hwm|Hwm].
      - assert (Em : 2 ^ Z.of_nat m = 2 ^ (Z.of_nat m - Z.of_nat w) * 2 ^ Z.of_nat w)
          by (rewrite <- Z.pow_add_r by lia; f_equal; lia).
        set (k := 2 ^ (Z.of_nat m - Z.of_nat w)) in *.
        assert (q < k + 1); [|nia].
        (* 2 q W = v - u < 2 k W + W *)
        destruct (Z_lt_ge_dec q (k + 1)); auto. exfalso. nia.
      - assert (2 ^ Z.of_nat m * 2 <= 2 ^ Z.of_nat w).
        { replace (2 ^ Z.of_nat w) with (2 ^ (Z.of_nat w - 1) * 2)
            by (rewrite Z.mul_comm, <- Z.pow_succ_r by lia; f_equal; lia).
          apply Z.mul_le_mono_nonneg_r; [lia|]. apply Z.pow_le_mono_r; lia. }
        assert (q <= 0); [|nia]. destruct (Z_le_gt_dec q 0); auto. exfalso. nia. }
    { left. rewrite N'. destruct (Bn_half (length c) N) as (h & Eh & Hh).
      pose proof (pow_le_B w ltac:(lia)) as HB. rewrite B_eq in HB. change (2 ^ 64) with (2 * 2 ^ 63) in HB. lia. }
    rewrite Es. cbn [bind]. eexists; split; [reflexivity|].
    cbn [length digits_val wnaf_wf]. rewrite Vs. split; [lia|]. split; [lia|]. split; auto.
Qed.

Theorem find_wnaf_spec w k : (1 <= w <= 29)%nat -> limbs k -> (1 <= length k)%nat ->
  (val k <= Bn (length k) - 2 ^ Z.of_nat w \/ Z.odd (val k) = false) ->
  exists ds, find_wnaf w k = Ok ds /\ length ds = (64 * length k + 1)%nat /\
    digits_val ds = val k /\ wnaf_wf w ds.
Proof.
  intros Hw L N Hv. apply (wnaf_loop_spec w Hw (64 * length k)); auto; try lia.
  pose proof (val_bound k L). unfold Bn in *. rewrite Nat2Z.inj_mul. change (Z.of_nat 64) with 64. lia.
Qed.

(** The remaining scalars: the carry out of the top limb is lost. *)
Lemma find_wnaf_carry_digits w k : (1 <= w <= 29)%nat -> limbs k -> (1 <= length k)%nat ->
  Bn (length k) - 2 ^ Z.of_nat w < val k -> Z.odd (val k) = true ->
  find_wnaf w k = Ok ((val k - Bn (length k)) :: repeat 0 (64 * length k)).
Proof.
  intros Hw L N Hv Ho.
  destruct (wnaf_digit_spec w k Hw L N Ho) as (u & Eu & Ou & Au & Mu).
  pose proof (val_bound k L) as Hb.
  set (W := 2 ^ Z.of_nat w) in *. assert (HW : 0 < W) by (apply pow2_pos; lia).
  assert (EW : 2 ^ (Z.of_nat w + 1) = W * 2) by (rewrite Z.pow_add_r by lia; reflexivity).
  destruct (Bn_multiple (length k) w N ltac:(lia)) as [t Ht].
  rewrite EW in *. apply Z.mod_divide in Mu as [q Hq]; [|lia].
  assert (q = t) by nia. subst q.
  assert (Huv : u = val k - Bn (length k)) by lia.
  assert (E : wnaf_step w k = Ok (u, mpn_rshift (limbs_of (length k) (Bn (length k))) 1)).
  { unfold wnaf_step. rewrite land1_odd.
    assert (Eodd : Z.odd (nth 0 k 0) = Z.odd (val k)).
    { rewrite val_nth0 by auto. rewrite (Z.div_mod (val k) B) at 2 by (rewrite B_eq; lia).
      rewrite Z.odd_add, Z.odd_mul. change (Z.odd B) with false. cbn [andb]. now rewrite xorb_false_l. }
    rewrite Eodd, Ho, Eu. cbn [bind].
    replace (0 <? u) with false by (symmetry; apply Z.ltb_ge; lia).
    unfold mpn_add_1. cbn [fst]. do 4 f_equal. lia. }
  assert (Z0 : val (mpn_rshift (limbs_of (length k) (Bn (length k))) 1) = 0).
  { unfold mpn_rshift. rewrite limbs_of_length, !val_limbs_of, Z_mod_same_full. reflexivity. }
  unfold find_wnaf. replace (64 * length k + 2)%nat with (S (S (64 * length k))) by lia.
  replace (64 * length k + 1)%nat with (S (64 * length k)) by lia.
  remember (S (64 * length k)) as f. cbn [wnaf_loop]. rewrite is_zero_val by auto.
  pose proof (pow_le_B w ltac:(lia)) as HB. fold W in HB.
  replace (val k =? 0) with false.
  2:{ symmetry. apply Z.eqb_neq. intros E0. rewrite E0 in Ho. discriminate. }
  rewrite E. cbn [bind]. subst f. rewrite wnaf_loop_zero by (auto; apply limbs_of_limbs).
  cbn [bind]. now rewrite Huv.
Qed.
Theorem find_wnaf_carry_lost w k : (1 <= w <= 29)%nat -> limbs k -> (1 <= length k)%nat ->
  Bn (length k) - 2 ^ Z.of_nat w < val k -> Z.odd (val k) = true ->
  exists ds, find_wnaf w k = Ok ds /\ digits_val ds = val k - Bn (length k).
Proof.
  intros Hw L N Hv Ho. rewrite (find_wnaf_carry_digits w k) by auto.
  eexists; split; [reflexivity|]. cbn [digits_val]. rewrite digits_repeat. lia.
Qed.

Lemma wnaf_wide_ub w k : (31 <= w)%nat -> limbs k -> Z.odd (val k) = true -> find_wnaf w k = UB.
Proof.
  intros Hw L Ho. unfold find_wnaf. destruct k as [|x k]; [discriminate|].
  rewrite Nat.add_comm. cbn [Nat.add wnaf_loop]. rewrite is_zero_val by auto.
  replace (val _ =? 0) with false.
  2:{ symmetry. apply Z.eqb_neq. intros E0. rewrite E0 in Ho. discriminate. }
  unfold wnaf_step. rewrite land1_odd.
  assert (Z.odd (nth 0 (x :: k) 0) = true) as ->.
  { cbn [nth]. cbn [val] in Ho. now rewrite Z.odd_add, Z.odd_mul, xorb_false_r in Ho. }
  unfold wnaf_digit. replace (31 <=? w)%nat with true by (symmetry; now apply Nat.leb_le). reflexivity.
Qed.

Section Group.
Context {T G : Type} (O : gops T) (ok : T -> Prop) (den : T -> G)
  (z : G) (add : G -> G -> G) (opp : G -> G).
Hypothesis GO : gops_ok O ok den z add opp.
Notation mul := (gmul z add opp).
Let AG := go_group _ _ _ _ _ _ GO.

Lemma testbit_div v j : 0 <= j -> v / 2 ^ j = 2 * (v / 2 ^ (j + 1)) + Z.b2z (Z.testbit v j).
Proof.
  intros Hj. rewrite Z.pow_add_r, <- Z.div_div, Z.testbit_spec' by (try apply Z.pow_nonzero; lia).
  apply Z.div_mod. lia.
Qed.

Lemma scalar_mul_loop_spec k base i : forall found r, limbs k -> ok base -> ok r ->
  den r = mul (val k / 2 ^ Z.of_nat i) (den base) ->
  (found = false -> val k / 2 ^ Z.of_nat i = 0) ->
  ok (scalar_mul_loop O i k base found r) /\
  den (scalar_mul_loop O i k base found r) = mul (val k) (den base).
Proof.
  induction i as [|i IH]; intros found r L Hb Hr D F.
  - cbn [scalar_mul_loop]. change (2 ^ Z.of_nat 0) with 1 in D. rewrite Z.div_1_r in D. auto.
  - cbn [scalar_mul_loop]. rewrite bigint_test_bit_spec by (auto; lia).
    rewrite Nat2Z.inj_succ in *.
    pose proof (testbit_div (val k) (Z.of_nat i) ltac:(lia)) as Ed.
    rewrite Z.add_1_r in Ed. set (q := val k / 2 ^ Z.succ (Z.of_nat i)) in *.
    set (r1 := if found then g_dbl O r else r).
    assert (Hr1 : ok r1 /\ den r1 = mul (2 * q) (den base)).
    { unfold r1. destruct found.
      - destruct (go_dbl _ _ _ _ _ _ GO r Hr) as [O1 D1]. split; auto.
        rewrite D1, D. replace (2 * q) with (q + q) by lia. now rewrite (gmul_add z add opp AG).
      - split; auto. rewrite D. rewrite (F eq_refl). reflexivity. }
    destruct Hr1 as [O1 D1].
    destruct (Z.testbit (val k) (Z.of_nat i)) eqn:Eb; cbn [Z.b2z] in Ed.
    + destruct (go_add _ _ _ _ _ _ GO r1 base O1 Hb) as [O2 D2].
      apply IH; auto; [|easy]. rewrite D2, D1, Ed. now rewrite (gmul_succ z add opp AG).
    + apply IH; auto; rewrite Ed, Z.add_0_r; auto. intros ->. rewrite (F eq_refl). reflexivity.
Qed.

Theorem scalar_mul_spec base k : limbs k -> ok base ->
  ok (scalar_mul O base k) /\ den (scalar_mul O base k) = mul (val k) (den base).
Proof.
  intros L Hb. unfold scalar_mul. destruct (go_zero _ _ _ _ _ _ GO) as [Oz Dz].
  assert (E : val k / 2 ^ Z.of_nat (64 * length k) = 0).
  { apply Z.div_small. pose proof (val_bound k L). unfold Bn in *.
    rewrite Nat2Z.inj_mul. change (Z.of_nat 64) with 64. lia. }
  apply scalar_mul_loop_spec; auto. rewrite E. exact Dz.
Qed.

Lemma wnaf_table_spec n : forall tmp dbl, ok tmp -> ok dbl ->
  length (wnaf_table O n tmp dbl) = n /\
  forall i, (i < n)%nat -> exists t, nth_error (wnaf_table O n tmp dbl) i = Some t /\ ok t /\
     den t = add (den tmp) (mul (Z.of_nat i) (den dbl)).
Proof.
  induction n; intros tmp dbl Ht Hd; cbn [wnaf_table length].
  - split; auto. intros i Hi. lia.
  - destruct (go_add _ _ _ _ _ _ GO tmp dbl Ht Hd) as [O1 D1].
    destruct (IHn _ dbl O1 Hd) as [L I]. split; [lia|]. intros [|i] Hi.
    + exists tmp. split; auto. split; auto. cbn [Z.of_nat]. rewrite gmul_0. now rewrite (ag_0_r z add opp AG).
    + destruct (I i ltac:(lia)) as (t & E & Ot & Dt). exists t. split; auto. split; auto.
      rewrite Dt, D1, <- (ag_assoc z add opp AG). f_equal.
      rewrite Nat2Z.inj_succ, <- Z.add_1_r, (gmul_succ z add opp AG). apply (ag_commut z add opp AG).
Qed.

Lemma wnaf_eval_spec w base table : (1 <= w)%nat -> ok base ->
  (forall i, 0 <= i < 2 ^ (Z.of_nat w - 1) ->
    exists t, vec_at table i = Ok t /\ ok t /\ den t = mul (2 * i + 1) (den base)) ->
  forall ds found r acc, ok r -> den r = mul acc (den base) -> (found = false -> acc = 0) ->
  Forall (fun d => d = 0 \/ (Z.odd d = true /\ Z.abs d < 2 ^ Z.of_nat w)) ds ->
  exists t, wnaf_eval O ds table found r = Ok t /\ ok t /\
    den t = mul (fold_left (fun a d => 2 * a + d) ds acc) (den base).
Proof.
  intros Hw Hb Ht. induction ds as [|d ds IH]; intros found r acc Or Dr Hf Fd; cbn [wnaf_eval fold_left].
  - eauto.
  - inversion Fd as [|? ? Hd Fd']; subst.
    set (r1 := if found then g_dbl O r else r).
    assert (Hr1 : ok r1 /\ den r1 = mul (2 * acc) (den base)).
    { unfold r1. destruct found.
      - destruct (go_dbl _ _ _ _ _ _ GO r Or) as [O1 D1]. split; auto.
        rewrite D1, Dr. replace (2 * acc) with (acc + acc) by lia. now rewrite (gmul_add z add opp AG).
      - split; auto. rewrite Dr. rewrite (Hf eq_refl). reflexivity. }
    destruct Hr1 as [O1 D1]. fold r1.
    destruct (Z.eqb_spec d 0) as [->|Hd0].
    + apply IH; auto; [rewrite Z.add_0_r; auto|]. intros F. rewrite (Hf F). reflexivity.
    + destruct Hd as [|[Od Ad]]; [easy|]. apply Z.odd_spec in Od as [m Hm].
      assert (EW : 2 ^ Z.of_nat w = 2 * 2 ^ (Z.of_nat w - 1))
        by (rewrite <- Z.pow_succ_r by lia; f_equal; lia).
      destruct (Z.ltb_spec 0 d).
      * assert (Q : Z.quot d 2 = m).
        { rewrite Z.quot_div_nonneg by lia. rewrite Hm. symmetry. apply (Z.div_unique _ _ _ 1); lia. }
        rewrite Q. destruct (Ht m ltac:(lia)) as (t & Et & Ot & Dt). rewrite Et. cbn [bind].
        destruct (go_add _ _ _ _ _ _ GO r1 t O1 Ot) as [O2 D2].
        apply IH; auto; [|easy]. rewrite D2, D1, Dt, <- Hm. now rewrite (gmul_add z add opp AG).
      * assert (Q : Z.quot (- d) 2 = - m - 1).
        { rewrite Z.quot_div_nonneg by lia. rewrite Hm. symmetry. apply (Z.div_unique _ _ _ 1); lia. }
        rewrite Q. destruct (Ht (- m - 1) ltac:(lia)) as (t & Et & Ot & Dt). rewrite Et. cbn [bind].
        destruct (go_sub _ _ _ _ _ _ GO r1 t O1 Ot) as [O2 D2].
        apply IH; auto; [|easy]. rewrite D2, D1, Dt.
        replace (2 * (- m - 1) + 1) with (- d) by lia.
        rewrite <- (gmul_opp z add opp AG), Z.opp_involutive. now rewrite (gmul_add z add opp AG).
Qed.

Lemma fold_digits ds : forall acc,
  fold_left (fun a d => 2 * a + d) (rev ds) acc = acc * 2 ^ Z.of_nat (length ds) + digits_val ds.
Proof.
  induction ds as [|d ds IH]; intros acc; cbn [rev].
  - cbn. lia.
  - rewrite fold_left_app, IH. cbn [fold_left digits_val length].
    rewrite Nat2Z.inj_succ, Z.pow_succ_r by lia. ring.
Qed.

Theorem fixed_window_wnaf_exp_spec w base k : (1 <= w <= 29)%nat -> limbs k -> (1 <= length k)%nat ->
  (val k <= Bn (length k) - 2 ^ Z.of_nat w \/ Z.odd (val k) = false) -> ok base ->
  exists t, fixed_window_wnaf_exp O w base k = Ok t /\ ok t /\ den t = mul (val k) (den base).
Proof.
  intros Hw L N Hv Hb. unfold fixed_window_wnaf_exp.
  destruct (find_wnaf_spec w k Hw L N Hv) as (ds & E & Ls & Vs & Ws). rewrite E. cbn [bind].
  replace (w =? 0)%nat with false by (symmetry; apply Nat.eqb_neq; lia).
  replace (64 <? w)%nat with false by (symmetry; apply Nat.ltb_ge; lia). cbn [orb].
  destruct (go_dbl _ _ _ _ _ _ GO base Hb) as [Od Dd].
  destruct (go_zero _ _ _ _ _ _ GO) as [Oz Dz].
  set (cnt := Z.to_nat (2 ^ (Z.of_nat w - 1))).
  destruct (wnaf_table_spec cnt base (g_dbl O base) Hb Od) as [Lt It].
  destruct (wnaf_eval_spec w base (wnaf_table O cnt base (g_dbl O base)) ltac:(lia) Hb) with
    (ds := rev ds) (found := false) (r := g_zero O) (acc := 0) as (t & Et & Ot & Dt); auto.
  - intros i Hi. destruct (It (Z.to_nat i)) as (t & Et & Ot & Dt); [unfold cnt; lia|].
    exists t. unfold vec_at. replace (i <? 0) with false by (symmetry; apply Z.ltb_ge; lia).
    rewrite Et. split; auto. split; auto. rewrite Dt, Dd, Z2Nat.id by lia.
    rewrite (gmul_distr z add opp AG), <- (gmul_add z add opp AG), (ag_commut z add opp AG),
      <- (gmul_succ z add opp AG). f_equal. lia.
  - apply Forall_rev. apply Forall_forall. intros d Hd. apply (In_nth _ _ 0) in Hd as (i & Hi & <-).
    now apply wf_digits.
  - exists t. split; auto. split; auto. rewrite Dt, fold_digits, Z.mul_0_l, Vs. reflexivity.
Qed.

Lemma best_window_le rt b : (best_window rt b <= length rt)%nat.
Proof. induction rt; cbn; auto. destruct (_ <=? _); lia. Qed.

Theorem opt_window_wnaf_exp_spec tbl base k bits : (length tbl <= 29)%nat -> limbs k -> (1 <= length k)%nat ->
  (val k <= Bn (length k) - 2 ^ Z.of_nat (length tbl) \/ Z.odd (val k) = false) -> ok base ->
  exists t, opt_window_wnaf_exp O tbl base k bits = Ok t /\ ok t /\ den t = mul (val k) (den base).
Proof.
  intros Ht L N Hv Hb. unfold opt_window_wnaf_exp.
  pose proof (best_window_le (rev tbl) bits) as Hw. rewrite rev_length in Hw.
  destruct (best_window (rev tbl) bits) as [|w] eqn:E.
  - eexists; split; [reflexivity|]. now apply scalar_mul_spec.
  - apply fixed_window_wnaf_exp_spec; auto; [lia|].
    destruct Hv as [Hv|Hv]; [left|now right].
    assert (2 ^ Z.of_nat (S w) <= 2 ^ Z.of_nat (length tbl)) by (apply Z.pow_le_mono_r; lia). lia.
Qed.
End Group.
