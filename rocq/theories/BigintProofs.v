(** Correctness of the [bigint<n>] model with respect to the integer [val]. *)
From Coq Require Import ZArith List Lia Bool.
From Verif Require Import Result Limbs LimbsProofs StreamModel StreamProofs BigintModel.
Import ListNotations.
Open Scope Z_scope.

Lemma bigint_of_ulong_spec n x : (1 <= n)%nat -> is_limb x ->
  val (bigint_of_ulong n x) = x /\ limbs (bigint_of_ulong n x) /\
  length (bigint_of_ulong n x) = n.
Proof.
  intros Hn Hx. unfold bigint_of_ulong. cbn [val length].
  rewrite val_repeat_0, repeat_length. repeat split; try lia.
  apply limbs_cons; split; auto using limbs_repeat_0.
Qed.

Lemma bigint_one_spec n : (1 <= n)%nat ->
  val (bigint_one n) = 1 /\ limbs (bigint_one n) /\ length (bigint_one n) = n.
Proof. intros. apply bigint_of_ulong_spec; auto. split; [lia|reflexivity]. Qed.

Lemma set_str_size_le n v : 0 <= v -> (set_str_size v <= n)%nat <-> v < Bn n.
Proof.
  intros Hv. unfold set_str_size, Bn. destruct (v =? 0) eqn:E.
  - apply Z.eqb_eq in E; subst. split; intros; [|lia].
    apply Z.pow_pos_nonneg; lia.
  - apply Z.eqb_neq in E. assert (Hp : 0 < v) by lia.
    rewrite (Z.log2_lt_pow2 v) by lia.
    pose proof (Z.log2_nonneg v). pose proof (Z.div_mod (Z.log2 v) 64).
    pose proof (Z.mod_pos_bound (Z.log2 v) 64).
    pose proof (Z.div_pos (Z.log2 v) 64).
    rewrite Nat2Z.inj_le, Nat2Z.inj_succ, Z2Nat.id by lia. lia.
Qed.

Lemma bigint_of_string_ok n s :
  s <> [] -> Forall (fun c => is_digit c = true) s -> digits_val s < Bn n ->
  exists b, bigint_of_string n s = Ok b /\ val b = digits_val s /\
            limbs b /\ length b = n.
Proof.
  intros Hne Hd Hv. unfold bigint_of_string.
  pose proof (digits_val_nonneg s Hd) as H0.
  rewrite (proj2 (forallb_Forall _ _) Hd).
  destruct s as [|c s]; [congruence|].
  pose proof (proj2 (set_str_size_le n _ H0) Hv) as Hs.
  destruct (n <? set_str_size (digits_val (c :: s)))%nat eqn:E.
  - apply Nat.ltb_lt in E. lia.
  - eexists; repeat split.
    + apply val_limbs_of_small; lia.
    + apply limbs_of_limbs.
    + apply limbs_of_length.
Qed.

Lemma bigint_of_string_ok_inv n s b :
  bigint_of_string n s = Ok b ->
  s <> [] /\ Forall (fun c => is_digit c = true) s /\ digits_val s < Bn n /\
  val b = digits_val s /\ limbs b /\ length b = n.
Proof.
  unfold bigint_of_string. intros H.
  destruct (forallb is_digit s) eqn:E; [|discriminate].
  apply forallb_Forall in E. destruct s as [|c s]; [discriminate|].
  destruct (n <? _)%nat eqn:E2; [discriminate|]. injection H as <-.
  apply Nat.ltb_ge in E2. pose proof (digits_val_nonneg _ E) as H0.
  apply set_str_size_le in E2; auto.
  repeat split; auto; try discriminate.
  - apply val_limbs_of_small; lia.
  - apply limbs_of_limbs.
  - apply limbs_of_length.
Qed.

Lemma bigint_of_mpz_loop_spec n k : 0 <= k ->
  bigint_of_mpz_loop n k = (limbs_of n k, k / Bn n).
Proof.
  revert k; induction n as [|n IH]; intros k Hk; cbn [bigint_of_mpz_loop limbs_of].
  - rewrite Bn_0, Z.div_1_r; auto.
  - rewrite IH by (apply Z.div_pos; [lia|reflexivity]).
    rewrite Z.abs_eq by lia.
    pose proof (Bn_pos n).
    rewrite Bn_S, Z.div_div by (lia || discriminate || reflexivity). auto.
Qed.

Lemma bigint_of_mpz_loop_neg n k : k < 0 -> snd (bigint_of_mpz_loop n k) < 0.
Proof.
  revert k; induction n as [|n IH]; intros k Hk; cbn [bigint_of_mpz_loop].
  - auto.
  - specialize (IH (k / B)). destruct (bigint_of_mpz_loop n (k / B)).
    cbn [snd] in *. apply IH. apply Z.div_lt_upper_bound; [reflexivity|lia].
Qed.

Lemma bigint_of_mpz_ok n r :
  (0 <= r < Bn n -> bigint_of_mpz n r = Ok (limbs_of n r)) /\
  (~ 0 <= r < Bn n -> bigint_of_mpz n r = AssertFail).
Proof.
  pose proof (Bn_pos n). unfold bigint_of_mpz. split; intros Hr.
  - rewrite bigint_of_mpz_loop_spec by lia.
    rewrite Z.div_small by lia. reflexivity.
  - destruct (Z_lt_ge_dec r 0) as [Hn|Hn].
    + pose proof (bigint_of_mpz_loop_neg n r Hn).
      destruct (bigint_of_mpz_loop n r). cbn [snd] in *.
      unfold assert_then. destruct (z =? 0) eqn:E; auto. apply Z.eqb_eq in E. lia.
    + rewrite bigint_of_mpz_loop_spec by lia. unfold assert_then.
      destruct (r / Bn n =? 0) eqn:E; auto. apply Z.eqb_eq in E.
      apply Z.div_small_iff in E; lia.
Qed.

Lemma bigint_eqb_spec a b : limbs a -> limbs b -> length a = length b ->
  (bigint_eqb a b = true <-> a = b).
Proof.
  intros Ha Hb Hl. unfold bigint_eqb.
  destruct (mpn_cmp_spec a b); split; intros; try discriminate; auto.
  - apply val_inj; auto.
  - subst; lia.
  - subst; lia.
Qed.

Lemma bigint_eqb_val a b : bigint_eqb a b = (val a =? val b).
Proof.
  unfold bigint_eqb. destruct (mpn_cmp_spec a b); symmetry.
  - now apply Z.eqb_eq.
  - apply Z.eqb_neq; lia.
  - apply Z.eqb_neq; lia.
Qed.

Lemma bigint_ltb_val a b : bigint_ltb a b = (val a <? val b).
Proof.
  unfold bigint_ltb. destruct (mpn_cmp_spec a b); symmetry.
  - apply Z.ltb_ge; lia.
  - now apply Z.ltb_lt.
  - apply Z.ltb_ge; lia.
Qed.

Lemma bigint_is_zero_spec a : limbs a -> bigint_is_zero a = (val a =? 0).
Proof.
  induction a as [|x a IH]; intros H; cbn [bigint_is_zero val]; auto.
  apply limbs_cons in H as [Hx Ha]. pose proof (val_nonneg a Ha).
  unfold is_limb in Hx. pose proof B_pos.
  destruct (x =? 0) eqn:E; cbn [negb].
  - apply Z.eqb_eq in E; subst. rewrite IH by auto.
    destruct (val a =? 0) eqn:E; symmetry.
    + apply Z.eqb_eq in E. apply Z.eqb_eq. lia.
    + apply Z.eqb_neq in E. apply Z.eqb_neq. nia.
  - apply Z.eqb_neq in E. symmetry. apply Z.eqb_neq. nia.
Qed.

Lemma val_mod_B x a : is_limb x -> val (x :: a) mod B = x.
Proof.
  intros Hx. cbn [val]. rewrite (Z.mul_comm B), Z_mod_plus_full.
  apply Z.mod_small, Hx.
Qed.

Lemma bigint_as_ulong_spec a : limbs a -> bigint_as_ulong a = val a mod B.
Proof.
  destruct a as [|x a]; intros H; [reflexivity|].
  apply limbs_cons in H as [Hx _]. rewrite val_mod_B; auto.
Qed.

Lemma bigint_is_even_spec a : limbs a -> bigint_is_even a = Z.even (val a).
Proof.
  destruct a as [|x a]; intros H; [reflexivity|].
  unfold bigint_is_even. cbn [nth val].
  change 1 with (Z.ones 1). rewrite Z.land_ones by lia.
  rewrite Z.even_add, Z.even_mul. cbn [Z.even orb B].
  change (2 ^ 1) with 2. rewrite (Zmod_even x).
  destruct (Z.even x); reflexivity.
Qed.

Definition bit_length (v : Z) : Z := if v =? 0 then 0 else Z.log2 v + 1.

Lemma val_firstn_S a j : (j < length a)%nat ->
  val (firstn (S j) a) = val (firstn j a) + Bn j * nth j a 0.
Proof.
  revert j; induction a as [|x a IH]; intros j Hj; [cbn in Hj; lia|].
  destruct j as [|j].
  - cbn [firstn val nth]. rewrite Bn_0. lia.
  - cbn [length] in Hj. cbn [nth].
    change (firstn (S (S j)) (x :: a)) with (x :: firstn (S j) a).
    change (firstn (S j) (x :: a)) with (x :: firstn j a).
    cbn [val]. rewrite IH by lia. rewrite Bn_S. ring.
Qed.

Lemma log2_top n lo x : 0 <= lo < Bn n -> 0 < x ->
  Z.log2 (lo + Bn n * x) = 64 * Z.of_nat n + Z.log2 x.
Proof.
  intros Hlo Hx. unfold Bn in *.
  apply Z.log2_unique; [pose proof (Z.log2_nonneg x); lia|].
  pose proof (Z.log2_nonneg x). pose proof (Z.log2_spec x Hx) as [H1 H2].
  set (p := 2 ^ (64 * Z.of_nat n)) in *.
  assert (Hp : 0 < p) by lia.
  rewrite Z.pow_succ_r in * by lia.
  rewrite Z.pow_add_r by lia. fold p. nia.
Qed.

Lemma num_bits_loop_spec a i : limbs a -> (i <= length a)%nat ->
  num_bits_loop a i = bit_length (val (firstn i a)).
Proof.
  intros Ha. induction i as [|j IH]; intros Hi; cbn [num_bits_loop].
  - reflexivity.
  - rewrite val_firstn_S by lia.
    pose proof (limbs_nth a j Ha) as Hn. unfold is_limb in Hn.
    pose proof (limbs_firstn j a Ha) as Hf.
    pose proof (val_bound _ Hf) as Hb. rewrite firstn_length_le in Hb by lia.
    destruct (nth j a 0 =? 0) eqn:E.
    + apply Z.eqb_eq in E. rewrite E, IH by lia. f_equal; lia.
    + apply Z.eqb_neq in E. unfold bit_length, clzl.
      replace (_ =? 0) with false.
      2:{ symmetry. apply Z.eqb_neq. pose proof (Bn_pos j). nia. }
      rewrite log2_top by lia. lia.
Qed.

Lemma bigint_num_bits_spec a : limbs a -> bigint_num_bits a = bit_length (val a).
Proof.
  intros H. unfold bigint_num_bits. rewrite num_bits_loop_spec by auto.
  now rewrite firstn_all.
Qed.

Lemma bit_length_spec v : 0 <= v ->
  0 <= bit_length v /\ v < 2 ^ bit_length v /\
  (0 < v -> 2 ^ (bit_length v - 1) <= v).
Proof.
  intros Hv. unfold bit_length. destruct (v =? 0) eqn:E.
  - apply Z.eqb_eq in E; subst. repeat split; lia.
  - apply Z.eqb_neq in E. pose proof (Z.log2_nonneg v).
    pose proof (Z.log2_spec v). rewrite Z.add_simpl_r.
    rewrite <- Z.add_1_r in *. lia.
Qed.

Lemma testbit_limbs a i : limbs a -> 0 <= i ->
  Z.testbit (val a) i = Z.testbit (nth (Z.to_nat (i / 64)) a 0) (i mod 64).
Proof.
  revert i; induction a as [|x a IH]; intros i H Hi.
  - cbn [val]. rewrite Z.bits_0. destruct (Z.to_nat (i / 64)); cbn [nth];
      now rewrite Z.bits_0.
  - apply limbs_cons in H as [Hx Ha]. cbn [val]. unfold is_limb in Hx.
    rewrite B_eq in *.
    assert (E : x + 2 ^ 64 * val a = Z.lor x (Z.shiftl (val a) 64)).
    { rewrite Z.shiftl_mul_pow2 by lia. rewrite Z.mul_comm.
      assert (L : Z.land x (val a * 2 ^ 64) = 0).
      { apply Z.bits_inj'. intros k Hk.
        rewrite Z.land_spec, Z.bits_0, <- Z.shiftl_mul_pow2, Z.shiftl_spec by lia.
        destruct (Z_lt_ge_dec k 64).
        - rewrite (Z.testbit_neg_r (val a)) by lia. apply andb_false_r.
        - replace x with (x mod 2 ^ 64) by (apply Z.mod_small; lia).
          rewrite Z.mod_pow2_bits_high by lia. auto. }
      rewrite <- Z.lxor_lor by auto. now rewrite <- Z.add_nocarry_lxor by auto. }
    rewrite E, Z.lor_spec, Z.shiftl_spec by lia.
    destruct (Z_lt_ge_dec i 64).
    + rewrite (Z.testbit_neg_r (val a)) by lia. rewrite orb_false_r.
      rewrite Z.div_small, Z.mod_small by lia. reflexivity.
    + replace x with (x mod 2 ^ 64) at 1 by (apply Z.mod_small; lia).
      rewrite Z.mod_pow2_bits_high by lia. cbn [orb].
      rewrite IH by (auto; lia).
      replace i with ((i - 64) + 1 * 64) at 3 4 by lia.
      rewrite Z_div_plus_full, Z_mod_plus_full by lia.
      rewrite Z2Nat.inj_add by (try apply Z.div_pos; lia).
      rewrite Nat.add_1_r. reflexivity.
Qed.

Lemma land_pow2_testbit x b : 0 <= b ->
  negb (Z.land x (Z.shiftl 1 b) =? 0) = Z.testbit x b.
Proof.
  intros Hb. rewrite Z.shiftl_1_l.
  destruct (Z.testbit x b) eqn:E.
  - destruct (Z.land x (2 ^ b) =? 0) eqn:E2; auto.
    apply Z.eqb_eq in E2. apply (f_equal (fun z => Z.testbit z b)) in E2.
    rewrite Z.land_spec, Z.pow2_bits_true, E, Z.bits_0 in E2 by auto. discriminate.
  - replace (Z.land x (2 ^ b)) with 0; auto.
    symmetry. apply Z.bits_inj'. intros k Hk.
    rewrite Z.land_spec, Z.bits_0, Z.pow2_bits_eqb by auto.
    destruct (b =? k) eqn:E2; [|apply andb_false_r].
    apply Z.eqb_eq in E2; subst. now rewrite E.
Qed.

Lemma bigint_test_bit_spec a i : limbs a -> 0 <= i ->
  bigint_test_bit a i = Z.testbit (val a) i.
Proof.
  intros Ha Hi. unfold bigint_test_bit.
  destruct (_ <=? i) eqn:E.
  - apply Z.leb_le in E. symmetry.
    pose proof (val_bound a Ha) as Hb. unfold Bn in Hb.
    replace (val a) with (val a mod 2 ^ (64 * Z.of_nat (length a)))
      by (apply Z.mod_small; lia).
    apply Z.mod_pow2_bits_high. lia.
  - rewrite testbit_limbs by auto.
    replace (i - 64 * (i / 64)) with (i mod 64) by (pose proof (Z.div_mod i 64); lia).
    apply land_pow2_testbit. apply Z.mod_pos_bound; lia.
Qed.

Lemma bigint_to_mpz_spec a : bigint_to_mpz a = val a.
Proof.
  unfold bigint_to_mpz. rewrite <- B_eq.
  induction a as [|x a IH]; cbn [rev val]; auto.
  rewrite fold_left_app. cbn [fold_left]. rewrite IH. ring.
Qed.

Lemma bigint_clear_spec a : val (bigint_clear a) = 0.
Proof. apply val_repeat_0. Qed.

Lemma bigint_randomize_spec n src :
  limbs (bigint_randomize n src) /\ length (bigint_randomize n src) = n.
Proof.
  revert src; induction n as [|n IH]; intros src; cbn [bigint_randomize length].
  - split; [constructor|auto].
  - destruct (IH (fun i => src (S (S i)))) as [H1 H2]. split; auto.
    apply limbs_cons; split; auto. unfold is_limb. rewrite B_eq.
    pose proof (Z.mod_pos_bound (src 0%nat) (2 ^ 32)).
    pose proof (Z.mod_pos_bound (src 1%nat) (2 ^ 32)). lia.
Qed.

(** ** I/O *)

Lemma dec_roundtrip n v : 0 <= v < Bn n ->
  bigint_of_string n (dec v) = Ok (limbs_of n v).
Proof.
  intros Hv. unfold bigint_of_string.
  rewrite (proj2 (forallb_Forall _ _) (dec_digits v (proj1 Hv))).
  pose proof (dec_nonempty v). rewrite dec_val by lia.
  destruct (dec v) eqn:E; [congruence|].
  replace (n <? set_str_size v)%nat with false; auto.
  symmetry. apply Nat.ltb_ge. apply set_str_size_le; lia.
Qed.

Lemma bigint_text_roundtrip w a rest :
  limbs a -> token_end rest -> Forall (fun c => is_space c = true) w ->
  bigint_read_text (length a) (w ++ bigint_write_text a ++ rest) = Ok (a, rest).
Proof.
  intros Ha Hr Hw. unfold bigint_read_text, bigint_write_text.
  rewrite bigint_to_mpz_spec. pose proof (val_bound a Ha).
  rewrite read_string_dec by (auto; lia).
  rewrite dec_roundtrip by auto. rewrite limbs_of_val by auto. reflexivity.
Qed.

Lemma firstn_length_app {A} (a b : list A) : firstn (length a) (a ++ b) = a.
Proof.
  rewrite firstn_app, Nat.sub_diag, firstn_all. cbn. apply app_nil_r.
Qed.
Lemma skipn_length_app {A} (a b : list A) : skipn (length a) (a ++ b) = b.
Proof. rewrite skipn_app, Nat.sub_diag, skipn_all. reflexivity. Qed.

Lemma write_bin_length a : length (bigint_write_bin a) = (8 * length a)%nat.
Proof.
  unfold bigint_write_bin. induction a as [|x a IH]; [reflexivity|].
  cbn [flat_map length]. rewrite app_length, le_bytes_length, IH. lia.
Qed.

Lemma limbs_of_write_bin a : limbs a ->
  limbs_of_bytes (length a) (bigint_write_bin a) = a.
Proof.
  unfold bigint_write_bin. induction a as [|x a IH]; intros H; [reflexivity|].
  apply limbs_cons in H as [Hx Ha].
  cbn [flat_map length limbs_of_bytes].
  pose proof (le_bytes_length 8 x) as L8. rewrite <- L8 at 1.
  rewrite firstn_length_app. rewrite le_val_bytes.
  2:{ unfold is_limb in Hx. change (256 ^ Z.of_nat 8) with B. auto. }
  f_equal. rewrite <- L8 at 1. rewrite skipn_length_app. auto.
Qed.

Lemma bigint_bin_roundtrip a rest : limbs a ->
  bigint_read_bin (length a) (bigint_write_bin a ++ rest) = Ok (a, rest).
Proof.
  intros Ha. unfold bigint_read_bin, read_bytes.
  replace (_ <? _)%nat with false.
  2:{ symmetry. apply Nat.ltb_ge. rewrite app_length, write_bin_length. lia. }
  rewrite <- write_bin_length, firstn_length_app, skipn_length_app.
  cbn [bind]. now rewrite limbs_of_write_bin.
Qed.
