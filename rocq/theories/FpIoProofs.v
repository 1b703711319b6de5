(** Prime-field serialisation, word conversion and random sampling. *)
From Coq Require Import ZArith List Lia Bool Znumtheory.
From Verif Require Import Result Limbs LimbsProofs StreamModel StreamProofs
  BigintModel BigintProofs FpModel FpSpec FpProofs.
Import ListNotations.
Open Scope Z_scope.

Lemma upd_length {A} (l : list A) i x : length (upd l i x) = length l.
Proof. revert i; induction l; intros [|i]; cbn; auto. Qed.

Lemma nth_upd {A} (l : list A) i j x d : (i < length l)%nat ->
  nth j (upd l i x) d = if (j =? i)%nat then x else nth j l d.
Proof.
  revert i j; induction l as [|y l IH]; intros [|i] [|j] H; cbn in *; try lia; auto.
  apply IH. lia.
Qed.

Lemma upd_same {A} (l : list A) i d : upd l i (nth i l d) = l.
Proof. revert i; induction l; intros [|i]; cbn; f_equal; auto. Qed.

Lemma limbs_upd l i x : limbs l -> is_limb x -> limbs (upd l i x).
Proof.
  revert i; induction l as [|y l IH]; intros [|i] Hl Hx; cbn [upd]; auto;
    apply limbs_cons in Hl as [Hy Hl]; apply limbs_cons; auto.
Qed.

Section Io.
Variable P : fp_params.
Hypothesis OK : fp_ok P.
Let n := fp_n P.
Let md := fp_modulus P.
Let p := val md.

Lemma bigint_repr_spec mont a : canon P a ->
  exists b, fp_bigint_repr P mont a = Ok b /\ canon P b /\
            (if mont then b = a else val b = den P a).
Proof.
  intros C. unfold fp_bigint_repr. destruct mont.
  - exists a. auto.
  - destruct (as_bigint_spec P OK a) as (r & E & Cr & V & _); try apply C.
    exists r. auto.
Qed.

Lemma unrepr_spec (mont : bool) a b : canon P a -> canon P b ->
  (if mont then b = a else val b = den P a) ->
  (if mont then Ok b else mul_reduce P b (fp_Rsquared P)) = Ok a.
Proof.
  intros Ca Cb H. destruct mont; [now subst|].
  destruct (times_Rsq_spec P OK b) as [_ (r & E & Cr & D)]; try apply Cb.
  rewrite E. f_equal. apply (den_inj P OK); auto. rewrite D, H.
  apply Z.mod_small. apply den_spec; auto; apply Ca.
Qed.

(** Text and binary stream round trip (all four macro combinations). *)
Theorem fp_stream_roundtrip (bin mont : bool) a ws rest : canon P a ->
  (if bin then ws = [] else Forall (fun c => is_space c = true) ws /\ token_end rest) ->
  exists w, fp_write P bin mont a = Ok w /\
            fp_read P bin mont (ws ++ w ++ rest) = Ok (a, rest).
Proof.
  intros C H. destruct (bigint_repr_spec mont a C) as (b & E & Cb & V).
  unfold fp_write, fp_read. rewrite E. cbn [bind].
  eexists; split; [reflexivity|].
  destruct Cb as (Lb & Hb & Bb).
  pose proof (unrepr_spec mont a b C (conj Lb (conj Hb Bb)) V) as U.
  rewrite <- Lb. destruct bin.
  - subst ws. cbn [app]. rewrite bigint_bin_roundtrip by auto. cbn [bind].
    now rewrite U.
  - destruct H. rewrite bigint_text_roundtrip by auto. cbn [bind].
    now rewrite U.
Qed.

Hypothesis NB : fp_num_bits P = bit_length p.
Hypothesis top_nonzero : nth (n - 1) md 0 <> 0.

Lemma num_bits_range : 64 * (Z.of_nat n - 1) < fp_num_bits P <= 64 * Z.of_nat n.
Proof.
  pose proof (ok_n P OK) as Hn. fold n in Hn.
  pose proof (md_len P OK) as Hl. pose proof (md_limbs P OK) as Hm.
  pose proof (p_gt1 P OK) as Hp. fold n in Hl. fold md in Hm, Hl.
  change (val (fp_modulus P)) with p in Hp.
  pose proof (bit_length_spec p ltac:(lia)) as (B0 & B1 & B2).
  rewrite NB. specialize (B2 ltac:(lia)).
  assert (Hb : p < Bn n) by (unfold p; rewrite <- Hl; now apply val_bound).
  assert (Ht : Bn (n - 1) <= p).
  { unfold p. rewrite (val_split (n - 1) md) by lia.
    replace (skipn (n - 1) md) with [nth (n - 1) md 0].
    - cbn [val]. pose proof (val_nonneg _ (limbs_firstn (n - 1) md Hm)).
      pose proof (limbs_nth md (n - 1) Hm) as Hx. unfold is_limb in Hx.
      pose proof (Bn_pos (n - 1)).
      assert (Bn (n - 1) * 1 <= Bn (n - 1) * nth (n - 1) md 0)
        by (apply Z.mul_le_mono_nonneg_l; lia).
      lia.
    - assert (X : forall (l : list Z) k, length l = S k -> skipn k l = [nth k l 0]).
      { clear. intros l k; revert l; induction k as [|k IH]; intros [|y l] H; try discriminate.
        - destruct l; [reflexivity|discriminate].
        - cbn [skipn nth]. apply IH. now injection H. }
      symmetry. apply X. lia. }
  unfold Bn in Hb, Ht. replace (Z.of_nat (n - 1)) with (Z.of_nat n - 1) in Ht by lia.
  split.
  - apply (Z.pow_lt_mono_r_iff 2); lia.
  - destruct (Z_lt_ge_dec (64 * Z.of_nat n) (bit_length p)); [|lia].
    assert (2 ^ (64 * Z.of_nat n) <= 2 ^ (bit_length p - 1)) by (apply Z.pow_le_mono_r; lia).
    lia.
Qed.

(** The n low limbs of [words], masked to [num_bits] bits: what [from_words]
    reads from a vector of exactly n words. *)
Lemma from_words_mask_spec (w : list Z) : limbs w -> length w = n ->
  let off := (Z.of_nat (length w) * 64 - fp_num_bits P) mod 64 in
  let d := upd w (n - 1) (Z.shiftr ((Z.shiftl (nth (n - 1) w 0) off) mod B) off) in
  limbs d /\ length d = n /\ val d = val w mod 2 ^ fp_num_bits P.
Proof.
  intros Hw Lw off d. pose proof num_bits_range as Hr. pose proof (ok_n P OK) as Hn.
  fold n in Hn.
  assert (Hoff : off = Z.of_nat n * 64 - fp_num_bits P).
  { unfold off. rewrite Lw. apply Z.mod_small. lia. }
  set (t := nth (n - 1) w 0) in *.
  assert (Ht : is_limb t) by now apply limbs_nth. unfold is_limb in Ht.
  assert (Hmask : Z.shiftr ((Z.shiftl t off) mod B) off = t mod 2 ^ (64 - off)).
  { rewrite Z.shiftr_div_pow2, Z.shiftl_mul_pow2, B_eq by lia.
    replace (2 ^ 64) with (2 ^ (64 - off) * 2 ^ off) by (rewrite <- Z.pow_add_r; [f_equal|..]; lia).
    rewrite Zmult_mod_distr_r. apply Z.div_mul. lia. }
  assert (Hd : is_limb (t mod 2 ^ (64 - off))).
  { unfold is_limb. pose proof (Z.mod_pos_bound t (2 ^ (64 - off))).
    assert (2 ^ (64 - off) <= 2 ^ 64) by (apply Z.pow_le_mono_r; lia).
    rewrite B_eq. lia. }
  unfold d. rewrite Hmask. split; [now apply limbs_upd|].
  split; [rewrite upd_length; auto|].
  assert (Hs : forall x, val (upd w (n - 1) x) = val (firstn (n - 1) w) + Bn (n - 1) * x).
  { intros x. clear -Lw Hn. revert Lw Hn. generalize n as m.
    induction w as [|y w IH]; intros m Lm Hm; cbn [length] in Lm; [lia|].
    destruct m as [|m]; [lia|]. injection Lm as Lm.
    replace (S m - 1)%nat with m by lia.
    destruct m as [|m].
    - destruct w; [|discriminate]. cbn [upd firstn val]. rewrite Bn_0. ring.
    - specialize (IH (S m) Lm ltac:(lia)). replace (S m - 1)%nat with m in IH by lia.
      cbn [upd firstn val]. rewrite IH. rewrite Bn_S. ring. }
  rewrite Hs. rewrite <- (upd_same w (n - 1) 0) at 2. fold t. rewrite Hs.
  set (lo := val (firstn (n - 1) w)).
  assert (Hlo : 0 <= lo < Bn (n - 1)).
  { unfold lo. pose proof (val_bound _ (limbs_firstn (n - 1) w Hw)) as Hb.
    rewrite firstn_length_le in Hb by lia. auto. }
  unfold Bn in *. replace (Z.of_nat (n - 1)) with (Z.of_nat n - 1) in * by lia.
  replace (fp_num_bits P) with (64 * (Z.of_nat n - 1) + (64 - off)) by lia.
  rewrite Z.pow_add_r by lia. set (X := 2 ^ (64 * (Z.of_nat n - 1))) in *.
  assert (0 < X) by lia. assert (0 < 2 ^ (64 - off)) by (apply Z.pow_pos_nonneg; lia).
  rewrite Z.rem_mul_r by lia.
  rewrite (Z.mul_comm X t), Z_mod_plus_full, Z_div_plus_full by lia.
  rewrite (Z.mod_small lo X), (Z.div_small lo X) by lia. rewrite Z.add_0_l. reflexivity.
Qed.

Lemma from_words_eq mont old w : limbs w -> length w = n -> length old = n ->
  exists d, limbs d /\ length d = n /\ val d = val w mod 2 ^ fp_num_bits P /\
  fp_from_words P mont old w =
    bind (if mont then Ok d else mul_reduce P d (fp_Rsquared P))
         (fun r => Ok (r, bigint_ltb r md)).
Proof.
  intros Hw Lw Lo. pose proof num_bits_range as Hr. pose proof (ok_n P OK) as Hn. fold n in Hn.
  destruct (from_words_mask_spec w Hw Lw) as (L & Len & V). unfold fp_from_words.
  rewrite Lw in *.
  replace (0 <=? _) with true by (symmetry; apply Z.leb_le; lia). cbn [assert_then].
  rewrite (Z.div_small (_ - _)) by lia. cbn [Z.to_nat skipn].
  fold n. rewrite Lw, Nat.ltb_irrefl.
  assert (N : skipn n old = []) by (apply skipn_all2; lia).
  rewrite N, app_nil_r. eexists; split; [exact L|]. split; [exact Len|]. split; [exact V|].
  reflexivity.
Qed.

(** [to_words] then [from_words]. *)
Theorem fp_words_roundtrip mont a old : canon P a -> length old = n ->
  exists w, fp_to_words P mont a = Ok w /\ length w = n /\ limbs w /\
            fp_from_words P mont old w = Ok (a, true).
Proof.
  intros C Lo. destruct (bigint_repr_spec mont a C) as (b & E & Cb & V).
  unfold fp_to_words. rewrite E. exists b.
  destruct Cb as (Lb & Hb & Bb). repeat split; auto.
  destruct (from_words_eq mont old b Hb Lb Lo) as (d & L & Len & Vd & ->).
  pose proof (p_gt1 P OK) as Hp. change (val (fp_modulus P)) with p in Hp.
  assert (d = b).
  { apply val_inj; auto; [unfold n in *; congruence|]. rewrite Vd.
    pose proof (bit_length_spec p ltac:(lia)) as (_ & Hbl & _).
    rewrite NB. apply Z.mod_small. split; [now apply val_nonneg|]. fold md p in Bb. lia. }
  subst d. rewrite (unrepr_spec mont a b); auto; [|repeat split; auto].
  cbn [bind]. rewrite bigint_ltb_val. do 2 f_equal. apply Z.ltb_lt. apply C.
Qed.

(** The Boolean returned by [from_words] on n words: exact under
    MONTGOMERY_OUTPUT, always true otherwise. *)
Theorem from_words_flag_mont old w r b : limbs w -> length w = n -> length old = n ->
  fp_from_words P true old w = Ok (r, b) ->
  (b = true <-> val w mod 2 ^ fp_num_bits P < p).
Proof.
  intros Hw Lw Lo E. destruct (from_words_eq true old w Hw Lw Lo) as (d & L & Len & Vd & E2).
  rewrite E2 in E. cbn [bind] in E. injection E as <- <-.
  rewrite bigint_ltb_val, Z.ltb_lt, Vd. reflexivity.
Qed.

Theorem from_words_flag_default old w : limbs w -> length w = n -> length old = n ->
  exists r, fp_from_words P false old w = Ok (r, true) /\ canon P r /\
            den P r = (val w mod 2 ^ fp_num_bits P) mod p.
Proof.
  intros Hw Lw Lo. destruct (from_words_eq false old w Hw Lw Lo) as (d & L & Len & Vd & E2).
  rewrite E2. destruct (times_Rsq_spec P OK d) as [_ (r & E & Cr & D)]; auto.
  rewrite E. cbn [bind]. exists r. rewrite bigint_ltb_val. split; [|split; auto].
  - do 2 f_equal. apply Z.ltb_lt. apply Cr.
  - rewrite D, Vd. reflexivity.
Qed.

(** *** Random sampling *)

Lemma clear_bit_val r bitno : limbs r -> length r = n -> (bitno < 64 * n)%nat ->
  let part := Nat.div bitno 64 in
  let bit := Z.of_nat bitno - 64 * Z.of_nat part in
  let r' := upd r part (Z.land (nth part r 0) (B - 1 - Z.shiftl 1 bit)) in
  limbs r' /\ length r' = n /\
  forall k, 0 <= k -> Z.testbit (val r') k = Z.testbit (val r) k && negb (k =? Z.of_nat bitno).
Proof.
  intros Hr Lr Hb part bit r'.
  assert (Hpart : (part < n)%nat) by (apply Nat.div_lt_upper_bound; lia).
  assert (Hbit : bit = Z.of_nat bitno mod 64 /\ Z.of_nat part = Z.of_nat bitno / 64).
  { unfold bit, part. rewrite Nat2Z.inj_div. change (Z.of_nat 64) with 64.
    pose proof (Z.div_mod (Z.of_nat bitno) 64). lia. }
  destruct Hbit as [Hbit Hpz].
  pose proof (Z.mod_pos_bound (Z.of_nat bitno) 64 ltac:(lia)) as Hbb. rewrite <- Hbit in Hbb.
  set (x := nth part r 0) in *.
  assert (Hx : is_limb x) by now apply limbs_nth. unfold is_limb in Hx.
  assert (Hmask : forall j, 0 <= j < 64 ->
     Z.testbit (B - 1 - Z.shiftl 1 bit) j = negb (j =? bit)).
  { intros j Hj. rewrite Z.shiftl_1_l.
    replace (B - 1 - 2 ^ bit) with (Z.ldiff (Z.ones 64) (2 ^ bit)).
    - rewrite Z.ldiff_spec, Z.ones_spec_low, Z.pow2_bits_eqb by lia.
      cbn [andb]. f_equal. apply Z.eqb_sym.
    - rewrite Z.sub_nocarry_ldiff; [reflexivity|].
      apply Z.bits_inj'. intros i Hi. rewrite Z.ldiff_spec, Z.bits_0, Z.pow2_bits_eqb by lia.
      destruct (bit =? i) eqn:E; auto. apply Z.eqb_eq in E. subst i.
      change (B - 1) with (Z.ones 64). rewrite Z.ones_spec_low by lia. reflexivity. }
  assert (Hland : is_limb (Z.land x (B - 1 - Z.shiftl 1 bit))).
  { assert (Hm0 : 0 <= B - 1 - Z.shiftl 1 bit).
    { rewrite Z.shiftl_1_l.
      assert (2 ^ bit <= 2 ^ 63) by (apply Z.pow_le_mono_r; lia). rewrite B_eq. lia. }
    unfold is_limb. split; [apply Z.land_nonneg; lia|].
    replace (Z.land x (B - 1 - Z.shiftl 1 bit))
      with (Z.land x (B - 1 - Z.shiftl 1 bit) mod 2 ^ 64).
    - apply Z.mod_pos_bound. reflexivity.
    - apply Z.bits_inj'. intros i Hi.
      destruct (Z_lt_ge_dec i 64).
      + apply Z.mod_pow2_bits_low. lia.
      + rewrite Z.mod_pow2_bits_high, Z.land_spec by lia.
        replace x with (x mod 2 ^ 64) by (apply Z.mod_small; rewrite <- B_eq; lia).
        rewrite Z.mod_pow2_bits_high by lia. reflexivity. }
  assert (Lr' : limbs r') by now apply limbs_upd.
  split; auto. split; [unfold r'; rewrite upd_length; auto|].
  intros k Hk. rewrite !testbit_limbs by auto. unfold r'.
  rewrite nth_upd by lia.
  pose proof (Z.mod_pos_bound k 64 ltac:(lia)) as Hkb.
  destruct (Z.to_nat (k / 64) =? part)%nat eqn:E.
  - apply Nat.eqb_eq in E.
    assert (Ek : k / 64 = Z.of_nat part).
    { rewrite <- E, Z2Nat.id; auto. apply Z.div_pos; lia. }
    rewrite Z.land_spec, Hmask by lia. rewrite E. fold x. f_equal. f_equal.
    destruct (k =? Z.of_nat bitno) eqn:E2.
    + apply Z.eqb_eq in E2. rewrite E2, Hbit. apply Z.eqb_refl.
    + apply Z.eqb_neq in E2. apply Z.eqb_neq. rewrite Hbit.
      pose proof (Z.div_mod k 64 ltac:(lia)).
      pose proof (Z.div_mod (Z.of_nat bitno) 64 ltac:(lia)). lia.
  - apply Nat.eqb_neq in E. replace (k =? Z.of_nat bitno) with false.
    + cbn [negb]. now rewrite andb_true_r.
    + symmetry. apply Z.eqb_neq. intros ->. apply E. rewrite <- Hpz. apply Nat2Z.id.
Qed.

Lemma testbit_bit_length_top v : 0 < v -> Z.testbit v (bit_length v - 1) = true.
Proof.
  intros Hv. unfold bit_length. replace (v =? 0) with false by (symmetry; apply Z.eqb_neq; lia).
  rewrite Z.add_simpl_r. now apply Z.bit_log2.
Qed.

Lemma clear_high_spec todo r : limbs r -> length r = n -> (todo <= 64 * n)%nat ->
  bit_length p <= Z.of_nat todo ->
  let r' := clear_high P todo r in
  limbs r' /\ length r' = n /\
  forall k, 0 <= k -> Z.testbit (val r') k =
    Z.testbit (val r) k && negb ((bit_length p <=? k) && (k <? Z.of_nat todo)).
Proof.
  pose proof (p_gt1 P OK) as Hp. change (val (fp_modulus P)) with p in Hp.
  pose proof (md_limbs P OK) as Hm. fold md in Hm.
  pose proof (testbit_bit_length_top p ltac:(lia)) as Htop.
  revert r; induction todo as [|b IH]; intros r Hr Lr Ht Hbl; cbn [clear_high]; fold md.
  - split; auto. split; auto. intros k Hk.
    replace (k <? Z.of_nat 0) with false by (symmetry; apply Z.ltb_ge; lia).
    now rewrite andb_false_r, andb_true_r.
  - rewrite bigint_test_bit_spec by (auto; lia). fold p.
    destruct (Z.testbit p (Z.of_nat b)) eqn:E.
    + split; auto. split; auto. intros k Hk.
      assert (bit_length p = Z.of_nat b + 1).
      { destruct (Z.eq_dec (bit_length p) (Z.of_nat b + 1)); auto.
        rewrite Z.bits_above_log2 in E; [discriminate|lia|].
        unfold bit_length in *. replace (p =? 0) with false in * by (symmetry; apply Z.eqb_neq; lia).
        lia. }
      replace (_ && (k <? _)) with false; [cbn [negb]; now rewrite andb_true_r|].
      symmetry. apply andb_false_iff.
      destruct (Z_lt_ge_dec k (bit_length p)); [left; apply Z.leb_gt; lia|right; apply Z.ltb_ge; lia].
    + assert (Hbl' : bit_length p <= Z.of_nat b).
      { destruct (Z.eq_dec (bit_length p) (Z.of_nat b + 1)) as [E2|]; [|lia].
        rewrite E2, Z.add_simpl_r in Htop. congruence. }
      destruct (clear_bit_val r b Hr Lr ltac:(lia)) as (L1 & N1 & B1).
      specialize (IH _ L1 N1 ltac:(lia) Hbl') as (L2 & N2 & B2).
      split; auto. split; auto. intros k Hk. rewrite B2, B1 by auto.
      rewrite <- andb_assoc. f_equal.
      destruct (Z.eq_dec k (Z.of_nat b)) as [->|Nk].
      * rewrite Z.eqb_refl. cbn [negb]. rewrite andb_false_l.
        replace (bit_length p <=? Z.of_nat b) with true by (symmetry; apply Z.leb_le; lia).
        replace (Z.of_nat b <? Z.of_nat (S b)) with true by (symmetry; apply Z.ltb_lt; lia).
        reflexivity.
      * replace (k =? Z.of_nat b) with false by (symmetry; now apply Z.eqb_neq).
        cbn [negb andb]. f_equal. f_equal.
        destruct (k <? Z.of_nat b) eqn:E1, (k <? Z.of_nat (S b)) eqn:E2; auto;
          rewrite ?Z.ltb_lt, ?Z.ltb_ge in *; lia.
Qed.

Theorem clear_high_mask x : limbs x -> length x = n ->
  let r := clear_high P (64 * n) x in
  limbs r /\ length r = n /\ val r = val x mod 2 ^ bit_length p.
Proof.
  intros L N r.
  pose proof num_bits_range as Hr. rewrite NB in Hr.
  destruct (clear_high_spec (64 * n) x) as (L1 & N1 & B1); auto; [lia|].
  split; auto. split; auto.
  pose proof (p_gt1 P OK) as Hp. change (val (fp_modulus P)) with p in Hp.
  pose proof (bit_length_spec p ltac:(lia)) as (B0 & _).
  apply Z.bits_inj'. intros k Hk. unfold r. rewrite B1 by auto.
  destruct (Z_lt_ge_dec k (bit_length p)).
  - rewrite Z.mod_pow2_bits_low by lia.
    replace (bit_length p <=? k) with false by (symmetry; apply Z.leb_gt; lia).
    cbn [andb negb]. now rewrite andb_true_r.
  - rewrite Z.mod_pow2_bits_high by lia.
    replace (bit_length p <=? k) with true by (symmetry; apply Z.leb_le; lia).
    cbn [andb].
    destruct (k <? Z.of_nat (64 * n)) eqn:E; [cbn; now rewrite andb_false_r|].
    apply Z.ltb_ge in E. cbn [negb]. rewrite andb_true_r.
    pose proof (val_bound _ L) as Hv. rewrite N in Hv. unfold Bn in Hv.
    replace (val x) with (val x mod 2 ^ (64 * Z.of_nat n)) by (apply Z.mod_small; lia).
    apply Z.mod_pow2_bits_high. lia.
Qed.

Theorem random_attempt_spec src :
  let r := random_attempt P src in
  limbs r /\ length r = n /\
  val r = val (bigint_randomize n src) mod 2 ^ bit_length p.
Proof.
  pose proof (bigint_randomize_spec n src) as [L N]. now apply clear_high_mask.
Qed.

(** The masked value of the k-th attempt. *)
Definition attempt_val (src : nat -> Z) (k : nat) : Z :=
  val (bigint_randomize n (fun i => src (2 * n * k + i)%nat)) mod 2 ^ bit_length p.

Lemma bigint_randomize_ext m f g : (forall i, f i = g i) ->
  bigint_randomize m f = bigint_randomize m g.
Proof.
  revert f g; induction m as [|m IH]; intros f g H; cbn [bigint_randomize]; auto.
  f_equal; [now rewrite !H|]. apply IH. intros; apply H.
Qed.

(** [random_element] returns the first attempt whose masked value is below the
    modulus; it never returns anything else. *)
Theorem fp_random_element_spec fuel src :
  (forall r, fp_random_element P fuel src = Ok r ->
     exists k, (k < fuel)%nat /\ canon P r /\ val r = attempt_val src k /\
       forall j, (j < k)%nat -> p <= attempt_val src j) /\
  (forall k, (k < fuel)%nat -> attempt_val src k < p ->
     exists r, fp_random_element P fuel src = Ok r).
Proof.
  revert src; induction fuel as [|f IH]; intros src; cbn [fp_random_element].
  - split; [discriminate|intros; lia].
  - fold n md. destruct (random_attempt_spec src) as (L & N & V).
    assert (V0 : val (random_attempt P src) = attempt_val src 0).
    { rewrite V. unfold attempt_val. do 2 f_equal. apply bigint_randomize_ext.
      intros; f_equal; lia. }
    specialize (IH (fun i => src (2 * n + i)%nat)) as [IH1 IH2].
    assert (Sh : forall k, attempt_val (fun i => src (2 * n + i)%nat) k = attempt_val src (S k)).
    { intros k. unfold attempt_val. do 2 f_equal. apply bigint_randomize_ext.
      intros; f_equal; lia. }
    assert (Retry : p <= attempt_val src 0 ->
      (forall r, fp_random_element P f (fun i => src (2 * n + i)%nat) = Ok r ->
         exists k, (k < S f)%nat /\ canon P r /\ val r = attempt_val src k /\
           forall j, (j < k)%nat -> p <= attempt_val src j) /\
      (forall k, (k < S f)%nat -> attempt_val src k < p ->
         exists r, fp_random_element P f (fun i => src (2 * n + i)%nat) = Ok r)).
    { intros H0. split.
      - intros r E. destruct (IH1 r E) as (k & Hk & C & Vr & Hj).
        exists (S k). rewrite <- Sh. repeat split; auto; try lia; try apply C.
        intros [|j] Hj'; auto. rewrite <- Sh. apply Hj. lia.
      - intros [|k] Hk Hlt; [lia|]. rewrite <- Sh in Hlt. apply (IH2 k); auto. lia. }
    destruct (mpn_cmp_spec (random_attempt P src) md) as [C|C|C]; fold p in C.
    + apply Retry. lia.
    + split.
      * intros r E. injection E as <-. exists 0%nat. repeat split; auto; try lia.
      * intros. eauto.
    + apply Retry. lia.
Qed.

End Io.
