(** Correctness of the packing functions. *)
From Coq Require Import ZArith List Lia Bool.
From Verif Require Import Result Limbs LimbsProofs BigintModel BigintProofs UtilsModel UtilsProofs
  FpModel FpSpec FpProofs FpIoProofs PackingModel.
Import ListNotations.
Open Scope Z_scope.
Open Scope result_scope.

(** ** Specification vocabulary *)
(** Little-endian value of a list of bits. *)
Fixpoint bits_val (l : list bool) : Z :=
  match l with [] => 0 | b :: l' => Z.b2z b + 2 * bits_val l' end.
(** The i-th group of c bits. *)
Definition bit_chunk (c i : nat) (v : list bool) : list bool := firstn c (skipn (i * c) v).
(** Words written out as w bits each, least significant bit first. *)
Definition words_to_bits (w : nat) (v : list Z) : list bool :=
  flat_map (fun x => map (fun j => Z.testbit x (Z.of_nat j)) (seq 0 w)) v.

(** ** Lemmas *)
Lemma bits_val_bound l : 0 <= bits_val l < 2 ^ Z.of_nat (length l).
Proof.
  induction l as [|b l IH]; [cbn; lia|].
  cbn [bits_val length]. rewrite Nat2Z.inj_succ, Z.pow_succ_r by lia. destruct b; cbn [Z.b2z]; lia.
Qed.

Lemma bits_val_testbit l k : 0 <= k -> Z.testbit (bits_val l) k = nth (Z.to_nat k) l false.
Proof.
  revert k; induction l as [|b l IH]; intros k Hk.
  - cbn [bits_val]. rewrite Z.bits_0. now destruct (Z.to_nat k).
  - cbn [bits_val]. rewrite Z.add_comm.
    destruct (Z.eq_dec k 0) as [->|Hk0].
    + rewrite Z.add_comm, Z.add_b2z_double_bit0. reflexivity.
    + rewrite Z.add_comm. replace k with (Z.succ (k - 1)) by lia.
      rewrite <- Z.div2_bits by lia.
      rewrite Z.add_b2z_double_div2, IH by lia.
      replace (Z.to_nat (Z.succ (k - 1))) with (S (Z.to_nat (k - 1))) by lia. reflexivity.
Qed.

Lemma bits_val_inj l l' : length l = length l' -> bits_val l = bits_val l' -> l = l'.
Proof.
  revert l'; induction l as [|b l IH]; intros [|b' l'] L E; cbn in L; try lia; auto.
  cbn [bits_val] in E. assert (b = b') by (destruct b, b'; cbn [Z.b2z] in E; auto; lia). subst.
  f_equal. apply IH; lia.
Qed.

Lemma bits_val_app l l' : bits_val (l ++ l') = bits_val l + 2 ^ Z.of_nat (length l) * bits_val l'.
Proof.
  induction l as [|b l IH]; [cbn [app bits_val length]; change (2 ^ Z.of_nat 0) with 1; ring|].
  cbn [app bits_val length]. rewrite IH, Nat2Z.inj_succ, Z.pow_succ_r by lia. ring.
Qed.
Lemma bits_val_repeat n : bits_val (repeat false n) = 0.
Proof. induction n; cbn [repeat bits_val Z.b2z]; lia. Qed.

Lemma nth_map_seq {A} (f : nat -> A) n k d :
  nth k (map f (seq 0 n)) d = if (k <? n)%nat then f k else d.
Proof.
  destruct (k <? n)%nat eqn:E.
  - apply Nat.ltb_lt in E. rewrite (nth_indep _ d (f 0%nat)) by (rewrite map_length, seq_length; auto).
    rewrite map_nth, seq_nth; auto.
  - apply Nat.ltb_ge in E. apply nth_overflow. now rewrite map_length, seq_length.
Qed.

Lemma nth_firstn {A} n k (l : list A) d : nth k (firstn n l) d = if (k <? n)%nat then nth k l d else d.
Proof.
  revert k l; induction n; intros k l; [now destruct k|].
  destruct l as [|x l]; [cbn [firstn]; destruct (k <? S n)%nat; now destruct k|].
  destruct k; [reflexivity|]. cbn [firstn nth]. rewrite IHn. reflexivity.
Qed.
Lemma nth_skipn {A} n k (l : list A) d : nth k (skipn n l) d = nth (n + k) l d.
Proof. revert l; induction n; intros [|x l]; cbn; auto. now destruct k. Qed.

Lemma shiftl_bit_limb b s : (s < 64)%nat -> is_limb (Z.shiftl (Z.b2z b) (Z.of_nat s)).
Proof.
  intros Hs. unfold is_limb. rewrite B_eq, Z.shiftl_mul_pow2 by lia.
  assert (2 ^ Z.of_nat s < 2 ^ 64) by (apply Z.pow_lt_mono_r; lia).
  assert (0 < 2 ^ Z.of_nat s) by (apply Z.pow_pos_nonneg; lia).
  destruct b; cbn [Z.b2z]; lia.
Qed.
Lemma lor_limb x y : is_limb x -> is_limb y -> is_limb (Z.lor x y).
Proof.
  unfold is_limb. rewrite B_eq. intros Hx Hy. split; [apply Z.lor_nonneg; lia|].
  destruct (Z.eq_dec x 0) as [->|Nx]; [rewrite Z.lor_0_l; lia|].
  destruct (Z.eq_dec y 0) as [->|Ny]; [rewrite Z.lor_0_r; lia|].
  assert (0 <= Z.lor x y) by (apply Z.lor_nonneg; lia).
  destruct (Z.eq_dec (Z.lor x y) 0) as [->|N]; [lia|].
  apply Z.log2_lt_pow2; [lia|]. rewrite Z.log2_lor by lia.
  apply Z.max_lub_lt; apply Z.log2_lt_pow2; lia.
Qed.

Lemma or_bits_spec bit todo : forall j b, limbs b -> (j + todo <= 64 * length b)%nat ->
  let r := or_bits j todo bit b in
  limbs r /\ length r = length b /\
  forall k, Z.testbit (val r) (Z.of_nat k) =
    Z.testbit (val b) (Z.of_nat k) || ((j <=? k)%nat && (k <? j + todo)%nat && bit k).
Proof.
  induction todo as [|t IH]; intros j b Hb Hj; cbn [or_bits].
  - split; auto. split; auto. intros k.
    destruct (j <=? k)%nat eqn:E1, (k <? j + 0)%nat eqn:E2; cbn; rewrite ?orb_false_r; auto.
    apply Nat.leb_le in E1. apply Nat.ltb_lt in E2. lia.
  - set (q := (j / 64)%nat). set (s := (j mod 64)%nat).
    assert (Hs : (s < 64)%nat) by (apply Nat.mod_upper_bound; lia).
    assert (Hj64 : j = (64 * q + s)%nat) by (apply Nat.div_mod; lia).
    assert (Hq : (q < length b)%nat) by lia.
    set (x := Z.lor (nth q b 0) (Z.shiftl (Z.b2z (bit j)) (Z.of_nat s))).
    assert (Hx : is_limb x) by (apply lor_limb; [now apply limbs_nth|now apply shiftl_bit_limb]).
    assert (Hb' : limbs (upd b q x)) by now apply limbs_upd.
    destruct (IH (S j) (upd b q x) Hb') as (L & N & T); [rewrite upd_length; lia|].
    rewrite upd_length in N. split; [exact L|]. split; [exact N|].
    intros k. rewrite T. clear T.
    assert (E : Z.testbit (val (upd b q x)) (Z.of_nat k) =
                Z.testbit (val b) (Z.of_nat k) || ((k =? j)%nat && bit j)).
    { rewrite !testbit_limbs by (auto; lia). rewrite nth_upd by auto.
      change 64 with (Z.of_nat 64). rewrite <- Nat2Z.inj_div, <- Nat2Z.inj_mod, Nat2Z.id.
      pose proof (Nat.div_mod k 64 ltac:(lia)) as Hk.
      pose proof (Nat.mod_upper_bound k 64 ltac:(lia)) as Hk2.
      set (kq := (k / 64)%nat) in *. set (ks := (k mod 64)%nat) in *.
      destruct (kq =? q)%nat eqn:Eq.
      - apply Nat.eqb_eq in Eq. rewrite Eq. unfold x. rewrite Z.lor_spec. f_equal.
        rewrite Z.shiftl_spec by lia.
        destruct (k =? j)%nat eqn:Ek.
        + apply Nat.eqb_eq in Ek. assert (ks = s) as -> by lia.
          rewrite Z.sub_diag. now destruct (bit j).
        + apply Nat.eqb_neq in Ek. assert (ks <> s) by lia. cbn [andb].
          destruct (Z_lt_ge_dec (Z.of_nat ks - Z.of_nat s) 0) as [Hlt|Hge].
          * now apply Z.testbit_neg_r.
          * destruct (bit j); cbn [Z.b2z]; [|apply Z.bits_0].
            apply (Z.pow2_bits_false 0). lia.
      - apply Nat.eqb_neq in Eq. replace (k =? j)%nat with false; [now rewrite orb_false_r|].
        symmetry. apply Nat.eqb_neq. lia. }
    rewrite E, <- orb_assoc. f_equal.
    destruct (k =? j)%nat eqn:Ek.
    + apply Nat.eqb_eq in Ek. subst k.
      replace (S j <=? j)%nat with false by (symmetry; apply Nat.leb_gt; lia).
      replace (j <=? j)%nat with true by (symmetry; apply Nat.leb_le; lia).
      replace (j <? j + S t)%nat with true by (symmetry; apply Nat.ltb_lt; lia).
      cbn. now rewrite orb_false_r.
    + apply Nat.eqb_neq in Ek. cbn [andb orb]. f_equal. f_equal.
      * apply eq_true_iff_eq. rewrite !Nat.leb_le. lia.
      * apply eq_true_iff_eq. rewrite !Nat.ltb_lt. lia.
Qed.

Lemma Forall2_len {A C} (Q : A -> C -> Prop) l l' : Forall2 Q l l' -> length l = length l'.
Proof. induction 1; cbn; auto. Qed.
Lemma mapM_spec {A C} (f : A -> result C) (Q : A -> C -> Prop) l :
  (forall x, In x l -> exists y, f x = Ok y /\ Q x y) ->
  exists ys, mapM f l = Ok ys /\ Forall2 Q l ys.
Proof.
  induction l as [|x l IH]; intros H; [exists []; now split|].
  destruct (H x (or_introl eq_refl)) as (y & E & Hy).
  destruct IH as (ys & Es & Hys); [intros; apply H; now right|].
  exists (y :: ys). cbn [mapM]. rewrite E. cbn [bind]. rewrite Es. cbn [bind]. split; auto.
Qed.
Lemma mapM_ext {A C} (f g : A -> result C) l :
  (forall x, In x l -> f x = g x) -> mapM f l = mapM g l.
Proof.
  induction l as [|x l IH]; intros H; cbn [mapM]; auto.
  rewrite H by now left. rewrite IH; auto. intros; apply H; now right.
Qed.

Lemma bit_chunk_map c i v :
  bits_val (map (fun j => nth (i * c + j) v false) (seq 0 c)) = bits_val (bit_chunk c i v).
Proof.
  apply Z.bits_inj'. intros k Hk. rewrite !bits_val_testbit by auto.
  unfold bit_chunk. rewrite nth_map_seq, nth_firstn, nth_skipn. reflexivity.
Qed.

Lemma bit_chunk_length c i v : (length (bit_chunk c i v) <= c)%nat.
Proof. unfold bit_chunk. apply firstn_le_length. Qed.

Lemma words_to_bits_length w v : length (words_to_bits w v) = (length v * w)%nat.
Proof.
  induction v; cbn [words_to_bits flat_map length]; auto.
  rewrite app_length, map_length, seq_length. unfold words_to_bits in IHv. rewrite IHv. lia.
Qed.
Lemma word_bit_spec v w k : (0 < w)%nat ->
  word_bit v w k = nth k (words_to_bits w v) false.
Proof.
  intros Hw. unfold word_bit. revert k; induction v as [|x v IH]; intros k.
  - cbn [words_to_bits flat_map]. destruct (k / w)%nat, k; cbn [nth]; apply Z.bits_0.
  - cbn [words_to_bits flat_map].
    destruct (lt_dec k w) as [Hk|Hk].
    + rewrite Nat.div_small, Nat.mod_small by auto. cbn [nth].
      rewrite app_nth1 by (rewrite map_length, seq_length; auto).
      rewrite nth_map_seq. replace (k <? w)%nat with true by (symmetry; now apply Nat.ltb_lt). reflexivity.
    + rewrite app_nth2; rewrite map_length, seq_length; [|lia].
      fold (words_to_bits w v). rewrite <- IH.
      replace k with (k - w + 1 * w)%nat at 1 2 by lia.
      rewrite Nat.div_add, Nat.mod_add by lia.
      replace ((k - w) / w + 1)%nat with (S ((k - w) / w))%nat by lia. reflexivity.
Qed.

(** Concatenating fixed-size chunks gives back the padded list. *)
Lemma chunks_concat c (v : list bool) m : (0 < c)%nat -> (length v <= m * c)%nat ->
  concat (map (fun i => bit_chunk c i v ++ repeat false (c - length (bit_chunk c i v))) (seq 0 m))
  = v ++ repeat false (m * c - length v).
Proof.
  intros Hc. revert v; induction m; intros v Hv.
  - destruct v; [reflexivity|cbn in Hv; lia].
  - cbn [seq map concat]. rewrite <- seq_shift, map_map.
    rewrite (map_ext _ (fun i => bit_chunk c i (skipn c v)
      ++ repeat false (c - length (bit_chunk c i (skipn c v))))).
    2:{ intros i. unfold bit_chunk. rewrite skipn_skipn.
        replace (i * c + c)%nat with (S i * c)%nat by lia. reflexivity. }
    rewrite IHm by (rewrite skipn_length; lia).
    unfold bit_chunk. cbn [Nat.mul skipn]. rewrite firstn_length, skipn_length.
    destruct (le_lt_dec c (length v)) as [Hl|Hl].
    + rewrite Nat.min_l by auto. rewrite Nat.sub_diag. cbn [repeat]. rewrite app_nil_r.
      rewrite app_assoc, firstn_skipn. f_equal. f_equal. lia.
    + rewrite Nat.min_r by lia. rewrite firstn_all2, skipn_all2 by lia. cbn [app].
      rewrite <- app_assoc, <- repeat_app. f_equal. f_equal. lia.
Qed.

Lemma resize_bits_spec n l m : n = length l -> (m <= n)%nat ->
  bits_val l < 2 ^ Z.of_nat m ->
  length (resize_bits m l) = m /\ bits_val (resize_bits m l) = bits_val l.
Proof.
  intros Hn Hm Hv. unfold resize_bits.
  replace (m - length l)%nat with 0%nat by lia. cbn [repeat]. rewrite app_nil_r.
  assert (Hl : length (firstn m l) = m) by (rewrite firstn_length; lia).
  split; auto. rewrite <- (firstn_skipn m l) in Hv |- * at 2.
  rewrite bits_val_app, Hl in *.
  pose proof (bits_val_bound (skipn m l)). pose proof (bits_val_bound (firstn m l)).
  assert (bits_val (skipn m l) = 0); [|nia].
  destruct (Z.eq_dec (bits_val (skipn m l)) 0); auto.
  assert (2 ^ Z.of_nat m * 1 <= 2 ^ Z.of_nat m * bits_val (skipn m l)) by (apply Z.mul_le_mono_nonneg_l; lia).
  lia.
Qed.

Section Packing.
Variable P : fp_params.
Hypothesis OK : fp_ok P.
Hypothesis NB : fp_num_bits P = bit_length (val (fp_modulus P)).
Hypothesis Top : nth (fp_n P - 1) (fp_modulus P) 0 <> 0.
Hypothesis Small : 64 * Z.of_nat (fp_n P) < 2 ^ 62.
Notation p := (val (fp_modulus P)).
Notation n := (fp_n P).

Lemma nb_range : 1 < fp_num_bits P <= 64 * Z.of_nat n.
Proof.
  pose proof (num_bits_range P OK NB Top) as H. split; [|apply H].
  pose proof (ok_gt1 P OK). destruct (bit_length_spec p ltac:(lia)) as (B1 & B2 & B3).
  rewrite NB. destruct (Z_lt_ge_dec 1 (bit_length p)); auto.
  assert (bit_length p = 0 \/ bit_length p = 1) as [E|E] by lia; rewrite E in B2; cbn in B2; lia.
Qed.
Lemma floor_val : floor_size_in_bits P = fp_num_bits P - 1.
Proof.
  unfold floor_size_in_bits, wrap64. pose proof nb_range. apply Z.mod_small. rewrite B_eq. lia.
Qed.
Lemma floor_pow : 2 ^ floor_size_in_bits P <= p.
Proof.
  rewrite floor_val, NB. pose proof (ok_gt1 P OK).
  apply (bit_length_spec p); lia.
Qed.

Lemma chunk_bigint_spec c bit : (c <= 64 * n)%nat ->
  exists b, chunk_bigint P c bit = Ok b /\ limbs b /\ length b = n /\
    val b = bits_val (map bit (seq 0 c)).
Proof.
  intros Hc. unfold chunk_bigint.
  replace (64 * n <? c)%nat with false by (symmetry; apply Nat.ltb_ge; lia).
  destruct (or_bits_spec bit c 0 (bigint_zero n)) as (L & N & T).
  { unfold bigint_zero. apply limbs_repeat_0. }
  { unfold bigint_zero. rewrite repeat_length. lia. }
  eexists; split; [reflexivity|]. split; [exact L|].
  split; [rewrite N; unfold bigint_zero; apply repeat_length|].
  apply Z.bits_inj'. intros k Hk.
  rewrite bits_val_testbit, nth_map_seq by auto.
  rewrite <- (Z2Nat.id k) at 1 by auto. rewrite T.
  unfold bigint_zero. rewrite val_repeat_0, Z.bits_0. cbn [orb].
  destruct (Z.to_nat k <? c)%nat eqn:E.
  - replace (Z.to_nat k <? 0 + c)%nat with true by (symmetry; rewrite Nat.add_0_l; auto).
    reflexivity.
  - replace (Z.to_nat k <? 0 + c)%nat with false by (symmetry; rewrite Nat.add_0_l; auto).
    reflexivity.
Qed.

Lemma to_s64_small z : 0 <= z < 2 ^ 63 -> to_s64 z = z.
Proof. intros. unfold to_s64. replace (z <? 2 ^ 63) with true; auto. symmetry; apply Z.ltb_lt; lia. Qed.

Theorem pack_bit_vector_spec v c :
  (0 < c)%nat -> Z.of_nat c <= floor_size_in_bits P -> Z.of_nat (length v) + Z.of_nat c < 2 ^ 63 ->
  exists r, pack_bit_vector P v c = Ok r /\
    Forall (canon P) r /\
    map (den P) r = map (fun i => bits_val (bit_chunk c i v)) (seq 0 (length r)) /\
    (length v <= length r * c < length v + c)%nat.
Proof.
  intros Hc0 Hc Hv. unfold pack_bit_vector.
  pose proof nb_range as Hnb. pose proof floor_val as Hfl.
  replace (Z.of_nat c <=? floor_size_in_bits P) with true by (symmetry; apply Z.leb_le; lia).
  cbn [assert_then]. rewrite !to_s64_small by lia.
  destruct (div_ceil_spec (Z.of_nat (length v)) (Z.of_nat c)) as (q & E & Hq); try lia.
  rewrite E. cbn [bind].
  destruct (mapM_spec
    (fun i => b <- chunk_bigint P c (fun j => nth (i * c + j) v false);; fp_of_bigint P b)
    (fun i a => canon P a /\ den P a = bits_val (bit_chunk c i v)) (seq 0 (Z.to_nat q)))
    as (r & Er & F).
  { intros i Hi.
    destruct (chunk_bigint_spec c (fun j => nth (i * c + j) v false)) as (b & Eb & Lb & Nb & Vb); [lia|].
    rewrite Eb. cbn [bind]. destruct (fp_of_bigint_spec P OK b Lb Nb) as (a & Ea & Ca & Da).
    exists a. split; auto. split; auto. rewrite Da, Vb, bit_chunk_map.
    apply Z.mod_small. pose proof (bits_val_bound (bit_chunk c i v)).
    pose proof floor_pow. pose proof (bit_chunk_length c i v).
    assert (2 ^ Z.of_nat (length (bit_chunk c i v)) <= 2 ^ floor_size_in_bits P)
      by (apply Z.pow_le_mono_r; lia). lia. }
  exists r. split; auto.
  pose proof (Forall2_len _ _ _ F) as Lr. rewrite seq_length in Lr.
  assert (Hq0 : 0 <= q) by (destruct (Z_lt_ge_dec q 0); nia).
  split; [|split].
  - clear -F. induction F; constructor; tauto.
  - rewrite <- Lr. clear -F. induction F; cbn; f_equal; tauto.
  - rewrite <- Lr. clear E Er F. nia.
Qed.

Theorem pack_bit_vector_too_wide v c : floor_size_in_bits P < Z.of_nat c ->
  pack_bit_vector P v c = AssertFail.
Proof.
  intros H. unfold pack_bit_vector. replace (_ <=? _) with false; auto.
  symmetry; apply Z.leb_gt; lia.
Qed.

Lemma pack_bit_vector_zero_width v : pack_bit_vector P v 0 = Throw.
Proof.
  unfold pack_bit_vector. pose proof nb_range. rewrite floor_val.
  replace (_ <=? _) with true by (symmetry; apply Z.leb_le; lia). cbn [assert_then].
  change (to_s64 (Z.of_nat 0)) with 0. now rewrite div_ceil_zero.
Qed.

(** [pack_int_vector] is [pack_bit_vector] of the words' low w bits. *)
Theorem pack_int_vector_spec v w : 0 <= w <= 64 -> Z.of_nat (length v) * w < 2 ^ 63 ->
  pack_int_vector P v w = pack_bit_vector_default P (words_to_bits (Z.to_nat w) v).
Proof.
  intros Hw Hv. unfold pack_int_vector, pack_bit_vector_default, pack_bit_vector.
  pose proof nb_range as Hnb. pose proof floor_val as Hfl.
  rewrite Z2Nat.id by lia. rewrite Z.leb_refl. cbn [assert_then].
  rewrite words_to_bits_length, Nat2Z.inj_mul, Z2Nat.id by lia.
  unfold wrap64. rewrite (Z.mod_small (_ * w)) by (rewrite B_eq; nia).
  destruct (div_ceil _ _) as [q| | | | |] eqn:E; auto. cbn [bind].
  replace (64 <? w) with false by (symmetry; apply Z.ltb_ge; lia). rewrite andb_false_r.
  destruct (Z.eq_dec w 0) as [->|Hw0].
  - rewrite Z.mul_0_r in E. rewrite !to_s64_small in E by lia.
    destruct (div_ceil_spec 0 (floor_size_in_bits P)) as (q' & E' & Hq); try lia.
    rewrite E in E'. injection E' as <-. assert (q = 0) by nia. subst. reflexivity.
  - apply mapM_ext. intros i Hi.
    assert (X : forall c j b, or_bits j c
              (fun k => word_bit v (Z.to_nat w) (i * Z.to_nat (floor_size_in_bits P) + k)) b
            = or_bits j c (fun k => nth (i * Z.to_nat (floor_size_in_bits P) + k)
                   (words_to_bits (Z.to_nat w) v) false) b).
    { induction c; intros j b; cbn [or_bits]; auto. rewrite IHc, word_bit_spec by lia. reflexivity. }
    unfold chunk_bigint. rewrite X. reflexivity.
Qed.

Theorem pack_int_vector_wide_ub v w : v <> [] -> 64 < w -> Z.of_nat (length v) * w < 2 ^ 62 ->
  pack_int_vector P v w = UB.
Proof.
  intros Hn Hw Hv. unfold pack_int_vector.
  pose proof nb_range as Hnb. pose proof floor_val as Hfl.
  assert (0 < Z.of_nat (length v)) by (destruct v; [easy|cbn [length]; lia]).
  unfold wrap64. rewrite (Z.mod_small (_ * w)) by (rewrite B_eq; nia).
  rewrite !to_s64_small by nia.
  destruct (div_ceil_spec (Z.of_nat (length v) * w) (floor_size_in_bits P)) as (q & E & Hq); try nia.
  rewrite E. cbn [bind].
  replace (0 <? q) with true by (symmetry; apply Z.ltb_lt; nia).
  replace (64 <? w) with true by (symmetry; apply Z.ltb_lt; lia). reflexivity.
Qed.

(** ** field element <-> bits *)
Lemma den_range a : canon P a -> 0 <= den P a < p.
Proof.
  intros C. apply (den_spec P OK a); apply C.
Qed.

Theorem field_to_bits_spec a : canon P a ->
  exists l, field_to_bits P a = Ok l /\ Z.of_nat (length l) = fp_num_bits P /\ bits_val l = den P a.
Proof.
  intros C. unfold field_to_bits.
  destruct (as_bigint_spec P OK a (canon_limbs P a C) (canon_len P a C)) as (b & E & Cb & _).
  pose proof nb_range as Hnb. pose proof (den_range a C) as Hd.
  assert (D : den P a = val b) by (unfold den; now rewrite E).
  rewrite E. cbn [bind]. eexists; split; [reflexivity|].
  rewrite map_length, seq_length. unfold ceil_size_in_bits. split; [lia|].
  rewrite D in *. apply Z.bits_inj'. intros k Hk.
  rewrite bits_val_testbit, nth_map_seq by auto.
  destruct (_ <? _)%nat eqn:Ek.
  - rewrite bigint_test_bit_spec by (try apply (canon_limbs P b Cb); lia). rewrite Z2Nat.id; auto.
  - apply Nat.ltb_ge in Ek. symmetry.
    apply Z.bits_above_log2; [lia|].
    destruct (Z.eq_dec (val b) 0) as [->|Hne]; [cbn; lia|].
    apply Z.log2_lt_pow2; [lia|].
    destruct (bit_length_spec p ltac:(lia)) as (_ & B2 & _). rewrite <- NB in B2.
    assert (2 ^ fp_num_bits P <= 2 ^ k) by (apply Z.pow_le_mono_r; lia). lia.
Qed.

Lemma bits_to_field_loop_spec v res c :
  canon P res -> canon P c ->
  exists r, bits_to_field_loop P v res c = Ok r /\ canon P r /\
    den P r = (den P res + den P c * bits_val v) mod p.
Proof.
  pose proof (ok_gt1 P OK) as Hp.
  revert res c; induction v as [|b v IH]; intros res c Cr Cc; cbn [bits_to_field_loop bits_val].
  - exists res. split; auto. split; auto. rewrite Z.mul_0_r, Z.add_0_r, Z.mod_small; auto.
    now apply den_range.
  - destruct (fp_zero_spec P OK) as (C0 & D0).
    destruct (fp_add_spec P OK res (if b then c else fp_zero P) Cr) as (res' & E1 & C1 & D1);
      [destruct b; auto|].
    destruct (fp_add_spec P OK c c Cc Cc) as (c' & E2 & C2 & D2).
    rewrite E1. cbn [bind]. rewrite E2. cbn [bind].
    destruct (IH res' c' C1 C2) as (r & E & C & D). exists r. split; auto. split; auto.
    rewrite D, D1, D2. rewrite Zplus_mod_idemp_l.
    rewrite <- Zplus_mod_idemp_r, Zmult_mod_idemp_l, Zplus_mod_idemp_r.
    f_equal. destruct b; rewrite ?D0; cbn [Z.b2z]; ring.
Qed.

Theorem bits_to_field_spec v : Z.of_nat (length v) <= fp_num_bits P ->
  exists r, bits_to_field P v = Ok r /\ canon P r /\ den P r = bits_val v mod p.
Proof.
  intros H. unfold bits_to_field, ceil_size_in_bits.
  replace (_ <=? _) with true by (symmetry; apply Z.leb_le; lia). cbn [assert_then].
  destruct (fp_one_spec P OK) as (o & E & C & D). rewrite E. cbn [bind].
  destruct (fp_zero_spec P OK) as (C0 & D0).
  destruct (bits_to_field_loop_spec v _ _ C0 C) as (r & Er & Cr & Dr).
  exists r. split; auto. split; auto. rewrite Dr, D, D0. f_equal. ring.
Qed.

Theorem bits_to_field_too_long v : fp_num_bits P < Z.of_nat (length v) ->
  bits_to_field P v = AssertFail.
Proof.
  intros H. unfold bits_to_field, ceil_size_in_bits. replace (_ <=? _) with false; auto.
  symmetry; apply Z.leb_gt; lia.
Qed.

Theorem field_bits_roundtrip a : canon P a ->
  exists l, field_to_bits P a = Ok l /\ bits_to_field P l = Ok a.
Proof.
  intros C. destruct (field_to_bits_spec a C) as (l & E & L & V). exists l. split; auto.
  destruct (bits_to_field_spec l) as (r & Er & Cr & Dr); [lia|]. rewrite Er. f_equal.
  apply (den_inj P OK); auto. rewrite Dr, V. apply Z.mod_small. now apply den_range.
Qed.

Theorem bits_field_roundtrip l : Z.of_nat (length l) = fp_num_bits P -> bits_val l < p ->
  exists a, bits_to_field P l = Ok a /\ field_to_bits P a = Ok l.
Proof.
  intros L V. destruct (bits_to_field_spec l) as (r & Er & Cr & Dr); [lia|].
  exists r. split; auto. destruct (field_to_bits_spec r Cr) as (l' & E & L' & V').
  rewrite E. f_equal. apply bits_val_inj; [lia|]. rewrite V', Dr.
  apply Z.mod_small. pose proof (bits_val_bound l). lia.
Qed.

(** Unpacking what [pack_bit_vector] packed gives the input, zero padded. *)
Theorem pack_unpack v c :
  (0 < c)%nat -> Z.of_nat c <= floor_size_in_bits P -> Z.of_nat (length v) + Z.of_nat c < 2 ^ 63 ->
  exists r ls, pack_bit_vector P v c = Ok r /\
    mapM (fun a => field_to_bits_n P a c) r = Ok ls /\
    concat ls = v ++ repeat false (length r * c - length v) /\
    (length v <= length r * c < length v + c)%nat.
Proof.
  intros Hc0 Hc Hv. destruct (pack_bit_vector_spec v c Hc0 Hc Hv) as (r & E & C & D & L).
  exists r. pose proof floor_val as Hfl. pose proof nb_range as Hnb.
  destruct (mapM_spec (fun a => field_to_bits_n P a c)
     (fun a l => length l = c /\ (den P a < 2 ^ Z.of_nat c -> bits_val l = den P a)) r) as (ls & El & F).
  { intros a Ha. rewrite Forall_forall in C. specialize (C a Ha).
    destruct (field_to_bits_spec a C) as (l & E1 & L1 & V1).
    unfold field_to_bits_n. rewrite E1. cbn [bind]. eexists; split; [reflexivity|].
    split.
    - unfold resize_bits. replace (c - length l)%nat with 0%nat by lia. cbn [repeat].
      rewrite app_nil_r, firstn_length. lia.
    - intros Hd. rewrite <- V1. apply (resize_bits_spec (length l)); auto; lia. }
  exists ls. split; auto. split; auto. split; auto.
  rewrite <- chunks_concat by (auto; lia). f_equal.
  assert (G : forall m ls s, length s = length m ->
    Forall2 (fun a l => length l = c /\ (den P a < 2 ^ Z.of_nat c -> bits_val l = den P a)) m ls ->
    map (den P) m = map (fun i => bits_val (bit_chunk c i v)) s ->
    ls = map (fun i => bit_chunk c i v ++ repeat false (c - length (bit_chunk c i v))) s).
  { clear. induction m as [|a m IH]; intros ls s Ls F D; inversion F; subst.
    - destruct s; [reflexivity|discriminate].
    - destruct s as [|i s]; [discriminate|]. cbn in D. injection D as D1 D2. cbn [map]. f_equal.
      + destruct H1 as [H1 H1']. pose proof (bits_val_bound (bit_chunk c i v)).
        pose proof (bit_chunk_length c i v).
        assert (2 ^ Z.of_nat (length (bit_chunk c i v)) <= 2 ^ Z.of_nat c) by (apply Z.pow_le_mono_r; lia).
        apply bits_val_inj.
        * rewrite app_length, repeat_length. lia.
        * rewrite H1' by lia. rewrite bits_val_app, bits_val_repeat. lia.
      + apply IH; auto. }
  apply (G r); auto. apply seq_length.
Qed.

Theorem bits_to_field_vector_spec v :
  exists r, bits_to_field_vector P v = Ok r /\ Forall (canon P) r /\ map (den P) r = map Z.b2z v.
Proof.
  unfold bits_to_field_vector.
  destruct (mapM_spec (fun b : bool => if b then fp_one P else Ok (fp_zero P))
    (fun b a => canon P a /\ den P a = Z.b2z b) v) as (r & E & F).
  { intros [|] _.
    - destruct (fp_one_spec P OK) as (o & E & C & D). eauto.
    - destruct (fp_zero_spec P OK). eauto. }
  exists r. split; auto. split.
  - clear -F; induction F; constructor; tauto.
  - clear -F; induction F; cbn; f_equal; tauto.
Qed.

Theorem field_vector_to_bits_spec v : Forall (canon P) v ->
  exists ls, mapM (field_to_bits P) v = Ok ls /\ field_vector_to_bits P v = Ok (concat ls) /\
    map bits_val ls = map (den P) v /\ Forall (fun l => Z.of_nat (length l) = fp_num_bits P) ls.
Proof.
  intros C. destruct (mapM_spec (field_to_bits P)
    (fun a l => Z.of_nat (length l) = fp_num_bits P /\ bits_val l = den P a) v) as (ls & E & F).
  { intros a Ha. rewrite Forall_forall in C. destruct (field_to_bits_spec a (C a Ha)) as (l & X & Y & Z0).
    eauto. }
  exists ls. split; auto. unfold field_vector_to_bits. rewrite E. split; auto. split.
  - clear -F; induction F; cbn; f_equal; tauto.
  - clear -F; induction F; constructor; tauto.
Qed.
End Packing.
