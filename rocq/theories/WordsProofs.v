(** Proofs about word vectors, sizes, the coset shift and random points. *)
From Coq Require Import ZArith Znumtheory List Bool Lia.
From Verif Require Import Result Limbs LimbsProofs BigintModel BigintProofs FpModel FpSpec FpProofs FpField FpIoProofs Algebra FieldOps
  AlgorithmsModel GroupOps GroupProofs WnafModel WnafProofs ParamsModel ParamsProofs FpInst WordsModel.
Import ListNotations.
Open Scope Z_scope.

(** ** Words *)
Definition all2 {K} (ok : K -> Prop) (x : K * K) : Prop := ok (fst x) /\ ok (snd x).
Definition all3 {K} (ok : K -> Prop) (x : K * K * K) : Prop := ok (fst (fst x)) /\ ok (snd (fst x)) /\ ok (snd x).

(** Round trips: [ok] elements are written as [len] words and read back over
    any object of the right [shape]. *)
Record words_ok {K} (W : words K) (len : nat) (ok shape : K -> Prop) : Prop := {
  wo_rt : forall x old, ok x -> shape old ->
    exists w, wd_to W x = Ok w /\ length w = len /\ limbs w /\ wd_from W old w = Ok (x, true)
}.
Section Ext.
Context {K : Type} (W : words K) (len : nat) (ok shape : K -> Prop).
Hypothesis WO : words_ok W len ok shape.
Lemma quad_words_ok : words_ok (quad_words W) (2 * len) (all2 ok) (all2 shape).
Proof.
  split. intros [x0 x1] [o0 o1] [H0 H1] [S0 S1]. cbn [fst snd] in *.
  destruct (wo_rt _ _ _ _ WO x0 o0 H0 S0) as (w0 & E0 & L0 & B0 & R0).
  destruct (wo_rt _ _ _ _ WO x1 o1 H1 S1) as (w1 & E1 & L1 & B1 & R1).
  exists (w0 ++ w1). cbn [wd_to wd_from quad_words fst snd]. rewrite E0, E1. cbn [bind].
  assert (LL : length (w0 ++ w1) = (2 * len)%nat) by (rewrite app_length; lia).
  split; [reflexivity|]. split; [exact LL|]. split; [now apply limbs_app|].
  cbv zeta. rewrite LL. replace (2 * len / 2)%nat with len by (rewrite Nat.mul_comm, Nat.div_mul; lia).
  rewrite firstn_app, skipn_app, L0, Nat.sub_diag, <- L0, firstn_all, skipn_all. cbn [firstn skipn app].
  rewrite app_nil_r, R0. cbn [bind]. rewrite R1. reflexivity.
Qed.
Lemma cubic_words_ok : words_ok (cubic_words W) (3 * len) (all3 ok) (all3 shape).
Proof.
  split. intros [[x0 x1] x2] [[o0 o1] o2] (H0 & H1 & H2) (S0 & S1 & S2). cbn [fst snd] in *.
  destruct (wo_rt _ _ _ _ WO x0 o0 H0 S0) as (w0 & E0 & L0 & B0 & R0).
  destruct (wo_rt _ _ _ _ WO x1 o1 H1 S1) as (w1 & E1 & L1 & B1 & R1).
  destruct (wo_rt _ _ _ _ WO x2 o2 H2 S2) as (w2 & E2 & L2 & B2 & R2).
  exists (w0 ++ w1 ++ w2). cbn [wd_to wd_from cubic_words fst snd]. rewrite E0, E1, E2. cbn [bind].
  assert (LL : length (w0 ++ w1 ++ w2) = (3 * len)%nat) by (rewrite !app_length; lia).
  split; [reflexivity|]. split; [exact LL|]. split; [apply limbs_app; split; [exact B0|apply limbs_app; now split]|].
  cbv zeta. rewrite LL. replace (3 * len / 3)%nat with len by (rewrite Nat.mul_comm, Nat.div_mul; lia).
  replace (2 * (3 * len) / 3)%nat with (2 * len)%nat
    by (replace (2 * (3 * len))%nat with (2 * len * 3)%nat by lia; rewrite Nat.div_mul; lia).
  replace (2 * len - len)%nat with len by lia.
  assert (F0 : firstn len (w0 ++ w1 ++ w2) = w0) by (rewrite <- L0, firstn_app, Nat.sub_diag, firstn_all; apply app_nil_r).
  assert (K0 : skipn len (w0 ++ w1 ++ w2) = w1 ++ w2) by (rewrite <- L0, skipn_app, Nat.sub_diag, skipn_all; reflexivity).
  assert (F1 : firstn len (w1 ++ w2) = w1) by (rewrite <- L1, firstn_app, Nat.sub_diag, firstn_all; apply app_nil_r).
  assert (K2 : skipn (2 * len) (w0 ++ w1 ++ w2) = w2).
  { rewrite app_assoc. replace (2 * len)%nat with (length (w0 ++ w1)) by (rewrite app_length; lia).
    rewrite skipn_app, Nat.sub_diag, skipn_all. reflexivity. }
  rewrite F0, K0, F1, K2, R0. cbn [bind]. rewrite R1. cbn [bind]. rewrite R2. reflexivity.
Qed.
(** [chunk n i ws]: the i-th block of n words.  [good] is the acceptance test of
    one block; the Boolean of [from_words] is the conjunction over d blocks. *)
Definition chunk (n i : nat) (ws : list Z) : list Z := firstn n (skipn (n * i) ws).
Definition words_flag {L} (V : words L) (n d : nat) (good : list Z -> Prop) (sh : L -> Prop) : Prop :=
  forall old ws, sh old -> limbs ws -> length ws = (n * d)%nat ->
  exists x b, wd_from V old ws = Ok (x, b) /\ sh x /\ (b = true <-> forall i, (i < d)%nat -> good (chunk n i ws)).
Lemma chunk_first n d i l : (i < d)%nat -> chunk n i (firstn (n * d) l) = chunk n i l.
Proof.
  intros H. unfold chunk. rewrite skipn_firstn_comm, firstn_firstn. f_equal. nia.
Qed.
Lemma chunk_skip n d i l : chunk n i (skipn (n * d) l) = chunk n (d + i) l.
Proof. unfold chunk. rewrite skipn_skipn. do 2 f_equal. nia. Qed.
Variables (n d : nat) (good : list Z -> Prop).
Hypothesis WF : words_flag W n d good shape.
Lemma quad_words_flags : words_flag (quad_words W) n (2 * d) good (all2 shape).
Proof.
  intros [o0 o1] ws [S0 S1] B L. cbn [fst snd] in *. cbn [wd_from quad_words]. cbv zeta.
  replace (length ws / 2)%nat with (n * d)%nat by (rewrite L; replace (n * (2 * d))%nat with (n * d * 2)%nat by lia; now rewrite Nat.div_mul).
  destruct (WF o0 (firstn (n * d) ws) S0) as (x0 & b0 & E0 & X0 & H0); [now apply limbs_firstn|rewrite firstn_length; lia|].
  destruct (WF o1 (skipn (n * d) ws) S1) as (x1 & b1 & E1 & X1 & H1); [now apply limbs_skipn|rewrite skipn_length; lia|].
  assert (T : (forall i, (i < 2 * d)%nat -> good (chunk n i ws)) <-> b0 = true /\ b1 = true).
  { rewrite H0, H1. split.
    - intros A. split; intros i Hi; [rewrite chunk_first by assumption|rewrite chunk_skip]; apply A; lia.
    - intros [A1 A2] i Hi. destruct (Nat.ltb_spec i d) as [Hd|Hd].
      + rewrite <- (chunk_first n d) by assumption. now apply A1.
      + replace i with (d + (i - d))%nat by lia. rewrite <- chunk_skip. apply A2. lia. }
  cbn [fst snd]. rewrite E0. cbn [bind]. destruct b0.
  - rewrite E1. cbn [bind]. eexists _, b1. split; [reflexivity|]. split; [now split|]. rewrite T. tauto.
  - eexists _, false. split; [reflexivity|]. split; [now split|]. rewrite T. split; [discriminate|intros [A _]; exact A].
Qed.
Lemma cubic_words_flags : words_flag (cubic_words W) n (3 * d) good (all3 shape).
Proof.
  intros [[o0 o1] o2] ws (S0 & S1 & S2) B L. cbn [fst snd] in *. cbn [wd_from cubic_words]. cbv zeta.
  replace (length ws / 3)%nat with (n * d)%nat by (rewrite L; replace (n * (3 * d))%nat with (n * d * 3)%nat by lia; now rewrite Nat.div_mul).
  replace (2 * length ws / 3)%nat with (n * (2 * d))%nat
    by (rewrite L; replace (2 * (n * (3 * d)))%nat with (n * (2 * d) * 3)%nat by lia; now rewrite Nat.div_mul).
  replace (n * (2 * d) - n * d)%nat with (n * d)%nat by lia.
  destruct (WF o0 (firstn (n * d) ws) S0) as (x0 & b0 & E0 & X0 & H0); [now apply limbs_firstn|rewrite firstn_length; lia|].
  destruct (WF o1 (firstn (n * d) (skipn (n * d) ws)) S1) as (x1 & b1 & E1 & X1 & H1);
    [now apply limbs_firstn, limbs_skipn|rewrite firstn_length, skipn_length; lia|].
  destruct (WF o2 (skipn (n * (2 * d)) ws) S2) as (x2 & b2 & E2 & X2 & H2); [now apply limbs_skipn|rewrite skipn_length; lia|].
  assert (T : (forall i, (i < 3 * d)%nat -> good (chunk n i ws)) <-> b0 = true /\ b1 = true /\ b2 = true).
  { rewrite H0, H1, H2. split.
    - intros A. split; [|split]; intros i Hi; [rewrite chunk_first by assumption|rewrite chunk_first, chunk_skip by assumption|rewrite chunk_skip]; apply A; lia.
    - intros (A1 & A2 & A3) i Hi. destruct (Nat.ltb_spec i d) as [Hd|Hd]; [|destruct (Nat.ltb_spec i (2 * d)) as [Hd2|Hd2]].
      + rewrite <- (chunk_first n d) by assumption. now apply A1.
      + replace i with (d + (i - d))%nat by lia. rewrite <- chunk_skip, <- (chunk_first n d) by lia. apply A2. lia.
      + replace i with (2 * d + (i - 2 * d))%nat by lia. rewrite <- chunk_skip. apply A3. lia. }
  rewrite E0. cbn [bind]. destruct b0.
  - rewrite E1. cbn [bind]. destruct b1.
    + rewrite E2. cbn [bind]. eexists _, b2. split; [reflexivity|]. split; [now repeat split|]. rewrite T. tauto.
    + eexists _, false. split; [reflexivity|]. split; [now repeat split|]. rewrite T. split; [discriminate|intros (_ & A & _); exact A].
  - eexists _, false. split; [reflexivity|]. split; [now repeat split|]. rewrite T. split; [discriminate|intros [A _]; exact A].
Qed.
(** A rejected first coordinate: the others are not assigned. *)
Lemma quad_words_reject old ws c0 : wd_from W (fst old) (firstn (length ws / 2) ws) = Ok (c0, false) ->
  wd_from (quad_words W) old ws = Ok ((c0, snd old), false).
Proof. intros E. cbn [wd_from quad_words]. cbv zeta. rewrite E. reflexivity. Qed.
Lemma quad_words_flag old w0 w1 c0 c1 b0 b1 : length w0 = length w1 ->
  wd_from W (fst old) w0 = Ok (c0, b0) -> wd_from W (snd old) w1 = Ok (c1, b1) ->
  wd_from (quad_words W) old (w0 ++ w1) = Ok ((c0, if b0 then c1 else snd old), b0 && b1).
Proof.
  intros L E0 E1. cbn [wd_from quad_words]. cbv zeta.
  replace (length (w0 ++ w1) / 2)%nat with (length w0)
    by (rewrite app_length, <- L; replace (length w0 + length w0)%nat with (length w0 * 2)%nat by lia; now rewrite Nat.div_mul).
  rewrite firstn_app, skipn_app, Nat.sub_diag, firstn_all, skipn_all. cbn [firstn skipn app].
  rewrite app_nil_r, E0. cbn [bind]. destruct b0; [|reflexivity]. rewrite E1. now cbn [bind].
Qed.
End Ext.

Section Fp.
Variable P : fp_params.
Hypothesis OK : fp_ok P.
Hypothesis NB : fp_num_bits P = bit_length (val (fp_modulus P)).
Hypothesis TOP : nth (fp_n P - 1) (fp_modulus P) 0 <> 0.
Definition has_limbs (a : list Z) : Prop := length a = fp_n P.
Lemma fp_words_ok mont : words_ok (fp_words P mont) (fp_n P) (canon P) has_limbs.
Proof. split. intros x old C S. exact (fp_words_roundtrip P OK NB TOP mont x old C S). Qed.
Theorem ext_words_ok mont :
  words_ok (fp2_words P mont) (2 * fp_n P) (all2 (canon P)) (all2 has_limbs) /\
  words_ok (fp3_words P mont) (3 * fp_n P) (all3 (canon P)) (all3 has_limbs) /\
  words_ok (fp4_words P mont) (2 * (2 * fp_n P)) (all2 (all2 (canon P))) (all2 (all2 has_limbs)) /\
  words_ok (fp6_2over3_words P mont) (2 * (3 * fp_n P)) (all2 (all3 (canon P))) (all2 (all3 has_limbs)) /\
  words_ok (fp6_3over2_words P mont) (3 * (2 * fp_n P)) (all3 (all2 (canon P))) (all3 (all2 has_limbs)) /\
  words_ok (fp12_words P mont) (2 * (3 * (2 * fp_n P))) (all2 (all3 (all2 (canon P)))) (all2 (all3 (all2 has_limbs))).
Proof.
  pose proof (fp_words_ok mont) as H. pose proof (quad_words_ok _ _ _ _ H) as Q. pose proof (cubic_words_ok _ _ _ _ H) as C.
  split; [exact Q|]. split; [exact C|]. split; [exact (quad_words_ok _ _ _ _ Q)|]. split; [exact (quad_words_ok _ _ _ _ C)|].
  pose proof (cubic_words_ok _ _ _ _ Q) as D. split; [exact D|exact (quad_words_ok _ _ _ _ D)].
Qed.
(** The test of one block. *)
Definition fp_good (mont : bool) (w : list Z) : Prop := mont = true -> val w mod 2 ^ fp_num_bits P < val (fp_modulus P).
Lemma fp_words_flags mont : words_flag (fp_words P mont) (fp_n P) 1 (fp_good mont) has_limbs.
Proof.
  intros old ws S B L. rewrite Nat.mul_1_r in L.
  assert (Ec : chunk (fp_n P) 0 ws = ws) by (unfold chunk; rewrite Nat.mul_0_r, <- L; cbn [skipn]; apply firstn_all).
  destruct mont.
  - destruct (from_words_eq P OK NB TOP true old ws B L S) as (c & _ & Lc & Vc & E). cbn [bind] in E.
    exists c, (bigint_ltb c (fp_modulus P)). split; [exact E|]. split; [exact Lc|].
    rewrite bigint_ltb_val, Z.ltb_lt, Vc. split.
    + intros A i Hi _. replace i with 0%nat by lia. now rewrite Ec.
    + intros A. specialize (A 0%nat (Nat.lt_0_succ 0)). rewrite Ec in A. now apply A.
  - destruct (from_words_flag_default P OK NB TOP old ws B L S) as (c & E & C & _).
    exists c, true. split; [exact E|]. split; [apply C|]. split; [intros _ i _ H; discriminate H|reflexivity].
Qed.
Theorem ext_words_flags mont : let n := fp_n P in let good := fp_good mont in
  words_flag (fp2_words P mont) n 2 good (all2 has_limbs) /\
  words_flag (fp3_words P mont) n 3 good (all3 has_limbs) /\
  words_flag (fp4_words P mont) n 4 good (all2 (all2 has_limbs)) /\
  words_flag (fp6_2over3_words P mont) n 6 good (all2 (all3 has_limbs)) /\
  words_flag (fp6_3over2_words P mont) n 6 good (all3 (all2 has_limbs)) /\
  words_flag (fp12_words P mont) n 12 good (all2 (all3 (all2 has_limbs))).
Proof.
  intros n good. pose proof (fp_words_flags mont) as H. fold n good in H.
  pose proof (quad_words_flags _ _ _ _ _ H) as Q. pose proof (cubic_words_flags _ _ _ _ _ H) as C.
  split; [exact Q|]. split; [exact C|]. split; [exact (quad_words_flags _ _ _ _ _ Q)|]. split; [exact (quad_words_flags _ _ _ _ _ C)|].
  pose proof (cubic_words_flags _ _ _ _ _ Q) as D. split; [exact D|exact (quad_words_flags _ _ _ _ _ D)].
Qed.
(** Under MONTGOMERY_OUTPUT the Boolean says whether both halves, cut to
    num_bits bits, are below the modulus; c1 is only assigned if the first is. *)
Theorem fp2_from_words_mont old w0 w1 : limbs w0 -> limbs w1 -> length w0 = fp_n P -> length w1 = fp_n P -> all2 has_limbs old ->
  let m w := val w mod 2 ^ fp_num_bits P in
  exists c0 c1, val c0 = m w0 /\ val c1 = m w1 /\
  wd_from (fp2_words P true) old (w0 ++ w1) =
    Ok ((c0, if m w0 <? val (fp_modulus P) then c1 else snd old), (m w0 <? val (fp_modulus P)) && (m w1 <? val (fp_modulus P))).
Proof.
  intros B0 B1 L0 L1 [S0 S1] m.
  destruct (from_words_eq P OK NB TOP true (fst old) w0 B0 L0 S0) as (c0 & _ & _ & V0 & E0).
  destruct (from_words_eq P OK NB TOP true (snd old) w1 B1 L1 S1) as (c1 & _ & _ & V1 & E1).
  cbn [bind] in E0, E1. rewrite bigint_ltb_val, V0 in E0. rewrite bigint_ltb_val, V1 in E1.
  exists c0, c1. split; [exact V0|]. split; [exact V1|].
  apply (quad_words_flag (fp_words P true)); [congruence|exact E0|exact E1].
Qed.
(** ** Sizes *)
Theorem sizes k : 0 <= k -> let p := val (fp_modulus P) in
  2 ^ (k * fp_floor_size P) <= p ^ k <= 2 ^ (k * fp_ceil_size P).
Proof.
  intros Hk p. pose proof (ok_gt1 P OK) as G. fold p in G. unfold fp_floor_size, fp_ceil_size. rewrite NB. fold p.
  destruct (bit_length_spec p ltac:(lia)) as (H1 & H2 & H3).
  assert (1 <= bit_length p) by (destruct (Z.eq_dec (bit_length p) 0) as [E|E]; [rewrite E in H2; cbn in H2|]; lia).
  rewrite (Z.mul_comm k), (Z.mul_comm k (bit_length p)), !Z.pow_mul_r by lia.
  split; apply Z.pow_le_mono_l; split; try lia; apply Z.pow_nonneg; lia.
Qed.
Theorem log_sizes : 2 ^ soundness_log_of_field_size P <= val (fp_modulus P) < 2 ^ log_of_field_size P /\
  log_of_field_size P = soundness_log_of_field_size P + 1.
Proof.
  unfold soundness_log_of_field_size, log_of_field_size, fp_ceil_size. rewrite NB. pose proof (ok_gt1 P OK) as G.
  destruct (bit_length_spec (val (fp_modulus P)) ltac:(lia)) as (H1 & H2 & H3). lia.
Qed.
Lemma nth_val l : limbs l -> forall i, nth i l 0 = (val l / 2 ^ (64 * Z.of_nat i)) mod 2 ^ 64.
Proof.
  induction l as [|x l IH]; intros H i.
  - cbn [val]. rewrite Z.div_0_l by (apply Z.pow_nonzero; lia). now destruct i.
  - apply limbs_cons in H as [Hx Hl]. unfold is_limb in Hx. cbn [val]. change B with (2 ^ 64) in *. destruct i as [|i]; cbn [nth].
    + change (64 * Z.of_nat 0) with 0. rewrite Z.pow_0_r, Z.div_1_r, (Z.mul_comm (2 ^ 64)), Z.mod_add by lia.
      symmetry. now apply Z.mod_small.
    + rewrite (IH Hl). replace (64 * Z.of_nat (S i)) with (64 + 64 * Z.of_nat i) by lia.
      rewrite Z.pow_add_r, <- Z.div_div by (try apply Z.pow_pos_nonneg; lia).
      rewrite (Z.mul_comm (2 ^ 64) (val l)), Z.div_add by lia. now rewrite (Z.div_small x) by lia.
Qed.
Theorem get_word_spec a word : canon P a ->
  get_word_of_field_elem P a word = if (word <? fp_n P)%nat then Ok ((den P a / 2 ^ (64 * Z.of_nat word)) mod 2 ^ 64) else UB.
Proof.
  intros C. destruct (as_bigint_spec P OK a (proj1 (proj2 C)) (proj1 C)) as (r & E & Cr & V & _).
  unfold get_word_of_field_elem. rewrite E. cbn [bind].
  destruct (Nat.ltb_spec word (fp_n P)) as [H|H]; [|reflexivity]. f_equal. rewrite <- V. apply nth_val. apply Cr.
Qed.
End Fp.

Lemma degrees b : fp2_size b = fp2_extension_degree * b /\ fp3_size b = fp3_extension_degree * b /\
  fp4_size b = fp4_extension_degree * b /\ fp6_2over3_size b = fp6_extension_degree * b /\
  fp6_3over2_size b = fp6_extension_degree * b /\ fp12_size b = fp12_extension_degree * b.
Proof.
  unfold fp12_size, fp6_3over2_size, fp6_2over3_size, fp4_size, fp3_size, fp2_size, fp2_extension_degree, fp3_extension_degree,
    fp4_extension_degree, fp6_extension_degree, fp12_extension_degree. lia.
Qed.

(** ** The coset shift *)
Section Coset.
Variable C : field_consts.
Hypothesis CO : field_consts_ok C.
Let F := fp_ops (fc_P C) (fco_ok C CO) (fco_inv C CO).
Theorem coset_shift_value g : toZ (fc_P C) (coset_shift (osqr F) g) = (toZ (fc_P C) g * toZ (fc_P C) g) mod fc_p C.
Proof.
  unfold coset_shift. rewrite (rk_sqr F (fk_ring F (fp_ops_field (fc_P C) (fco_ok C CO) (fco_inv C CO)))).
  exact (toZ_mul (fc_P C) (fco_ok C CO) g g).
Qed.
Theorem coset_shift_outside k x : fc_t C <> 1 -> 0 <= k <= fc_s C -> fpow F x (Z.to_nat (2 ^ k)) = o1 F ->
  fpow F (omul F (coset_shift (osqr F) (fofZ (fc_P C) (fco_ok C CO) (fc_gen C))) x) (Z.to_nat (2 ^ k)) <> o1 F.
Proof.
  intros T1 Hk Hx E. pose proof (fp_ops_field (fc_P C) (fco_ok C CO) (fco_inv C CO)) as FK. fold F in FK.
  pose proof (fk_ring F FK) as R.
  set (g := fofZ (fc_P C) (fco_ok C CO) (fc_gen C)) in *.
  pose proof (fco_s C CO) as Hs. pose proof (fco_t C CO) as Ht. pose proof (fco_tm1 C CO) as Htm. pose proof (fco_tm1_pos C CO) as Hp.
  assert (P2 : 0 < 2 ^ k) by (apply Z.pow_pos_nonneg; lia).
  assert (Le : 2 ^ k <= 2 ^ fc_s C) by (apply Z.pow_le_mono_r; lia).
  assert (G1 : fpow F g (Z.to_nat (2 * 2 ^ k)) = o1 F).
  { rewrite (npow_mul_distr _ _ (rk_monoid F R) (rk_mul_comm F R)), Hx in E.
    rewrite (rk_mul_comm F R), (ml_1_l _ _ (rk_monoid F R)) in E. unfold coset_shift in E. rewrite (rk_sqr F R) in E.
    rewrite Z2Nat.inj_mul, (npow_mul _ _ (rk_monoid F R)) by lia.
    change (Z.to_nat 2) with 2%nat. rewrite (npow_2 _ _ (rk_monoid F R)). exact E. }
  pose proof (f_equal (toZ (fc_P C)) G1) as Z1. unfold F in Z1. rewrite toZ_pow in Z1. cbn [o1 fp_ops] in Z1.
  rewrite (toZ_one (fc_P C) (fco_ok C CO)), Z2Nat.id in Z1 by lia. unfold g in Z1.
  pose proof (fco_gen_range C CO) as Rg. unfold fc_p in Rg.
  rewrite toZ_ofZ, (Z.mod_small (fc_gen C)) in Z1 by (try exact (conj (Z.lt_le_incl _ _ (proj1 Rg)) (proj2 Rg));
    pose proof (ok_half (fc_P C) (fco_ok C CO)); lia).
  apply (fco_gen C CO (2 * 2 ^ k)); [|exact Z1]. nia.
Qed.
End Coset.

(** ** Layout of the words *)
Lemma fp_words_low P mont a w : fp_ok P -> fp_num_bits P = bit_length (val (fp_modulus P)) -> canon P a ->
  fp_to_words P mont a = Ok w -> val w < 2 ^ fp_ceil_size P.
Proof.
  intros OK NB C E. unfold fp_ceil_size. rewrite NB. pose proof (ok_gt1 P OK) as G.
  destruct (bit_length_spec (val (fp_modulus P)) ltac:(lia)) as (_ & H & _).
  destruct (bigint_repr_spec P OK mont a C) as (b & Eb & Cb & _). unfold fp_to_words in E. rewrite Eb in E. injection E as <-.
  destruct Cb as (_ & _ & Cb). lia.
Qed.

(** ** Random points *)
Lemma randomize_surj l : limbs l -> exists src, bigint_randomize (length l) src = l.
Proof.
  induction l as [|x l IH]; intros H; [now exists (fun _ => 0)|].
  apply limbs_cons in H as [Hx Hl]. destruct (IH Hl) as [f E].
  exists (fun i => match i with O => x mod 2 ^ 32 | S O => x / 2 ^ 32 | S (S i) => f i end).
  cbn [length bigint_randomize]. rewrite (bigint_randomize_ext _ _ f), E by reflexivity. f_equal. unfold is_limb in Hx. change B with (2 ^ 64) in Hx.
  rewrite Z.mod_mod by lia. rewrite (Z.mod_small (x / 2 ^ 32)) by
    (split; [apply Z.div_pos; lia|apply Z.div_lt_upper_bound; [lia|]; change (2 ^ 32 * 2 ^ 32) with (2 ^ 64); lia]).
  symmetry. rewrite Z.add_comm. apply Z.div_mod. lia.
Qed.
Section Random.
Context {T G : Type} (O : gops T) (ok : T -> Prop) (dn : T -> G) (z : G) (add : G -> G -> G) (opp : G -> G).
Hypothesis GO : gops_ok O ok dn z add opp.
Variable Pr : fp_params.
Hypothesis OK : fp_ok Pr.
Hypothesis NB : fp_num_bits Pr = bit_length (val (fp_modulus Pr)).
Hypothesis TOP : nth (fp_n Pr - 1) (fp_modulus Pr) 0 <> 0.
Variable one : T.
Hypothesis Ho : ok one.
Notation mul := (gmul z add opp).
Notation r := (val (fp_modulus Pr)).
Theorem random_point fuel src p : curve_random_element O Pr one fuel src = Ok p ->
  ok p /\ exists k, 0 <= k < r /\ dn p = mul k (dn one).
Proof.
  intros E. unfold curve_random_element in E.
  destruct (fp_random_element Pr fuel src) as [a| | | | |] eqn:Ea; try discriminate. cbn [bind] in E.
  destruct (proj1 (fp_random_element_spec Pr OK NB TOP fuel src) a Ea) as (_ & _ & C & _).
  destruct (as_bigint_spec Pr OK a (proj1 (proj2 C)) (proj1 C)) as (w & E' & Cw & V & _). rewrite E' in E. cbn [bind] in E.
  injection E as <-. destruct Cw as (_ & Lw & Bw).
  destruct (scalar_mul_spec O ok dn z add opp GO one w Lw Ho) as [O1 D1]. split; [exact O1|].
  exists (val w). split; [|exact D1]. pose proof (val_nonneg w Lw). lia.
Qed.
(** The scalar is the integer value of the random field element. *)
Theorem random_point_exact fuel src :
  match fp_random_element Pr fuel src with
  | Ok a => exists p, curve_random_element O Pr one fuel src = Ok p /\ ok p /\ dn p = mul (den Pr a) (dn one)
  | e => curve_random_element O Pr one fuel src = bind e (fun _ => OutOfFuel)
  end.
Proof.
  unfold curve_random_element. destruct (fp_random_element Pr fuel src) as [a| | | | |] eqn:Ea; try reflexivity.
  destruct (proj1 (fp_random_element_spec Pr OK NB TOP fuel src) a Ea) as (_ & _ & C & _).
  destruct (as_bigint_spec Pr OK a (proj1 (proj2 C)) (proj1 C)) as (w & E' & Cw & V & _). cbn [bind]. rewrite E'. cbn [bind].
  destruct Cw as (_ & Lw & _). destruct (scalar_mul_spec O ok dn z add opp GO one w Lw Ho) as [O1 D1].
  eexists. split; [reflexivity|]. split; [exact O1|]. now rewrite D1, V.
Qed.
(** It ends as soon as one block of random words is accepted. *)
Theorem random_point_ends fuel src k : (k < fuel)%nat -> attempt_val Pr src k < r ->
  exists p, curve_random_element O Pr one fuel src = Ok p.
Proof.
  intros Hk H. destruct (proj2 (fp_random_element_spec Pr OK NB TOP fuel src) k Hk H) as (a & Ea).
  destruct (proj1 (fp_random_element_spec Pr OK NB TOP fuel src) a Ea) as (_ & _ & C & _).
  destruct (as_bigint_spec Pr OK a (proj1 (proj2 C)) (proj1 C)) as (w & E' & _).
  unfold curve_random_element. rewrite Ea. cbn [bind]. rewrite E'. cbn [bind]. eauto.
Qed.
(** Every multiple of the generator is drawn for some random words. *)
Theorem random_point_onto k : 0 <= k < r -> exists src p, curve_random_element O Pr one 1 src = Ok p /\ dn p = mul k (dn one).
Proof.
  intros Hk.
  assert (Hb : 0 <= k < Bn (fp_n Pr)) by (pose proof (ok_half Pr OK); lia).
  destruct (fp_of_bigint_spec Pr OK (limbs_of (fp_n Pr) k)) as (a & _ & C & D); auto using limbs_of_limbs, limbs_of_length.
  rewrite val_limbs_of_small, Z.mod_small in D by assumption. destruct C as (La & Ba & Va).
  destruct (randomize_surj a Ba) as [src Es]. rewrite La in Es. exists src.
  assert (A0 : attempt_val Pr src 0 = val a).
  { unfold attempt_val. rewrite (bigint_randomize_ext _ _ src) by (intros i; f_equal; lia). rewrite Es.
    apply Z.mod_small. pose proof (ok_gt1 Pr OK). destruct (bit_length_spec r ltac:(lia)) as (_ & HL & _).
    pose proof (val_nonneg a Ba). lia. }
  destruct (proj2 (fp_random_element_spec Pr OK NB TOP 1 src) 0%nat (Nat.lt_0_succ 0)) as (a' & Ea); [now rewrite A0|].
  destruct (proj1 (fp_random_element_spec Pr OK NB TOP 1 src) a' Ea) as (j & Hj & C' & V' & _).
  replace j with 0%nat in V' by lia. rewrite A0 in V'. destruct C' as (La' & Ba' & Va').
  assert (a' = a) as -> by (apply val_inj; auto; congruence).
  destruct (as_bigint_spec Pr OK a Ba La) as (w & E' & Cw & V & _). destruct Cw as (_ & Lw & Bw).
  unfold curve_random_element. rewrite Ea. cbn [bind]. rewrite E'. cbn [bind]. eexists. split; [reflexivity|].
  destruct (scalar_mul_spec O ok dn z add opp GO one w Lw Ho) as [_ D1]. rewrite D1, V, D. reflexivity.
Qed.
(** A generator of prime order r: the neutral element is drawn exactly for the
    scalar 0, and different scalars give different points. *)
Theorem random_point_order p : prime r -> mul r (dn one) = z -> dn one <> z ->
  (exists fuel src, curve_random_element O Pr one fuel src = Ok p) ->
  mul r (dn p) = z /\ exists k, 0 <= k < r /\ dn p = mul k (dn one) /\ (dn p = z <-> k = 0).
Proof.
  intros Pp T1 N (fuel & src & E). destruct (random_point fuel src p E) as (_ & k & Hk & D).
  pose proof (go_group _ _ _ _ _ _ GO) as AG. split.
  - rewrite D, <- (gmul_mul z add opp AG), Z.mul_comm, (gmul_mul z add opp AG), T1. apply (gmul_zero z add opp AG).
  - exists k. split; [exact Hk|]. split; [exact D|]. split; [|intros ->; exact D].
    intros Z0. destruct (Z.eq_dec k 0) as [|Nk]; [assumption|exfalso].
    assert (RP : rel_prime k r) by (apply rel_prime_sym, prime_rel_prime; [assumption|]; intros V; apply Z.divide_pos_le in V; lia).
    destruct (rel_prime_bezout _ _ RP) as [u v UV]. apply N.
    rewrite <- (gmul_1 z add opp AG (dn one)), <- UV, (gmul_add z add opp AG), !(gmul_mul z add opp AG), T1, <- D, Z0.
    rewrite !(gmul_zero z add opp AG). apply (ag_0_r z add opp AG).
Qed.
End Random.
