(** Proofs about the builds without assertions. *)
From Coq Require Import ZArith NArith List Bool Lia Ring.
From Verif Require Import Result Limbs LimbsProofs Algebra BigintModel BigintProofs FpModel FpSpec FpProofs FpField FieldOps AlgorithmsModel BinaryModel
  BinaryProofs BinaryField BinaryInst BinaryOrder ExtModel StreamModel StreamProofs SerializationModel SerializationProofs
  PackingModel PackingProofs UtilsModel NdebugModel.
Import ListNotations.
Open Scope Z_scope.

(** * Binary fields *)
Lemma gf_inverse_nd_ok mul g a : gf_is_zero a = false -> gf_inverse mul g a = Ok (gf_inverse_nd mul g a).
Proof. intros H. unfold gf_inverse. rewrite H. reflexivity. Qed.
Lemma gf_inverse_nd_zero asm kara g :
  gf_inverse_nd (gf_mul_cfg asm kara g) g (gf_zero (gf_of g)) = gf_zero (gf_of g).
Proof. destruct asm, kara, g; vm_compute; reflexivity. Qed.

Lemma gf_inverse_nd_agree mul g a r : gf_inverse mul g a = Ok r -> Ok (gf_inverse_nd mul g a) = Ok r.
Proof. unfold gf_inverse. destruct (gf_is_zero a); [discriminate|]. auto. Qed.

(** * batch_invert *)
Section Batch.
Context {T : Type} (zero one : T) (mul : T -> T -> T) (eqb : T -> T -> bool).
Lemma batch_prods_agree vec : forall acc r,
  batch_prods zero mul eqb vec acc = Ok r -> r = batch_prods_nd mul vec acc.
Proof.
  induction vec as [|x vec IH]; intros acc r; cbn [batch_prods batch_prods_nd]; [congruence|].
  destruct (eqb x zero); cbn [negb assert_then]; [discriminate|].
  destruct (batch_prods zero mul eqb vec (mul acc x)) as [[prod last]| | | | |] eqn:E; try discriminate.
  cbn [bind]. apply IH in E. rewrite <- E. congruence.
Qed.
Lemma batch_invert_agree inverse inverse_nd vec out : (forall x y, inverse x = Ok y -> inverse_nd x = Ok y) ->
  batch_invert zero one mul eqb inverse vec = Ok out -> batch_invert_nd one mul inverse_nd vec = Ok out.
Proof.
  intros HI. unfold batch_invert_nd, batch_invert.
  destruct (batch_prods zero mul eqb vec one) as [[prod acc]| | | | |] eqn:E; try discriminate.
  apply batch_prods_agree in E. rewrite <- E. cbn [bind].
  destruct (inverse acc) as [y| | | | |] eqn:EI; try discriminate. rewrite (HI _ _ EI). auto.
Qed.

(** With a zero among the elements the product is zero. *)
Variable ok : T -> Prop.
Hypothesis ok_mul : forall x y, ok x -> ok y -> ok (mul x y).
Hypothesis mul_zero_l : forall x, ok x -> mul zero x = zero.
Hypothesis mul_zero_r : forall x, ok x -> mul x zero = zero.
Lemma prods_from_zero vec : Forall ok vec -> snd (batch_prods_nd mul vec zero) = zero.
Proof.
  induction 1 as [|x vec Hx HF IH]; cbn [batch_prods_nd]; auto.
  rewrite (mul_zero_l x Hx). destruct (batch_prods_nd mul vec zero). exact IH.
Qed.
Lemma prods_zero vec : Forall ok vec -> forall acc, ok acc -> In zero vec ->
  snd (batch_prods_nd mul vec acc) = zero.
Proof.
  induction 1 as [|x vec Hx HF IH]; intros acc Ha Hi; [easy|]. cbn [batch_prods_nd].
  destruct Hi as [->|Hi].
  - rewrite (mul_zero_r acc Ha). pose proof (prods_from_zero vec HF) as E.
    destruct (batch_prods_nd mul vec zero). exact E.
  - specialize (IH (mul acc x) (ok_mul _ _ Ha Hx) Hi). destruct (batch_prods_nd mul vec (mul acc x)). exact IH.
Qed.
Lemma prods_len vec : forall acc, length (fst (batch_prods_nd mul vec acc)) = length vec.
Proof.
  induction vec as [|x vec IH]; intros acc; cbn [batch_prods_nd]; auto.
  specialize (IH (mul acc x)). destruct (batch_prods_nd mul vec (mul acc x)). cbn in *. now rewrite IH.
Qed.
Lemma prods_ok vec : Forall ok vec -> forall acc, ok acc -> Forall ok (fst (batch_prods_nd mul vec acc)).
Proof.
  induction 1 as [|x vec Hx HF IH]; intros acc Ha; cbn [batch_prods_nd]; [constructor|].
  specialize (IH (mul acc x) (ok_mul _ _ Ha Hx)). destruct (batch_prods_nd mul vec (mul acc x)). now constructor.
Qed.
Lemma back_zero vec : Forall ok vec -> forall prod, Forall ok prod -> length prod = length vec ->
  batch_back mul vec prod zero = (repeat zero (length vec), zero).
Proof.
  induction 1 as [|x vec Hx HF IH]; intros prod HP L; destruct prod as [|p prod]; try discriminate; auto.
  cbn [batch_back]. inversion HP; subst. rewrite IH by (cbn in L; auto; lia).
  rewrite !mul_zero_l by auto. reflexivity.
Qed.
Lemma batch_zero inverse vec : ok one -> inverse zero = Ok zero -> Forall ok vec -> In zero vec ->
  batch_invert_nd one mul inverse vec = Ok (repeat zero (length vec)).
Proof.
  intros H1 HI HF Hi. unfold batch_invert_nd. pose proof (prods_zero vec HF one H1 Hi) as E.
  pose proof (prods_len vec one) as L. pose proof (prods_ok vec HF one H1) as O.
  destruct (batch_prods_nd mul vec one) as [prod acc]. cbn in *. subst acc. rewrite HI. cbn [bind].
  rewrite (back_zero vec HF prod O L). reflexivity.
Qed.
Lemma batch_zero_ub inverse vec : ok one -> inverse zero = UB -> Forall ok vec -> In zero vec ->
  batch_invert_nd one mul inverse vec = UB.
Proof.
  intros H1 HI HF Hi. unfold batch_invert_nd. pose proof (prods_zero vec HF one H1 Hi) as E.
  destruct (batch_prods_nd mul vec one) as [prod acc]. cbn in *. subst acc. now rewrite HI.
Qed.
End Batch.

Lemma gf_mul_zero g mul (H : prod_spec (gf_of g) mul) a : gok (gf_of g) a ->
  mul (gf_zero (gf_of g)) a = gf_zero (gf_of g) /\ mul a (gf_zero (gf_of g)) = gf_zero (gf_of g).
Proof.
  intros Ha. pose proof (gf_ring g mul H) as R. set (x := mkGF a Ha).
  pose proof (rk_mul_0_l (gf_ops g mul H) R x) as E1.
  pose proof (eq_trans (rk_mul_comm (gf_ops g mul H) R x (ezero g)) E1) as E2.
  split; [exact (f_equal rep E1)|exact (f_equal rep E2)].
Qed.
Lemma gf_batch_zero asm kara g vec : Forall (gok (gf_of g)) vec -> In (gf_zero (gf_of g)) vec ->
  batch_invert_nd (gf_one (gf_of g)) (gf_mul_cfg asm kara g)
    (fun a => Ok (gf_inverse_nd (gf_mul_cfg asm kara g) g a)) vec = Ok (repeat (gf_zero (gf_of g)) (length vec)).
Proof.
  intros HF Hi. pose proof (cfg_spec asm kara g) as S.
  apply (batch_zero (gf_zero (gf_of g)) (gf_one (gf_of g)) (gf_mul_cfg asm kara g) (gok (gf_of g))); auto.
  - intros x y Hx Hy. exact (proj1 (S x y Hx Hy)).
  - intros x Hx. exact (proj1 (gf_mul_zero g _ S x Hx)).
  - intros x Hx. exact (proj2 (gf_mul_zero g _ S x Hx)).
  - exact (proj1 (one_spec (gf_of g) (class_W1 g) (class_n1 g) (class_m g))).
  - now rewrite gf_inverse_nd_zero.
Qed.
(** * Prime fields *)
Lemma fp_invert_nd_agree P a r : fp_invert P a = Ok r -> fp_invert_nd P a = Ok r.
Proof.
  unfold fp_invert, fp_invert_nd, assert_then. cbv zeta.
  destruct (fp_is_zero a); cbn [negb]; [discriminate|].
  destruct (nth _ _ _ =? 0); [discriminate|].
  destruct (gcdext (val a) (val (fp_modulus P))) as [g s].
  destruct (g =? 1); [|discriminate].
  destruct (if (_ <=? _)%nat then _ else _) as [q| | | | |]; cbn [bind]; try discriminate.
  destruct (s <? 0); [|auto].
  destruct (mpn_sub (fp_modulus P) q) as [d b]. cbn [fst].
  destruct (b =? 0); [auto|discriminate].
Qed.
Theorem fp_invert_nd_spec P a : fp_ok P -> fp_ok_inv P -> canon P a ->
  (den P a <> 0 -> exists r, fp_invert_nd P a = Ok r /\ fp_invert P a = Ok r) /\
  (den P a = 0 -> fp_invert_nd P a = UB).
Proof.
  intros OK OKI C. split; intros H.
  - destruct (fp_invert_prime_spec P OK OKI a C H) as (r & E & _). exists r. split; auto. now apply fp_invert_nd_agree.
  - unfold fp_invert_nd. rewrite (fp_is_zero_spec P OK a C), H. reflexivity.
Qed.
(** batch_invert of prime field elements, one of them zero. *)
Theorem ring_batch_ub {K} (F : Fops K) (R : ring_ok F) inverse vec : inverse (o0 F) = UB -> In (o0 F) vec ->
  batch_invert_nd (o1 F) (omul F) inverse vec = UB.
Proof.
  intros HI Hi. apply (batch_zero_ub (o0 F) (o1 F) (omul F) (fun _ => True)); auto.
  - intros x _. apply (rk_mul_0_l F R).
  - intros x _. rewrite (rk_mul_comm F R). apply (rk_mul_0_l F R).
  - now apply Forall_forall.
Qed.
Theorem bits_to_field_nd_spec P v : fp_ok P ->
  exists r, bits_to_field_nd P v = Ok r /\ canon P r /\ den P r = bits_val v mod val (fp_modulus P).
Proof.
  intros OK. unfold bits_to_field_nd.
  destruct (fp_one_spec P OK) as (o & E & C & D). rewrite E. cbn [bind].
  destruct (fp_zero_spec P OK) as (C0 & D0).
  destruct (bits_to_field_loop_spec P OK v _ _ C0 C) as (r & Er & Cr & Dr).
  exists r. split; auto. split; auto. rewrite Dr, D, D0. f_equal. ring.
Qed.

(** * Big integers, streams, integers *)
Theorem bigint_of_mpz_nd_spec n r : 0 <= r ->
  length (bigint_of_mpz_nd n r) = n /\ limbs (bigint_of_mpz_nd n r) /\ val (bigint_of_mpz_nd n r) = r mod 2 ^ (64 * Z.of_nat n).
Proof.
  intros H. unfold bigint_of_mpz_nd. rewrite bigint_of_mpz_loop_spec by auto. cbn [fst].
  repeat split; auto using limbs_of_length, limbs_of_limbs.
  rewrite val_limbs_of. f_equal. 
Qed.
Theorem input_bool_nd_spec v rest : 0 <= v < 2 ^ 64 -> input_bool_nd (dec v ++ [ch_nl] ++ rest) = Ok (v =? 1, rest).
Proof.
  intros H. unfold input_bool_nd. rewrite read_u64_dec0; [|exact H|reflexivity]. reflexivity.
Qed.
Theorem twos_complement_nd_spec i w : 1 <= w <= 62 -> - 2 ^ 31 <= i < 2 ^ 31 ->
  (- 2 ^ (w - 1) <= i < 2 ^ (w - 1) -> to_twos_complement_nd i w = Ok (i mod 2 ^ w)) /\
  (2 ^ (w - 1) <= i -> to_twos_complement_nd i w = Ok i) /\
  (i < - 2 ^ w -> to_twos_complement_nd i w = Ok (2 ^ 64 + i + 2 ^ w)).
Proof.
  intros Hw Hi. unfold to_twos_complement_nd.
  replace ((1 <=? w) && (w <=? 62)) with true by (symmetry; apply andb_true_intro; split; apply Z.leb_le; lia).
  assert (P : 2 ^ w = 2 * 2 ^ (w - 1)) by (rewrite <- Z.pow_succ_r by lia; f_equal; lia).
  assert (Q : 0 < 2 ^ (w - 1)) by (apply Z.pow_pos_nonneg; lia).
  assert (M : 2 ^ (w - 1) <= 2 ^ 61) by (apply Z.pow_le_mono_r; lia).
  assert (W : forall z, wrap64 z = z mod 2 ^ 64) by (intros; reflexivity).
  rewrite W. split; [|split]; intros H.
  - f_equal. destruct (Z.leb_spec 0 i).
    + rewrite !Z.mod_small by lia. reflexivity.
    + rewrite (Z.mod_small (i + 2 ^ w)) by lia. apply (Z.mod_unique_pos _ _ (-1)); lia.
  - replace (0 <=? i) with true by (symmetry; apply Z.leb_le; lia). rewrite Z.mod_small by lia. reflexivity.
  - replace (0 <=? i) with false by (symmetry; apply Z.leb_gt; lia). f_equal. symmetry.
    apply (Z.mod_unique_pos _ _ (-1)); lia.
Qed.

(** * Sparse products *)
(** Below -2^(w-1) a number is taken for a positive one. *)
Theorem to_twos_complement_nd_alias i w : 1 <= w <= 62 -> - 2 ^ w <= i < - 2 ^ (w - 1) ->
  to_twos_complement_nd i w = Ok (i + 2 ^ w) /\ 0 <= i + 2 ^ w < 2 ^ (w - 1).
Proof.
  intros Hw Hi. unfold to_twos_complement_nd.
  replace ((1 <=? w) && (w <=? 62)) with true by (symmetry; apply andb_true_intro; split; apply Z.leb_le; lia).
  assert (P : 2 ^ w = 2 * 2 ^ (w - 1)) by (rewrite <- Z.pow_succ_r by lia; f_equal; lia).
  assert (Q : 0 < 2 ^ (w - 1)) by (apply Z.pow_pos_nonneg; lia).
  assert (M : 2 ^ (w - 1) <= 2 ^ 61) by (apply Z.pow_le_mono_r; lia).
  replace (0 <=? i) with false by (symmetry; apply Z.leb_gt; lia).
  split; [|lia]. f_equal. apply Z.mod_small. rewrite B_eq. lia.
Qed.

Lemma to_int32_small z : - 2 ^ 31 <= z < 2 ^ 31 -> to_int32 z = z.
Proof.
  intros H. unfold to_int32. destruct (Z.ltb_spec z 0).
  - replace (z mod 2 ^ 32) with (z + 2 ^ 32) by (apply (Z.mod_unique_pos _ _ (-1)); lia).
    replace (_ <? _) with false by (symmetry; apply Z.ltb_ge; lia). lia.
  - rewrite Z.mod_small by lia. replace (_ <? _) with true by (symmetry; apply Z.ltb_lt; lia). reflexivity.
Qed.
Lemma to_int32_range z : - 2 ^ 31 <= to_int32 z < 2 ^ 31 /\ to_int32 z mod 2 ^ 32 = z mod 2 ^ 32.
Proof.
  unfold to_int32. pose proof (Z.mod_pos_bound z (2 ^ 32) ltac:(lia)).
  destruct (Z.ltb_spec (z mod 2 ^ 32) (2 ^ 31)).
  - split; [lia|]. apply Z.mod_small. lia.
  - split; [lia|]. symmetry. apply (Z.mod_unique_pos _ _ (-1)); lia.
Qed.
Lemma to_int32_wrap64 z : to_int32 (wrap64 z) = to_int32 z.
Proof.
  unfold to_int32, wrap64. rewrite B_eq. change (2 ^ 64) with (2 ^ 32 * 2 ^ 32).
  rewrite Z.rem_mul_r by lia. rewrite Z.mul_comm, Z.mod_add by lia. now rewrite Z.mod_mod by lia.
Qed.
Theorem from_twos_complement_nd_spec i w : 1 <= w <= 32 -> 0 <= i < 2 ^ 64 ->
  (forall r, from_twos_complement i w = Ok r -> from_twos_complement_nd i w = Ok r) /\
  (i < 2 ^ (w - 1) -> from_twos_complement_nd i w = Ok i) /\
  (2 ^ (w - 1) <= i < 2 ^ w -> from_twos_complement_nd i w = Ok (i - 2 ^ w)) /\
  (2 ^ w <= i -> exists r, from_twos_complement_nd i w = Ok r /\ - 2 ^ 31 <= r < 2 ^ 31 /\ r mod 2 ^ 32 = (i - 2 ^ w) mod 2 ^ 32).
Proof.
  intros Hw Hi. unfold from_twos_complement, from_twos_complement_nd.
  replace ((1 <=? w) && (w <=? 63)) with true by (symmetry; apply andb_true_intro; split; apply Z.leb_le; lia).
  assert (P : 2 ^ w = 2 * 2 ^ (w - 1)) by (rewrite <- Z.pow_succ_r by lia; f_equal; lia).
  assert (Q : 0 < 2 ^ (w - 1)) by (apply Z.pow_pos_nonneg; lia).
  assert (M : 2 ^ (w - 1) <= 2 ^ 31) by (apply Z.pow_le_mono_r; lia).
  split; [|split; [|split]].
  - intros r. destruct (i <? 2 ^ w); [auto|discriminate].
  - intros H. replace (i <? _) with true by (symmetry; apply Z.ltb_lt; lia). rewrite to_int32_small by lia. reflexivity.
  - intros H. replace (i <? _) with false by (symmetry; apply Z.ltb_ge; lia).
    rewrite to_int32_wrap64, to_int32_small by lia. reflexivity.
  - intros H. replace (i <? _) with false by (symmetry; apply Z.ltb_ge; lia).
    rewrite to_int32_wrap64. eexists. split; [reflexivity|]. apply to_int32_range.
Qed.

Section Sparse.
Context {K : Type} (F : Fops K) (R : ring_ok F).
Add Ring Krn : (rk_ring F R).
Theorem fp4_mul_by_023_nd_spec nr2 nr4 a b A0 A1 B :
  let F2 := fp2_ops F nr2 in
  let e := omul F2 a (o0 F, A1) in
  let xy := omul (fp4_ops F nr2 nr4) (a, b) ((A0, A1), B) in
  fp4_mul_by_023_nd F nr2 nr4 (a, b) ((A0, A1), B) = (osub F2 (fst xy) e, oadd F2 (snd xy) e).
Proof.
  destruct a as [a0 a1], b as [b0 b1], B as [B0 B1]. cbn. f_equal; f_equal; ring.
Qed.
Theorem fp6_mul_by_2345_nd_spec nr a b A0 A1 A2 B :
  let F3 := fp3_ops F nr in
  let e := omul F3 a (A0, A1, o0 F) in
  let xy := omul (fp6_2over3_ops F nr nr) (a, b) ((A0, A1, A2), B) in
  fp6_mul_by_2345_nd F nr nr (a, b) ((A0, A1, A2), B) = (osub F3 (fst xy) e, oadd F3 (snd xy) e).
Proof.
  destruct a as [[a0 a1] a2], b as [[b0 b1] b2], B as [[B0 B1] B2]. cbn. f_equal; (f_equal; [f_equal|]; ring).
Qed.
End Sparse.

(** Zero among elements of gf64 spoils the inverses of all of them. *)
Example batch_example : let mul := gf_mul_cfg false false G64 in
  batch_invert_nd (gf_one gf64) mul (fun a => Ok (gf_inverse_nd mul G64 a)) [[2%N]; [0%N]; [3%N]] = Ok [[0%N]; [0%N]; [0%N]] /\
  batch_invert_nd (gf_one gf64) mul (fun a => Ok (gf_inverse_nd mul G64 a)) [[2%N]; [3%N]] =
    batch_invert (gf_zero gf64) (gf_one gf64) mul gf_eqb (gf_inverse mul G64) [[2%N]; [3%N]].
Proof. vm_compute. split; reflexivity. Qed.
Example ndebug_examples :
  to_twos_complement_nd 5 3 = Ok 5 /\ to_twos_complement_nd (-3) 3 = Ok 5 /\
  input_bool_nd (dec 7 ++ [ch_nl]) = Ok (false, []) /\ val (bigint_of_mpz_nd 1 (2 ^ 64 + 9)) = 9.
Proof. vm_compute. repeat split. Qed.
