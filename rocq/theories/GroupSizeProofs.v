(** size_in_bits bits are enough for a point. *)
From Coq Require Import ZArith List Bool Lia Ring.
From Verif Require Import Result Limbs LimbsProofs BigintModel BigintProofs FpModel FpSpec FpProofs FpField FieldOps WordsModel WordsProofs
  CurveModel CurveSpec CurveProofs ParamsModel PrintModel PrintProofs GroupSizeModel.
Import ListNotations.
Open Scope Z_scope.

(** A code of [n] bits for every element that leaves one code unused. *)
Definition fits {K} (n : Z) (enc : K -> Z) : Prop :=
  0 <= n /\ (forall x, 0 <= enc x < 2 ^ n - 1) /\ forall x y, enc x = enc y -> x = y.
(** [n] bits are enough to tell the elements in [ok] apart. *)
Definition enough {T} (n : Z) (ok : T -> Prop) : Prop :=
  exists code : T -> Z, (forall x, 0 <= code x < 2 ^ n) /\ forall x y, ok x -> ok y -> code x = code y -> x = y.

Section Fields.
Variable P : fp_params.
Hypothesis OK : fp_ok P.
Hypothesis NB : fp_num_bits P = bit_length (val (fp_modulus P)).
Definition enc1 (x : Fp P) : Z := den P (repr P x).
Definition enc2 (x : Fp P * Fp P) : Z := enc1 (fst x) + 2 ^ fp_ceil_size P * enc1 (snd x).
Definition enc3 (x : Fp P * Fp P * Fp P) : Z := enc2 (fst x) + 2 ^ (2 * fp_ceil_size P) * enc1 (snd x).
Lemma ceil_pos : 1 <= fp_ceil_size P.
Proof.
  unfold fp_ceil_size. rewrite NB. pose proof (ok_gt1 P OK) as G. destruct (bit_length_spec (val (fp_modulus P)) ltac:(lia)) as (H1 & H2 & H3).
  destruct (Z.eq_dec (bit_length (val (fp_modulus P))) 0) as [E|E]; [rewrite E in H2; cbn in H2|]; lia.
Qed.
Lemma fits1 : fits (fp_ceil_size P) enc1.
Proof.
  pose proof ceil_pos. split; [lia|]. split.
  - intros x. unfold enc1. destruct (repr_canon P x) as (L & Lm & V). destruct (den_spec P OK _ Lm L) as [[? ?] _].
    unfold fp_ceil_size. rewrite NB. pose proof (ok_gt1 P OK) as G.
    destruct (bit_length_spec (val (fp_modulus P)) ltac:(lia)) as (B1 & B2 & B3). lia.
  - intros x y. apply (den_repr_inj P OK).
Qed.
(** Two codes side by side. *)
Lemma pair_code n m a b c d : 0 <= n -> 0 <= m -> 0 <= a < 2 ^ n -> 0 <= b < 2 ^ n -> 0 <= c < 2 ^ m - 1 -> 0 <= d ->
  0 <= a + 2 ^ n * c < 2 ^ (n + m) - 1 /\ (a + 2 ^ n * c = b + 2 ^ n * d -> a = b /\ c = d).
Proof.
  intros Hn Hm Ha Hb Hc Hd. rewrite Z.pow_add_r by lia. pose proof (Z.pow_pos_nonneg 2 n ltac:(lia) Hn) as Pn.
  split; [split; nia|]. intros E.
  assert (c = d).
  { apply (f_equal (fun z => z / 2 ^ n)) in E. rewrite !(Z.mul_comm (2 ^ n)), !Z.div_add in E by lia.
    rewrite !Z.div_small in E by lia. lia. }
  split; [subst; lia|assumption].
Qed.
Lemma fits2 : fits (fp2_size (fp_ceil_size P)) enc2.
Proof.
  destruct fits1 as (N & R & I). replace (fp2_size (fp_ceil_size P)) with (fp_ceil_size P + fp_ceil_size P) by (unfold fp2_size; lia).
  assert (X : forall x y, 0 <= enc2 x < 2 ^ (fp_ceil_size P + fp_ceil_size P) - 1 /\ (enc2 x = enc2 y -> enc1 (fst x) = enc1 (fst y) /\ enc1 (snd x) = enc1 (snd y))).
  { intros x y. unfold enc2. pose proof (R (fst x)). pose proof (R (fst y)). pose proof (R (snd x)). pose proof (R (snd y)). apply pair_code; lia. }
  split; [lia|]. split; [intros x; apply (X x x)|]. intros [x0 x1] [y0 y1] E. apply X in E as [E0 E1]. cbn in E0, E1. f_equal; auto.
Qed.
Lemma fits3 : fits (fp3_size (fp_ceil_size P)) enc3.
Proof.
  destruct fits1 as (N & R & I). destruct fits2 as (N2 & R2 & I2).
  replace (fp3_size (fp_ceil_size P)) with (2 * fp_ceil_size P + fp_ceil_size P) by (unfold fp3_size; lia).
  assert (X : forall x y, 0 <= enc3 x < 2 ^ (2 * fp_ceil_size P + fp_ceil_size P) - 1 /\ (enc3 x = enc3 y -> enc2 (fst x) = enc2 (fst y) /\ enc1 (snd x) = enc1 (snd y))).
  { intros x y. unfold enc3. pose proof (R2 (fst x)) as A. pose proof (R2 (fst y)) as B. unfold fp2_size in A, B.
    pose proof (R (snd x)). pose proof (R (snd y)). apply pair_code; lia. }
  split; [lia|]. split; [intros x; apply (X x x)|]. intros [x0 x1] [y0 y1] E. apply X in E as [E0 E1]. cbn in E0, E1. f_equal; auto.
Qed.
End Fields.

Section Points.
Context {K : Type} (F : Fops K) (FK : field_ok F) (n : Z) (enc : K -> Z).
Hypothesis FE : fits n enc.
Add Ring Fr : (rk_ring F (fk_ring F FK)).
Definition sign (y : K) : Z := if enc y <? enc (oopp F y) then 1 else 0.
Definition code (x y : K) : Z := sign y + 2 ^ 1 * enc x.
Lemma sign_sqr y y' : omul F y y = omul F y' y' -> sign y = sign y' -> y = y'.
Proof.
  intros E S. destruct FE as (_ & _ & I).
  assert (Z0 : omul F (osub F y y') (oadd F y y') = o0 F).
  { transitivity (osub F (omul F y y) (omul F y' y')); [ring|]. rewrite E. ring. }
  apply (fk_mul_0 F FK) in Z0 as [Z0|Z0].
  - transitivity (oadd F (osub F y y') y'); [ring|]. rewrite Z0. ring.
  - assert (E' : y' = oopp F y) by (transitivity (osub F (oadd F y y') y); [ring|rewrite Z0; ring]).
    assert (E'' : oopp F y' = y) by (rewrite E'; ring).
    unfold sign in S. rewrite E'' in S. rewrite <- E' in S. apply I.
    destruct (Z.ltb_spec (enc y) (enc y')), (Z.ltb_spec (enc y') (enc y)); lia.
Qed.
Lemma code_ok x y x' y' : 0 <= code x y < 2 ^ (n + 1) - 1 /\ (code x y = code x' y' -> x = x' /\ sign y = sign y').
Proof.
  destruct FE as (N & R & I). unfold code. assert (S : forall z, 0 <= sign z < 2 ^ 1) by (intros z; unfold sign; destruct (_ <? _); lia).
  destruct (pair_code 1 n (sign y) (sign y') (enc x) (enc x')) as [A B]; auto; try lia; try (specialize (R x'); lia).
  rewrite (Z.add_comm n). split; [exact A|]. intros E. destruct (B E). auto.
Qed.
Theorem sw_enough a b : enough (n + 1) (sw_on F a b).
Proof.
  exists (fun P => match P with Inf => 2 ^ (n + 1) - 1 | Aff x y => code x y end). split.
  - intros [|x y]; [|pose proof (proj1 (code_ok x y x y)); lia]. destruct FE as (N & _ & _).
    pose proof (Z.pow_pos_nonneg 2 (n + 1) ltac:(lia) ltac:(lia)). lia.
  - intros [|x y] [|x' y'] O O' E; auto.
    + pose proof (proj1 (code_ok x' y' x' y')). lia.
    + pose proof (proj1 (code_ok x y x y)). lia.
    + apply code_ok in E as [-> S]. cbn [sw_on] in O, O'. f_equal. apply sign_sqr; congruence.
Qed.
Theorem te_enough a d : (forall z, omul F z z <> d) -> enough (n + 1) (te_on F a d).
Proof.
  intros ND. exists (fun P => code (fst P) (snd P)). split.
  - intros [x y]. pose proof (proj1 (code_ok x y x y)). cbn [fst snd]. lia.
  - intros [x y] [x' y'] O O' E. cbn [fst snd] in E. apply code_ok in E as [-> S]. f_equal. apply sign_sqr; auto.
    cbn [te_on] in O, O'. set (k := omul F d (omul F x' x')) in *.
    assert (Z0 : omul F (osub F (o1 F) k) (osub F (omul F y y) (omul F y' y')) = o0 F).
    { assert (A : omul F (osub F (o1 F) k) (omul F y y) = osub F (o1 F) (omul F a (omul F x' x'))).
      { transitivity (osub F (oadd F (omul F a (omul F x' x')) (omul F y y)) (oadd F (omul F a (omul F x' x')) (omul F k (omul F y y)))); [ring|].
        rewrite O. unfold k. ring. }
      assert (A' : omul F (osub F (o1 F) k) (omul F y' y') = osub F (o1 F) (omul F a (omul F x' x'))).
      { transitivity (osub F (oadd F (omul F a (omul F x' x')) (omul F y' y')) (oadd F (omul F a (omul F x' x')) (omul F k (omul F y' y')))); [ring|].
        rewrite O'. unfold k. ring. }
      transitivity (osub F (omul F (osub F (o1 F) k) (omul F y y)) (omul F (osub F (o1 F) k) (omul F y' y'))); [ring|]. rewrite A, A'. ring. }
    apply (fk_mul_0 F FK) in Z0 as [Z0|Z0].
    + exfalso. assert (K1 : k = o1 F) by (transitivity (osub F (o1 F) (osub F (o1 F) k)); [ring|rewrite Z0; ring]).
      assert (NX : x' <> o0 F). { intros ->. apply (fk_1_neq_0 F FK). rewrite <- K1. unfold k. ring. }
      destruct (fk_inv F FK x' NX) as (i & _ & Hi). apply (ND i).
      transitivity (omul F (omul F k (omul F i i)) (o1 F)); [rewrite K1; ring|].
      transitivity (omul F d (omul F (omul F x' i) (omul F x' i))); [unfold k; ring|]. rewrite Hi. ring.
    + transitivity (oadd F (osub F (omul F y y) (omul F y' y')) (omul F y' y')); [ring|]. rewrite Z0. ring.
Qed.
End Points.
(** Vectors of [l] points. *)
Lemma enough_vector {T} n (ok : T -> Prop) : 0 <= n -> enough n ok -> forall l, 
  exists code : list T -> Z, (forall v, length v = l -> 0 <= code v < 2 ^ (Z.of_nat l * n)) /\
    forall v w, length v = l -> length w = l -> Forall ok v -> Forall ok w -> code v = code w -> v = w.
Proof.
  intros N (c & R & I). 
  exists (fun v => fold_right (fun x acc => c x + 2 ^ n * acc) 0 v).
  assert (A : forall v, 0 <= fold_right (fun x acc => c x + 2 ^ n * acc) 0 v < 2 ^ (Z.of_nat (length v) * n)).
  { induction v as [|x v IH]; [cbn; lia|]. cbn [fold_right length]. rewrite Nat2Z.inj_succ, Z.mul_succ_l, Z.add_comm, Z.pow_add_r by lia.
    pose proof (R x). pose proof (Z.pow_pos_nonneg 2 n ltac:(lia) N). rewrite (Z.add_comm (2 ^ n * _)). nia. }
  split; [intros v <-; apply A|]. clear A.
  intros v. revert l. induction v as [|x v IH]; intros l [|y w] L L' Ov Ow E; auto; cbn in L, L'; try congruence.
  cbn [fold_right] in E. inversion Ov; inversion Ow; subst.
  pose proof (R x). pose proof (R y). pose proof (Z.pow_pos_nonneg 2 n ltac:(lia) N).
  assert (EQ : fold_right (fun x acc => c x + 2 ^ n * acc) 0 v = fold_right (fun x acc => c x + 2 ^ n * acc) 0 w).
  { apply (f_equal (fun z => z / 2 ^ n)) in E. rewrite !(Z.mul_comm (2 ^ n)), !Z.div_add in E by lia.
    rewrite !Z.div_small in E by lia. lia. }
  f_equal; [apply I; auto; rewrite EQ in E; lia|]. apply (IH (length v)); auto; congruence.
Qed.

Lemma sizes_weierstrass P (OK : fp_ok P) : fp_num_bits P = bit_length (val (fp_modulus P)) ->
  (forall (F : Fops (Fp P)) a b, field_ok F -> enough (g1_size_in_bits P) (sw_on F a b)) /\
  (forall (F : Fops (Fp P * Fp P)) a b, field_ok F -> enough (g2_size_in_bits P) (sw_on F a b)) /\
  (forall (F : Fops (Fp P * Fp P * Fp P)) a b, field_ok F -> enough (g2_cubic_size_in_bits P) (sw_on F a b)).
Proof.
  intros NB. split; [|split]; intros F a b FK; eapply sw_enough; eauto.
  - now apply fits1.
  - now apply fits2.
  - now apply fits3.
Qed.
Lemma sizes_edwards P (OK : fp_ok P) : fp_num_bits P = bit_length (val (fp_modulus P)) ->
  (forall (F : Fops (Fp P)) a d, field_ok F -> (forall z, omul F z z <> d) -> enough (g1_size_in_bits P) (te_on F a d)) /\
  (forall (F : Fops (Fp P * Fp P * Fp P)) a d, field_ok F -> (forall z, omul F z z <> d) -> enough (g2_cubic_size_in_bits P) (te_on F a d)).
Proof.
  intros NB. split; intros F a d FK ND; eapply te_enough; eauto.
  - now apply fits1.
  - now apply fits3.
Qed.
Lemma size_examples :
  (g1_size_in_bits (fc_P alt_bn128_Fq_C), g2_size_in_bits (fc_P alt_bn128_Fq_C)) = (255, 509) /\
  (g1_size_in_bits (fc_P bls12_381_Fq_C), g2_size_in_bits (fc_P bls12_381_Fq_C)) = (382, 763) /\
  (g1_size_in_bits (fc_P mnt4_Fq_C), g2_size_in_bits (fc_P mnt4_Fq_C)) = (299, 597) /\
  (g1_size_in_bits (fc_P mnt6_Fq_C), g2_cubic_size_in_bits (fc_P mnt6_Fq_C)) = (299, 895) /\
  (g1_size_in_bits (fc_P edwards_Fq_C), g2_cubic_size_in_bits (fc_P edwards_Fq_C)) = (184, 550) /\
  curve_size_in_bits (g1_size_in_bits (fc_P edwards_Fq_C)) [1; 2; 3] = 552 /\
  curve_size_in_bits (g2_cubic_size_in_bits (fc_P mnt6_Fq_C)) [1; 2; 3; 4; 5] = 4475 /\ ~ enough 0 (fun z : Z => z = 1 \/ z = 2).
Proof.
  repeat (split; [vm_compute; reflexivity|]). intros (c & R & I). cbn in R. pose proof (R 1). pose proof (R 2).
  assert (E : 1 = 2); [apply I; auto; lia|discriminate].
Qed.
