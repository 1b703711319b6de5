(** Proofs about [Double]: exact on integers below 2^53; comparison. *)
From Coq Require Import ZArith Bool Lia Floats.SpecFloat.
From Verif Require Import Result DoubleModel.
Open Scope Z_scope.

(** ** Digits *)
Lemma digits_spec p : 2 ^ (Z.pos (digits2_pos p) - 1) <= Z.pos p < 2 ^ Z.pos (digits2_pos p).
Proof.
  induction p as [p IH|p IH|]; cbn [digits2_pos].
  - rewrite Pos2Z.inj_succ. replace (Z.succ (Z.pos (digits2_pos p)) - 1) with (Z.succ (Z.pos (digits2_pos p) - 1)) by lia.
    rewrite !Z.pow_succ_r by lia. lia.
  - rewrite Pos2Z.inj_succ. replace (Z.succ (Z.pos (digits2_pos p)) - 1) with (Z.succ (Z.pos (digits2_pos p) - 1)) by lia.
    rewrite !Z.pow_succ_r by lia. lia.
  - cbn. lia.
Qed.
Lemma digits_unique p d : 1 <= d -> 2 ^ (d - 1) <= Z.pos p < 2 ^ d -> Z.pos (digits2_pos p) = d.
Proof.
  intros Hd [H1 H2]. destruct (digits_spec p) as [G1 G2].
  assert (d - 1 < Z.pos (digits2_pos p)) by (apply (Z.pow_lt_mono_r_iff 2); lia).
  assert (Z.pos (digits2_pos p) - 1 < d) by (apply (Z.pow_lt_mono_r_iff 2); lia). lia.
Qed.
Lemma digits_shift p k q : 0 <= k -> Z.pos q = Z.pos p * 2 ^ k -> Z.pos (digits2_pos q) = Z.pos (digits2_pos p) + k.
Proof.
  intros Hk E. apply digits_unique; [lia|]. rewrite E. destruct (digits_spec p) as [G1 G2].
  replace (Z.pos (digits2_pos p) + k - 1) with (Z.pos (digits2_pos p) - 1 + k) by lia.
  rewrite !Z.pow_add_r by lia. assert (0 < 2 ^ k) by (apply Z.pow_pos_nonneg; lia). nia.
Qed.
Lemma digits_le p d : 0 <= d -> Z.pos p < 2 ^ d -> Z.pos (digits2_pos p) <= d.
Proof.
  intros Hd H. destruct (digits_spec p) as [G1 _].
  assert (Z.pos (digits2_pos p) - 1 < d) by (apply (Z.pow_lt_mono_r_iff 2); lia). lia.
Qed.
Lemma shift_pos_val n p : Z.pos (shift_pos n p) = Z.pos p * 2 ^ Z.pos n.
Proof. rewrite shift_pos_correct, Z.pow_pos_fold. lia. Qed.
Lemma shl_align_val m e e' : e' <= e -> Z.pos (fst (shl_align m e e')) = Z.pos m * 2 ^ (e - e') /\ snd (shl_align m e e') = e'.
Proof.
  intros H. unfold shl_align. destruct (e' - e) as [|d|d] eqn:E; cbn [fst snd]; try lia.
  - replace (e - e') with 0 by lia. split; lia.
  - rewrite shift_pos_val. replace (e - e') with (Z.pos d) by lia. auto.
Qed.
Lemma shl_align_same m e e' : e <= e' -> shl_align m e e' = (m, e).
Proof. intros H. unfold shl_align. destruct (e' - e) as [|d|d] eqn:E; auto; lia. Qed.

(** ** Exact rounding *)
Notation rec0 m := {| shr_m := m; shr_r := false; shr_s := false |}.
Lemma iter_shr n : forall m, iter_pos shr_1 n (rec0 (Z.pos m * 2 ^ Z.pos n)) = rec0 (Z.pos m).
Proof.
  assert (S : forall m, shr_1 (rec0 (2 * Z.pos m)) = rec0 (Z.pos m)) by (intros m; reflexivity).
  assert (D : forall m k, exists m', Z.pos m * 2 ^ Z.pos k = Z.pos m').
  { intros m k. exists (shift_pos k m). symmetry. apply shift_pos_val. }
  induction n as [n IH|n IH|]; intros m; cbn [iter_pos].
  - replace (Z.pos n~1) with (1 + Z.pos n + Z.pos n) by lia. rewrite !Z.pow_add_r by lia.
    destruct (D m n) as [m1 E1]. destruct (D m1 n) as [m2 E2].
    replace (Z.pos m * (2 ^ 1 * 2 ^ Z.pos n * 2 ^ Z.pos n)) with (2 * Z.pos m2) by (rewrite <- E2, <- E1; ring).
    rewrite S, <- E2, IH, <- E1. apply IH.
  - replace (Z.pos n~0) with (Z.pos n + Z.pos n) by lia. rewrite Z.pow_add_r by lia.
    destruct (D m n) as [m1 E1]. rewrite Z.mul_assoc, E1, IH, <- E1. apply IH.
  - rewrite Z.pow_1_r, Z.mul_comm. apply S.
Qed.
Notation dig q := (Z.pos (digits2_pos q)).
Lemma fexp_small d : -1021 <= d -> fexp prec emax d = d - 53.
Proof. intros H. unfold fexp, emin. lia. Qed.
(** The number q with a 53-bit mantissa. *)
Definition norm (s : bool) (q : positive) : double :=
  S754_finite s (fst (shl_align q 0 (dig q - 53))) (dig q - 53).
Lemma norm_mantissa q : dig q <= 53 -> Z.pos (fst (shl_align q 0 (dig q - 53))) = Z.pos q * 2 ^ (53 - dig q).
Proof. intros H. destruct (shl_align_val q 0 (dig q - 53)) as [E _]; [lia|]. rewrite E. do 2 f_equal. lia. Qed.
Lemma round_aux_norm s q m : dig q <= 53 -> Z.pos m = Z.pos q * 2 ^ (53 - dig q) ->
  binary_round_aux prec emax s (Z.pos m) (dig q - 53) loc_Exact = norm s q.
Proof.
  intros Hq Em. pose proof (digits_shift q (53 - dig q) m ltac:(lia) Em) as Dm. 
  assert (Sh : shr_fexp prec emax (Z.pos m) (dig q - 53) loc_Exact = (rec0 (Z.pos m), dig q - 53)).
  { unfold shr_fexp, Zdigits2. rewrite Dm, fexp_small by lia. replace (dig q + (53 - dig q) + (dig q - 53) - 53 - (dig q - 53)) with 0 by lia. reflexivity. }
  unfold binary_round_aux. rewrite Sh. cbn [shr_m loc_of_shr_record round_nearest_even]. rewrite Sh. cbn [shr_m].
  replace (Zle_bool (dig q - 53) (emax - prec)) with true by (symmetry; apply Z.leb_le; lia).
  unfold norm. f_equal. apply Pos2Z.inj. rewrite Em. symmetry. now apply norm_mantissa.
Qed.
Lemma round_aux_exact s q m e : dig q <= 53 -> -1000 <= e <= dig q - 53 -> Z.pos m = Z.pos q * 2 ^ (- e) ->
  binary_round_aux prec emax s (Z.pos m) e loc_Exact = norm s q.
Proof.
  intros Hq He Em. pose proof (digits_shift q (- e) m ltac:(lia) Em) as Dm.
  destruct (shl_align_val q 0 (dig q - 53)) as [En _]; [lia|]. pose proof (norm_mantissa q Hq) as En'.
  set (mq := fst (shl_align q 0 (dig q - 53))) in *.
  destruct (Z.eq_dec e (dig q - 53)) as [->|Ne].
  { apply round_aux_norm; auto. rewrite Em. do 2 f_equal. lia. }
  assert (Hn : exists n, dig q - 53 - e = Z.pos n) by (exists (Z.to_pos (dig q - 53 - e)); lia). destruct Hn as [n Hn].
  assert (Sh : shr_fexp prec emax (Z.pos m) e loc_Exact = (rec0 (Z.pos mq), dig q - 53)).
  { unfold shr_fexp, Zdigits2. rewrite Dm, fexp_small by lia. replace (dig q + - e + e - 53 - e) with (Z.pos n) by lia. cbn [shr shr_record_of_loc].
    assert (E1 : Z.pos m = Z.pos mq * 2 ^ Z.pos n).
    { rewrite Em, En', <- Z.mul_assoc, <- Z.pow_add_r by lia. do 2 f_equal. lia. }
    rewrite E1, iter_shr. f_equal. lia. }
  pose proof (round_aux_norm s q mq Hq En') as R. unfold binary_round_aux in R |- *. rewrite Sh. cbn [shr_m loc_of_shr_record round_nearest_even].
  pose proof (digits_shift q (53 - dig q) mq ltac:(lia) En') as Dq.
  assert (Sh2 : shr_fexp prec emax (Z.pos mq) (dig q - 53) loc_Exact = (rec0 (Z.pos mq), dig q - 53)).
  { unfold shr_fexp, Zdigits2. rewrite Dq, fexp_small by lia. replace (dig q + (53 - dig q) + (dig q - 53) - 53 - (dig q - 53)) with 0 by lia. reflexivity. }
  rewrite Sh2 in R |- *. cbn [shr_m loc_of_shr_record round_nearest_even] in R. rewrite Sh2 in R. exact R.
Qed.
Lemma round_exact s q m e : dig q <= 53 -> -1000 <= e <= 0 -> Z.pos m = Z.pos q * 2 ^ (- e) ->
  binary_round prec emax s m e = norm s q.
Proof.
  intros Hq He Em. pose proof (digits_shift q (- e) m ltac:(lia) Em) as Dm. unfold binary_round.
  rewrite Dm. replace (dig q + - e + e) with (dig q) by lia. rewrite fexp_small by lia.
  destruct (Z.le_gt_cases e (dig q - 53)) as [H|H].
  - rewrite shl_align_same by lia. apply round_aux_exact; auto. lia.
  - destruct (shl_align_val m e (dig q - 53)) as [E1 E2]; [lia|]. destruct (shl_align m e (dig q - 53)) as [mz ez]. cbn [fst snd] in *. subst ez.
    apply round_aux_norm; auto. rewrite E1, Em, <- Z.mul_assoc, <- Z.pow_add_r by lia. do 2 f_equal. lia.
Qed.

(** ** Integers *)
Definition small (z : Z) : Prop := Z.abs z < 2 ^ 53.
(** [x] has the value z: both zeros have the value 0. *)
Definition is_int (x : double) (z : Z) : Prop :=
  match z with
  | 0 => exists s, x = S754_zero s
  | Z.pos q => x = norm false q
  | Z.neg q => x = norm true q
  end.
Lemma normalize_int z e s : small z -> -1000 <= e <= 0 -> is_int (binary_normalize prec emax (z * 2 ^ (- e)) e s) z.
Proof.
  intros S He. unfold small in S. assert (P2 : 0 < 2 ^ (- e)) by (apply Z.pow_pos_nonneg; lia).
  destruct z as [|q|q].
  - exists s. reflexivity.
  - destruct (Z.pos q * 2 ^ (- e)) as [|m|m] eqn:E; try lia. cbn [binary_normalize is_int]. apply round_exact; auto.
    apply digits_le; lia.
  - destruct (Z.neg q * 2 ^ (- e)) as [|m|m] eqn:E; try lia. cbn [binary_normalize is_int]. apply round_exact; auto; try lia.
    apply digits_le; lia.
Qed.
Lemma of_int_exact z : small z -> is_int (of_int z) z.
Proof. intros S. pose proof (normalize_int z 0 false S ltac:(lia)) as H. rewrite Z.mul_1_r in H. exact H. Qed.
(** The mantissa and exponent of a small integer. *)
Lemma is_int_finite x z : small z -> z <> 0 -> is_int x z -> exists m e, x = S754_finite (z <? 0) m e /\
  -53 <= e <= 0 /\ cond_Zopp (z <? 0) (Z.pos m) = z * 2 ^ (- e) /\ exists q, Z.abs z = Z.pos q /\ e = dig q - 53 /\ dig q <= 53.
Proof.
  intros S N H. unfold small in S. destruct z as [|q|q]; [congruence| |]; cbn [is_int] in H; subst x; unfold norm;
    assert (Hq : dig q <= 53) by (apply digits_le; lia); (eexists _, _; split; [reflexivity|]; split; [lia|]; split;
    [|exists q; auto]; cbn [cond_Zopp Z.ltb Z.compare]; rewrite norm_mantissa by assumption;
    replace (- (dig q - 53)) with (53 - dig q) by lia; lia).
Qed.
Lemma shl_int m e z s ez : ez <= e -> -1000 <= ez -> cond_Zopp s (Z.pos m) = z * 2 ^ (- e) -> e <= 0 ->
  cond_Zopp s (Z.pos (fst (shl_align m e ez))) = z * 2 ^ (- ez).
Proof.
  intros H1 H2 E H3. destruct (shl_align_val m e ez H1) as [V _]. rewrite V.
  replace (- ez) with (- e + (e - ez)) by lia. rewrite Z.pow_add_r, Z.mul_assoc, <- E by lia. destruct s; cbn [cond_Zopp]; ring.
Qed.
Lemma is_int_0 x z : is_int x z -> z = 0 -> exists s, x = S754_zero s.
Proof. intros H ->. exact H. Qed.
Lemma is_int_opp x z : is_int x z -> is_int (SFopp x) (- z).
Proof. destruct z; cbn [is_int Z.opp]; [intros [s ->]; exists (negb s)|intros ->|intros ->]; reflexivity. Qed.
Lemma add_int x y a b : small a -> small b -> small (a + b) -> is_int x a -> is_int y b -> is_int (fadd x y) (a + b).
Proof.
  intros Sa Sb Sc Ha Hb. unfold fadd.
  destruct (Z.eq_dec a 0) as [Ea|Na]; [destruct (is_int_0 _ _ Ha Ea) as [sa ->]; subst a|destruct (is_int_finite x a Sa Na Ha) as (ma & ea & Xa & Ra & Va & _); rewrite Xa in *];
  (destruct (Z.eq_dec b 0) as [Eb|Nb]; [destruct (is_int_0 _ _ Hb Eb) as [sb ->]; subst b|destruct (is_int_finite y b Sb Nb Hb) as (mb & eb & Xb & Rb & Vb & _); rewrite Xb in *]).
  - cbn [SFadd]. destruct (Bool.eqb sa sb); [exists sa|exists false]; reflexivity.
  - cbn [SFadd]. exact Hb.
  - cbn [SFadd]. rewrite Z.add_0_r. exact Ha.
  - cbn [SFadd]. set (ez := Z.min ea eb).
    rewrite (shl_int ma ea a (a <? 0) ez), (shl_int mb eb b (b <? 0) ez) by (auto; lia).
    rewrite <- Z.mul_add_distr_r. apply normalize_int; auto. lia.
Qed.
Lemma sub_int x y a b : small a -> small b -> small (a - b) -> is_int x a -> is_int y b -> is_int (fsub x y) (a - b).
Proof.
  intros Sa Sb Sc Ha Hb. unfold fsub.
  destruct (Z.eq_dec a 0) as [Ea|Na]; [destruct (is_int_0 _ _ Ha Ea) as [sa ->]; subst a|destruct (is_int_finite x a Sa Na Ha) as (ma & ea & Xa & Ra & Va & _); rewrite Xa in *];
  (destruct (Z.eq_dec b 0) as [Eb|Nb]; [destruct (is_int_0 _ _ Hb Eb) as [sb ->]; subst b|destruct (is_int_finite y b Sb Nb Hb) as (mb & eb & Xb & Rb & Vb & _); rewrite Xb in *]).
  - cbn [SFsub]. destruct (Bool.eqb sa (negb sb)); [exists sa|exists false]; reflexivity.
  - cbn [SFsub]. exact (is_int_opp _ _ Hb).
  - cbn [SFsub]. rewrite Z.sub_0_r. exact Ha.
  - cbn [SFsub]. set (ez := Z.min ea eb).
    rewrite (shl_int ma ea a (a <? 0) ez), (shl_int mb eb b (b <? 0) ez) by (auto; lia).
    rewrite <- Z.mul_sub_distr_r. apply normalize_int; auto. lia.
Qed.
Lemma mul_int x y a b : small a -> small b -> small (a * b) -> is_int x a -> is_int y b -> is_int (fmul x y) (a * b).
Proof.
  intros Sa Sb Sc Ha Hb. unfold fmul.
  destruct (Z.eq_dec a 0) as [Ea|Na]; [destruct (is_int_0 _ _ Ha Ea) as [sa ->]; subst a|destruct (is_int_finite x a Sa Na Ha) as (ma & ea & Xa & Ra & Va & qa & Qa & Ea & Da); rewrite Xa in *];
  (destruct (Z.eq_dec b 0) as [Eb|Nb]; [destruct (is_int_0 _ _ Hb Eb) as [sb ->]; subst b|destruct (is_int_finite y b Sb Nb Hb) as (mb & eb & Xb & Rb & Vb & qb & Qb & Eb & Db); rewrite Xb in *]).
  - cbn [SFmul]. eexists; reflexivity.
  - cbn [SFmul]. eexists; reflexivity.
  - cbn [SFmul]. rewrite Z.mul_0_r. eexists; reflexivity.
  - cbn [SFmul]. 
    assert (Qc : Z.abs (a * b) = Z.pos (qa * qb)) by (rewrite Z.abs_mul; lia).
    assert (Dc : dig (qa * qb) <= 53) by (apply digits_le; unfold small in Sc; lia).
    assert (Lo : dig qa + dig qb - 1 <= dig (qa * qb)).
    { destruct (digits_spec qa) as [A1 _]. destruct (digits_spec qb) as [B1 _]. destruct (digits_spec (qa * qb)) as [_ C2].
      assert (dig qa - 1 + (dig qb - 1) < dig (qa * qb)); [|lia].
      apply (Z.pow_lt_mono_r_iff 2); try lia. rewrite Z.pow_add_r by lia. eapply Z.le_lt_trans; [|exact C2].
      rewrite Pos2Z.inj_mul. apply Z.mul_le_mono_nonneg; try lia; apply Z.pow_nonneg; lia. }
    assert (Ma : Z.pos ma = Z.abs a * 2 ^ (- ea)).
    { transitivity (Z.abs (cond_Zopp (a <? 0) (Z.pos ma))); [destruct (a <? 0); reflexivity|]. rewrite Va, Z.abs_mul. f_equal.
      apply Z.abs_eq, Z.pow_nonneg. lia. }
    assert (Mb : Z.pos mb = Z.abs b * 2 ^ (- eb)).
    { transitivity (Z.abs (cond_Zopp (b <? 0) (Z.pos mb))); [destruct (b <? 0); reflexivity|]. rewrite Vb, Z.abs_mul. f_equal.
      apply Z.abs_eq, Z.pow_nonneg. lia. }
    rewrite (round_aux_exact _ (qa * qb) (ma * mb) (ea + eb)); [|exact Dc|lia|].
    2:{ rewrite Pos2Z.inj_mul, Ma, Mb, Pos2Z.inj_mul, <- Qa, <- Qb. replace (- (ea + eb)) with (- ea + - eb) by lia.
        rewrite Z.pow_add_r by lia. ring. }
    destruct a as [|pa|pa]; [congruence| |]; (destruct b as [|pb|pb]; [congruence| |]); cbn [Z.abs] in Qa, Qb;
      injection Qa as <-; injection Qb as <-; cbn [Z.mul is_int Z.ltb Z.compare xorb]; reflexivity.
Qed.

(** ** Complex integers *)
(** [x] has the value a + b i, a and b below 2^53 in absolute value. *)
Definition is_gauss (x : Double) (a b : Z) : Prop := (is_int (re x) a /\ small a) /\ (is_int (im x) b /\ small b).
Lemma small_0 : small 0. Proof. reflexivity. Qed.
Lemma real_gauss z : small z -> is_gauss (D_real (of_int z)) z 0.
Proof. intros S. repeat split; auto using small_0; cbn [re im D_real]; apply of_int_exact; auto using small_0. Qed.
Theorem gauss_ops x y a b c d : is_gauss x a b -> is_gauss y c d ->
  (small (a + c) -> small (b + d) -> is_gauss (D_add x y) (a + c) (b + d)) /\
  (small (a - c) -> small (b - d) -> is_gauss (D_sub x y) (a - c) (b - d)) /\
  (small (a * c) -> small (b * d) -> small (a * d) -> small (b * c) -> small (a * c - b * d) -> small (a * d + b * c) ->
     is_gauss (D_mul x y) (a * c - b * d) (a * d + b * c)) /\
  is_gauss (D_opp x) (- a) (- b).
Proof.
  intros [[Xa Sa] [Xb Sb]] [[Yc Sc] [Yd Sd]]. split; [|split; [|split]].
  - intros S1 S2. split; split; auto; cbn [re im D_add]; now apply add_int.
  - intros S1 S2. split; split; auto; cbn [re im D_sub]; now apply sub_int.
  - intros S1 S2 S3 S4 S5 S6. split; split; auto; cbn [re im D_mul].
    + apply sub_int; auto; now apply mul_int.
    + apply add_int; auto; now apply mul_int.
  - assert (small (- a) /\ small (- b)) as [Na Nb] by (unfold small in *; rewrite !Z.abs_opp; auto). unfold D_opp.
    destruct (SFeqb (im x) (of_int 0)) eqn:E.
    + assert (b = 0) as ->.
      { destruct (Z.eq_dec b 0) as [|N]; auto. exfalso.
        destruct (is_int_finite _ b Sb N Xb) as (m & e & Ex & _). rewrite Ex in E. destruct (b <? 0); discriminate E. }
      split; split; auto; cbn [re im D_real]; [now apply is_int_opp|]. exists false. reflexivity.
    + split; split; auto; cbn [re im]; now apply is_int_opp.
Qed.
Lemma tolerance_int x z : small z -> is_int x z -> SFltb (SFabs x) precision = (z =? 0).
Proof.
  intros S H. destruct (Z.eqb_spec z 0) as [E|N].
  - destruct (is_int_0 _ _ H E) as [s ->]. reflexivity.
  - destruct (is_int_finite x z S N H) as (m & e & -> & R & _). unfold SFltb, SFcompare, SFabs, precision.
    replace (e ?= -72) with Gt; [reflexivity|]. symmetry. apply Z.compare_gt_iff. lia.
Qed.
Theorem gauss_eqb x y a b c d : is_gauss x a b -> is_gauss y c d -> small (a - c) -> small (b - d) ->
  D_eqb x y = (a =? c) && (b =? d).
Proof.
  intros [[Xa Sa] [Xb Sb]] [[Yc Sc] [Yd Sd]] S1 S2. unfold D_eqb.
  rewrite (tolerance_int _ (a - c)), (tolerance_int _ (b - d)); auto using sub_int.
  f_equal; [destruct (Z.eqb_spec (a - c) 0), (Z.eqb_spec a c)|destruct (Z.eqb_spec (b - d) 0), (Z.eqb_spec b d)]; auto; lia.
Qed.
Lemma truncate_int x z : small z -> is_int x z -> truncate x = Some z.
Proof.
  intros S H. destruct (Z.eq_dec z 0) as [E|N]; [destruct (is_int_0 _ _ H E) as [s ->]; now subst|].
  destruct (is_int_finite x z S N H) as (m & e & -> & R & V & _). cbn [truncate]. f_equal.
  assert (P2 : 0 < 2 ^ (- e)) by (apply Z.pow_pos_nonneg; lia).
  assert (M : Z.pos m = Z.abs z * 2 ^ (- e)).
  { transitivity (Z.abs (cond_Zopp (z <? 0) (Z.pos m))); [destruct (z <? 0); reflexivity|]. rewrite V, Z.abs_mul. f_equal. lia. }
  destruct (Z.leb_spec 0 e) as [H0|H0].
  - assert (e = 0) as -> by lia. rewrite M. destruct (Z.ltb_spec z 0); cbn; lia.
  - rewrite M, Z.div_mul by lia. destruct (Z.ltb_spec z 0); lia.
Qed.
Lemma round_int x z : small z -> is_int x z -> round_away x = Some z.
Proof.
  intros S H. destruct (Z.eq_dec z 0) as [E|N]; [destruct (is_int_0 _ _ H E) as [s ->]; now subst|].
  destruct (is_int_finite x z S N H) as (m & e & -> & R & V & _). cbn [round_away]. f_equal.
  assert (P2 : 0 < 2 ^ (- e)) by (apply Z.pow_pos_nonneg; lia).
  assert (M : Z.pos m = Z.abs z * 2 ^ (- e)).
  { transitivity (Z.abs (cond_Zopp (z <? 0) (Z.pos m))); [destruct (z <? 0); reflexivity|]. rewrite V, Z.abs_mul. f_equal. lia. }
  destruct (Z.leb_spec 0 e) as [H0|H0].
  - assert (e = 0) as -> by lia. rewrite M. destruct (Z.ltb_spec z 0); cbn; lia.
  - assert (P1 : 0 <= 2 ^ (- e - 1)) by (apply Z.pow_nonneg; lia).
    assert (PE : 2 ^ (- e) = 2 * 2 ^ (- e - 1)) by (rewrite <- Z.pow_succ_r by lia; f_equal; lia).
    rewrite M, Z.add_comm, Z.div_add, (Z.div_small (2 ^ (- e - 1))) by lia. destruct (Z.ltb_spec z 0); lia.
Qed.
Lemma norm_compare p q : dig p <= 53 -> dig q <= 53 ->
  match (dig p - 53) ?= (dig q - 53) with
  | Eq => Pos.compare_cont Eq (fst (shl_align p 0 (dig p - 53))) (fst (shl_align q 0 (dig q - 53)))
  | Lt => Lt | Gt => Gt end = (Z.pos p ?= Z.pos q).
Proof.
  intros Hp Hq. pose proof (digits_spec p) as Bp. pose proof (digits_spec q) as Bq.
  destruct (Z.compare_spec (dig p - 53) (dig q - 53)) as [E|L|G].
  - assert (E' : dig p = dig q) by lia. pose proof (norm_mantissa p Hp) as Mp. pose proof (norm_mantissa q Hq) as Mq.
    change (Z.compare (Z.pos (fst (shl_align p 0 (dig p - 53)))) (Z.pos (fst (shl_align q 0 (dig q - 53)))) = (Z.pos p ?= Z.pos q)).
    rewrite Mp, Mq, E', <- Zmult_compare_compat_r; [reflexivity|]. apply Z.lt_gt, Z.pow_pos_nonneg; lia.
  - symmetry. apply Z.compare_lt_iff. assert (2 ^ dig p <= 2 ^ (dig q - 1)) by (apply Z.pow_le_mono_r; lia). lia.
  - symmetry. apply Z.compare_gt_iff. assert (2 ^ dig q <= 2 ^ (dig p - 1)) by (apply Z.pow_le_mono_r; lia). lia.
Qed.
Lemma compare_int x y a b : small a -> small b -> is_int x a -> is_int y b -> SFcompare x y = Some (a ?= b).
Proof.
  intros Sa Sb Ha Hb. unfold small in Sa, Sb.
  destruct a as [|p|p], b as [|q|q]; cbn [is_int] in Ha, Hb;
    repeat match goal with H : exists _, _ |- _ => destruct H as [? H] end; subst; try reflexivity;
    unfold norm; cbn [SFcompare]; f_equal;
    assert (Hp : dig p <= 53) by (apply digits_le; lia); assert (Hq : dig q <= 53) by (apply digits_le; lia);
    pose proof (norm_compare p q Hp Hq) as N.
  - exact N.
  - change (Z.neg p ?= Z.neg q) with (CompOpp (Z.pos p ?= Z.pos q)). rewrite <- N.
    destruct (_ ?= _); reflexivity.
Qed.
Theorem gauss_order x y a b c d : is_gauss x a b -> is_gauss y c d -> D_ltb x y = (a <? c) /\ D_gtb x y = (c <? a).
Proof.
  intros [[Xa Sa] _] [[Yc Sc] _]. unfold D_ltb, D_gtb, SFltb.
  rewrite (compare_int _ _ a c), (compare_int _ _ c a) by assumption. unfold Z.ltb.
  split; [destruct (a ?= c)|destruct (c ?= a)]; reflexivity.
Qed.
Theorem gauss_convert x a b : is_gauss x a b -> 0 <= a -> D_as_ulong x = Ok a /\ D_as_bigint x = Ok (cons a nil).
Proof.
  intros [[Xa Sa] _] Ha. unfold D_as_ulong, D_as_bigint. rewrite (truncate_int _ a Sa Xa).
  assert (B : ((0 <=? a) && (a <? 2 ^ 64)) = true).
  { apply andb_true_iff. rewrite Z.leb_le, Z.ltb_lt. unfold small in Sa. split; [lia|].
    assert (2 ^ 53 < 2 ^ 64) by reflexivity. lia. }
  unfold to_u64. rewrite B. cbn [bind]. rewrite (round_int _ a Sa (of_int_exact a Sa)), B. auto.
Qed.
Theorem gauss_negative x a b : is_gauss x a b -> a < 0 -> D_as_ulong x = UB /\ D_as_bigint x = UB.
Proof.
  intros [[Xa Sa] _] Ha. unfold D_as_ulong, D_as_bigint. rewrite (truncate_int _ a Sa Xa). unfold to_u64.
  replace (0 <=? a) with false by (symmetry; apply Z.leb_gt; lia). auto.
Qed.
Theorem random_gauss r : 0 <= r -> exists k, 0 <= k <= 1000 /\ is_gauss (D_random_element r) k 0.
Proof.
  intros H. exists (Z.rem r 1001). assert (B : 0 <= Z.rem r 1001 < 1001) by (apply Z.rem_bound_pos; lia).
  split; [lia|]. apply real_gauss. unfold small. assert (1001 < 2 ^ 53) by reflexivity. lia.
Qed.

(** ** Commutativity, reflexivity, symmetry *)
Lemma fadd_comm x y : fadd x y = fadd y x.
Proof.
  unfold fadd. destruct x as [sx|sx| |sx mx ex], y as [sy|sy| |sy my ey]; cbn [SFadd]; try reflexivity;
    try (destruct sx, sy; reflexivity).
  rewrite (Z.min_comm ey ex), Z.add_comm. reflexivity.
Qed.
Lemma fmul_comm x y : fmul x y = fmul y x.
Proof.
  unfold fmul. destruct x as [sx|sx| |sx mx ex], y as [sy|sy| |sy my ey]; cbn [SFmul]; try reflexivity;
    rewrite ?(xorb_comm sx sy); try reflexivity.
  rewrite (Pos.mul_comm mx my), (Z.add_comm ex ey). reflexivity.
Qed.
Theorem D_add_comm x y : D_add x y = D_add y x.
Proof. unfold D_add. rewrite (fadd_comm (re x)), (fadd_comm (im x)). reflexivity. Qed.
Theorem D_mul_comm x y : D_mul x y = D_mul y x.
Proof.
  unfold D_mul. rewrite (fmul_comm (re x) (re y)), (fmul_comm (im x) (im y)), (fmul_comm (re x) (im y)), (fmul_comm (im x) (re y)).
  f_equal. apply fadd_comm.
Qed.
Definition finite (x : double) : Prop := match x with S754_zero _ | S754_finite _ _ _ => True | _ => False end.
Lemma fsub_diag x : finite x -> SFltb (SFabs (fsub x x)) precision = true.
Proof.
  unfold fsub. destruct x as [s|s| |s m e]; cbn [finite SFsub]; try tauto; intros _.
  - destruct s; reflexivity.
  - rewrite Z.sub_diag. reflexivity.
Qed.
Theorem D_eqb_refl x : finite (re x) -> finite (im x) -> D_eqb x x = true.
Proof. intros H1 H2. unfold D_eqb. now rewrite !fsub_diag. Qed.
Lemma round_sign s s' m e : SFabs (binary_round prec emax s m e) = SFabs (binary_round prec emax s' m e).
Proof.
  unfold binary_round. destruct (shl_align m e _) as [mz ez]. unfold binary_round_aux.
  destruct (shr_fexp prec emax (Z.pos mz) ez loc_Exact) as [r1 e1]. destruct (shr_fexp _ _ _ e1 loc_Exact) as [r2 e2].
  destruct (shr_m r2); auto. destruct (Zle_bool e2 _); reflexivity.
Qed.
Lemma normalize_opp m e s s' : SFabs (binary_normalize prec emax m e s) = SFabs (binary_normalize prec emax (- m) e s').
Proof. destruct m; cbn [binary_normalize Z.opp]; [reflexivity| |]; apply round_sign. Qed.
Lemma fsub_sym x y : SFabs (fsub x y) = SFabs (fsub y x).
Proof.
  unfold fsub. destruct x as [sx|sx| |sx mx ex], y as [sy|sy| |sy my ey]; cbn [SFsub]; try reflexivity;
    try (destruct sx, sy; reflexivity).
  rewrite (Z.min_comm ey ex). rewrite (normalize_opp (_ - _) _ false false). do 2 f_equal. lia.
Qed.
Theorem D_eqb_sym x y : D_eqb x y = D_eqb y x.
Proof. unfold D_eqb. now rewrite (fsub_sym (re x)), (fsub_sym (im x)). Qed.

(** ** What does not hold *)
Definition half_precision : Double := D_real (S754_finite false 4722366482869645 (-73)).
Theorem D_eqb_not_transitive : exists x y z, D_eqb x y = true /\ D_eqb y z = true /\ D_eqb x z = false.
Proof. exists D_zero, half_precision, (D_real precision). vm_compute. auto. Qed.
Theorem D_eqb_not_reflexive : exists x, D_eqb x x = false.
Proof. exists (D_real (S754_infinity false)). vm_compute. reflexivity. Qed.
(** 3 and 3 - 2^-30. *)
Theorem D_as_ulong_truncates : exists x y, D_eqb x y = true /\ D_ltb x y = true /\ D_as_ulong x = Ok 2 /\ D_as_ulong y = Ok 3.
Proof.
  exists (D_sub (D_real (of_int 3)) (D_real (S754_finite false 4503599627370496 (-82)))), (D_real (of_int 3)).
  vm_compute. auto.
Qed.

(** ** The value of a binary64 number *)
(** [x] is a binary64 number (not NaN, not infinite) with the integer value [z]. *)
Definition has_value (x : double) (z : Z) : Prop :=
  valid_binary prec emax x = true /\
  match x with
  | S754_zero _ => z = 0
  | S754_finite s m e => cond_Zopp s (Z.pos m) * 2 ^ Z.max e 0 = z * 2 ^ Z.max (- e) 0
  | _ => False
  end.
Lemma has_value_is_int x z : small z -> has_value x z <-> is_int x z.
Proof.
  intros S. split.
  - intros [V H]. destruct x as [s|s| |s m e]; try tauto; [subst; now exists s|].
    cbn [valid_binary] in V. unfold bounded, canonical_mantissa in V. apply andb_true_iff in V. destruct V as [V _].
    apply Zeq_bool_eq in V.
    assert (exists q, z = cond_Zopp s (Z.pos q) /\ Z.pos m * 2 ^ Z.max e 0 = Z.pos q * 2 ^ Z.max (- e) 0) as (q & Ez & Eq).
    { assert (P1 : 0 < 2 ^ Z.max e 0) by (apply Z.pow_pos_nonneg; lia).
      assert (P2 : 0 < 2 ^ Z.max (- e) 0) by (apply Z.pow_pos_nonneg; lia).
      destruct s; cbn [cond_Zopp] in H |- *.
      - destruct z as [|q|q]; [nia|nia|]. exists q. split; [reflexivity|]. lia.
      - destruct z as [|q|q]; [nia| |nia]. exists q. split; [reflexivity|]. lia. }
    assert (Hq : dig q <= 53) by (apply digits_le; [lia|]; unfold small in S; rewrite Ez in S; destruct s; cbn in S; exact S).
    assert (D : dig q = dig m + e).
    { destruct (Z.le_gt_cases 0 e) as [He|He].
      - rewrite Z.max_l, Z.max_r in Eq by lia. apply digits_shift; lia.
      - rewrite Z.max_r, Z.max_l in Eq by lia. pose proof (digits_shift q (- e) m) as X. lia. }
    assert (Ee : e = dig q - 53).
    { rewrite <- V at 1. rewrite <- D. unfold fexp, SpecFloat.emin. lia. }
    assert (Em : m = fst (shl_align q 0 (dig q - 53))).
    { apply Pos2Z.inj. rewrite norm_mantissa by assumption.
      rewrite (Z.max_r e 0), (Z.max_l (- e) 0) in Eq by lia. rewrite Ee in Eq. replace (53 - dig q) with (- (dig q - 53)) by lia. lia. }
    rewrite Ez. unfold is_int. rewrite Em, Ee. destruct s; reflexivity.
  - intros H. destruct (Z.eq_dec z 0) as [E|N]; [destruct (is_int_0 _ _ H E) as [s ->]; subst; split; reflexivity|].
    destruct (is_int_finite x z S N H) as (m & e & -> & R & V & q & Q & Ee & Hq). split.
    + cbn [valid_binary]. unfold bounded, canonical_mantissa. apply andb_true_iff. split; [|apply Z.leb_le; lia].
      assert (Dm : dig m = 53).
      { assert (M : Z.pos m = Z.pos q * 2 ^ (- e)).
        { transitivity (Z.abs (cond_Zopp (z <? 0) (Z.pos m))); [destruct (z <? 0); reflexivity|].
          rewrite V, Z.abs_mul, Q. f_equal. assert (0 < 2 ^ (- e)) by (apply Z.pow_pos_nonneg; lia). lia. }
        rewrite (digits_shift q (- e) m) by (assumption || lia). lia. }
      apply Zeq_is_eq_bool. rewrite Dm. unfold fexp, SpecFloat.emin. lia.
    + rewrite Z.max_r, Z.max_l by lia. rewrite V. lia.
Qed.
(** [x] is a + b i, with a and b below 2^53 in absolute value. *)
Definition gaussian (x : Double) (a b : Z) : Prop := has_value (re x) a /\ has_value (im x) b /\ small a /\ small b.
Lemma gaussian_is x a b : gaussian x a b <-> is_gauss x a b.
Proof.
  unfold gaussian, is_gauss. split.
  - intros (H1 & H2 & S1 & S2). rewrite (has_value_is_int _ _ S1) in H1. rewrite (has_value_is_int _ _ S2) in H2. tauto.
  - intros [[H1 S1] [H2 S2]]. rewrite (has_value_is_int _ _ S1), (has_value_is_int _ _ S2). tauto.
Qed.
Theorem double_exact x y a b c d : gaussian x a b -> gaussian y c d ->
  (small (a + c) -> small (b + d) -> gaussian (D_add x y) (a + c) (b + d)) /\
  (small (a - c) -> small (b - d) -> gaussian (D_sub x y) (a - c) (b - d)) /\
  (small (a * c) -> small (b * d) -> small (a * d) -> small (b * c) -> small (a * c - b * d) -> small (a * d + b * c) ->
     gaussian (D_mul x y) (a * c - b * d) (a * d + b * c)) /\
  (small (a * a) -> small (b * b) -> small (a * b) -> small (a * a - b * b) -> small (a * b + b * a) ->
     gaussian (D_squared x) (a * a - b * b) (a * b + b * a)) /\
  gaussian (D_opp x) (- a) (- b).
Proof.
  intros X Y. rewrite !gaussian_is in *. destruct (gauss_ops _ _ _ _ _ _ X Y) as (H1 & H2 & H3 & H4).
  destruct (gauss_ops _ _ _ _ _ _ X X) as (_ & _ & H5 & _). rewrite (Z.mul_comm b a) in H5 at 1.
  split; [|split; [|split; [|split]]]; auto.
Qed.
Theorem double_compare x y a b c d : gaussian x a b -> gaussian y c d ->
  D_ltb x y = (a <? c) /\ D_gtb x y = (c <? a) /\
  (small (a - c) -> small (b - d) -> (D_eqb x y = true <-> a = c /\ b = d) /\ D_neqb x y = negb (D_eqb x y)).
Proof.
  intros X Y. rewrite gaussian_is in X, Y. destruct (gauss_order _ _ _ _ _ _ X Y) as [H1 H2].
  split; [exact H1|split; [exact H2|]]. intros S1 S2. split; [|reflexivity].
  rewrite (gauss_eqb _ _ _ _ _ _ X Y S1 S2), andb_true_iff, !Z.eqb_eq. reflexivity.
Qed.
Theorem double_convert x a b : gaussian x a b ->
  (0 <= a -> D_as_ulong x = Ok a /\ D_as_bigint x = Ok (cons a nil)) /\ (a < 0 -> D_as_ulong x = UB /\ D_as_bigint x = UB).
Proof. intros X. rewrite gaussian_is in X. split; [exact (gauss_convert x a b X)|exact (gauss_negative x a b X)]. Qed.
Theorem double_constants : gaussian D_default 0 0 /\ gaussian D_zero 0 0 /\ gaussian D_one 1 0 /\
  gaussian D_geometric_generator 2 0 /\ gaussian D_arithmetic_generator 1 0 /\ gaussian D_multiplicative_generator 2 0.
Proof. rewrite !gaussian_is. repeat (split; [apply real_gauss; reflexivity|]). apply real_gauss; reflexivity. Qed.
Theorem double_random r : 0 <= r -> gaussian (D_random_element r) (r mod 1001) 0.
Proof.
  intros H. rewrite gaussian_is, <- Z.rem_mod_nonneg by lia. assert (B : 0 <= Z.rem r 1001 < 1001) by (apply Z.rem_bound_pos; lia).
  apply real_gauss. unfold small. assert (1001 < 2 ^ 53) by reflexivity. lia.
Qed.
(** 2^53 + 1 is not a binary64 number: at the bound the sum is rounded. *)
Theorem double_inexact : exists x y, gaussian x (2 ^ 53 - 1) 0 /\ gaussian y 2 0 /\ has_value (re (D_add x y)) (2 ^ 53).
Proof.
  exists (D_real (of_int (2 ^ 53 - 1))), (D_real (of_int 2)). rewrite !gaussian_is.
  split; [apply real_gauss; reflexivity|split; [apply real_gauss; reflexivity|]]. split; vm_compute; reflexivity.
Qed.
