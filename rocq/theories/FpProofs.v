(** Correctness of the portable Montgomery arithmetic model. *)
From Coq Require Import ZArith List Lia Bool Znumtheory Zpow_facts.
From Verif Require Import Result Limbs LimbsProofs StreamModel StreamProofs
  BigintModel BigintProofs FpModel FpSpec.
Import ListNotations.
Open Scope Z_scope.

Lemma canonb_iff P a : canonb P a = true <-> canon P a.
Proof.
  unfold canonb, canon. rewrite !andb_true_iff, Nat.eqb_eq, limbsb_iff, Z.ltb_lt.
  tauto.
Qed.

(** Modular congruence as divisibility-free equation. *)
Lemma mod_eq_iff a b m : 0 < m -> (a mod m = b mod m <-> exists k, a = b + k * m).
Proof.
  intros Hm. split.
  - intros E. exists (a / m - b / m).
    pose proof (Z.div_mod a m). pose proof (Z.div_mod b m). nia.
  - intros [k ->]. apply Z_mod_plus_full.
Qed.

Lemma nth_skipn_val l i : limbs l -> (i < length l)%nat ->
  val (skipn i l) mod B = nth i l 0.
Proof.
  revert l; induction i as [|i IH]; intros [|x l] Hl Hi; cbn [length] in Hi; try lia.
  - apply limbs_cons in Hl as [Hx _]. cbn [skipn nth]. apply val_mod_B; auto.
  - apply limbs_cons in Hl as [_ Hl]. cbn [skipn nth]. apply IH; auto; lia.
Qed.

Lemma val_split i l : (i <= length l)%nat ->
  val l = val (firstn i l) + Bn i * val (skipn i l).
Proof.
  intros Hi. rewrite <- (firstn_skipn i l) at 1. rewrite val_app, firstn_length_le; auto.
Qed.

Lemma low_zero_of_divisible i l : limbs l -> (i <= length l)%nat ->
  (Bn i | val l) -> val (firstn i l) = 0.
Proof.
  intros Hl Hi [q Hq]. rewrite (val_split i l Hi) in Hq.
  pose proof (val_bound _ (limbs_firstn i l Hl)) as Hb.
  rewrite firstn_length_le in Hb by auto.
  assert (E : val (firstn i l) = (q - val (skipn i l)) * Bn i) by lia.
  rewrite <- (Z.mod_small (val (firstn i l)) (Bn i)) by lia.
  rewrite E. apply Z_mod_mult.
Qed.

Lemma high_zero f R s : 0 <= f -> 0 <= s -> 0 < R -> f + R * s < R -> s = 0.
Proof.
  intros Hf Hs HR H. destruct (Z.eq_dec s 0) as [|N]; auto. exfalso.
  assert (R * 1 <= R * s) by (apply Z.mul_le_mono_nonneg_l; lia). lia.
Qed.

Section Proofs.
Variable P : fp_params.
Hypothesis OK : fp_ok P.
Let n := fp_n P.
Let md := fp_modulus P.
Let p := val md.
Let R := Bn n.

Lemma p_gt1 : 1 < p. Proof. apply OK. Qed.
Lemma p_half : 2 * p <= R. Proof. apply OK. Qed.
Lemma R_pos : 0 < R. Proof. apply Bn_pos. Qed.

Lemma p_rel_prime_R : rel_prime R p.
Proof.
  unfold R, Bn. pose proof (ok_inv P OK) as Hi. fold md in Hi. fold p in Hi.
  assert (H2 : rel_prime 2 p).
  { apply Z.mod_divide in Hi; [|discriminate]. destruct Hi as [q Hq].
    apply bezout_rel_prime. apply Bezout_intro with (u := q * 2 ^ 63) (v := - fp_inv P).
    rewrite B_eq in Hq. change (2 ^ 64) with (2 ^ 63 * 2) in Hq. lia. }
  apply rel_prime_sym. apply rel_prime_Zpower_r; [lia|]. now apply rel_prime_sym.
Qed.

Lemma cancel_R x y : (x * R) mod p = (y * R) mod p -> x mod p = y mod p.
Proof.
  pose proof p_gt1. intros E. apply mod_eq_iff in E as [k Hk]; [|lia].
  assert (D : (p | R * (x - y))) by (exists k; lia).
  apply Gauss in D.
  - destruct D as [q Hq]. apply mod_eq_iff; [lia|]. exists q. lia.
  - apply rel_prime_sym, p_rel_prime_R.
Qed.

(** *** The reduction loop *)

Lemma md_len : length md = n. Proof. apply OK. Qed.
Lemma md_limbs : limbs md. Proof. apply OK. Qed.

Lemma reduce_step_spec i res X m :
  (i < n)%nat -> limbs res -> length res = (2 * n)%nat ->
  val res = X + m * p -> 0 <= m < Bn i -> (Bn i | val res) ->
  0 <= X < p * R ->
  exists res' m', reduce_step P i res = Ok res' /\ limbs res' /\
    length res' = (2 * n)%nat /\ val res' = X + m' * p /\ 0 <= m' < Bn (S i) /\
    (Bn (S i) | val res').
Proof.
  intros Hi Hl Hlen Hv Hm Hd HX. unfold reduce_step. fold n md.
  pose proof md_len as Hml. pose proof p_half as Hph. pose proof p_gt1 as Hp1.
  set (k := (fp_inv P * nth i res 0) mod B).
  assert (Hk : 0 <= k < B) by (apply Z.mod_pos_bound; reflexivity).
  destruct (mpn_addmul_1 _ md k) as [mid c] eqn:E1.
  apply mpn_addmul_1_spec in E1 as (E1 & Lmid & Lenmid).
  destruct (mpn_add_1 _ c) as [hi c'] eqn:E2.
  apply mpn_add_1_spec in E2 as (E2 & Lhi & Lenhi).
  rewrite skipn_length in Lenhi, E2.
  assert (Sp : val res = val (firstn i res) + Bn i * (val (firstn n (skipn i res))
             + Bn n * val (skipn (n + i) res))).
  { rewrite (val_split i res) by lia. f_equal. f_equal.
    rewrite (val_split n (skipn i res)) by (rewrite skipn_length; lia).
    rewrite skipn_skipn. reflexivity. }
  assert (V : val (firstn i res ++ mid ++ hi) + c' * Bn (2 * n) = val res + k * p * Bn i).
  { rewrite !val_app, firstn_length_le by lia.
    rewrite Lenmid, Hml, Sp.
    rewrite Hml in E1. fold p in E1.
    replace (2 * n)%nat with (i + (n + (length res - (n + i))))%nat by lia.
    rewrite (Bn_add i), (Bn_add n).
    set (b1 := Bn i) in *. set (b2 := Bn n) in *. set (b3 := Bn (length res - (n + i))) in *.
    assert (val mid + b2 * (val hi + c' * b3)
            = val (firstn n (skipn i res)) + p * k + b2 * val (skipn (n + i) res)).
    { rewrite E2, <- E1. ring. }
    nia. }
  assert (Hc0 : 0 <= c').
  { assert (0 <= val (skipn (n + i) res)) by (apply val_nonneg, limbs_skipn; auto).
    pose proof (val_nonneg _ (limbs_firstn n _ (limbs_skipn i res Hl))).
    pose proof (val_bound _ Lmid) as Hb1. rewrite Lenmid in Hb1.
    pose proof (val_bound _ Lhi) as Hb2. rewrite Lenhi in Hb2.
    fold p in E1.
    assert (0 <= p * k) by nia.
    assert (0 <= c) by nia. nia. }
  set (res' := firstn i res ++ mid ++ hi) in *.
  assert (Lres' : limbs res').
  { apply limbs_app; split; [apply limbs_firstn; auto|].
    apply limbs_app; auto. }
  assert (Lenres' : length res' = (2 * n)%nat).
  { unfold res'. rewrite !app_length, firstn_length_le by lia. lia. }
  assert (Hbnd : val res + k * p * Bn i < Bn (2 * n)).
  { rewrite Hv. replace (2 * n)%nat with (n + n)%nat by lia. rewrite Bn_add. fold R.
    assert (Bn i * B <= R).
    { unfold R. replace n with (S i + (n - S i))%nat by lia.
      rewrite Bn_add, Bn_S. pose proof (Bn_ge_1 (n - S i)). pose proof (Bn_pos i).
      pose proof B_pos. nia. }
    pose proof (Bn_pos i).
    assert ((k + 1) * Bn i <= B * Bn i) by (apply Z.mul_le_mono_nonneg_r; lia).
    assert (Hm' : m + k * Bn i < R) by lia.
    assert ((m + k * Bn i) * p < R * p) by (apply Z.mul_lt_mono_pos_r; lia).
    pose proof R_pos as HR.
    assert ((2 * p) * R <= R * R) by (apply Z.mul_le_mono_nonneg_r; lia).
    lia. }
  assert (c' = 0).
  { pose proof (val_nonneg _ Lres'). pose proof (Bn_pos (2 * n)).
    destruct (Z.eq_dec c' 0) as [|Hc']; auto. exfalso.
    assert (1 * Bn (2 * n) <= c' * Bn (2 * n)) by (apply Z.mul_le_mono_nonneg_r; lia).
    lia. }
  subst c'. rewrite Z.eqb_refl. cbn [assert_then].
  exists res', (m + k * Bn i). repeat split; auto.
  - rewrite Z.mul_0_l, Z.add_0_r in V. rewrite V, Hv. ring.
  - pose proof (Bn_pos i). nia.
  - rewrite Bn_S. pose proof (Bn_pos i). nia.
  - rewrite Z.mul_0_l, Z.add_0_r in V. rewrite V, Bn_S.
    assert (Hlow : val (firstn i res) = 0) by (apply low_zero_of_divisible; auto; lia).
    rewrite (val_split i res) by lia. rewrite Hlow, Z.add_0_l.
    pose proof (nth_skipn_val res i Hl ltac:(lia)) as Hn.
    assert (D : (B | val (skipn i res) + k * p)).
    { apply Z.mod_divide; [discriminate|].
      rewrite Z.add_mod, Hn by discriminate.
      rewrite (Z.mul_mod k p) by discriminate. unfold k at 1.
      rewrite Z.mod_mod by discriminate.
      rewrite <- Z.mul_mod, <- Z.add_mod_idemp_r, Z.mod_mod, Z.add_mod_idemp_r by discriminate.
      pose proof (ok_inv P OK) as Hi'. fold md in Hi'. fold p in Hi'.
      replace (nth i res 0 + fp_inv P * nth i res 0 * p)
        with ((fp_inv P * p + 1) * nth i res 0) by ring.
      rewrite Z.mul_mod, Hi' by discriminate. reflexivity. }
    destruct D as [q Hq]. exists q.
    replace (Bn i * val (skipn i res) + k * p * Bn i)
      with (Bn i * (val (skipn i res) + k * p)) by ring.
    rewrite Hq. ring.
Qed.

Lemma reduce_loop_spec todo i res X m :
  (i + todo = n)%nat -> limbs res -> length res = (2 * n)%nat ->
  val res = X + m * p -> 0 <= m < Bn i -> (Bn i | val res) ->
  0 <= X < p * R ->
  exists res' m', reduce_loop P todo i res = Ok res' /\ limbs res' /\
    length res' = (2 * n)%nat /\ val res' = X + m' * p /\ 0 <= m' < R /\
    (R | val res').
Proof.
  revert i res m; induction todo as [|t IH]; intros i res m Hi Hl Hlen Hv Hm Hd HX.
  - cbn [reduce_loop]. replace i with n in * by lia. exists res, m. auto 10.
  - cbn [reduce_loop].
    destruct (reduce_step_spec i res X m) as (r1 & m1 & E & L1 & N1 & V1 & M1 & D1); auto; [lia|].
    rewrite E. cbn [bind].
    destruct (IH (S i) r1 m1) as (r2 & m2 & E2 & H2); auto; [lia|].
    exists r2, m2. auto.
Qed.

Lemma cond_sub_spec hi : limbs hi -> length hi = n -> val hi < 2 * p ->
  exists r, cond_sub P hi = Ok r /\ canon P r /\ val r mod p = val hi mod p.
Proof.
  intros Hl Hlen Hb. unfold cond_sub. fold md. pose proof p_gt1.
  pose proof (val_nonneg hi Hl) as Hnn. pose proof md_len as Hml.
  assert (Case2 : p <= val hi -> exists r,
    (let '(r, borrow) := mpn_sub hi md in assert_then (borrow =? 0) (Ok r)) = Ok r
    /\ canon P r /\ val r mod p = val hi mod p).
  { intros Hge. destruct (mpn_sub hi md) as [r b] eqn:E.
    apply mpn_sub_spec in E as (E & L & Len). fold p in E.
    pose proof (val_bound r L) as Hr. rewrite Len in Hr.
    assert (b = 0).
    { pose proof (val_bound hi Hl). nia. }
    subst b. cbn [assert_then Z.eqb]. exists r. split; auto.
    split; [split; [lia|split; auto; fold md; fold p; lia]|].
    apply mod_eq_iff; [lia|]. exists (-1). lia. }
  destruct (mpn_cmp_spec hi md) as [C|C|C]; fold p in C.
  - apply Case2; lia.
  - exists hi. repeat split; auto.
  - apply Case2; lia.
Qed.

Theorem mul_reduce_spec a b :
  limbs a -> limbs b -> length a = n -> length b = n -> val a * val b < p * R ->
  exists r, mul_reduce P a b = Ok r /\ canon P r /\
            (val r * R) mod p = (val a * val b) mod p.
Proof.
  intros Ha Hb La Lb Hlt. unfold mul_reduce. fold n.
  destruct (mpn_mul_n_spec a b Ha Hb ltac:(lia)) as (V & L & Len).
  pose proof (val_nonneg a Ha). pose proof (val_nonneg b Hb). pose proof p_gt1 as Hp1.
  destruct (reduce_loop_spec n 0 (mpn_mul_n a b) (val a * val b) 0)
    as (res & m & E & Lr & Lenr & Vr & Mr & Dr); auto; try lia; try nia.
  { rewrite Bn_0; lia. }
  { rewrite Bn_0. apply Z.divide_1_l. }
  rewrite E. cbn [bind].
  assert (Hlow : val (firstn n res) = 0) by (apply low_zero_of_divisible; auto; lia).
  pose proof (val_split n res ltac:(lia)) as Hs. rewrite Hlow, Z.add_0_l in Hs. fold R in Hs.
  pose proof R_pos.
  destruct (cond_sub_spec (skipn n res)) as (r & E2 & C & V2).
  - apply limbs_skipn; auto.
  - rewrite skipn_length; lia.
  - nia.
  - exists r. split; auto. split; auto.
    rewrite Z.mul_mod, V2, <- Z.mul_mod by lia.
    replace (val (skipn n res) * R) with (val a * val b + m * p) by lia.
    apply Z_mod_plus_full.
Qed.

Lemma canon_limbs a : canon P a -> limbs a. Proof. unfold canon; tauto. Qed.
Lemma canon_len a : canon P a -> length a = n. Proof. unfold canon; tauto. Qed.
Lemma canon_lt a : canon P a -> 0 <= val a < p.
Proof. intros (H1 & H2 & H3). split; auto. now apply val_nonneg. Qed.

Lemma canon_inj a b : canon P a -> canon P b -> val a = val b -> a = b.
Proof.
  intros (La & Ha & _) (Lb & Hb & _) E. apply val_inj; auto. congruence.
Qed.

Lemma canon_of_val z : 0 <= z < p -> canon P (limbs_of n z).
Proof.
  intros Hz. pose proof p_half. pose proof R_pos.
  split; [apply limbs_of_length|split; [apply limbs_of_limbs|]].
  fold md p. rewrite val_limbs_of_small; [lia|fold R; lia].
Qed.

Lemma val_R_lt a : limbs a -> length a = n -> 0 <= val a < R.
Proof. intros H L. pose proof (val_bound a H). rewrite L in *. auto. Qed.

Local Notation den := (FpSpec.den P).

Lemma as_bigint_spec a : limbs a -> length a = n ->
  exists r, fp_as_bigint P a = Ok r /\ canon P r /\ val r = den a /\
            (den a * R) mod p = val a mod p.
Proof.
  intros Ha La. unfold den, fp_as_bigint. fold n.
  destruct (bigint_one_spec n (ok_n P OK)) as (V1 & L1 & Len1).
  pose proof (val_R_lt a Ha La). pose proof p_gt1.
  destruct (mul_reduce_spec a (bigint_one n)) as (r & E & C & V); auto.
  { rewrite V1. nia. }
  rewrite E. cbn [get_ok]. exists r. repeat split; try apply C; auto.
  rewrite V, V1, Z.mul_1_r. auto.
Qed.

Lemma den_spec a : limbs a -> length a = n ->
  0 <= den a < p /\ (den a * R) mod p = val a mod p.
Proof.
  intros Ha La. destruct (as_bigint_spec a Ha La) as (r & E & C & V & M).
  rewrite <- V in *. split; auto. now apply canon_lt.
Qed.

Lemma den_unique a x : canon P a -> (x * R) mod p = val a mod p -> den a = x mod p.
Proof.
  intros C E. destruct (den_spec a (canon_limbs a C) (canon_len a C)) as [Hb Hd].
  rewrite <- (Z.mod_small (den a) p) by lia. apply cancel_R. congruence.
Qed.

Lemma den_inj a b : canon P a -> canon P b -> den a = den b -> a = b.
Proof.
  intros Ca Cb E. apply canon_inj; auto.
  destruct (den_spec a (canon_limbs a Ca) (canon_len a Ca)) as [_ Ha].
  destruct (den_spec b (canon_limbs b Cb) (canon_len b Cb)) as [_ Hb].
  pose proof (canon_lt a Ca). pose proof (canon_lt b Cb).
  rewrite <- (Z.mod_small (val a) p), <- (Z.mod_small (val b) p) by lia. congruence.
Qed.

Lemma lt_pR a b : canon P a \/ canon P b -> limbs a -> limbs b ->
  length a = n -> length b = n -> val a * val b < p * R.
Proof.
  intros C Ha Hb La Lb. pose proof (val_R_lt a Ha La). pose proof (val_R_lt b Hb Lb).
  pose proof p_gt1. pose proof R_pos.
  destruct C as [C|C]; apply canon_lt in C; nia.
Qed.

Theorem fp_mul_spec a b : canon P a -> canon P b ->
  exists r, fp_mul P a b = Ok r /\ canon P r /\ den r = (den a * den b) mod p.
Proof.
  intros Ca Cb.
  pose proof (canon_limbs a Ca) as Ha. pose proof (canon_limbs b Cb) as Hb.
  pose proof (canon_len a Ca) as La. pose proof (canon_len b Cb) as Lb.
  pose proof p_gt1.
  destruct (mul_reduce_spec a b) as (r & E & C & V); auto.
  { apply lt_pR; auto. }
  exists r. repeat split; try apply C; auto.
  destruct (den_spec a Ha La) as [_ Da]. destruct (den_spec b Hb Lb) as [_ Db].
  apply den_unique; auto. apply cancel_R. rewrite V.
  rewrite (Z.mul_mod (val a)), <- Da, <- Db, <- Z.mul_mod by lia.
  f_equal. ring.
Qed.

Theorem fp_squared_spec a : canon P a ->
  exists r, fp_squared P a = Ok r /\ canon P r /\ den r = (den a * den a) mod p.
Proof. intros. apply fp_mul_spec; auto. Qed.

Lemma Rsq_canon : canon P (fp_Rsquared P).
Proof.
  split; [apply OK|split; [apply OK|]].
  rewrite (ok_Rsq P OK). pose proof p_gt1. apply Z.mod_pos_bound.
  fold md p. lia.
Qed.

Lemma times_Rsq_spec b : limbs b -> length b = n ->
  (exists r, mul_reduce P (fp_Rsquared P) b = Ok r /\ canon P r /\ den r = val b mod p) /\
  (exists r, mul_reduce P b (fp_Rsquared P) = Ok r /\ canon P r /\ den r = val b mod p).
Proof.
  intros Hb Lb. pose proof Rsq_canon as CR. pose proof p_gt1.
  assert (VR : val (fp_Rsquared P) = (R * R) mod p) by apply OK.
  split.
  - destruct (mul_reduce_spec (fp_Rsquared P) b) as (r & E & C & V);
      auto using canon_limbs, canon_len.
    { apply lt_pR; auto using canon_limbs, canon_len. }
    exists r. repeat split; try apply C; auto. apply den_unique; auto. apply cancel_R.
    rewrite V, VR, Z.mul_mod_idemp_l by lia. f_equal. ring.
  - destruct (mul_reduce_spec b (fp_Rsquared P)) as (r & E & C & V);
      auto using canon_limbs, canon_len.
    { apply lt_pR; auto using canon_limbs, canon_len. }
    exists r. repeat split; try apply C; auto. apply den_unique; auto. apply cancel_R.
    rewrite V, VR, Z.mul_mod_idemp_r by lia. f_equal. ring.
Qed.

Theorem fp_of_bigint_spec b : limbs b -> length b = n ->
  exists r, fp_of_bigint P b = Ok r /\ canon P r /\ den r = val b mod p.
Proof. intros. now apply times_Rsq_spec. Qed.

Theorem fp_set_ulong_spec x : is_limb x ->
  exists r, fp_set_ulong P x = Ok r /\ canon P r /\ den r = x mod p.
Proof.
  intros Hx. destruct (bigint_of_ulong_spec n x (ok_n P OK) Hx) as (V & L & Len).
  destruct (times_Rsq_spec _ L Len) as [_ (r & E & C & D)].
  exists r. rewrite V in D. auto.
Qed.

Theorem fp_one_spec :
  exists r, fp_one P = Ok r /\ canon P r /\ den r = 1.
Proof.
  destruct (fp_set_ulong_spec 1) as (r & E & C & D); [split; [lia|reflexivity]|].
  exists r. pose proof p_gt1. rewrite Z.mod_small in D by lia. auto.
Qed.

(** [Fp(long)]: for negative x the code subtracts |x| from the modulus and
    asserts there is no borrow, hence the condition -x <= p. *)
Theorem fp_of_long_spec x u : - 2 ^ 63 < x < 2 ^ 63 -> (u = true \/ - x <= p) ->
  exists r, fp_of_long P x u = Ok r /\ canon P r /\
    den r = (if u then x mod B else x) mod p.
Proof.
  intros Hx Hu. unfold fp_of_long. fold n md. pose proof p_gt1.
  pose proof p_half as Hph.
  destruct (u || (0 <=? x)) eqn:E.
  - assert (Hl : is_limb (x mod B)) by (apply Z.mod_pos_bound; reflexivity).
    destruct (fp_set_ulong_spec (x mod B) Hl) as (r & E1 & C & D).
    exists r. split; auto. split; auto. rewrite D. destruct u; auto.
    cbn [orb] in E. apply Z.leb_le in E.
    rewrite (Z.mod_small x B); auto. rewrite B_eq. lia.
  - apply orb_false_iff in E as [-> E]. apply Z.leb_gt in E.
    destruct Hu as [Hu|Hu]; [discriminate|].
    replace (x =? - 2 ^ 63) with false by (symmetry; apply Z.eqb_neq; lia).
    destruct (mpn_sub_1 md (- x)) as [r b] eqn:E1.
    apply mpn_sub_1_spec in E1 as (V & L & Len). fold p in V.
    pose proof (val_bound r L) as Hb. rewrite Len, md_len in *. fold R in Hb, V.
    assert (b = 0) by nia. subst b. cbn [assert_then Z.eqb].
    destruct (times_Rsq_spec r L) as [_ (r' & E2 & C & D)]; auto.
    exists r'. split; auto. split; auto. rewrite D.
    apply mod_eq_iff; [lia|]. exists 1. lia.
Qed.

Lemma den_add_generic a b r k :
  canon P a -> canon P b -> canon P r -> val r = val a + val b + k * p ->
  den r = (den a + den b) mod p.
Proof.
  intros Ca Cb Cr V. pose proof p_gt1.
  destruct (den_spec a) as [_ Da]; auto using canon_limbs, canon_len.
  destruct (den_spec b) as [_ Db]; auto using canon_limbs, canon_len.
  apply den_unique; auto.
  rewrite V, Z_mod_plus_full, Z.add_mod, <- Da, <- Db, <- Z.add_mod by lia.
  f_equal. ring.
Qed.

Lemma firstn_val_small d : limbs d -> (n <= length d)%nat -> val d < R ->
  val (firstn n d) = val d.
Proof.
  intros Hd Hl Hv. pose proof (val_split n d Hl) as Hs. fold R in Hs.
  pose proof (val_nonneg _ (limbs_skipn n d Hd)).
  pose proof (val_nonneg _ (limbs_firstn n d Hd)).
  rewrite Hs in Hv. apply high_zero in Hv; auto using R_pos.
  rewrite Hs, Hv. lia.
Qed.

Theorem fp_add_spec a b : canon P a -> canon P b ->
  exists r, fp_add P a b = Ok r /\ canon P r /\ den r = (den a + den b) mod p.
Proof.
  intros Ca Cb. unfold fp_add. fold n md.
  pose proof (canon_lt a Ca). pose proof (canon_lt b Cb).
  pose proof p_gt1. pose proof p_half. pose proof R_pos.
  destruct (mpn_add_n a b) as [s carry] eqn:E.
  apply mpn_add_n_spec in E as (V & L & Len).
  pose proof (canon_len a Ca) as La. rewrite La in *. fold R in V.
  pose proof (val_R_lt s L Len).
  assert (carry = 0) by nia. subst carry. cbn [Z.eqb negb orb].
  rewrite Z.mul_0_l, Z.add_0_r in V.
  assert (Ls0 : limbs (s ++ [0])).
  { apply limbs_app; split; auto. apply limbs_cons; split; [split; [lia|reflexivity]|constructor]. }
  assert (Vs0 : val (s ++ [0]) = val s) by (rewrite val_app; cbn [val]; lia).
  assert (Big : p <= val s -> exists r,
    (let '(d, borrow) := mpn_sub (s ++ [0]) md in
     assert_then (borrow =? 0) (Ok (firstn n d))) = Ok r /\ canon P r /\
     den r = (den a + den b) mod p).
  { intros Hge. destruct (mpn_sub (s ++ [0]) md) as [d bo] eqn:E.
    apply mpn_sub_spec in E as (Vd & Ld & Lend). fold p in Vd.
    pose proof (val_bound d Ld) as Hd. rewrite Lend in Hd.
    rewrite app_length, Len in *. cbn [length] in *.
    assert (bo = 0).
    { assert (R <= Bn (n + 1)).
      { rewrite Bn_add, Bn_1. pose proof B_pos. unfold R. pose proof (Bn_pos n).
        assert (1 <= B) by lia. nia. }
      nia. }
    subst bo. cbn [assert_then Z.eqb]. eexists; split; [reflexivity|].
    assert (Vf : val (firstn n d) = val d).
    { apply firstn_val_small; auto; lia. }
    assert (Cf : canon P (firstn n d)).
    { split; [rewrite firstn_length_le; fold n; lia|].
      split; [apply limbs_firstn; auto|]. fold md p. lia. }
    split; auto. apply (den_add_generic a b _ (-1)); auto. lia. }
  destruct (mpn_cmp_spec s md) as [C|C|C]; fold p in C.
  - apply Big; lia.
  - eexists; split; [reflexivity|].
    rewrite <- Len, firstn_length_app.
    assert (Cs : canon P s) by (split; auto).
    split; auto. apply (den_add_generic a b _ 0); auto. lia.
  - apply Big; lia.
Qed.

Lemma den_sub_generic a b r k :
  canon P a -> canon P b -> canon P r -> val r = val a - val b + k * p ->
  den r = (den a - den b) mod p.
Proof.
  intros Ca Cb Cr V. pose proof p_gt1.
  destruct (den_spec a) as [_ Da]; auto using canon_limbs, canon_len.
  destruct (den_spec b) as [_ Db]; auto using canon_limbs, canon_len.
  apply den_unique; auto.
  rewrite V, Z_mod_plus_full, Zminus_mod, <- Da, <- Db, <- Zminus_mod.
  f_equal. ring.
Qed.

Theorem fp_sub_spec a b : canon P a -> canon P b ->
  exists r, fp_sub P a b = Ok r /\ canon P r /\ den r = (den a - den b) mod p.
Proof.
  intros Ca Cb. unfold fp_sub. fold n md.
  pose proof (canon_lt a Ca). pose proof (canon_lt b Cb).
  pose proof p_gt1. pose proof p_half. pose proof R_pos.
  pose proof (canon_len a Ca) as La. pose proof (canon_limbs a Ca) as Ha.
  set (scratch := match mpn_cmp a b with
    | Lt => let '(s, carry) := mpn_add_n a md in s ++ [carry] | _ => a ++ [0] end).
  assert (Hsc : exists k, (k = 0 \/ k = 1) /\ val scratch = val a + k * p /\
     val b <= val scratch < val b + p /\ limbs scratch /\ length scratch = (n + 1)%nat).
  { assert (L0 : limbs (a ++ [0])).
    { apply limbs_app; split; auto. apply limbs_cons; split; [split; [lia|reflexivity]|constructor]. }
    assert (V0 : val (a ++ [0]) = val a) by (rewrite val_app; cbn [val]; lia).
    assert (N0 : length (a ++ [0]) = (n + 1)%nat) by (rewrite app_length; cbn [length]; lia).
    unfold scratch. destruct (mpn_cmp_spec a b) as [C|C|C].
    - exists 0. rewrite V0. repeat split; auto; lia.
    - exists 1. destruct (mpn_add_n a md) as [s c] eqn:E.
      apply mpn_add_n_spec in E as (V & L & Len). rewrite La in *. fold R p in V.
      pose proof (val_R_lt s L Len). assert (c = 0) by nia. subst c.
      rewrite val_app, app_length, Len. cbn [val length].
      repeat split; auto; try lia.
      apply limbs_app; split; auto. apply limbs_cons; split; [split; [lia|reflexivity]|constructor].
    - exists 0. rewrite V0. repeat split; auto; lia. }
  destruct Hsc as (k & Hk & Vs & Hb & Ls & Lens).
  destruct (mpn_sub scratch b) as [d bo] eqn:E.
  apply mpn_sub_spec in E as (Vd & Ld & Lend).
  pose proof (val_bound d Ld) as Hd. rewrite Lend, Lens in *.
  assert (bo = 0).
  { assert (R <= Bn (n + 1)).
    { rewrite Bn_add, Bn_1. unfold R. pose proof (Bn_pos n). pose proof B_pos. nia. }
    nia. }
  subst bo. cbn [assert_then Z.eqb]. eexists; split; [reflexivity|].
  assert (Vf : val (firstn n d) = val d) by (apply firstn_val_small; auto; lia).
  assert (Cf : canon P (firstn n d)).
  { split; [rewrite firstn_length_le; fold n; lia|].
    split; [apply limbs_firstn; auto|]. fold md p. lia. }
  split; auto. apply (den_sub_generic a b _ k); auto. lia.
Qed.

Lemma fp_is_zero_spec a : canon P a -> fp_is_zero a = (den a =? 0).
Proof.
  intros C. unfold fp_is_zero. pose proof (canon_limbs a C). pose proof p_gt1.
  rewrite bigint_is_zero_spec by auto.
  pose proof (canon_lt a C).
  destruct (den_spec a) as [Hb Hd]; auto using canon_len.
  destruct (val a =? 0) eqn:E.
  - apply Z.eqb_eq in E. symmetry. apply Z.eqb_eq.
    rewrite (den_unique _ 0 C); [apply Z.mod_0_l; lia|]. now rewrite E.
  - apply Z.eqb_neq in E. symmetry. apply Z.eqb_neq. intros E2.
    rewrite E2, Z.mul_0_l, Z.mod_0_l, Z.mod_small in Hd by lia. lia.
Qed.

Lemma fp_zero_spec : canon P (fp_zero P) /\ den (fp_zero P) = 0.
Proof.
  unfold fp_zero, bigint_zero. fold n. pose proof p_gt1.
  assert (C : canon P (repeat 0 n)).
  { split; [apply repeat_length|split; [apply limbs_repeat_0|]].
    rewrite val_repeat_0. fold md p. lia. }
  split; auto.
  rewrite (den_unique _ 0 C); [apply Z.mod_0_l; lia|]. now rewrite val_repeat_0.
Qed.

Theorem fp_neg_spec a : canon P a ->
  canon P (fp_neg P a) /\ den (fp_neg P a) = (- den a) mod p.
Proof.
  intros C. unfold fp_neg. fold md. pose proof p_gt1.
  pose proof (fp_is_zero_spec a C) as Z0. pose proof (canon_lt a C).
  destruct (den_spec a) as [Hb Hd]; auto using canon_limbs, canon_len.
  destruct (fp_is_zero a) eqn:E.
  - symmetry in Z0. apply Z.eqb_eq in Z0. split; auto. rewrite Z0.
    symmetry. apply Z.mod_0_l. lia.
  - assert (val a <> 0).
    { unfold fp_is_zero in E. rewrite bigint_is_zero_spec in E by auto using canon_limbs.
      now apply Z.eqb_neq in E. }
    destruct (mpn_sub md a) as [r b] eqn:E2. cbn [fst].
    apply mpn_sub_spec in E2 as (V & L & Len). rewrite md_len in *. fold R p in V.
    pose proof (val_R_lt r L Len). pose proof p_half.
    assert (b = 0) by nia. subst b.
    assert (Cr : canon P r) by (split; [auto|split; auto; fold md p; lia]).
    split; auto.
    destruct fp_zero_spec as [Cz Dz].
    rewrite (den_sub_generic (fp_zero P) a r 1 Cz C Cr).
    + rewrite Dz. f_equal.
    + unfold fp_zero, bigint_zero. rewrite val_repeat_0. lia.
Qed.

Lemma fp_eqb_spec a b : canon P a -> canon P b -> fp_eqb a b = (den a =? den b).
Proof.
  intros Ca Cb. unfold fp_eqb. rewrite bigint_eqb_val.
  destruct (den a =? den b) eqn:E.
  - apply Z.eqb_eq in E. rewrite (den_inj a b Ca Cb E). apply Z.eqb_refl.
  - apply Z.eqb_neq in E. apply Z.eqb_neq. intros V. apply E.
    now rewrite (canon_inj a b Ca Cb V).
Qed.

(** *** Inversion *)

Lemma egcd_spec fuel u v r0 r1 s0 s1 :
  0 <= r1 < r0 -> r0 * r1 < 2 ^ Z.of_nat fuel ->
  (exists t0, r0 = u * s0 + v * t0) -> (exists t1, r1 = u * s1 + v * t1) ->
  exists g s, egcd fuel r0 r1 s0 s1 = (g, s) /\ g = Z.gcd r0 r1 /\
              (exists t, g = u * s + v * t).
Proof.
  revert r0 r1 s0 s1; induction fuel as [|f IH]; intros r0 r1 s0 s1 Hr Hf H0 H1;
    cbn [egcd].
  - cbn in Hf. assert (r1 = 0) by nia. subst r1. exists r0, s0. repeat split; auto.
    rewrite Z.gcd_0_r, Z.abs_eq; lia.
  - destruct (r1 =? 0) eqn:E.
    + apply Z.eqb_eq in E; subst. exists r0, s0. repeat split; auto.
      rewrite Z.gcd_0_r, Z.abs_eq; lia.
    + apply Z.eqb_neq in E.
      pose proof (Z.mod_pos_bound r0 r1). pose proof (Z.div_mod r0 r1).
      assert (1 <= r0 / r1) by (apply Z.div_le_lower_bound; lia).
      destruct (IH r1 (r0 mod r1) s1 (s0 - r0 / r1 * s1)) as (g & s & E1 & E2 & E3).
      * lia.
      * rewrite Nat2Z.inj_succ, Z.pow_succ_r in Hf by lia. nia.
      * auto.
      * destruct H0 as [t0 H0'], H1 as [t1 H1']. exists (t0 - r0 / r1 * t1).
        rewrite Z.mod_eq by lia. rewrite H0' at 1. rewrite H1' at 1. ring.
      * exists g, s. repeat split; auto. rewrite E2.
        rewrite (Z.gcd_comm r1), Z.gcd_mod, Z.gcd_comm by lia. auto.
Qed.

(** The reference [gcdext] meets the specification in the GMP manual. *)
Lemma gcdext_spec u v g s : 0 <= u -> 1 < v -> gcdext u v = (g, s) ->
  g = Z.gcd u v /\ (exists t, g = u * s + v * t) /\
  (s = 1 \/ 2 * g * Z.abs s < v).
Proof.
  intros Hu Hv. unfold gcdext.
  pose proof (Z.mod_pos_bound u v ltac:(lia)) as Hm.
  destruct (egcd_spec (Z.to_nat (2 * (Z.log2 v + 2))) u v v (u mod v) 0 1)
    as (g0 & s0 & E & Eg & (t & Et)).
  - lia.
  - rewrite Z2Nat.id by (pose proof (Z.log2_nonneg v); lia).
    pose proof (Z.log2_spec v ltac:(lia)) as [_ Hl]. pose proof (Z.log2_nonneg v).
    replace (2 * (Z.log2 v + 2)) with (Z.succ (Z.log2 v) + Z.succ (Z.log2 v) + 2) by lia.
    rewrite !Z.pow_add_r by lia.
    set (w := 2 ^ Z.succ (Z.log2 v)) in *. nia.
  - exists 1. lia.
  - exists (- (u / v)). rewrite Z.mod_eq by lia. ring.
  - rewrite E. intros H. apply pair_equal_spec in H as [H1 H2]. rewrite H1 in Eg, Et, H2. clear H1 E.
    assert (Hg : g = Z.gcd u v).
    { rewrite Eg. rewrite (Z.gcd_comm v), Z.gcd_mod, Z.gcd_comm by lia. auto. }
    assert (Hg0 : 0 < g).
    { rewrite Hg. pose proof (Z.gcd_nonneg u v).
      destruct (Z.eq_dec (Z.gcd u v) 0) as [E0|]; [|lia].
      apply Z.gcd_eq_0_r in E0. lia. }
    assert (Dv : (g | v)) by (rewrite Hg; apply Z.gcd_divide_r).
    assert (Du : (g | u)) by (rewrite Hg; apply Z.gcd_divide_l).
    destruct Dv as [m Hm']. destruct Du as [u' Hu'].
    assert (Em : v / g = m) by (rewrite Hm'; apply Z.div_mul; lia).
    rewrite Em in H2. assert (0 < m) by nia.
    pose proof (Z.mod_pos_bound s0 m ltac:(lia)) as Hsm.
    pose proof (Z.div_mod s0 m ltac:(lia)) as Hdm.
    assert (Bez : exists t', g = u * (s0 mod m) + v * t').
    { exists (t + u' * (s0 / m)). rewrite Et at 1. rewrite Z.mod_eq by lia.
      rewrite Hu', Hm'. ring. }
    destruct Bez as [t' Bez]. split; auto.
    destruct (2 * (s0 mod m) <? m) eqn:E1; [apply Z.ltb_lt in E1; subst s|apply Z.ltb_ge in E1].
    + split; [exists t'; auto|]. right. rewrite Z.abs_eq by lia.
      rewrite Hm'. replace (2 * g * (s0 mod m)) with (2 * (s0 mod m) * g) by ring.
      apply Z.mul_lt_mono_pos_r; lia.
    + destruct (m =? 2) eqn:E2; subst s.
      * apply Z.eqb_eq in E2. split; [|auto].
        assert (Hone : s0 mod m = 1) by lia. rewrite Hone in Bez. eauto.
      * apply Z.eqb_neq in E2. split.
        -- exists (t' + u'). rewrite Bez at 1. rewrite Hm', Hu'. ring.
        -- right. rewrite Z.abs_neq by lia.
           assert (2 * (s0 mod m) <> m).
           { intros H3.
             (* s0 mod m is coprime to m *)
             assert (1 = u' * (s0 mod m) + m * t').
             { apply Z.mul_reg_r with g; [lia|]. rewrite Z.mul_1_l.
               rewrite Bez at 1. rewrite Hu', Hm'. ring. }
             assert (D1 : (s0 mod m | 1)).
             { exists (u' + 2 * t').
               assert (m * t' = 2 * (s0 mod m) * t') by now rewrite H3. lia. }
             apply Z.divide_1_r in D1. lia. }
           rewrite Hm'. replace (2 * g * - (s0 mod m - m)) with (2 * (m - s0 mod m) * g) by ring.
           apply Z.mul_lt_mono_pos_r; lia.
Qed.

Hypothesis Rcu_len : length (fp_Rcubed P) = n.
Hypothesis Rcu_limbs : limbs (fp_Rcubed P).
Hypothesis Rcu_val : val (fp_Rcubed P) = (R * R * R) mod p.
Hypothesis top_nonzero : nth (n - 1) md 0 <> 0.

Lemma Rcu_canon : canon P (fp_Rcubed P).
Proof.
  pose proof p_gt1. repeat split; auto. fold md p. rewrite Rcu_val.
  apply Z.mod_pos_bound. lia.
Qed.

Theorem fp_invert_zero a : canon P a -> den a = 0 -> fp_invert P a = AssertFail.
Proof.
  intros C D. unfold fp_invert. rewrite fp_is_zero_spec, D by auto. reflexivity.
Qed.

(** Inversion succeeds exactly on elements coprime to the modulus. *)
Theorem fp_invert_spec a : canon P a -> den a <> 0 -> Z.gcd (den a) p = 1 ->
  exists r, fp_invert P a = Ok r /\ canon P r /\ (den a * den r) mod p = 1.
Proof.
  intros C D G. unfold fp_invert. fold n md p.
  rewrite fp_is_zero_spec by auto.
  replace (den a =? 0) with false by (symmetry; now apply Z.eqb_neq).
  cbn [negb assert_then].
  replace (nth (n - 1) md 0 =? 0) with false by (symmetry; now apply Z.eqb_neq).
  pose proof (canon_lt a C) as Ha. pose proof p_gt1. pose proof p_half. pose proof R_pos.
  destruct (den_spec a) as [Db Dd]; auto using canon_limbs, canon_len.
  assert (Gv : Z.gcd (val a) p = 1).
  { assert (E : val a mod p = (den a * R) mod p) by auto.
    rewrite Z.gcd_comm, <- Z.gcd_mod, E, Z.gcd_mod, Z.gcd_comm by lia.
    apply Zgcd_1_rel_prime. apply rel_prime_sym. apply rel_prime_mult.
    - apply rel_prime_sym. now apply Zgcd_1_rel_prime.
    - apply rel_prime_sym, p_rel_prime_R. }
  destruct (gcdext (val a) p) as [g s] eqn:E.
  apply gcdext_spec in E as (Eg & (t & Et) & Es); try lia.
  rewrite Gv in Eg. subst g. rewrite Z.eqb_refl. cbn [assert_then].
  assert (Hs : Z.abs s < p) by lia.
  pose proof (proj2 (set_str_size_le n (Z.abs s) ltac:(lia))) as Hsz.
  fold R in Hsz. specialize (Hsz ltac:(lia)).
  set (k := set_str_size (Z.abs s)) in *.
  set (sl := limbs_of k (Z.abs s)).
  assert (Vsl : val sl = Z.abs s).
  { apply val_limbs_of_small. split; [lia|].
    apply set_str_size_le; [lia|]. fold k. lia. }
  assert (Hr : exists r, (if (n <=? k)%nat then if (n <? k)%nat then UB
      else Ok (mpn_tdiv_r sl md) else Ok (sl ++ repeat 0 (n - k))) = Ok r /\
      limbs r /\ length r = n /\ val r = Z.abs s).
  { destruct (n <=? k)%nat eqn:E1.
    - apply Nat.leb_le in E1. replace (n <? k)%nat with false
        by (symmetry; apply Nat.ltb_ge; lia).
      eexists; split; [reflexivity|]. unfold mpn_tdiv_r.
      rewrite limbs_of_length, md_len, Vsl. fold p.
      split; [apply limbs_of_limbs|]. split; auto.
      rewrite Z.mod_small by lia. apply val_limbs_of_small. fold R. lia.
    - apply Nat.leb_gt in E1. eexists; split; [reflexivity|]. split; [|split].
      + apply limbs_app; split; [apply limbs_of_limbs|apply limbs_repeat_0].
      + rewrite app_length, repeat_length. unfold sl. rewrite limbs_of_length. lia.
      + rewrite val_app, val_repeat_0. lia. }
  destruct Hr as (r & -> & Lr & Lenr & Vr). cbn [bind].
  assert (Hr2 : exists r2, (if s <? 0 then
      let '(d, borrow) := mpn_sub md r in assert_then (borrow =? 0) (Ok d)
      else Ok r) = Ok r2 /\ canon P r2 /\ val r2 mod p = s mod p).
  { destruct (s <? 0) eqn:E1.
    - apply Z.ltb_lt in E1. destruct (mpn_sub md r) as [d b] eqn:E2.
      apply mpn_sub_spec in E2 as (V & L & Len). rewrite md_len in *. fold R p in V.
      pose proof (val_R_lt d L Len). assert (b = 0) by nia. subst b.
      cbn [assert_then Z.eqb]. exists d. split; auto.
      split; [repeat split; auto; fold md p; lia|].
      apply mod_eq_iff; [lia|]. exists 1. lia.
    - apply Z.ltb_ge in E1. exists r. split; auto.
      split; [repeat split; auto; fold md p; lia|]. f_equal. lia. }
  destruct Hr2 as (r2 & -> & Cr2 & Vr2). cbn [bind].
  pose proof Rcu_canon as CR.
  destruct (mul_reduce_spec r2 (fp_Rcubed P)) as (r3 & E3 & C3 & V3);
    auto using canon_limbs, canon_len.
  { apply lt_pR; auto using canon_limbs, canon_len. }
  exists r3. split; auto. split; auto.
  destruct (den_spec r3) as [_ D3]; auto using canon_limbs, canon_len.
  (* den a * R == val a;  den r3 * R * R == s * R^3 *)
  assert (K : ((den a * den r3) * R * R) mod p = (1 * R * R) mod p).
  { replace (den a * den r3 * R * R) with ((den a * R) * (den r3 * R)) by ring.
    rewrite Z.mul_mod, Dd, D3, <- Z.mul_mod by lia.
    apply cancel_R.
    replace (val a * val r3 * R) with (val a * (val r3 * R)) by ring.
    rewrite Z.mul_mod, V3, <- Z.mul_mod by lia.
    rewrite Z.mul_assoc, Rcu_val, Z.mul_mod_idemp_r by lia.
    rewrite <- Z.mul_mod_idemp_l, <- (Z.mul_mod_idemp_r (val a) (val r2)), Vr2 by lia.
    rewrite Z.mul_mod_idemp_r, Z.mul_mod_idemp_l by lia.
    apply mod_eq_iff; [lia|]. exists (- t * (R * R * R)).
    replace (val a * s) with (1 - p * t) by lia. ring. }
  apply cancel_R in K. apply cancel_R in K. rewrite K. apply Z.mod_small. lia.
Qed.

End Proofs.
