(** Lemmas about limb arrays and the [mpn_*] reference functions. *)
From Coq Require Import ZArith List Lia Bool.
From Verif Require Import Limbs.
Import ListNotations.
Open Scope Z_scope.

Lemma B_pos : 0 < B. Proof. reflexivity. Qed.
Lemma B_eq : B = 2 ^ 64. Proof. reflexivity. Qed.

Lemma Bn_0 : Bn 0 = 1. Proof. reflexivity. Qed.
Lemma Bn_S n : Bn (S n) = B * Bn n.
Proof.
  unfold Bn. rewrite B_eq, Nat2Z.inj_succ, <- Z.pow_add_r by lia.
  f_equal; lia.
Qed.
Lemma Bn_pos n : 0 < Bn n.
Proof. unfold Bn. apply Z.pow_pos_nonneg; lia. Qed.
Lemma Bn_add m n : Bn (m + n) = Bn m * Bn n.
Proof.
  unfold Bn. rewrite Nat2Z.inj_add, <- Z.pow_add_r by lia. f_equal; lia.
Qed.
Lemma Bn_1 : Bn 1 = B. Proof. reflexivity. Qed.
Lemma Bn_ge_1 n : 1 <= Bn n.
Proof. pose proof (Bn_pos n); lia. Qed.

Lemma is_limbb_iff x : is_limbb x = true <-> is_limb x.
Proof.
  unfold is_limbb, is_limb. rewrite andb_true_iff, Z.leb_le, Z.ltb_lt. tauto.
Qed.

Lemma limbsb_iff l : limbsb l = true <-> limbs l.
Proof.
  unfold limbsb, limbs. rewrite forallb_forall, Forall_forall.
  split; intros H x Hx; apply is_limbb_iff; auto.
Qed.

Lemma limbs_cons x l : limbs (x :: l) <-> is_limb x /\ limbs l.
Proof.
  unfold limbs. split; [inversion 1; auto | intros []; constructor; auto].
Qed.

Lemma limbs_app a b : limbs (a ++ b) <-> limbs a /\ limbs b.
Proof. apply Forall_app. Qed.

Lemma limbs_firstn n l : limbs l -> limbs (firstn n l).
Proof.
  intros H. rewrite <- (firstn_skipn n l) in H. apply limbs_app in H. tauto.
Qed.
Lemma limbs_skipn n l : limbs l -> limbs (skipn n l).
Proof.
  intros H. rewrite <- (firstn_skipn n l) in H. apply limbs_app in H. tauto.
Qed.

Lemma skipn_skipn {A} m n (l : list A) : skipn m (skipn n l) = skipn (m + n) l.
Proof.
  revert l; induction n as [|n IH]; intros l.
  - now rewrite Nat.add_0_r.
  - destruct l as [|x l]; [now rewrite !skipn_nil|].
    rewrite Nat.add_succ_r. cbn [skipn]. apply IH.
Qed.

Lemma limbs_nth l i : limbs l -> is_limb (nth i l 0).
Proof.
  intros H. destruct (Nat.lt_ge_cases i (length l)) as [Hi | Hi].
  - unfold limbs in H. rewrite Forall_forall in H. apply H, nth_In, Hi.
  - rewrite nth_overflow by auto. split; [lia | reflexivity].
Qed.

Lemma val_app a b : val (a ++ b) = val a + Bn (length a) * val b.
Proof.
  induction a as [|x a IH]; cbn [app val length].
  - rewrite Bn_0; lia.
  - rewrite IH, Bn_S. ring.
Qed.

Lemma val_bound l : limbs l -> 0 <= val l < Bn (length l).
Proof.
  induction l as [|x l IH]; intros H; cbn [val length].
  - rewrite Bn_0; lia.
  - apply limbs_cons in H as [Hx Hl]. specialize (IH Hl). rewrite Bn_S.
    unfold is_limb in Hx. pose proof B_pos. nia.
Qed.

Lemma val_nonneg l : limbs l -> 0 <= val l.
Proof. intros H; apply val_bound in H; lia. Qed.

Lemma limbs_of_length n z : length (limbs_of n z) = n.
Proof. revert z; induction n; intros; cbn; auto. Qed.

Lemma limbs_of_limbs n z : limbs (limbs_of n z).
Proof.
  revert z; induction n as [|n IH]; intros z; cbn [limbs_of].
  - constructor.
  - apply limbs_cons; split; auto. apply Z.mod_pos_bound, B_pos.
Qed.

Lemma val_limbs_of n z : val (limbs_of n z) = z mod Bn n.
Proof.
  revert z; induction n as [|n IH]; intros z; cbn [limbs_of val].
  - rewrite Bn_0, Z.mod_1_r; auto.
  - rewrite IH, Bn_S.
    pose proof B_pos. pose proof (Bn_pos n).
    rewrite (Z.rem_mul_r z B (Bn n)) by lia. lia.
Qed.

Lemma val_limbs_of_small n z : 0 <= z < Bn n -> val (limbs_of n z) = z.
Proof. intros H. rewrite val_limbs_of, Z.mod_small; auto. Qed.

Lemma limbs_of_val l : limbs l -> limbs_of (length l) (val l) = l.
Proof.
  induction l as [|x l IH]; intros H; cbn [length limbs_of val]; auto.
  apply limbs_cons in H as [Hx Hl].
  pose proof B_pos. unfold is_limb in Hx.
  f_equal.
  - rewrite (Z.mul_comm B), Z_mod_plus_full, Z.mod_small; auto.
  - rewrite (Z.mul_comm B), Z_div_plus_full, Z.div_small by lia.
    rewrite Z.add_0_l; auto.
Qed.

Lemma val_inj a b :
  limbs a -> limbs b -> length a = length b -> val a = val b -> a = b.
Proof.
  intros Ha Hb Hl Hv.
  rewrite <- (limbs_of_val a Ha), <- (limbs_of_val b Hb), Hl, Hv. auto.
Qed.

Lemma limbs_of_mod n z : limbs_of n (z mod Bn n) = limbs_of n z.
Proof.
  apply val_inj; try apply limbs_of_limbs.
  - now rewrite !limbs_of_length.
  - rewrite !val_limbs_of. pose proof (Bn_pos n). apply Z.mod_mod. lia.
Qed.

Lemma val_zero_iff l : limbs l -> (val l = 0 <-> Forall (fun x => x = 0) l).
Proof.
  induction l as [|x l IH]; intros H; cbn [val]; [split; auto|].
  apply limbs_cons in H as [Hx Hl]. specialize (IH Hl).
  pose proof (val_nonneg l Hl). pose proof B_pos. unfold is_limb in Hx.
  split.
  - intros E. assert (x = 0 /\ val l = 0) as [] by nia.
    constructor; tauto.
  - inversion 1; subst. destruct IH as [_ IH]. rewrite IH by auto. lia.
Qed.

Lemma val_repeat_0 n : val (repeat 0 n) = 0.
Proof. induction n; cbn [repeat val]; auto. rewrite IHn; lia. Qed.

Lemma limbs_repeat_0 n : limbs (repeat 0 n).
Proof.
  apply Forall_forall. intros x Hx. apply repeat_spec in Hx; subst.
  split; [lia | reflexivity].
Qed.

(** ** Semantics lemmas: result + carry * B^n = exact integer result *)

Lemma mpn_add_n_spec a b r c :
  mpn_add_n a b = (r, c) ->
  val r + c * Bn (length a) = val a + val b /\ limbs r /\ length r = length a.
Proof.
  unfold mpn_add_n. intros E; injection E as <- <-.
  rewrite limbs_of_length, val_limbs_of.
  repeat split; try apply limbs_of_limbs.
  pose proof (Bn_pos (length a)).
  pose proof (Z.div_mod (val a + val b) (Bn (length a))). lia.
Qed.

Lemma mpn_sub_spec a b r c :
  mpn_sub a b = (r, c) ->
  val r - c * Bn (length a) = val a - val b /\ limbs r /\ length r = length a.
Proof.
  unfold mpn_sub. intros E; injection E as <- <-.
  rewrite limbs_of_length, val_limbs_of.
  repeat split; try apply limbs_of_limbs.
  pose proof (Bn_pos (length a)).
  pose proof (Z.div_mod (val a - val b) (Bn (length a))). lia.
Qed.

Lemma mpn_add_1_spec a k r c :
  mpn_add_1 a k = (r, c) ->
  val r + c * Bn (length a) = val a + k /\ limbs r /\ length r = length a.
Proof.
  unfold mpn_add_1. intros E; injection E as <- <-.
  rewrite limbs_of_length, val_limbs_of.
  repeat split; try apply limbs_of_limbs.
  pose proof (Bn_pos (length a)).
  pose proof (Z.div_mod (val a + k) (Bn (length a))). lia.
Qed.

Lemma mpn_sub_1_spec a k r c :
  mpn_sub_1 a k = (r, c) ->
  val r - c * Bn (length a) = val a - k /\ limbs r /\ length r = length a.
Proof.
  unfold mpn_sub_1. intros E; injection E as <- <-.
  rewrite limbs_of_length, val_limbs_of.
  repeat split; try apply limbs_of_limbs.
  pose proof (Bn_pos (length a)).
  pose proof (Z.div_mod (val a - k) (Bn (length a))). lia.
Qed.

Lemma mpn_addmul_1_spec r a k r' c :
  mpn_addmul_1 r a k = (r', c) ->
  val r' + c * Bn (length a) = val r + val a * k /\ limbs r' /\
  length r' = length a.
Proof.
  unfold mpn_addmul_1. intros E; injection E as <- <-.
  rewrite limbs_of_length, val_limbs_of.
  repeat split; try apply limbs_of_limbs.
  pose proof (Bn_pos (length a)).
  pose proof (Z.div_mod (val r + val a * k) (Bn (length a))). lia.
Qed.

Lemma mpn_mul_n_spec a b :
  limbs a -> limbs b -> length a = length b ->
  val (mpn_mul_n a b) = val a * val b /\ limbs (mpn_mul_n a b) /\
  length (mpn_mul_n a b) = (2 * length a)%nat.
Proof.
  intros Ha Hb Hl. unfold mpn_mul_n.
  rewrite limbs_of_length. repeat split; try apply limbs_of_limbs.
  apply val_limbs_of_small.
  pose proof (val_bound a Ha). pose proof (val_bound b Hb).
  rewrite <- Hl in *. replace (2 * length a)%nat with (length a + length a)%nat by lia.
  rewrite Bn_add. nia.
Qed.

Lemma mpn_cmp_spec a b : CompareSpec (val a = val b) (val a < val b)
  (val b < val a) (mpn_cmp a b).
Proof. apply Z.compare_spec. Qed.

(** Reference schoolbook carry chain agrees with [mpn_add_n]; a sanity check
    that the closed-form semantics above is the usual limb-wise addition. *)
Fixpoint add_ripple (a b : list Z) (c : Z) : list Z * Z :=
  match a, b with
  | x :: a', y :: b' =>
      let s := x + y + c in
      let '(r, c') := add_ripple a' b' (s / B) in
      (s mod B :: r, c')
  | _, _ => ([], c)
  end.

Lemma add_ripple_eq a b c :
  length a = length b ->
  add_ripple a b c =
  (limbs_of (length a) (val a + val b + c), (val a + val b + c) / Bn (length a)).
Proof.
  revert b c; induction a as [|x a IH]; intros [|y b] c Hl; try discriminate.
  - cbn [add_ripple length limbs_of val]. rewrite Bn_0, Z.div_1_r. f_equal; lia.
  - cbn [add_ripple length val]. cbn [limbs_of].
    injection Hl as Hl. rewrite IH by auto. cbv zeta.
    pose proof B_pos. pose proof (Bn_pos (length a)).
    assert (E : x + B * val a + (y + B * val b) + c
            = (x + y + c) + (val a + val b) * B) by ring.
    rewrite E, Z_mod_plus_full, Z_div_plus_full by lia.
    rewrite Bn_S, <- Z.div_div, Z_div_plus_full by lia.
    f_equal; [f_equal; f_equal; lia | f_equal; lia].
Qed.
