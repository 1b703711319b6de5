(** Binary field multiplication: the portable loop and the PCLMUL paths all
    compute the product in GF(2)[x]/(f). *)
From Coq Require Import NArith ZArith List Bool Lia Ring Arith.
From Verif Require Import Result Gf2Poly BinaryModel.
Import ListNotations.
Open Scope N_scope.

(** The polynomial an element stands for. *)
Section Val.
Variable W : N.
Fixpoint gval (l : list N) : N :=
  match l with [] => 0 | w :: r => w + 2 ^ W * gval r end.
Definition words (l : list N) : Prop := Forall (fun w => w < 2 ^ W) l.
End Val.
Definition gok (G : gf_class) (l : list N) : Prop := length l = gn G /\ words (gW G) l.
Definition gk (G : gf_class) : N := gW G * N.of_nat (gn G).
Definition gpoly (G : gf_class) : N := N.lxor (2 ^ gk G) (gmod G).

Add Ring PolyRing2 : poly_ring (morphism poly_morph, constants [poly_cst]).

Lemma pow2_nz n : 2 ^ n <> 0. Proof. apply N.pow_nonzero. lia. Qed.
Lemma cut_mod G w : cut G w = w mod 2 ^ gW G. Proof. apply N.land_ones. Qed.
Lemma mod_pow2_lt w n : w mod 2 ^ n < 2 ^ n. Proof. apply N.mod_lt, pow2_nz. Qed.
Lemma add_lxor w r n : w < 2 ^ n -> w + 2 ^ n * r = N.lxor w (pmul r (2 ^ n)).
Proof.
  intros H. rewrite (split_pow2 (w + 2 ^ n * r) n). f_equal.
  - rewrite N.mul_comm, N.mod_add by apply pow2_nz. now apply N.mod_small.
  - f_equal. rewrite N.mul_comm, N.div_add by apply pow2_nz. now rewrite N.div_small.
Qed.
Lemma gval_cons W w r : w < 2 ^ W -> gval W (w :: r) = N.lxor w (pmul (gval W r) (2 ^ W)).
Proof. intros H. cbn [gval]. now apply add_lxor. Qed.
Lemma pow2_add a b : 2 ^ (a + b) = pmul (2 ^ a) (2 ^ b).
Proof. now rewrite pmul_pow2_mul, N.pow_add_r. Qed.

Lemma words_cons W w r : words W (w :: r) <-> w < 2 ^ W /\ words W r.
Proof. apply Forall_cons_iff. Qed.
Lemma gval_lt W l : words W l -> gval W l < 2 ^ (W * N.of_nat (length l)).
Proof.
  induction l as [|w r IH]; intros H.
  - cbn. rewrite N.mul_0_r. cbn. lia.
  - apply words_cons in H. destruct H as [H1 H2]. specialize (IH H2). cbn [gval length].
    replace (W * N.of_nat (S (length r))) with (W + W * N.of_nat (length r)) by lia.
    rewrite N.pow_add_r. nia.
Qed.
Lemma gval_inj W : forall l m, words W l -> words W m -> length l = length m -> gval W l = gval W m -> l = m.
Proof.
  induction l as [|w r IH]; intros [|v s] Hl Hm L E; try discriminate; auto.
  apply words_cons in Hl, Hm. destruct Hl as [Hw Hr], Hm as [Hv Hs]. cbn [gval] in E.
  assert (w = v).
  { apply (f_equal (fun x => x mod 2 ^ W)) in E. rewrite !(N.mul_comm (2 ^ W)), !N.mod_add in E by apply pow2_nz.
    now rewrite !N.mod_small in E by auto. }
  subst v. f_equal. apply IH; auto.
  pose proof (pow2_nz W). apply (N.mul_cancel_l _ _ (2 ^ W)); auto. lia.
Qed.
Lemma gval_0 W l : words W l -> gval W l = 0 <-> Forall (fun w => w = 0) l.
Proof.
  induction l as [|w r IH]; intros H.
  - split; auto.
  - apply words_cons in H. destruct H as [H1 H2]. cbn [gval]. rewrite Forall_cons_iff, <- (IH H2).
    pose proof (pow2_nz W). split; [intros E|intros [-> ->]; lia]. nia.
Qed.
Lemma gval_repeat W n : gval W (repeat 0 n) = 0.
Proof. induction n; cbn [repeat gval]; auto. rewrite IHn. lia. Qed.
Lemma words_repeat W n : words W (repeat 0 n).
Proof. induction n; cbn [repeat]; constructor; auto. pose proof (pow2_nz W). lia. Qed.

(** Every value below 2^(W n) is represented. *)
Fixpoint gsplit (W : N) (n : nat) (v : N) : list N :=
  match n with O => [] | S m => v mod 2 ^ W :: gsplit W m (v / 2 ^ W) end.
Lemma gsplit_spec W n : forall v, v < 2 ^ (W * N.of_nat n) ->
  length (gsplit W n v) = n /\ words W (gsplit W n v) /\ gval W (gsplit W n v) = v.
Proof.
  induction n as [|n IH]; intros v H.
  - cbn in *. rewrite N.mul_0_r in H. cbn in H. repeat split; [constructor|lia].
  - replace (W * N.of_nat (S n)) with (W + W * N.of_nat n) in H by lia. rewrite N.pow_add_r in H.
    destruct (IH (v / 2 ^ W)) as (L & Hw & E).
    { apply N.div_lt_upper_bound; [apply pow2_nz|lia]. }
    cbn [gsplit length gval]. rewrite L, E. repeat split.
    + constructor; auto. apply mod_pow2_lt.
    + rewrite (N.div_mod v (2 ^ W)) at 3 by apply pow2_nz. lia.
Qed.

(** xor *)
Lemma xor_words_spec W : forall a b, words W a -> words W b -> length a = length b ->
  length (xor_words a b) = length a /\ words W (xor_words a b) /\
  gval W (xor_words a b) = N.lxor (gval W a) (gval W b).
Proof.
  induction a as [|x a IH]; intros [|y b] Ha Hb L; try discriminate.
  - cbn. repeat split. constructor.
  - apply words_cons in Ha, Hb. destruct Ha as [Hx Ha], Hb as [Hy Hb].
    destruct (IH b Ha Hb) as (L1 & W1 & E1); [now injection L|].
    cbn [xor_words length]. pose proof (lxor_lt x y W Hx Hy) as Hxy. repeat split.
    + now rewrite L1.
    + constructor; auto.
    + rewrite !gval_cons, E1 by auto. ring.
Qed.

Lemma bit_set_spec w j : bit_set w j = N.testbit w j.
Proof.
  unfold bit_set. rewrite N.shiftl_1_l.
  destruct (N.testbit w j) eqn:T.
  - apply negb_true_iff, N.eqb_neq. intros E. apply (f_equal (fun x => N.testbit x j)) in E.
    rewrite N.land_spec, N.pow2_bits_true, T, N.bits_0 in E. discriminate.
  - apply negb_false_iff, N.eqb_eq. apply N.bits_inj. intros i. rewrite N.land_spec, N.bits_0.
    destruct (N.eq_dec j i) as [<-|NE]; [now rewrite T|].
    rewrite N.pow2_bits_false by auto. apply andb_false_r.
Qed.

Section Class.
Variable G : gf_class.
Hypothesis W1 : 1 <= gW G.
Hypothesis n1 : (1 <= gn G)%nat.
Hypothesis Hm : gmod G < 2 ^ gW G.
Notation W := (gW G).
Notation X := (2 ^ gW G).
Notation f := (gpoly G).
Notation "a == b" := (pcong f a b) (at level 70).

Lemma gmod_k : gmod G < 2 ^ gk G.
Proof. eapply N.lt_le_trans; [apply Hm|]. apply N.pow_le_mono_r; [lia|]. unfold gk. nia. Qed.
Lemma gpoly_ge : 2 ^ gk G <= f. Proof. apply monic_ge, gmod_k. Qed.
Lemma gval_k l : gok G l -> gval W l < 2 ^ gk G.
Proof. intros [L H]. unfold gk. rewrite <- L. now apply gval_lt. Qed.
Lemma gok_inj l m : gok G l -> gok G m -> gval W l = gval W m -> l = m.
Proof. intros [L1 H1] [L2 H2]. apply gval_inj; auto. congruence. Qed.

Lemma of_low_spec v : v < X -> gok G (gf_of_low G v) /\ gval W (gf_of_low G v) = v.
Proof.
  intros H. unfold gf_of_low. rewrite cut_mod, N.mod_small by auto. split; [split|].
  - cbn [length]. rewrite repeat_length. lia.
  - constructor; auto. apply words_repeat.
  - cbn [gval]. rewrite gval_repeat. lia.
Qed.
Lemma X_ge : 2 <= X. Proof. change 2 with (2 ^ 1) at 1. apply N.pow_le_mono_r; lia. Qed.
Lemma zero_spec : gok G (gf_zero G) /\ gval W (gf_zero G) = 0.
Proof. apply of_low_spec. pose proof X_ge. lia. Qed.
Lemma one_spec : gok G (gf_one G) /\ gval W (gf_one G) = 1.
Proof. apply of_low_spec. pose proof X_ge. lia. Qed.

Lemma xor_ok a b : gok G a -> gok G b -> gok G (xor_words a b) /\ gval W (xor_words a b) = N.lxor (gval W a) (gval W b).
Proof.
  intros [L1 H1] [L2 H2]. destruct (xor_words_spec W a b H1 H2) as (L & H & E); [congruence|].
  split; [split|]; auto. congruence.
Qed.

(** The one-bit shift of the array. *)
Lemma shl1_word w c : w < X -> c <= 1 ->
  N.lor (cut G (N.shiftl w 1)) c < X /\ N.shiftr w (W - 1) <= 1 /\
  N.lxor (N.lor (cut G (N.shiftl w 1)) c) (pmul (N.shiftr w (W - 1)) X) = N.lxor c (pmul 2 w).
Proof.
  intros Hw Hc. pose proof X_ge as HX.
  assert (HX2 : X = 2 * 2 ^ (W - 1)). { rewrite <- pow2_S2. f_equal. lia. }
  rewrite cut_mod, N.shiftr_div_pow2, N.shiftl_mul_pow2, N.pow_1_r.
  assert (Hq : w / 2 ^ (W - 1) = (w * 2) / X).
  { rewrite HX2, (N.mul_comm w), N.div_mul_cancel_l by (try apply pow2_nz; lia). reflexivity. }
  assert (Hlor : N.lor ((w * 2) mod X) c = N.lxor ((w * 2) mod X) c).
  { symmetry. apply N.lxor_lor. assert (Ev : exists h, (w * 2) mod X = 2 * h).
    { exists (w mod 2 ^ (W - 1)). rewrite HX2, (N.mul_comm w), N.mul_mod_distr_l by (try apply pow2_nz; lia). reflexivity. }
    destruct Ev as [h ->]. assert (c = 0 \/ c = 1) as [-> | ->] by lia.
    - apply N.land_0_r.
    - change 1 with (N.ones 1). rewrite N.land_ones, N.pow_1_r, N.mul_comm, N.mod_mul by lia. reflexivity. }
  rewrite Hlor. split; [|split].
  - apply lxor_lt; [apply mod_pow2_lt|lia].
  - rewrite Hq. assert ((w * 2) / X < 2); [|lia]. apply N.div_lt_upper_bound; lia.
  - rewrite Hq. rewrite (pmul_comm 2), pmul_2, (N.mul_comm 2).
    rewrite (split_pow2 (w * 2) W) at 3. ring.
Qed.
Definition carry_out (c : N) (l : list N) : N := match l with [] => c | _ => N.shiftr (last l 0) (W - 1) end.
Lemma shl1_spec : forall l c, words W l -> c <= 1 ->
  length (shl1 G c l) = length l /\ words W (shl1 G c l) /\
  N.lxor (gval W (shl1 G c l)) (pmul (carry_out c l) (2 ^ (W * N.of_nat (length l)))) =
  N.lxor c (pmul 2 (gval W l)).
Proof.
  induction l as [|w r IH]; intros c H Hc.
  - cbn [shl1 length gval carry_out]. repeat split; [constructor|]. rewrite N.mul_0_r. cbn [N.pow]. ring.
  - apply words_cons in H. destruct H as [Hw Hr].
    destruct (shl1_word w c Hw Hc) as (S1 & S2 & S3).
    destruct (IH _ Hr S2) as (L & Ws & E).
    cbn [shl1 length]. repeat split.
    + now rewrite L.
    + constructor; auto.
    + rewrite !gval_cons by auto.
      replace (W * N.of_nat (S (length r))) with (W * N.of_nat (length r) + W) by lia. rewrite pow2_add.
      replace (carry_out c (w :: r)) with (carry_out (N.shiftr w (W - 1)) r) by (destruct r; reflexivity).
      set (lo := N.lor _ _) in *. set (hi := N.shiftr w (W - 1)) in *. set (g := gval W (shl1 G hi r)) in *.
      set (co := carry_out hi r) in *. set (Y := 2 ^ (W * N.of_nat (length r))) in *.
      transitivity (N.lxor lo (pmul X (N.lxor g (pmul co Y)))); [ring|]. rewrite E.
      transitivity (N.lxor (N.lxor lo (pmul hi X)) (pmul 2 (pmul (gval W r) X))); [ring|]. rewrite S3. ring.
Qed.

Lemma xor_low_spec l m : words W l -> (1 <= length l)%nat -> m < X ->
  length (xor_low G l m) = length l /\ words W (xor_low G l m) /\ gval W (xor_low G l m) = N.lxor (gval W l) m.
Proof.
  intros H L M. destruct l as [|w r]; [cbn in L; lia|]. apply words_cons in H. destruct H as [Hw Hr].
  cbn [xor_low length]. pose proof (lxor_lt w m W Hw M) as Hx.
  rewrite cut_mod, N.mod_small by auto. repeat split.
  - constructor; auto.
  - rewrite !gval_cons by auto. ring.
Qed.

Lemma last_lt l : words W l -> last l 0 < X.
Proof.
  intros H. induction l as [|w r IH]; [pose proof (pow2_nz W); cbn; lia|].
  apply words_cons in H. destruct r; [tauto|]. apply IH. tauto.
Qed.
Lemma top_bit w : w < X -> N.shiftr w (W - 1) = if N.testbit w (W - 1) then 1 else 0.
Proof.
  intros H. apply N.bits_inj. intros i. rewrite N.shiftr_spec'. destruct i as [|p].
  - rewrite N.add_0_l. now destruct (N.testbit w (W - 1)).
  - rewrite (proj1 (lt_pow2_bits w W) H) by lia. now destruct (N.testbit w (W - 1)).
Qed.

(** One step: shifted is multiplied by x modulo f. *)
Lemma mul_step_spec bit r s : gok G r -> gok G s ->
  let '(r', s') := mul_step G bit (r, s) in
  gok G r' /\ gok G s' /\ gval W r' = N.lxor (gval W r) (if bit then gval W s else 0) /\
  gval W s' == pmul (gval W s) 2.
Proof.
  intros Hr Hs. cbn [mul_step].
  assert (A : gok G (if bit then xor_words r s else r) /\
              gval W (if bit then xor_words r s else r) = N.lxor (gval W r) (if bit then gval W s else 0)).
  { destruct bit; [now apply xor_ok|]. split; auto. ring. }
  destruct A as [A1 A2]. destruct Hs as [Ls Ws].
  destruct (shl1_spec s 0 Ws) as (L & Wd & E); [lia|].
  rewrite bit_set_spec. pose proof (top_bit (last s 0) (last_lt s Ws)) as T.
  assert (C : carry_out 0 s = N.shiftr (last s 0) (W - 1)).
  { destruct s; [cbn in Ls; lia|reflexivity]. }
  rewrite C, T, Ls in E. fold (gk G) in E.
  destruct (N.testbit (last s 0) (W - 1)).
  - destruct (xor_low_spec (shl1 G 0 s) (gmod G) Wd) as (L' & Wd' & E'); [lia|auto|].
    split; [exact A1|]. split; [split; [congruence|exact Wd']|]. split; [exact A2|].
    rewrite E'. exists 1. unfold gpoly.
    set (g := gval W (shl1 G 0 s)) in *.
    transitivity (N.lxor (N.lxor g (pmul 1 (2 ^ gk G))) (N.lxor (N.lxor (2 ^ gk G) (gmod G)) (pmul (gval W s) 2))); [ring|].
    rewrite E. ring.
  - split; [exact A1|]. split; [split; [congruence|exact Wd]|]. split; [exact A2|].
    exists 0. set (g := gval W (shl1 G 0 s)) in *.
    transitivity (N.lxor (N.lxor g (pmul 0 (2 ^ gk G))) (pmul (gval W s) 2)); [ring|]. rewrite E. ring.
Qed.

Lemma shiftr_mod_S w j t : N.shiftr w j mod 2 ^ N.succ t =
  N.lxor (if N.testbit w j then 1 else 0) (pmul 2 (N.shiftr w (N.succ j) mod 2 ^ t)).
Proof.
  rewrite pmul_comm, pmul_2. apply N.bits_inj. intros i. rewrite N.lxor_spec.
  destruct i as [|i] using N.peano_ind.
  - rewrite N.testbit_even_0, xorb_false_r, N.mod_pow2_bits_low, N.shiftr_spec', N.add_0_l by lia.
    now destruct (N.testbit w j).
  - rewrite N.testbit_even_succ by lia.
    replace (N.testbit (if N.testbit w j then 1 else 0) (N.succ i)) with false
      by (destruct (N.testbit w j); [destruct i|]; reflexivity).
    rewrite xorb_false_l. destruct (N.lt_ge_cases i t) as [L|L].
    + rewrite !N.mod_pow2_bits_low, !N.shiftr_spec' by lia. f_equal. lia.
    + rewrite !N.mod_pow2_bits_high by lia. reflexivity.
Qed.

Lemma mul_word_spec : forall todo j w r s, gok G r -> gok G s ->
  let '(r', s') := mul_word G todo j w (r, s) in
  gok G r' /\ gok G s' /\
  gval W r' == N.lxor (gval W r) (pmul (gval W s) (N.shiftr w j mod 2 ^ N.of_nat todo)) /\
  gval W s' == pmul (gval W s) (2 ^ N.of_nat todo).
Proof.
  induction todo as [|t IH]; intros j w r s Hr Hs.
  - cbn [mul_word N.of_nat]. repeat split; try apply Hr; try apply Hs.
    + rewrite N.pow_0_r, N.mod_1_r. apply pcong_eq. ring.
    + rewrite N.pow_0_r. apply pcong_eq. ring.
  - cbn [mul_word]. pose proof (mul_step_spec (bit_set w j) r s Hr Hs) as H.
    destruct (mul_step G (bit_set w j) (r, s)) as [r1 s1]. destruct H as (R1 & S1 & E1 & E2).
    specialize (IH (N.succ j) w r1 s1 R1 S1). destruct (mul_word G t (N.succ j) w (r1, s1)) as [r2 s2].
    destruct IH as (R2 & S2 & E3 & E4). split; [auto|split; [auto|split]].
    + rewrite Nnat.Nat2N.inj_succ, shiftr_mod_S, <- bit_set_spec.
      eapply pcong_trans; [apply E3|]. rewrite E1.
      set (q := N.shiftr w (N.succ j) mod 2 ^ N.of_nat t).
      eapply pcong_trans.
      { apply pcong_add; [apply pcong_refl|]. apply pcong_mul; [apply E2|apply pcong_refl]. }
      apply pcong_eq. destruct (bit_set w j); ring.
    + rewrite Nnat.Nat2N.inj_succ, pow2_S, <- (pmul_1_l (N.double _)), pmul_double_r, <- pmul_double_l.
      eapply pcong_trans; [apply E4|]. eapply pcong_trans.
      { apply pcong_mul; [apply E2|apply pcong_refl]. }
      apply pcong_eq. change (N.double 1) with 2. ring.
Qed.

Lemma mul_words_spec : forall b r s, words W b -> gok G r -> gok G s ->
  let '(r', s') := fold_left (fun st w => mul_word G (N.to_nat W) 0 w st) b (r, s) in
  gok G r' /\ gok G s' /\ gval W r' == N.lxor (gval W r) (pmul (gval W s) (gval W b)).
Proof.
  induction b as [|w b IH]; intros r s Hb Hr Hs.
  - cbn [fold_left gval]. split; [auto|split; [auto|]]. apply pcong_eq. ring.
  - apply words_cons in Hb. destruct Hb as [Hw Hb]. cbn [fold_left].
    pose proof (mul_word_spec (N.to_nat W) 0 w r s Hr Hs) as H.
    destruct (mul_word G (N.to_nat W) 0 w (r, s)) as [r1 s1].
    destruct H as (R1 & S1 & E1 & E2). rewrite Nnat.N2Nat.id in *.
    rewrite N.shiftr_0_r, N.mod_small in E1 by auto.
    specialize (IH r1 s1 Hb R1 S1). destruct (fold_left _ b (r1, s1)) as [r2 s2].
    destruct IH as (R2 & S2 & E3). split; [auto|split; [auto|]].
    rewrite gval_cons by auto. eapply pcong_trans; [apply E3|]. eapply pcong_trans.
    { apply pcong_add; [apply E1|]. apply pcong_mul; [apply E2|apply pcong_refl]. }
    apply pcong_eq. ring.
Qed.

Definition prod_spec (mul : list N -> list N -> list N) : Prop := forall a b, gok G a -> gok G b ->
  gok G (mul a b) /\ is_prod (gk G) (gmod G) (gval W a) (gval W b) (gval W (mul a b)).

Theorem gf_mul_spec : prod_spec (gf_mul G).
Proof.
  intros a b Ha Hb. unfold gf_mul. destruct zero_spec as [Z1 Z2].
  pose proof (mul_words_spec b (gf_zero G) a (proj2 Hb) Z1 Ha) as H.
  destruct (fold_left _ b (gf_zero G, a)) as [r s]. destruct H as (R & S & E). cbn [fst].
  split; auto. split; [now apply gval_k|]. rewrite Z2, N.lxor_0_l in E. now apply pcong_sym.
Qed.

(** Two functions with this specification are equal on elements. *)
Lemma prod_spec_unique m1 m2 : prod_spec m1 -> prod_spec m2 ->
  forall a b, gok G a -> gok G b -> m1 a b = m2 a b.
Proof.
  intros H1 H2 a b Ha Hb. destruct (H1 a b Ha Hb) as [O1 P1], (H2 a b Ha Hb) as [O2 P2].
  apply gok_inj; auto. exact (is_prod_unique _ _ _ _ _ _ gmod_k P1 P2).
Qed.
End Class.

(** * The PCLMUL paths *)
Notation X64 := (2 ^ 64).
Lemma lo64_mod r : lo64 r = r mod X64. Proof. apply N.land_ones. Qed.
Lemma hi64_div r : hi64 r = r / X64. Proof. apply N.shiftr_div_pow2. Qed.
Lemma srli8_hi r : mm_srli8 r = hi64 r. Proof. reflexivity. Qed.
Lemma lo64_lt r : lo64 r < X64. Proof. rewrite lo64_mod. apply mod_pow2_lt. Qed.
Lemma hi64_lt r : r < 2 ^ 128 -> hi64 r < X64.
Proof. intros H. rewrite hi64_div. apply N.div_lt_upper_bound; [apply pow2_nz|]. rewrite <- N.pow_add_r. exact H. Qed.
Lemma halves r : r = N.lxor (lo64 r) (pmul (hi64 r) X64).
Proof. rewrite lo64_mod, hi64_div. apply split_pow2. Qed.
Lemma lo64_unique l h : l < X64 -> lo64 (N.lxor l (pmul h X64)) = l.
Proof.
  intros H. rewrite <- add_lxor by auto. rewrite lo64_mod, N.mul_comm, N.mod_add by apply pow2_nz. now apply N.mod_small.
Qed.
Lemma hi64_unique l h : l < X64 -> hi64 (N.lxor l (pmul h X64)) = h.
Proof.
  intros H. rewrite <- add_lxor by auto. rewrite hi64_div, N.mul_comm, N.div_add by apply pow2_nz. now rewrite N.div_small.
Qed.
Lemma set_lxor h l : l < X64 -> mm_set_epi64x h l = N.lxor l (pmul h X64).
Proof.
  intros H. unfold mm_set_epi64x. rewrite pmul_pow2. rewrite N.lor_comm. symmetry. apply N.lxor_lor.
  apply N.bits_inj. intros i. rewrite N.land_spec, N.bits_0. destruct (N.lt_ge_cases i 64) as [L|L].
  - rewrite N.shiftl_spec_low by auto. apply andb_false_r.
  - rewrite (proj1 (lt_pow2_bits l 64) H i L). reflexivity.
Qed.
Lemma lo64_set h l : l < X64 -> lo64 (mm_set_epi64x h l) = l.
Proof. intros H. rewrite set_lxor by auto. now apply lo64_unique. Qed.
Lemma hi64_set h l : l < X64 -> hi64 (mm_set_epi64x h l) = h.
Proof. intros H. rewrite set_lxor by auto. now apply hi64_unique. Qed.
Lemma lo64_xor a b : lo64 (N.lxor a b) = N.lxor (lo64 a) (lo64 b).
Proof.
  rewrite (halves a) at 1. rewrite (halves b) at 1.
  replace (N.lxor (N.lxor (lo64 a) (pmul (hi64 a) X64)) (N.lxor (lo64 b) (pmul (hi64 b) X64)))
    with (N.lxor (N.lxor (lo64 a) (lo64 b)) (pmul (N.lxor (hi64 a) (hi64 b)) X64)) by ring.
  apply lo64_unique. apply lxor_lt; apply lo64_lt.
Qed.
Lemma hi64_xor a b : hi64 (N.lxor a b) = N.lxor (hi64 a) (hi64 b).
Proof. apply N.shiftr_lxor. Qed.
Lemma slli8_lo r : mm_slli8 r = pmul (lo64 r) X64.
Proof.
  unfold mm_slli8. rewrite pmul_pow2. apply N.bits_inj. intros i. rewrite N.land_spec.
  unfold lo64. destruct (N.lt_ge_cases i 64) as [L|L].
  - now rewrite !N.shiftl_spec_low.
  - rewrite !N.shiftl_spec_high', N.land_spec by auto. f_equal.
    destruct (N.lt_ge_cases i 128) as [L2|L2].
    + rewrite !N.ones_spec_low; auto. lia.
    + rewrite !N.ones_spec_high; auto. lia.
Qed.
Lemma lo64_slli r : lo64 (mm_slli8 r) = 0.
Proof. rewrite slli8_lo, <- (N.lxor_0_l (pmul _ _)). apply lo64_unique. reflexivity. Qed.
Lemma hi64_slli r : hi64 (mm_slli8 r) = lo64 r.
Proof. rewrite slli8_lo, <- (N.lxor_0_l (pmul _ _)). apply hi64_unique. reflexivity. Qed.
Lemma lo64_small r : r < X64 -> lo64 r = r.
Proof. intros H. rewrite lo64_mod. now apply N.mod_small. Qed.
Lemma hi64_small r : r < X64 -> hi64 r = 0.
Proof. intros H. rewrite hi64_div. now apply N.div_small. Qed.
Lemma clmul_lt a b imm : a < 2 ^ 128 -> b < 2 ^ 128 -> mm_clmul a b imm < 2 ^ 128.
Proof.
  intros A B. unfold mm_clmul. apply (pmul_lt _ _ 64 64).
  - destruct (N.testbit imm 0); [now apply hi64_lt|apply lo64_lt].
  - destruct (N.testbit imm 4); [now apply hi64_lt|apply lo64_lt].
Qed.
Lemma xor_lt128 a b : a < 2 ^ 128 -> b < 2 ^ 128 -> mm_xor a b < 2 ^ 128.
Proof. apply lxor_lt. Qed.
Lemma slli8_lt r : mm_slli8 r < 2 ^ 128.
Proof. unfold mm_slli8. rewrite N.land_ones. apply mod_pow2_lt. Qed.
Lemma srli8_lt r : r < 2 ^ 128 -> mm_srli8 r < 2 ^ 128.
Proof. intros H. eapply N.lt_trans; [apply hi64_lt, H|]. reflexivity. Qed.
Lemma set_lt h l : h < X64 -> l < X64 -> mm_set_epi64x h l < 2 ^ 128.
Proof.
  intros H L. rewrite set_lxor by auto. apply lxor_lt.
  - eapply N.lt_trans; [apply L|reflexivity].
  - rewrite pmul_pow2_mul. change (2 ^ 128) with (2 ^ 64 * 2 ^ 64). nia.
Qed.

Lemma clmul_00 a b : mm_clmul a b 0 = pmul (lo64 a) (lo64 b). Proof. reflexivity. Qed.
Lemma clmul_01 a b : mm_clmul a b 1 = pmul (hi64 a) (lo64 b). Proof. reflexivity. Qed.
Lemma clmul_10 a b : mm_clmul a b 16 = pmul (lo64 a) (hi64 b). Proof. reflexivity. Qed.
Lemma clmul_11 a b : mm_clmul a b 17 = pmul (hi64 a) (hi64 b). Proof. reflexivity. Qed.
Lemma gval_store d : gval 64 (mm_storeu d) = d.
Proof.
  unfold mm_storeu. rewrite gval_cons by apply lo64_lt. cbn [gval].
  rewrite N.mul_0_r, N.add_0_r. symmetry. apply halves.
Qed.
Lemma gval_store_app d l : d < 2 ^ 128 -> gval 64 (mm_storeu d ++ l) = N.lxor d (pmul (gval 64 l) (pmul X64 X64)).
Proof.
  intros H. unfold mm_storeu. cbn [app]. rewrite gval_cons by apply lo64_lt.
  rewrite gval_cons by now apply hi64_lt. rewrite (halves d) at 3. ring.
Qed.
Lemma words_store d : d < 2 ^ 128 -> words 64 (mm_storeu d).
Proof. intros H. repeat constructor; [apply lo64_lt|now apply hi64_lt]. Qed.

(** The final reductions as identities between polynomials: l/h are the
    halves of a register, m the low part of the field polynomial. *)
Lemma alg64 (X m p pl ph q ql qh r : N) :
  p = N.lxor pl (pmul ph X) -> q = N.lxor ql (pmul qh X) -> q = pmul m ph -> r = pmul m qh ->
  exists c, N.lxor p (N.lxor (N.lxor pl ql) r) = pmul c (N.lxor X m).
Proof.
  intros Hp Hq Eq Er. exists (N.lxor ph qh).
  assert (ql = N.lxor (pmul m ph) (pmul qh X)) as -> by (rewrite <- Eq, Hq; ring).
  rewrite Hp, Er. ring.
Qed.
Lemma alg128 (X m low hl hh tl th : N) :
  N.lxor tl (pmul th X) = pmul hh m ->
  let low' := N.lxor (N.lxor low (pmul tl X)) (pmul (N.lxor hl th) m) in
  exists c, N.lxor (N.lxor low (pmul (N.lxor hl (pmul hh X)) (pmul X X))) low' = pmul c (N.lxor (pmul X X) m).
Proof.
  intros E. assert (tl = N.lxor (pmul hh m) (pmul th X)) as -> by (rewrite <- E; ring).
  cbv zeta. exists (N.lxor (pmul hh X) (N.lxor hl th)). ring.
Qed.
Lemma alg192 (X m d0 d1l d1h d2l d2h tl th sl sh : N) :
  N.lxor sl (pmul sh X) = pmul d2l m ->
  N.lxor tl (pmul th X) = pmul d2h m ->
  let e1l := N.lxor (N.lxor d1l tl) sh in
  let e1h := N.lxor d1h th in
  let e0 := N.lxor (N.lxor d0 (pmul sl X)) (pmul e1h m) in
  let X2 := pmul X X in
  exists c, N.lxor (N.lxor (N.lxor d0 (pmul (N.lxor d1l (pmul d1h X)) X2)) (pmul (N.lxor d2l (pmul d2h X)) (pmul X2 X2)))
                   (N.lxor e0 (pmul e1l X2)) = pmul c (N.lxor (pmul X X2) m).
Proof.
  intros E F. assert (sl = N.lxor (pmul d2l m) (pmul sh X)) as -> by (rewrite <- E; ring).
  assert (tl = N.lxor (pmul d2h m) (pmul th X)) as -> by (rewrite <- F; ring).
  cbv zeta. exists (N.lxor (N.lxor (pmul d2h (pmul X X)) (pmul d2l X)) (N.lxor d1h th)). ring.
Qed.
Lemma alg256 (X m c0 c1 l1 h1 c2 c3 l3 h3 c4 c5 l5 h5 c6 d3l d3h d2l d2h t1l t1h t3l t3h : N) :
  c1 = N.lxor l1 (pmul h1 X) -> c3 = N.lxor l3 (pmul h3 X) -> c5 = N.lxor l5 (pmul h5 X) ->
  N.lxor c6 h5 = N.lxor d3l (pmul d3h X) ->
  N.lxor t1l (pmul t1h X) = pmul d3h m ->
  N.lxor (N.lxor (N.lxor c4 h3) (pmul l5 X)) t1h = N.lxor d2l (pmul d2h X) ->
  N.lxor t3l (pmul t3h X) = pmul d2h m ->
  let e0 := N.lxor (N.lxor (N.lxor c0 (pmul l1 X)) (pmul t3l X)) (pmul d2l m) in
  let e1 := N.lxor (N.lxor (N.lxor (N.lxor (N.lxor c2 h1) (pmul l3 X)) (pmul t1l X)) (pmul d3l m)) t3h in
  let X2 := pmul X X in let X3 := pmul X X2 in let X4 := pmul X2 X2 in
  exists c, N.lxor (N.lxor (N.lxor (N.lxor (N.lxor (N.lxor (N.lxor c0 (pmul c1 X)) (pmul c2 X2)) (pmul c3 X3)) (pmul c4 X4))
                     (pmul c5 (pmul X X4))) (pmul c6 (pmul X2 X4)))
                   (N.lxor e0 (pmul e1 X2)) = pmul c (N.lxor X4 m).
Proof.
  intros -> -> -> E6 T1 E4 T3.
  assert (c6 = N.lxor (N.lxor d3l (pmul d3h X)) h5) as -> by (rewrite <- E6; ring).
  assert (t1l = N.lxor (pmul d3h m) (pmul t1h X)) as -> by (rewrite <- T1; ring).
  assert (c4 = N.lxor (N.lxor (N.lxor (N.lxor d2l (pmul d2h X)) t1h) (pmul l5 X)) h3) as -> by (rewrite <- E4; ring).
  assert (t3l = N.lxor (pmul d2h m) (pmul t3h X)) as -> by (rewrite <- T3; ring).
  cbv zeta. exists (N.lxor (N.lxor (pmul d3h (pmul X (pmul X X))) (pmul d3l (pmul X X))) (N.lxor (pmul d2h X) d2l)). ring.
Qed.

Lemma gok1 G a : gn G = 1%nat -> gok G a -> exists a0, a = [a0] /\ a0 < 2 ^ gW G.
Proof.
  intros E [L H]. rewrite E in L. destruct a as [|a0 [|? ?]]; try discriminate.
  exists a0. split; auto. now inversion H.
Qed.
Lemma gok2 G a : gn G = 2%nat -> gok G a -> exists a0 a1, a = [a0; a1] /\ a0 < 2 ^ gW G /\ a1 < 2 ^ gW G.
Proof.
  intros E [L H]. rewrite E in L. destruct a as [|a0 [|a1 [|? ?]]]; try discriminate.
  inversion H as [|? ? H0 H']; subst. inversion H' as [|? ? H1 ?]; subst. exists a0, a1. auto.
Qed.
Lemma gok3 G a : gn G = 3%nat -> gok G a ->
  exists a0 a1 a2, a = [a0; a1; a2] /\ a0 < 2 ^ gW G /\ a1 < 2 ^ gW G /\ a2 < 2 ^ gW G.
Proof.
  intros E [L H]. rewrite E in L. destruct a as [|a0 [|a1 [|a2 [|? ?]]]]; try discriminate.
  inversion H as [|? ? H0 H']; subst. inversion H' as [|? ? H1 H'']; subst. inversion H'' as [|? ? H2 ?]; subst.
  exists a0, a1, a2. auto.
Qed.
Lemma gok4 G a : gn G = 4%nat -> gok G a ->
  exists a0 a1 a2 a3, a = [a0; a1; a2; a3] /\ a0 < 2 ^ gW G /\ a1 < 2 ^ gW G /\ a2 < 2 ^ gW G /\ a3 < 2 ^ gW G.
Proof.
  intros E [L H]. rewrite E in L. destruct a as [|a0 [|a1 [|a2 [|a3 [|? ?]]]]]; try discriminate.
  inversion H as [|? ? H0 H']; subst. inversion H' as [|? ? H1 H'']; subst. inversion H'' as [|? ? H2 H3']; subst.
  inversion H3' as [|? ? H3 ?]; subst. exists a0, a1, a2, a3. auto.
Qed.

Ltac xlt := repeat first [assumption | solve [auto using lo64_lt, hi64_lt, lxor_lt]
  | match goal with |- N.lxor _ _ < _ => apply lxor_lt | |- ?x < _ => is_var x; unfold x end].
Theorem gf64_asm_spec : prod_spec gf64 gf64_mul_asm.
Proof.
  intros a b Ha Hb. destruct (gok1 gf64 a eq_refl Ha) as (a0 & -> & A0).
  destruct (gok1 gf64 b eq_refl Hb) as (b0 & -> & B0).
  change (gW gf64) with 64 in *. unfold gf64_mul_asm. cbv zeta. unfold mm_loadl, mm_xor.
  rewrite clmul_00, !clmul_10, (lo64_small a0), (lo64_small b0), (lo64_small (gmod gf64)) by (auto; reflexivity).
  set (p := pmul a0 b0). set (q := pmul (gmod gf64) (hi64 p)). set (r := pmul (gmod gf64) (hi64 q)).
  assert (P : p < 2 ^ 128) by now apply (pmul_lt a0 b0 64 64).
  assert (Q : q < 2 ^ (64 + 4)).
  { unfold q. rewrite pmul_comm. apply pmul_lt1; [now apply hi64_lt|reflexivity]. }
  assert (Rlt : r < X64).
  { unfold r. eapply N.lt_trans; [apply (pmul_lt _ _ 5 4)|reflexivity]; [reflexivity|].
    rewrite hi64_div. apply N.div_lt_upper_bound; [apply pow2_nz|]. rewrite <- N.pow_add_r. exact Q. }
  rewrite !lo64_xor, (lo64_small r) by auto. split.
  - split; [reflexivity|]. repeat constructor. change (gW gf64) with 64.
    xlt.
  - unfold is_prod. change (gW gf64) with 64. change (gk gf64) with 64. cbn [gval].
    rewrite !N.mul_0_r, !N.add_0_r. split; [xlt|].
    apply (alg64 X64 (gmod gf64) p (lo64 p) (hi64 p) q (lo64 q) (hi64 q) r); auto using halves.
Qed.

Theorem gf128_asm_spec : prod_spec gf128 gf128_mul_asm.
Proof.
  intros a b Ha Hb. destruct (gok2 gf128 a eq_refl Ha) as (a0 & a1 & -> & A0 & A1).
  destruct (gok2 gf128 b eq_refl Hb) as (b0 & b1 & -> & B0 & B1).
  change (gW gf128) with 64 in *. unfold gf128_mul_asm. cbv zeta. unfold mm_loadl, mm_xor, mm_loadu.
  rewrite ?clmul_00, ?clmul_01, ?clmul_10, ?clmul_11, !slli8_lo. change mm_srli8 with hi64.
  rewrite !lo64_set, !hi64_set by auto. rewrite !(lo64_small (gmod gf128)) by reflexivity.
  set (mid := N.lxor (pmul a1 b0) (pmul a0 b1)).
  set (high := N.lxor (pmul a1 b1) (hi64 mid)). set (low := N.lxor (pmul a0 b0) (pmul (lo64 mid) X64)).
  set (t := pmul (hi64 high) (gmod gf128)).
  assert (Hh : high < 2 ^ 128).
  { apply lxor_lt; [now apply (pmul_lt _ _ 64 64)|]. eapply N.lt_trans; [apply hi64_lt|reflexivity].
    apply lxor_lt; now apply (pmul_lt _ _ 64 64). }
  assert (Hl : forall v, pmul (lo64 v) X64 < 2 ^ 128) by (intros; rewrite <- slli8_lo; apply slli8_lt).
  assert (Ht : t < 2 ^ 128) by (apply (pmul_lt _ _ 64 64); [now apply hi64_lt|reflexivity]).
  assert (Hlow : low < 2 ^ 128) by (apply lxor_lt; auto; now apply (pmul_lt _ _ 64 64)).
  rewrite lo64_xor, (lo64_small (hi64 t)) by now apply hi64_lt.
  set (res := N.lxor _ (pmul (N.lxor _ _) _)).
  assert (Hres : res < 2 ^ 128).
  { xlt. apply (pmul_lt _ _ 64 64); [|reflexivity]. xlt. }
  split; [split; [reflexivity|now apply words_store]|]. unfold is_prod. change (gW gf128) with 64. change (gk gf128) with 128.
  rewrite gval_store. split; auto.
  rewrite !gval_cons by auto. cbn [gval].
  change (2 ^ 128) with (2 ^ (64 + 64)). rewrite pow2_add.
  destruct (alg128 X64 (gmod gf128) low (lo64 high) (hi64 high) (lo64 t) (hi64 t)) as [c E].
  { rewrite <- halves. reflexivity. }
  exists c. cbv zeta in E. fold res in E. rewrite <- E. f_equal.
  rewrite <- halves. unfold low, high.
  transitivity (N.lxor (N.lxor (pmul a0 b0) (pmul (pmul a1 b1) (pmul X64 X64))) (pmul mid X64)); [unfold mid; ring|].
  rewrite (halves mid) at 1. ring.
Qed.

Theorem gf192_asm_spec : prod_spec gf192 gf192_mul_asm.
Proof.
  intros a b Ha Hb. destruct (gok3 gf192 a eq_refl Ha) as (a0 & a1 & a2 & -> & A0 & A1 & A2).
  destruct (gok3 gf192 b eq_refl Hb) as (b0 & b1 & b2 & -> & B0 & B1 & B2).
  change (gW gf192) with 64 in *. unfold gf192_mul_asm. cbv zeta. unfold mm_loadl, mm_xor.
  rewrite ?clmul_00, ?clmul_01, !slli8_lo. change mm_srli8 with hi64.
  rewrite !(lo64_xor (mm_set_epi64x _ _)), !(hi64_xor (mm_set_epi64x _ _)).
  rewrite !lo64_set, !hi64_set by auto. rewrite !(lo64_small (gmod gf192)) by reflexivity.
  set (c0 := pmul a0 b0). set (c4 := pmul a2 b2). set (t := pmul a1 b1).
  set (c1 := N.lxor (N.lxor (pmul (N.lxor a0 a1) (N.lxor b0 b1)) c0) t).
  set (c3 := N.lxor (N.lxor (pmul (N.lxor a1 a2) (N.lxor b1 b2)) c4) t).
  set (c2 := N.lxor (N.lxor (N.lxor (pmul (N.lxor a0 a2) (N.lxor b0 b2)) c0) c4) t).
  set (d0 := N.lxor c0 (pmul (lo64 c1) X64)). set (d2 := N.lxor c4 (hi64 c3)).
  set (d1 := N.lxor (N.lxor c2 (hi64 c1)) (pmul (lo64 c3) X64)).
  set (u := pmul (hi64 d2) (gmod gf192)). set (v := pmul (lo64 d2) (gmod gf192)).
  assert (Hmul : forall x y, x < X64 -> y < X64 -> pmul x y < 2 ^ 128) by (intros; now apply (pmul_lt _ _ 64 64)).
  assert (Hl : forall w, pmul (lo64 w) X64 < 2 ^ 128) by (intros; rewrite <- slli8_lo; apply slli8_lt).
  assert (Hhi : forall w, w < 2 ^ 128 -> hi64 w < 2 ^ 128) by (intros; now apply srli8_lt).
  assert (C0 : c0 < 2 ^ 128) by xlt. assert (C4 : c4 < 2 ^ 128) by xlt. assert (T : t < 2 ^ 128) by xlt.
  assert (C1 : c1 < 2 ^ 128) by (xlt).
  assert (C3 : c3 < 2 ^ 128) by (xlt).
  assert (C2 : c2 < 2 ^ 128) by (xlt).
  assert (D0 : d0 < 2 ^ 128) by xlt.
  assert (D2 : d2 < 2 ^ 128) by xlt.
  assert (D1 : d1 < 2 ^ 128) by (xlt).
  assert (M : gmod gf192 < X64) by reflexivity.
  assert (Hu : u < 2 ^ 128) by (apply Hmul; auto using hi64_lt).
  assert (Hv : v < 2 ^ 128) by (apply Hmul; auto using lo64_lt).
  rewrite !hi64_xor, !lo64_xor, (lo64_small (hi64 v)), (hi64_small (hi64 v)), N.lxor_0_r by auto using hi64_lt.
  set (e0 := N.lxor (N.lxor d0 _) _).
  assert (E0 : e0 < 2 ^ 128).
  { xlt. }
  set (e1 := N.lxor (N.lxor (lo64 d1) _) _).
  assert (E1 : e1 < X64) by (xlt).
  assert (OK : gok gf192 (mm_storeu e0 ++ [e1])).
  { split; [reflexivity|]. apply Forall_app. split; [now apply words_store|]. repeat constructor. exact E1. }
  split; auto. unfold is_prod. pose proof (gval_k gf192 _ OK) as K. change (gW gf192) with 64 in *.
  split; auto. rewrite gval_store_app by auto. rewrite !gval_cons by auto. cbn [gval].
  change (2 ^ gk gf192) with (2 ^ (64 + (64 + 64))). rewrite !pow2_add.
  destruct (alg192 X64 (gmod gf192) d0 (lo64 d1) (hi64 d1) (lo64 d2) (hi64 d2) (lo64 u) (hi64 u) (lo64 v) (hi64 v)) as [c E].
  { rewrite <- halves. reflexivity. } { rewrite <- halves. reflexivity. }
  exists c. cbv zeta in E. fold e1 e0 in E. rewrite <- E. rewrite <- !halves.
  rewrite pmul_0_l, !N.lxor_0_r. f_equal.
  transitivity (N.lxor (N.lxor (N.lxor (N.lxor c0 (pmul c1 X64)) (pmul c2 (pmul X64 X64)))
     (pmul c3 (pmul X64 (pmul X64 X64)))) (pmul c4 (pmul (pmul X64 X64) (pmul X64 X64)))).
  { unfold c1, c2, c3, c0, c4, t. ring. }
  unfold d0, d1, d2. rewrite (halves c1) at 1. rewrite (halves c3) at 1. ring.
Qed.

Lemma gf256_reduce_spec c0 c1 c2 c3 c4 c5 c6 :
  c0 < 2 ^ 128 -> c1 < 2 ^ 128 -> c2 < 2 ^ 128 -> c3 < 2 ^ 128 -> c4 < 2 ^ 128 -> c5 < 2 ^ 128 -> c6 < 2 ^ 128 ->
  let r := gf256_reduce c0 c1 c2 c3 c4 c5 c6 in
  let X2 := pmul X64 X64 in
  gok gf256 r /\
  pcong (gpoly gf256)
    (N.lxor (N.lxor (N.lxor (N.lxor (N.lxor (N.lxor c0 (pmul c1 X64)) (pmul c2 X2)) (pmul c3 (pmul X64 X2))) (pmul c4 (pmul X2 X2)))
      (pmul c5 (pmul X64 (pmul X2 X2)))) (pmul c6 (pmul X2 (pmul X2 X2)))) (gval 64 r).
Proof.
  intros C0 C1 C2 C3 C4 C5 C6. unfold gf256_reduce. cbv zeta. unfold mm_loadl, mm_xor.
  rewrite ?clmul_00, ?clmul_01, !slli8_lo. change mm_srli8 with hi64. rewrite !(lo64_small (gmod gf256)) by reflexivity.
  set (d3 := N.lxor c6 (hi64 c5)). set (t1 := pmul (hi64 d3) (gmod gf256)).
  set (d2 := N.lxor (N.lxor (N.lxor c4 (hi64 c3)) (pmul (lo64 c5) X64)) (hi64 t1)).
  set (t3 := pmul (hi64 d2) (gmod gf256)).
  assert (M : gmod gf256 < X64) by reflexivity.
  assert (Hmul : forall x y, x < X64 -> y < X64 -> pmul x y < 2 ^ 128) by (intros; now apply (pmul_lt _ _ 64 64)).
  assert (Hl : forall w, pmul (lo64 w) X64 < 2 ^ 128) by (intros; rewrite <- slli8_lo; apply slli8_lt).
  assert (Hhi : forall w, w < 2 ^ 128 -> hi64 w < 2 ^ 128) by (intros; now apply srli8_lt).
  assert (D3 : d3 < 2 ^ 128) by xlt.
  assert (T1 : t1 < 2 ^ 128) by (apply Hmul; auto using hi64_lt).
  assert (D2 : d2 < 2 ^ 128) by (xlt).
  assert (T3 : t3 < 2 ^ 128) by (apply Hmul; auto using hi64_lt).
  match goal with |- gok _ (mm_storeu ?x ++ mm_storeu ?y) /\ _ => set (e0 := x); set (e1 := y) end.
  assert (E0 : e0 < 2 ^ 128) by (xlt).
  assert (E1 : e1 < 2 ^ 128) by (xlt).
  split.
  { split; [reflexivity|]. apply Forall_app. split; now apply words_store. }
  rewrite gval_store_app, gval_store by auto.
  destruct (alg256 X64 (gmod gf256) c0 c1 (lo64 c1) (hi64 c1) c2 c3 (lo64 c3) (hi64 c3) c4 c5 (lo64 c5) (hi64 c5) c6
    (lo64 d3) (hi64 d3) (lo64 d2) (hi64 d2) (lo64 t1) (hi64 t1) (lo64 t3) (hi64 t3)) as [c E];
    try (rewrite <- halves; reflexivity); try apply halves.
  exists c. unfold gpoly. change (2 ^ gk gf256) with (2 ^ ((64 + 64) + (64 + 64))). rewrite !pow2_add.
  exact E.
Qed.

Ltac open256 a b Ha Hb :=
  destruct (gok4 gf256 a eq_refl Ha) as (a0 & a1 & a2 & a3 & -> & A0 & A1 & A2 & A3);
  destruct (gok4 gf256 b eq_refl Hb) as (b0 & b1 & b2 & b3 & -> & B0 & B1 & B2 & B3);
  change (gW gf256) with 64 in *.
Theorem gf256_naive_spec : prod_spec gf256 gf256_mul_naive.
Proof.
  intros a b Ha Hb. open256 a b Ha Hb. unfold gf256_mul_naive. cbv zeta. unfold mm_xor, mm_loadu.
  rewrite ?clmul_00, ?clmul_01, ?clmul_10, ?clmul_11. rewrite !lo64_set, !hi64_set by auto.
  assert (Hmul : forall x y, x < X64 -> y < X64 -> pmul x y < 2 ^ 128) by (intros; now apply (pmul_lt _ _ 64 64)).
  match goal with |- gok _ (gf256_reduce ?c0 ?c1 ?c2 ?c3 ?c4 ?c5 ?c6) /\ _ =>
    destruct (gf256_reduce_spec c0 c1 c2 c3 c4 c5 c6) as [O E]; try (xlt) end.
  split; [exact O|]. split; [exact (gval_k gf256 _ O)|].
  eapply pcong_trans; [|exact E]. apply pcong_eq. rewrite !gval_cons by auto. cbn [gval]. ring.
Qed.
Theorem gf256_karatsuba_spec : prod_spec gf256 gf256_mul_karatsuba.
Proof.
  intros a b Ha Hb. open256 a b Ha Hb. unfold gf256_mul_karatsuba. cbv zeta. unfold mm_xor.
  rewrite ?clmul_01. rewrite !lo64_xor, !hi64_xor, !lo64_set, !hi64_set by auto.
  assert (Hmul : forall x y, x < X64 -> y < X64 -> pmul x y < 2 ^ 128) by (intros; now apply (pmul_lt _ _ 64 64)).
  match goal with |- gok _ (gf256_reduce ?c0 ?c1 ?c2 ?c3 ?c4 ?c5 ?c6) /\ _ =>
    destruct (gf256_reduce_spec c0 c1 c2 c3 c4 c5 c6) as [O E]; try (xlt) end.
  split; [exact O|]. split; [exact (gval_k gf256 _ O)|].
  eapply pcong_trans; [|exact E]. apply pcong_eq. rewrite !gval_cons by auto. cbn [gval]. ring.
Qed.
