(** Integers modulo p in Montgomery form on Coq's primitive 63-bit integers: a
    copy of the prime field fast enough to run the pairing code at the shipped
    sizes inside proofs.  Numbers are little-endian lists of n 30-bit digits
    (Mod63.v), always reduced below p. *)
From Coq Require Import ZArith List Lia Bool Uint63 Znumtheory Zpow_facts.
From Verif Require Import Result Mod63 FieldOps Hom.
Import ListNotations.
Open Scope Z_scope.

Fixpoint addl (x y : list int) (c : int) : list int :=
  match x, y with
  | a :: x', b :: y' => let t := (a + (b + c))%uint63 in (t land mask30)%uint63 :: addl x' y' (t >> 30)%uint63
  | _, _ => []
  end.
Definition W30i : int := 1073741824%uint63.
(** x - y - b with the final borrow. *)
Fixpoint subl (x y : list int) (b : int) : list int * int :=
  match x, y with
  | a :: x', c :: y' =>
      let t := (a + W30i - (c + b))%uint63 in
      let (l, b') := subl x' y' (1 - (t >> 30))%uint63 in
      ((t land mask30)%uint63 :: l, b')
  | _, _ => ([], b)
  end.
Fixpoint mloop (x acc y m : list int) (m' : int) : list int :=
  match x with
  | [] => acc
  | xi :: x' =>
      match acc, y with
      | a0 :: _, y0 :: _ =>
          let u := (((a0 + xi * y0) * m') land mask30)%uint63 in
          mloop x' (tl (row acc y m xi u 0%uint63)) y m m'
      | _, _ => []
      end
  end.
Fixpoint eql (x y : list int) : bool :=
  match x, y with
  | [], [] => true
  | a :: x', b :: y' => if (a =? b)%uint63 then eql x' y' else false
  | _, _ => false
  end.

Record rctx := { rc_n : nat; rc_m : Z; rc_d : list int; rc_i : int; rc_z : list int; rc_1 : list int }.
Definition mk_rctx (m : Z) : rctx :=
  let n := ndigits m in
  {| rc_n := n; rc_m := m; rc_d := digits n m; rc_i := of_Z (neg_inv (m mod W30));
     rc_z := digits n 0; rc_1 := digits n (W30 ^ Z.of_nat n mod m) |}.

Section Ops.
Variable C : rctx.
Definition cond_sub (r : list int) : list int :=
  let (d, b) := subl r (rc_d C) 0%uint63 in if (b =? 0)%uint63 then d else r.
Definition r_add (x y : list int) : list int := cond_sub (addl x y 0%uint63).
Definition r_sub (x y : list int) : list int :=
  let (d, b) := subl x y 0%uint63 in if (b =? 0)%uint63 then d else addl d (rc_d C) 0%uint63.
Definition r_mul (x y : list int) : list int := cond_sub (mloop x (rc_z C) y (rc_d C) (rc_i C)).
Fixpoint r_pow (x : list int) (e : positive) : list int :=
  match e with
  | xH => x
  | xO e' => let y := r_pow x e' in r_mul y y
  | xI e' => let y := r_pow x e' in r_mul x (r_mul y y)
  end.
(** Inverse by Fermat's little theorem; zero is refused, as in the model. *)
Definition r_inv (x : list int) : result (list int) :=
  if eql x (rc_z C) then AssertFail else Ok (r_pow x (Z.to_pos (rc_m C - 2))).
Definition r_ops : Fops (list int) :=
  {| o0 := rc_z C; o1 := rc_1 C; oadd := r_add; osub := r_sub; omul := r_mul;
     oopp x := r_sub (rc_z C) x; osqr x := r_mul x x; oinv := r_inv; oeqb := eql |}.
(** z as an element. *)
Definition r_of (z : Z) : list int := digits (rc_n C) ((z * W30 ^ Z.of_nat (rc_n C)) mod rc_m C).
End Ops.

(** ** Correctness *)
Lemma ev_nonneg l : 0 <= ev l.
Proof. induction l; cbn [ev]; [lia|]. pose proof (to_Z_bounded a). unfold W30 in *. lia. Qed.
Lemma ev_lt l : all_small W30 l -> ev l < W30 ^ Z.of_nat (length l).
Proof.
  induction 1 as [|d l Hd H IH]; cbn [ev length]; [reflexivity|].
  rewrite Nat2Z.inj_succ, Z.pow_succ_r by lia. unfold W30 in *. lia.
Qed.
Lemma ev_inj : forall a b, length a = length b -> all_small W30 a -> all_small W30 b -> ev a = ev b -> a = b.
Proof.
  induction a as [|x a IH]; intros [|y b] L Ha Hb E; try discriminate; auto.
  inversion Ha; inversion Hb; subst. cbn [ev] in E. injection L as L.
  pose proof (to_Z_bounded x). pose proof (to_Z_bounded y). pose proof W30_pos.
  assert (Hx : to_Z x = to_Z y).
  { rewrite <- (Z.mod_small (to_Z x) W30), <- (Z.mod_small (to_Z y) W30) by lia.
    rewrite <- (Z_mod_plus_full (to_Z x) (ev a) W30), <- (Z_mod_plus_full (to_Z y) (ev b) W30).
    f_equal. lia. }
  f_equal; [now apply to_Z_inj|]. apply IH; auto. unfold W30 in *. lia.
Qed.
Lemma eql_spec : forall a b, eql a b = true <-> a = b.
Proof.
  induction a as [|x a IH]; intros [|y b]; cbn [eql]; try (split; [reflexivity || discriminate|reflexivity || discriminate]).
  destruct (x =? y)%uint63 eqn:E.
  - apply eqb_correct in E. subst y. rewrite IH. split; [now intros ->|now intros [= ->]].
  - split; [discriminate|]. intros [= -> _]. rewrite eqb_refl in E. discriminate.
Qed.

Lemma addl_spec : forall x y c, length x = length y -> all_small W30 x -> all_small W30 y -> to_Z c <= 1 ->
  good (length x) (addl x y c) /\ exists k, ev (addl x y c) = ev x + ev y + to_Z c - k * W30 ^ Z.of_nat (length x).
Proof.
  induction x as [|a x IH]; intros [|b y] c L Hx Hy Hc; try discriminate; cbn [addl].
  - split; [split; [reflexivity|constructor]|]. exists (to_Z c). cbn [ev length Z.of_nat]. rewrite Z.pow_0_r. lia.
  - injection L as L. inversion Hx; inversion Hy; subst. set (t := (a + (b + c))%uint63).
    pose proof (to_Z_bounded a). pose proof (to_Z_bounded b). pose proof (to_Z_bounded c).
    assert (T : to_Z t = to_Z a + to_Z b + to_Z c).
    { unfold t. rewrite !add_spec, wB_big. unfold W30 in *.
      rewrite (Z.mod_small (to_Z b + to_Z c)) by lia. rewrite Z.mod_small by lia. lia. }
    assert (Tc : to_Z (t >> 30)%uint63 <= 1).
    { rewrite lsr30, T. apply Z.lt_succ_r. apply Z.div_lt_upper_bound; unfold W30 in *; lia. }
    destruct (IH y (t >> 30)%uint63) as ([Lg Sg] & k & E); auto.
    split; [split; [cbn [length]; now rewrite Lg|constructor; auto]|].
    { rewrite land_mask. apply Z.mod_pos_bound. reflexivity. }
    exists k. cbn [ev length]. rewrite E, land_mask, lsr30, Nat2Z.inj_succ, Z.pow_succ_r by lia.
    pose proof (Z.div_mod (to_Z t) W30 ltac:(discriminate)) as DM. rewrite T in *. ring_simplify. lia.
Qed.
Lemma subl_spec : forall x y b d b', length x = length y -> all_small W30 x -> all_small W30 y -> to_Z b <= 1 ->
  subl x y b = (d, b') ->
  good (length x) d /\ 0 <= to_Z b' <= 1 /\ ev d = ev x - ev y - to_Z b + to_Z b' * W30 ^ Z.of_nat (length x).
Proof.
  induction x as [|a x IH]; intros [|c y] b d b' L Hx Hy Hb E; try discriminate; cbn [subl] in E.
  - injection E as <- <-. split; [split; [reflexivity|constructor]|]. pose proof (to_Z_bounded b). cbn [ev length Z.of_nat]. rewrite Z.pow_0_r. lia.
  - injection L as L. inversion Hx; inversion Hy; subst. set (t := (a + W30i - (c + b))%uint63) in *.
    pose proof (to_Z_bounded a). pose proof (to_Z_bounded b). pose proof (to_Z_bounded c).
    assert (T : to_Z t = to_Z a + W30 - to_Z c - to_Z b).
    { unfold t. rewrite sub_spec, !add_spec, wB_big. change (to_Z W30i) with W30. unfold W30 in *.
      rewrite (Z.mod_small (to_Z c + to_Z b)) by lia. rewrite (Z.mod_small (to_Z a + _)) by lia. rewrite Z.mod_small by lia. lia. }
    assert (Tq : 0 <= to_Z t / W30 <= 1).
    { split; [apply Z.div_pos; unfold W30 in *; lia|]. apply Z.lt_succ_r. apply Z.div_lt_upper_bound; unfold W30 in *; lia. }
    assert (Tb : to_Z (1 - (t >> 30))%uint63 = 1 - to_Z t / W30).
    { rewrite sub_spec, lsr30, wB_big. change (to_Z 1) with 1. rewrite Z.mod_small by lia. reflexivity. }
    destruct (subl x y (1 - (t >> 30))%uint63) as [l b2] eqn:Es. injection E as <- <-.
    apply IH in Es as ([Lg Sg] & Hb2 & Ev); auto; [|lia].
    split; [split; [cbn [length]; now rewrite Lg|constructor; auto]|].
    { rewrite land_mask. apply Z.mod_pos_bound. reflexivity. }
    split; [exact Hb2|]. cbn [ev length]. rewrite Ev, land_mask, Tb, Nat2Z.inj_succ, Z.pow_succ_r by lia.
    pose proof (Z.div_mod (to_Z t) W30 ltac:(discriminate)) as DM. rewrite T in *. ring_simplify. lia.
Qed.

(** All digits but the last are below 2^30. *)
Fixpoint inits_small (l : list int) : Prop :=
  match l with d :: ((_ :: _) as l') => to_Z d < W30 /\ inits_small l' | _ => True end.
Lemma row_inits : forall y acc m xi u c, length acc = length y -> length m = length y -> inits_small (row acc y m xi u c).
Proof.
  induction y as [|yj y IH]; intros acc m xi u c La Lm.
  - destruct acc; [|discriminate]. destruct m; [|discriminate]. exact I.
  - destruct acc as [|aj acc]; [discriminate|]. destruct m as [|mj m]; [discriminate|].
    cbn [row]. cbv zeta. match goal with |- inits_small (?d :: ?r) => pose proof (IH acc m xi u ((aj + (xi * yj + (u * mj + c))) >> 30)%uint63) as H; set (rr := r) in * end.
    assert (H0 : inits_small rr) by (apply H; [injection La as La; exact La|injection Lm as Lm; exact Lm]).
    destruct rr as [|z rr]; [exact I|]. split; [|exact H0]. rewrite land_mask. apply Z.mod_pos_bound. reflexivity.
Qed.
Lemma inits_tl l : inits_small l -> inits_small (tl l).
Proof. destruct l as [|d [|e l]]; cbn; intuition. Qed.
Lemma inits_all l : inits_small l -> ev l < W30 ^ Z.of_nat (length l) -> all_small W30 l.
Proof.
  induction l as [|d l IH]; intros H E; [constructor|]. destruct l as [|d' l].
  - constructor; [|constructor]. cbn [ev length Z.of_nat] in E. change (Z.of_nat 1) with 1 in E. rewrite Z.pow_1_r in E. lia.
  - destruct H as [Hd H]. cbn [length ev] in E. rewrite Nat2Z.inj_succ, Z.pow_succ_r in E by lia.
    constructor; [exact Hd|]. apply IH; [exact H|]. cbn [length ev]. pose proof (to_Z_bounded d). cbn [length] in E. unfold W30 in *. lia.
Qed.

Lemma mloop_spec m' (y m : list int) : length m = length y -> y <> [] -> all_small W30 y -> all_small W30 m ->
  (to_Z (hd 0%uint63 m) * to_Z m' + 1) mod W30 = 0 ->
  forall x acc, length acc = length y -> all_small (2 ^ 33) acc -> inits_small acc -> all_small W30 x -> ev acc < ev y + ev m ->
  let r := mloop x acc y m m' in
  length r = length y /\ inits_small r /\ ev r < ev y + ev m /\
  exists k, ev r * W30 ^ Z.of_nat (length x) = ev acc + ev x * ev y + k * ev m.
Proof.
  intros Lm Ny Hy Hm HM. induction x as [|xi x IH]; intros acc La Ha Ia Hx Hb; cbn [mloop].
  - cbv zeta. split; [exact La|]. split; [exact Ia|]. split; [exact Hb|]. exists 0. cbn. lia.
  - inversion Hx as [|? ? Hx1 Hx2]; subst. destruct acc as [|a0 acc]; [destruct y; [congruence|discriminate]|].
    destruct y as [|y0 y]; [congruence|]. destruct m as [|m0 m]; [discriminate|]. cbn [hd] in HM.
    set (u := (((a0 + xi * y0) * m') land mask30)%uint63) in *.
    assert (Eu : to_Z u = ((to_Z a0 + to_Z xi * to_Z y0) * to_Z m') mod W30).
    { unfold u. rewrite land_mask, mul_spec, add_spec, mul_spec, wB_big.
      assert (DW : forall z, (z mod 2 ^ 63) mod W30 = z mod W30).
      { intros z. symmetry. apply Zmod_div_mod; [reflexivity|reflexivity|]. exists (2 ^ 33). reflexivity. }
      rewrite DW, Z.mul_mod, DW, Z.add_mod, DW, <- Z.add_mod, <- Z.mul_mod by discriminate. reflexivity. }
    assert (Hu : to_Z u < W30) by (rewrite Eu; apply Z.mod_pos_bound; reflexivity).
    destruct (row_spec (y0 :: y) (a0 :: acc) (m0 :: m) xi u 0%uint63) as (Er & Sr & Lr); auto; [reflexivity|].
    pose proof (row_inits (y0 :: y) (a0 :: acc) (m0 :: m) xi u 0%uint63 La Lm) as Ir.
    change (to_Z 0) with 0 in Er.
    destruct (row (a0 :: acc) (y0 :: y) (m0 :: m) xi u 0%uint63) as [|d0 acc'] eqn:Erow; [discriminate|]. cbn [tl].
    assert (Hd0 : to_Z d0 < W30).
    { destruct acc' as [|z acc']; [cbn [length] in Lr; discriminate|]. exact (proj1 Ir). }
    pose proof (to_Z_bounded d0) as Bd.
    assert (Z0 : to_Z d0 = 0).
    { cbn [ev] in Er. assert (M : to_Z d0 mod W30 = 0).
      { replace (to_Z d0) with ((to_Z a0 + to_Z xi * to_Z y0 + to_Z u * to_Z m0) + (ev acc + to_Z xi * ev y + to_Z u * ev m - ev acc') * W30) by (cbn [ev] in *; lia).
        rewrite Z_mod_plus_full. rewrite Z.add_mod, Eu, Z.mul_mod_idemp_l, <- Z.add_mod by discriminate.
        replace (to_Z a0 + to_Z xi * to_Z y0 + (to_Z a0 + to_Z xi * to_Z y0) * to_Z m' * to_Z m0)
          with ((to_Z a0 + to_Z xi * to_Z y0) * (to_Z m0 * to_Z m' + 1)) by ring.
        rewrite Z.mul_mod, HM, Z.mul_0_r by discriminate. reflexivity. }
      rewrite Z.mod_small in M by lia. exact M. }
    inversion Sr as [|? ? _ Sr2]; subst.
    assert (Ev' : W30 * ev acc' = ev (a0 :: acc) + to_Z xi * ev (y0 :: y) + to_Z u * ev (m0 :: m)) by (cbn [ev] in *; lia).
    specialize (IH acc' ltac:(cbn in *; lia) Sr2 (inits_tl _ Ir) Hx2).
    destruct IH as (R1 & R2 & R3 & k & Ek).
    { pose proof (ev_nonneg (y0 :: y)) as P1. pose proof (ev_nonneg (m0 :: m)) as P2. pose proof (to_Z_bounded xi). pose proof (to_Z_bounded u).
      assert (Q1 : to_Z xi * ev (y0 :: y) <= (W30 - 1) * ev (y0 :: y)) by (apply Z.mul_le_mono_nonneg_r; lia).
      assert (Q2 : to_Z u * ev (m0 :: m) <= (W30 - 1) * ev (m0 :: m)) by (apply Z.mul_le_mono_nonneg_r; lia).
      unfold W30 in *. lia. }
    split; [exact R1|]. split; [exact R2|]. split; [exact R3|].
    exists (to_Z u + W30 * k). cbn [length]. rewrite Nat2Z.inj_succ, Z.pow_succ_r by lia.
    match goal with |- ?r * (W30 * ?p) = _ => transitivity (W30 * (r * p)); [ring|] end. rewrite Ek.
    replace (W30 * (ev acc' + ev x * ev (y0 :: y) + k * ev (m0 :: m))) with (W30 * ev acc' + W30 * ev x * ev (y0 :: y) + W30 * k * ev (m0 :: m)) by ring.
    rewrite Ev'. change (ev (xi :: x)) with (to_Z xi + W30 * ev x). ring.
Qed.

(** Conditions on the modulus, checked by computation. *)
Definition rctx_check (m : Z) : bool :=
  let C := mk_rctx m in
  Z.odd m && (1 <? m) && (2 * m <=? W30 ^ Z.of_nat (rc_n C)) &&
  ((to_Z (hd 0%uint63 (rc_d C)) * to_Z (rc_i C) + 1) mod W30 =? 0).

Section Ring.
Variable m : Z.
Hypothesis CK : rctx_check m = true.
Notation C := (mk_rctx m).
Notation n := (ndigits m).
Notation R := (W30 ^ Z.of_nat (ndigits m)).
Let m_gt1 : 1 < m.
Proof. unfold rctx_check in CK. cbv zeta in CK. rewrite !andb_true_iff in CK. destruct CK as [[[_ H] _] _]. now apply Z.ltb_lt. Qed.
Let m_small : 2 * m <= R.
Proof. unfold rctx_check in CK. cbv zeta in CK. rewrite !andb_true_iff in CK. destruct CK as [[_ H] _]. now apply Z.leb_le. Qed.
Let m_neg : (to_Z (hd 0%uint63 (digits n m)) * to_Z (rc_i C) + 1) mod W30 = 0.
Proof. unfold rctx_check in CK. cbv zeta in CK. rewrite !andb_true_iff in CK. destruct CK as [_ H]. now apply Z.eqb_eq. Qed.
Let n_pos : (0 < n)%nat.
Proof. unfold ndigits. assert (0 <= (Z.log2 m + 3) / 30) by (apply Z.div_pos; pose proof (Z.log2_nonneg m); lia). lia. Qed.
Let RP : rel_prime R m.
Proof.
  assert (Om : Z.odd m = true) by (unfold rctx_check in CK; cbv zeta in CK; rewrite !andb_true_iff in CK; intuition).
  apply rel_prime_sym. apply rel_prime_Zpower_r; [lia|]. unfold W30.
  apply rel_prime_Zpower_r; [lia|]. apply rel_prime_sym, prime_rel_prime; [apply prime_2|].
  intros [k D]. rewrite D, Z.odd_mul, andb_false_r in Om. discriminate.
Qed.
Let cancel u v : (u * R) mod m = (v * R) mod m -> u mod m = v mod m.
Proof.
  intros E. assert (D : (m | (u - v) * R)).
  { apply Z.mod_divide; [lia|]. rewrite Z.mul_sub_distr_r, Zminus_mod, E, Z.sub_diag. apply Z.mod_0_l; lia. }
  rewrite Z.mul_comm in D. apply Gauss in D; [|now apply rel_prime_sym].
  destruct D as [k D]. replace u with (v + k * m) by lia. apply Z_mod_plus_full.
Qed.
Let md_ev : ev (digits n m) = m. Proof. apply ev_digits. lia. Qed.
Let md_good : good n (digits n m). Proof. apply digits_good. Qed.

Lemma r_of_good z : good n (r_of C z). Proof. apply digits_good. Qed.
Lemma r_of_ev z : ev (r_of C z) = (z * R) mod m.
Proof. apply ev_digits. pose proof (Z.mod_pos_bound (z * R) m). cbn [rc_n rc_m mk_rctx]. lia. Qed.
Lemma r_of_mod z : r_of C (z mod m) = r_of C z.
Proof. unfold r_of. cbn [rc_n rc_m mk_rctx]. now rewrite Z.mul_mod_idemp_l by lia. Qed.
Lemma r_of_inj z w : r_of C z = r_of C w -> z mod m = w mod m.
Proof. intros E. apply cancel. now rewrite <- !r_of_ev, E. Qed.
Lemma r_of_uniq l z : good n l -> ev l < m -> ev l mod m = (z * R) mod m -> l = r_of C z.
Proof.
  intros [L S] B E. pose proof (r_of_good z) as [L' S']. apply ev_inj; auto; [congruence|].
  rewrite r_of_ev, <- E. symmetry. apply Z.mod_small. pose proof (ev_nonneg l). lia.
Qed.
Lemma cond_sub_spec l z : good n l -> ev l < 2 * m -> ev l mod m = (z * R) mod m -> cond_sub C l = r_of C z.
Proof.
  intros [L S] B E. unfold cond_sub. cbn [rc_d mk_rctx]. destruct md_good as [Lm Sm].
  destruct (subl l (digits n m) 0%uint63) as [d b] eqn:Es.
  apply subl_spec in Es as ([Ld Sd] & Hb & Ev); auto; [|congruence|change (to_Z 0) with 0; lia].
  change (to_Z 0) with 0 in Ev. rewrite md_ev, L in Ev. pose proof (ev_nonneg d) as Pd. pose proof (ev_nonneg l) as Pl.
  pose proof (ev_lt d Sd) as Ud. rewrite Ld, L in Ud.
  destruct (b =? 0)%uint63 eqn:Eb.
  - apply eqb_correct in Eb. subst b. change (to_Z 0) with 0 in Ev. apply r_of_uniq; [split; [congruence|exact Sd]|lia|].
    rewrite <- E. replace (ev d) with (ev l + (-1) * m) by lia. apply Z_mod_plus_full.
  - assert (B1 : to_Z b = 1).
    { assert (to_Z b <> 0); [|lia]. intros H0. assert (b = 0%uint63) by (apply to_Z_inj; exact H0). subst b. rewrite eqb_refl in Eb. discriminate. }
    rewrite B1 in Ev. apply r_of_uniq; [split; [exact L|exact S]|lia|exact E].
Qed.
Lemma r_of_small z : ev (r_of C z) < m.
Proof. rewrite r_of_ev. apply Z.mod_pos_bound. lia. Qed.
Lemma r_of_add z w : r_add C (r_of C z) (r_of C w) = r_of C (z + w).
Proof.
  destruct (r_of_good z) as [Lz Sz], (r_of_good w) as [Lw Sw]. pose proof (r_of_small z). pose proof (r_of_small w).
  unfold r_add. destruct (addl_spec (r_of C z) (r_of C w) 0%uint63) as ([L S] & k & E); auto; [congruence|change (to_Z 0) with 0; lia|].
  change (to_Z 0) with 0 in E. rewrite Lz in *. pose proof (ev_nonneg (addl (r_of C z) (r_of C w) 0%uint63)) as P1.
  pose proof (ev_lt _ S) as P2. rewrite L in P2. pose proof (ev_nonneg (r_of C z)). pose proof (ev_nonneg (r_of C w)).
  assert (k = 0) by nia. subst k.
  apply cond_sub_spec; [split; auto|lia|]. rewrite E, Z.mul_0_l, Z.sub_0_r, Z.add_0_r, !r_of_ev, <- Z.add_mod, Z.mul_add_distr_r by lia. reflexivity.
Qed.
Lemma r_of_sub z w : r_sub C (r_of C z) (r_of C w) = r_of C (z - w).
Proof.
  destruct (r_of_good z) as [Lz Sz], (r_of_good w) as [Lw Sw]. pose proof (r_of_small z). pose proof (r_of_small w). destruct md_good as [Lm Sm].
  pose proof (ev_nonneg (r_of C z)). pose proof (ev_nonneg (r_of C w)).
  unfold r_sub. destruct (subl (r_of C z) (r_of C w) 0%uint63) as [d b] eqn:Es.
  apply subl_spec in Es as ([Ld Sd] & Hb & Ev); auto; [|congruence|change (to_Z 0) with 0; lia].
  change (to_Z 0) with 0 in Ev. rewrite Lz in *. pose proof (ev_nonneg d). pose proof (ev_lt d Sd) as Ud. rewrite Ld in Ud.
  assert (Res : (ev (r_of C z) - ev (r_of C w)) mod m = ((z - w) * R) mod m).
  { rewrite !r_of_ev, <- Zminus_mod, Z.mul_sub_distr_r. reflexivity. }
  destruct (b =? 0)%uint63 eqn:Eb.
  - apply eqb_correct in Eb. subst b. change (to_Z 0) with 0 in Ev. apply r_of_uniq; [split; auto|lia|].
    rewrite <- Res. f_equal. lia.
  - assert (B1 : to_Z b = 1).
    { assert (to_Z b <> 0); [|lia]. intros H0'. assert (b = 0%uint63) by (apply to_Z_inj; exact H0'). subst b. rewrite eqb_refl in Eb. discriminate. }
    rewrite B1 in Ev. cbn [rc_d mk_rctx].
    destruct (addl_spec d (digits n m) 0%uint63) as ([L S] & k & E); auto; [congruence|change (to_Z 0) with 0; lia|].
    change (to_Z 0) with 0 in E. rewrite Ld, md_ev in *. pose proof (ev_nonneg (addl d (digits n m) 0%uint63)).
    pose proof (ev_lt _ S) as P2. rewrite L in P2.
    assert (k = 1) by nia. subst k. apply r_of_uniq; [split; auto|lia|].
    rewrite <- Res. replace (ev (addl d (digits n m) 0%uint63)) with (ev (r_of C z) - ev (r_of C w) + 1 * m) by lia. apply Z_mod_plus_full.
Qed.
Lemma r_of_0 : rc_z C = r_of C 0.
Proof. unfold r_of. cbn [rc_n rc_m rc_z mk_rctx]. rewrite Z.mul_0_l, Z.mod_0_l by lia. reflexivity. Qed.
Lemma r_of_1 : rc_1 C = r_of C 1.
Proof. unfold r_of. cbn [rc_n rc_m rc_1 mk_rctx]. now rewrite Z.mul_1_l. Qed.
Lemma r_of_mul z w : r_mul C (r_of C z) (r_of C w) = r_of C (z * w).
Proof.
  destruct (r_of_good z) as [Lz Sz], (r_of_good w) as [Lw Sw]. pose proof (r_of_small z). pose proof (r_of_small w). destruct md_good as [Lm Sm].
  unfold r_mul. cbn [rc_z rc_d mk_rctx].
  destruct (digits_good n 0) as [L0 S0]. assert (E0 : ev (digits n 0) = 0) by (apply ev_digits; lia).
  destruct (mloop_spec (rc_i C) (r_of C w) (digits n m)) with (x := r_of C z) (acc := digits n 0) as (L & I & B & k & E); auto; try congruence.
  - intros E. rewrite E in Lw. cbn [length] in Lw. lia.
  - eapply Forall_impl; [|exact S0]. cbn. unfold W30. intros; lia.
  - clear - S0. induction (digits n 0) as [|d l IH]; [exact I|]. inversion S0; subst. destruct l; [exact I|]. split; auto.
  - rewrite E0, md_ev. pose proof (ev_nonneg (r_of C w)). lia.
  - rewrite md_ev in B. rewrite E0, md_ev, Lz, Z.add_0_l in E.
    set (r := mloop _ _ _ _ _) in *. assert (U : ev r < R) by lia.
    assert (G : good n r) by (split; [congruence|apply inits_all; auto; rewrite L, Lw; exact U]).
    apply cond_sub_spec; [exact G|lia|]. apply cancel. rewrite E, Z_mod_plus_full, !r_of_ev, <- Z.mul_mod by lia. f_equal. ring.
Qed.
Lemma r_of_pow z e : r_pow C (r_of C z) e = r_of C (z ^ Zpos e).
Proof.
  induction e as [e IH|e IH|]; cbn [r_pow]; cbv zeta; rewrite ?IH, ?r_of_mul.
  - f_equal. rewrite Pos2Z.inj_xI, Z.add_1_r, Z.pow_succ_r, Z.pow_twice_r by lia. ring.
  - f_equal. rewrite Pos2Z.inj_xO, Z.pow_twice_r by lia. ring.
  - f_equal. now rewrite Z.pow_1_r.
Qed.
End Ring.
