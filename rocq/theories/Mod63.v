(** Fast modular exponentiation on Coq's primitive 63-bit integers, used only
    to check concrete constants (primality certificates and the like); the
    correctness proof relies on the standard library's Uint63 specification
    axioms.  Numbers are little-endian lists of 30-bit digits; multiplication
    is Montgomery's, with the facts that its bound analysis would give
    (vanishing low digit, digits below 2^30) checked at run time. *)
From Coq Require Import ZArith List Lia Bool Uint63 Znumtheory Zpow_facts.
Import ListNotations.
Open Scope Z_scope.

Definition W30 : Z := 2 ^ 30.
Fixpoint ev (l : list int) : Z :=
  match l with [] => 0 | d :: l' => to_Z d + W30 * ev l' end.

Fixpoint digits (n : nat) (z : Z) : list int :=
  match n with O => [] | S n' => of_Z (z mod W30) :: digits n' (z / W30) end.

Definition dsmall (b : Z) (d : int) : Prop := to_Z d < b.
Definition mask30 : int := 1073741823%uint63.
Definition small_digit (d : int) : bool := (d <=? mask30)%uint63.

(** One row: acc + xi*y + u*m + c. *)
Fixpoint row (acc y m : list int) (xi u c : int) : list int :=
  match y, m, acc with
  | yj :: y', mj :: m', aj :: acc' =>
      let t := (aj + (xi * yj + (u * mj + c)))%uint63 in
      (t land mask30)%uint63 :: row acc' y' m' xi u (t >> 30)%uint63
  | _, _, _ => [c]
  end.

(** acc := (acc + xi*y + u*m) / 2^30 for each digit xi of x. *)
Fixpoint mont_loop (x acc y m : list int) (m' : int) : option (list int) :=
  match x with
  | [] => Some acc
  | xi :: x' =>
      match acc, y with
      | a0 :: _, y0 :: _ =>
          let u := (((a0 + xi * y0) * m') land mask30)%uint63 in
          match row acc y m xi u 0%uint63 with
          | d0 :: acc' => if (d0 =? 0)%uint63 then mont_loop x' acc' y m m' else None
          | [] => None
          end
      | _, _ => None
      end
  end.

Definition mont (x y m : list int) (m' : int) (zero : list int) : option (list int) :=
  match mont_loop x zero y m m' with
  | Some r => if forallb small_digit r then Some r else None
  | None => None
  end.

Fixpoint mpow (a : list int) (e : positive) (m : list int) (m' : int) (zero : list int)
  : option (list int) :=
  match e with
  | xH => Some a
  | xO e' => match mpow a e' m m' zero with
             | Some x => mont x x m m' zero | None => None end
  | xI e' => match mpow a e' m m' zero with
             | Some x => match mont x x m m' zero with
                         | Some x2 => mont a x2 m m' zero | None => None end
             | None => None end
  end.

(** -m^(-1) mod 2^30 by Newton iteration on the low digit. *)
Definition neg_inv (m0 : Z) : Z :=
  let step x := (x * (2 - m0 * x)) mod W30 in
  (- step (step (step (step (step (step 1)))))) mod W30.

Definition ndigits (m : Z) : nat := Z.to_nat ((Z.log2 m + 3) / 30 + 1).

Definition powmod63 (a : Z) (e : positive) (m : Z) : option Z :=
  if negb (Z.odd m) then None else
  let n := ndigits m in
  let md := digits n m in
  let m' := of_Z (neg_inv (m mod W30)) in
  let zero := digits n 0 in
  let ad := digits n ((a * W30 ^ Z.of_nat n) mod m) in
  if negb ((ev md =? m) && (ev ad =? (a * W30 ^ Z.of_nat n) mod m)) then None else
  match mpow ad e md m' zero with
  | Some x => match mont x (digits n 1) md m' zero with
              | Some r => Some (ev r mod m)
              | None => None end
  | None => None
  end.

(** *** Correctness *)

Lemma W30_pos : 0 < W30. Proof. reflexivity. Qed.
Lemma wB_big : wB = 2 ^ 63. Proof. reflexivity. Qed.

Lemma land_mask x : to_Z (x land mask30)%uint63 = to_Z x mod W30.
Proof.
  rewrite land_spec'. change (to_Z mask30) with (Z.ones 30). rewrite Z.land_ones by lia. reflexivity.
Qed.
Lemma lsr30 x : to_Z (x >> 30)%uint63 = to_Z x / W30.
Proof. rewrite lsr_spec. reflexivity. Qed.

Definition all_small (b : Z) (l : list int) : Prop := Forall (fun d => to_Z d < b) l.

Lemma row_spec : forall y acc m xi u c,
  length acc = length y -> length m = length y ->
  all_small (2 ^ 33) acc -> all_small W30 y -> all_small W30 m ->
  to_Z xi < W30 -> to_Z u < W30 -> to_Z c < 2 ^ 32 ->
  ev (row acc y m xi u c) = ev acc + to_Z xi * ev y + to_Z u * ev m + to_Z c
  /\ all_small (2 ^ 33) (row acc y m xi u c) /\ length (row acc y m xi u c) = S (length y).
Proof.
  induction y as [|yj y IH]; intros acc m xi u c La Lm Ha Hy Hm Hx Hu Hc.
  - destruct acc; [|discriminate]. destruct m; [|discriminate]. cbn.
    split; [ring_simplify; unfold W30; lia|]. split; [|reflexivity].
    constructor; [|constructor]. lia.
  - destruct acc as [|aj acc]; [discriminate|]. destruct m as [|mj m]; [discriminate|].
    inversion Ha as [|? ? Ha1 Ha2]; subst. inversion Hy as [|? ? Hy1 Hy2]; subst. inversion Hm as [|? ? Hm1 Hm2]; subst.
    cbn [row]. set (t := (aj + (xi * yj + (u * mj + c)))%uint63).
    pose proof (to_Z_bounded aj). pose proof (to_Z_bounded xi). pose proof (to_Z_bounded yj).
    pose proof (to_Z_bounded u). pose proof (to_Z_bounded mj). pose proof (to_Z_bounded c).
    assert (B1 : 0 <= to_Z xi * to_Z yj <= (W30 - 1) * (W30 - 1)).
    { split; [nia|]. apply Z.mul_le_mono_nonneg; lia. }
    assert (B2 : 0 <= to_Z u * to_Z mj <= (W30 - 1) * (W30 - 1)).
    { split; [nia|]. apply Z.mul_le_mono_nonneg; lia. }
    unfold W30 in B1, B2.
    assert (T : to_Z t = to_Z aj + to_Z xi * to_Z yj + to_Z u * to_Z mj + to_Z c).
    { unfold t. rewrite !add_spec, !mul_spec, wB_big.
      rewrite (Z.mod_small (to_Z u * to_Z mj)) by lia.
      rewrite (Z.mod_small (to_Z xi * to_Z yj)) by lia.
      rewrite (Z.mod_small (to_Z u * to_Z mj + to_Z c)) by lia.
      rewrite (Z.mod_small (to_Z xi * to_Z yj + _)) by lia.
      rewrite Z.mod_small by lia. lia. }
    assert (Tc : to_Z (t >> 30)%uint63 < 2 ^ 32).
    { rewrite lsr30, T. apply Z.div_lt_upper_bound; unfold W30; lia. }
    destruct (IH acc m xi u (t >> 30)%uint63) as (E & S & L); auto.
    cbn [ev]. rewrite E, land_mask, lsr30. split; [|split].
    + pose proof (Z.div_mod (to_Z t) W30 ltac:(discriminate)) as DM. lia.
    + constructor; auto. rewrite land_mask.
      pose proof (Z.mod_pos_bound (to_Z t) W30 W30_pos). unfold W30 in *. lia.
    + cbn [length]. lia.
Qed.

Lemma mont_loop_spec : forall x acc y m m' r,
  length acc = length y -> length m = length y ->
  all_small (2 ^ 33) acc -> all_small W30 x -> all_small W30 y -> all_small W30 m ->
  mont_loop x acc y m m' = Some r ->
  length r = length y /\
  exists k, ev r * W30 ^ Z.of_nat (length x) = ev acc + ev x * ev y + k * ev m.
Proof.
  induction x as [|xi x IH]; intros acc y m m' r La Lm Ha Hx Hy Hm E; cbn [mont_loop] in E.
  - injection E as <-. split; auto. exists 0. cbn. lia.
  - destruct acc as [|a0 acc]; [discriminate|]. destruct y as [|y0 y]; [discriminate|].
    set (u := (((a0 + xi * y0) * m') land mask30)%uint63) in *.
    inversion Hx as [|? ? Hx1 Hx2]; subst.
    assert (Hu : to_Z u < W30).
    { unfold u. rewrite land_mask. apply Z.mod_pos_bound. reflexivity. }
    destruct (row_spec (y0 :: y) (a0 :: acc) m xi u 0%uint63) as (Er & Sr & Lr); auto.
    { reflexivity. }
    destruct (row (a0 :: acc) (y0 :: y) m xi u 0%uint63) as [|d0 acc'] eqn:Erow; [discriminate|].
    destruct (d0 =? 0)%uint63 eqn:E0; [|discriminate].
    apply eqb_correct in E0. subst d0.
    inversion Sr as [|? ? _ Sr2]; subst.
    apply IH in E as (Lres & k & Ek); auto.
    split; auto. exists (to_Z u + W30 * k). cbn [length]. rewrite Nat2Z.inj_succ, Z.pow_succ_r by lia.
    cbn [ev] in Er |- *. change (to_Z 0) with 0 in Er.
    transitivity (W30 * (ev r * W30 ^ Z.of_nat (length x))); [ring|]. rewrite Ek.
    cbn [ev]. replace (W30 * (ev acc' + ev x * (to_Z y0 + W30 * ev y) + k * ev m))
      with ((0 + W30 * ev acc') + W30 * ev x * (to_Z y0 + W30 * ev y) + W30 * k * ev m) by ring.
    rewrite Er. ring.
Qed.

Lemma forallb_small r : forallb small_digit r = true -> all_small W30 r.
Proof.
  intros H. apply Forall_forall. intros d Hd. rewrite forallb_forall in H.
  specialize (H d Hd). unfold small_digit in H. apply leb_spec in H.
  change (to_Z mask30) with (W30 - 1) in H. lia.
Qed.

Definition good (n : nat) (l : list int) : Prop := length l = n /\ all_small W30 l.

Lemma digits_good n : forall z, good n (digits n z).
Proof.
  induction n; intros z; cbn [digits]; [split; constructor|].
  destruct (IHn (z / W30)) as [HL HS]. split; [cbn [length]; now rewrite HL|]. constructor; auto.
  pose proof (Z.mod_pos_bound z W30 W30_pos).
  rewrite of_Z_spec, Z.mod_small by (rewrite wB_big; unfold W30 in *; lia). lia.
Qed.

Lemma ev_digits n : forall z, 0 <= z < W30 ^ Z.of_nat n -> ev (digits n z) = z.
Proof.
  induction n; intros z Hz; [cbn in *; lia|]. cbn [digits ev].
  rewrite Nat2Z.inj_succ, Z.pow_succ_r in Hz by lia.
  pose proof (Z.mod_pos_bound z W30 W30_pos).
  rewrite of_Z_spec, Z.mod_small by (rewrite wB_big; unfold W30 in *; lia).
  rewrite IHn.
  - pose proof (Z.div_mod z W30 ltac:(discriminate)). lia.
  - split; [apply Z.div_pos; lia|]. apply Z.div_lt_upper_bound; lia.
Qed.

Section Correct.
Variables (m : Z) (n : nat) (md : list int) (m' : int).
Hypothesis Hm : 1 < m.
Hypothesis Hmd : good n md.
Hypothesis Emd : ev md = m.
Hypothesis Hn : (0 < n)%nat.
Let R := W30 ^ Z.of_nat n.
Let zero := digits n 0.

Lemma mont_spec x y r : good n x -> good n y -> mont x y md m' zero = Some r ->
  good n r /\ (ev r * R) mod m = (ev x * ev y) mod m.
Proof.
  intros [Lx Sx] [Ly Sy] E. unfold mont in E.
  destruct (mont_loop x zero y md m') as [r'|] eqn:El; [|discriminate].
  destruct (forallb small_digit r') eqn:Es; [|discriminate]. injection E as <-.
  destruct Hmd as [Lm Sm]. destruct (digits_good n 0) as [Lz Sz].
  apply mont_loop_spec in El as (Lr & k & Ek); try congruence; try assumption.
  - split; [split; [congruence|now apply forallb_small]|].
    rewrite Lx in Ek. fold R in Ek. rewrite Ek. unfold zero. rewrite ev_digits.
    + rewrite Emd, Z.add_0_l. apply Z_mod_plus_full.
    + split; [lia|]. apply Z.pow_pos_nonneg; [reflexivity|lia].
  - unfold zero. congruence.
  - eapply Forall_impl; [|exact Sz]. cbn. unfold W30. intros; lia.
Qed.

Lemma mpow_spec a za : good n a -> ev a mod m = (za * R) mod m ->
  rel_prime R m ->
  forall e x, mpow a e md m' zero = Some x ->
  good n x /\ ev x mod m = (za ^ Zpos e * R) mod m.
Proof.
  intros Ga Ea RP. 
  assert (cancel : forall u v, (u * R) mod m = (v * R) mod m -> u mod m = v mod m).
  { intros u v E. assert (D : (m | (u - v) * R)).
    { apply Z.mod_divide; [lia|]. rewrite Z.mul_sub_distr_r, Zminus_mod, E, Z.sub_diag. apply Z.mod_0_l; lia. }
    rewrite Z.mul_comm in D. apply Gauss in D; [|now apply rel_prime_sym].
    destruct D as [k D]. replace u with (v + k * m) by lia. apply Z_mod_plus_full. }
  induction e as [e IH|e IH|]; intros x E; cbn [mpow] in E.
  - destruct (mpow a e md m' zero) as [y|]; [|discriminate].
    destruct (IH y eq_refl) as [Gy Ey].
    destruct (mont y y md m' zero) as [y2|] eqn:E2; [|discriminate].
    apply mont_spec in E2 as [G2 V2]; auto. apply mont_spec in E as [Gx Vx]; auto.
    split; auto. apply cancel. rewrite Vx, Z.mul_mod, Ea by lia. 
    assert (V2' : ev y2 mod m = (za ^ Zpos e * za ^ Zpos e * R) mod m).
    { apply cancel. rewrite V2, Z.mul_mod, Ey, <- Z.mul_mod by lia. f_equal. ring. }
    rewrite V2', <- Z.mul_mod by lia. f_equal.
    rewrite Pos2Z.inj_xI, Z.add_1_r, Z.pow_succ_r, Z.pow_twice_r by lia. ring.
  - destruct (mpow a e md m' zero) as [y|]; [|discriminate].
    destruct (IH y eq_refl) as [Gy Ey].
    apply mont_spec in E as [G2 V2]; auto. split; auto.
    apply cancel. rewrite V2, Z.mul_mod, Ey, <- Z.mul_mod by lia. f_equal.
    rewrite Pos2Z.inj_xO, Z.pow_twice_r by lia. ring.
  - injection E as <-. split; auto. rewrite Z.pow_1_r. auto.
Qed.
End Correct.

Theorem powmod63_spec a e m r : 1 < m -> powmod63 a e m = Some r -> r = a ^ Zpos e mod m.
Proof.
  intros Hm. unfold powmod63. destruct (Z.odd m) eqn:Om; [|discriminate]. cbn [negb].
  set (n := ndigits m). set (md := digits n m). set (m' := of_Z _).
  set (ad := digits n _). set (R := W30 ^ Z.of_nat n) in *.
  destruct ((ev md =? m) && (ev ad =? (a * R) mod m)) eqn:Ec; [|discriminate]. cbn [negb].
  apply andb_true_iff in Ec as [E1 E2]. apply Z.eqb_eq in E1, E2.
  destruct (mpow ad e md m' (digits n 0)) as [x|] eqn:Ex; [|discriminate].
  destruct (mont x (digits n 1) md m' (digits n 0)) as [y|] eqn:Ey; [|discriminate].
  intros E. injection E as <-.
  assert (Hn : (0 < n)%nat).
  { unfold n, ndigits.
    assert (0 <= (Z.log2 m + 3) / 30) by (apply Z.div_pos; pose proof (Z.log2_nonneg m); lia). lia. }
  assert (RP : rel_prime R m).
  { apply rel_prime_sym. apply rel_prime_Zpower_r; [lia|]. unfold W30.
    apply rel_prime_Zpower_r; [lia|]. apply rel_prime_sym, prime_rel_prime; [apply prime_2|].
    intros [k D]. rewrite D, Z.odd_mul, andb_false_r in Om. discriminate. }
  assert (Gm : good n md) by apply digits_good.
  assert (Ga : good n ad) by apply digits_good.
  apply mpow_spec with (m := m) (za := a) in Ex as [Gx Vx]; auto.
  2:{ fold R. rewrite E2. apply Z.mod_mod. lia. }
  apply mont_spec with (m := m) in Ey as [Gy Vy]; auto using digits_good.
  fold R in Vx, Vy. rewrite (ev_digits n 1), Z.mul_1_r in Vy.
  2:{ split; [lia|]. apply Z.pow_gt_1; [reflexivity|]. lia. }
  assert (D : (m | R * (ev y - a ^ Z.pos e))).
  { apply Z.mod_divide; [lia|]. rewrite Z.mul_comm, Z.mul_sub_distr_r, Zminus_mod, Vy, Vx, Z.sub_diag.
    apply Z.mod_0_l; lia. }
  apply Gauss in D; [|now apply rel_prime_sym].
  destruct D as [k D]. replace (ev y) with (a ^ Z.pos e + k * m) by lia. apply Z_mod_plus_full.
Qed.
