(** Cyclotomic squaring, exponentiation and inversion. *)
From Coq Require Import ZArith Znumtheory List Bool Lia Ring Field Arith.
From Verif Require Import Result Limbs LimbsProofs Algebra NumTheory FieldOps BigintModel AlgorithmsModel AlgorithmsProofs
  WnafModel WnafProofs ExtModel ExtSpec ExtProofs ExtFrob.
Import ListNotations.

(** The all-ones exponent is recoded as -1. *)
Lemma find_wnaf_all_ones e : limbs e -> (1 <= length e)%nat -> val e = (Bn (length e) - 1)%Z ->
  exists ds, find_wnaf 1 e = Ok ds /\ digits_val ds = (-1)%Z /\ Forall (fun d => d = 0 \/ d = 1 \/ d = -1)%Z ds.
Proof.
  intros L N V. destruct (Bn_half (length e) N) as (h & Hh & _).
  rewrite (find_wnaf_carry_digits 1 e); auto; [|lia|change (2 ^ Z.of_nat 1)%Z with 2%Z; lia|].
  2:{ rewrite V, Hh. rewrite Z.odd_sub, Z.odd_mul. reflexivity. }
  rewrite V. eexists. split; [reflexivity|]. cbn [digits_val]. rewrite digits_repeat. split; [lia|].
  constructor; [lia|]. apply Forall_forall. intros d Hd. apply repeat_spec in Hd. auto.
Qed.

(** ** Exponentiation with a squaring that is only right on a subset P *)
Section Exp.
Context {T : Type} (one : T) (mul : T -> T -> T) (csqr : T -> T) (P : T -> Prop).
Hypothesis M : monoid_laws one mul.
Hypothesis C : forall x y, mul x y = mul y x.
Hypothesis P1 : P one.
Hypothesis Pmul : forall x y, P x -> P y -> P (mul x y).
Hypothesis Psqr : forall x, P x -> csqr x = mul x x.

Lemma power_loop_sub bit b i : P b -> forall found r, P r ->
  power_loop mul csqr bit b i found r = power_loop mul (fun x => mul x x) bit b i found r /\
  P (snd (power_loop mul (fun x => mul x x) bit b i found r)).
Proof.
  intros Pb. induction i as [|i IH]; intros found r Pr; cbn [power_loop]; [cbn; auto|].
  assert (E : (if found then csqr r else r) = (if found then mul r r else r)).
  { destruct found; auto. }
  rewrite E. assert (Pr' : P (if found then mul r r else r)) by (destruct found; auto).
  destruct (bit (Z.of_nat i)); apply IH; auto.
Qed.
Lemma power_vec_step_sub b w st : P b -> P (snd st) ->
  power_vec_step mul csqr b st w = power_vec_step mul (fun x => mul x x) b st w /\
  P (snd (power_vec_step mul (fun x => mul x x) b st w)).
Proof.
  unfold power_vec_step. generalize 64%nat. intros n Pb. destruct st as [found r]. cbn [snd]. intros Pr.
  now apply power_loop_sub.
Qed.
Lemma power_vec_sub b : P b -> forall e st, P (snd st) ->
  fold_left (power_vec_step mul csqr b) e st =
  fold_left (power_vec_step mul (fun x => mul x x) b) e st.
Proof.
  intros Pb. induction e as [|w e IH]; intros st Pr; cbn [fold_left]; [reflexivity|].
  destruct (power_vec_step_sub b w st Pb Pr) as [E H]. rewrite E. apply IH. exact H.
Qed.
Lemma cyclotomic_exp_bits_spec x e : limbs e -> P x ->
  cyclotomic_exp_bits one mul csqr x e = npow one mul x (Z.to_nat (val e)).
Proof.
  intros L Px. unfold cyclotomic_exp_bits, power_vector. rewrite power_vec_sub by auto.
  fold (power_vector one mul (fun x => mul x x) x (rev e)).
  rewrite (power_vector_spec one mul (fun x => mul x x) M (fun x => eq_refl)).
  - f_equal. f_equal. unfold vec_val. rewrite <- fold_left_rev_right, rev_involutive.
    clear L. induction e as [|w e IH]; cbn [fold_right val]; auto. rewrite IH. unfold B. lia.
  - apply Forall_rev. exact L.
Qed.

(** Signed powers of an invertible element. *)
Section Signed.
Variables x y : T.
Hypothesis Hxy : mul x y = one.
Definition zp (k : Z) : T :=
  match k with
  | Z0 => one
  | Zpos n => npow one mul x (Pos.to_nat n)
  | Zneg n => npow one mul y (Pos.to_nat n)
  end.
Lemma zp_succ k : zp (k + 1) = mul (zp k) x.
Proof.
  assert (E : forall n, mul (npow one mul y (S n)) x = npow one mul y n).
  { intros n. rewrite (npow_S_r _ _ M), <- (ml_assoc _ _ M), (C y x), Hxy. apply (ml_1_r _ _ M). }
  destruct k as [|n|n].
  - cbn. rewrite (ml_1_l _ _ M). apply (npow_1 _ _ M).
  - cbn [Z.add zp]. rewrite Pos2Nat.inj_add. change (Pos.to_nat 1) with 1%nat.
    rewrite (npow_add _ _ M), (npow_1 _ _ M). reflexivity.
  - destruct (Pos.eq_dec n 1) as [->|N].
    + cbn [Z.add Z.pos_sub zp]. change (Pos.to_nat 1) with 1%nat. now rewrite E.
    + replace (Zneg n + 1)%Z with (Zneg (Pos.pred n)) by lia. cbn [zp].
      replace (Pos.to_nat n) with (S (Pos.to_nat (Pos.pred n))) by lia. now rewrite E.
Qed.
Lemma zp_pred k : zp (k - 1) = mul (zp k) y.
Proof.
  replace (zp k) with (zp (k - 1 + 1)) by (f_equal; lia). rewrite zp_succ.
  rewrite <- (ml_assoc _ _ M), Hxy. symmetry. apply (ml_1_r _ _ M).
Qed.
Lemma zp_add_nat k n : zp (k + Z.of_nat n) = mul (zp k) (zp (Z.of_nat n)).
Proof.
  induction n.
  - cbn. rewrite Z.add_0_r. symmetry. apply (ml_1_r _ _ M).
  - replace (k + Z.of_nat (S n))%Z with (k + Z.of_nat n + 1)%Z by lia.
    replace (Z.of_nat (S n)) with (Z.of_nat n + 1)%Z by lia. rewrite !zp_succ, IHn.
    symmetry. apply (ml_assoc _ _ M).
Qed.
Lemma zp_sub_nat k n : zp (k - Z.of_nat n) = mul (zp k) (zp (- Z.of_nat n)).
Proof.
  induction n.
  - cbn. rewrite Z.sub_0_r. symmetry. apply (ml_1_r _ _ M).
  - replace (k - Z.of_nat (S n))%Z with (k - Z.of_nat n - 1)%Z by lia.
    replace (- Z.of_nat (S n))%Z with (- Z.of_nat n - 1)%Z by lia. rewrite !zp_pred, IHn.
    symmetry. apply (ml_assoc _ _ M).
Qed.
Lemma zp_add j k : zp (j + k) = mul (zp j) (zp k).
Proof.
  destruct (Z_le_dec 0 k).
  - rewrite <- (Z2Nat.id k) by auto. apply zp_add_nat.
  - replace k with (- Z.of_nat (Z.to_nat (- k)))%Z by lia.
    rewrite <- zp_sub_nat. reflexivity.
Qed.
Lemma zp_nat n : zp (Z.of_nat n) = npow one mul x n.
Proof. destruct n; [reflexivity|]. cbn [Z.of_nat zp]. now rewrite SuccNat2Pos.id_succ. Qed.

Hypothesis Px : P x.
Hypothesis Py : P y.
Lemma zp_P k : P (zp k).
Proof.
  destruct k; cbn [zp]; auto.
  - generalize (Pos.to_nat p). induction n; cbn [npow]; auto.
  - generalize (Pos.to_nat p). induction n; cbn [npow]; auto.
Qed.
Lemma cyc_naf_loop_spec ds : Forall (fun d => d = 0 \/ d = 1 \/ d = -1)%Z ds ->
  forall found acc, (found = false -> acc = 0%Z) ->
  cyc_naf_loop mul csqr ds x y found (zp acc) = zp (fold_left (fun a d => 2 * a + d)%Z ds acc).
Proof.
  induction 1 as [|d ds Hd _ IH]; intros found acc Hf; cbn [cyc_naf_loop fold_left]; auto.
  assert (E : (if found then csqr (zp acc) else zp acc) = zp (2 * acc)).
  { destruct found.
    - rewrite Psqr by apply zp_P. rewrite <- zp_add. f_equal. lia.
    - rewrite (Hf eq_refl). reflexivity. }
  rewrite E. destruct Hd as [->|[->| ->]]; cbn [Z.eqb Z.ltb Z.compare].
  - rewrite IH; [now rewrite Z.add_0_r|]. intros Hff. rewrite (Hf Hff). reflexivity.
  - rewrite <- zp_succ. now apply IH.
  - rewrite <- zp_pred. now apply IH.
Qed.
End Signed.

Lemma digits_fold ds : fold_left (fun a d => 2 * a + d)%Z (rev ds) 0%Z = digits_val ds.
Proof.
  rewrite <- fold_left_rev_right, rev_involutive. induction ds as [|d ds IH]; cbn [fold_right digits_val]; auto.
  rewrite IH. lia.
Qed.

Variable uinv : T -> T.
Lemma cyclotomic_exp_naf_digits x e ds : P x -> P (uinv x) -> mul x (uinv x) = one ->
  find_wnaf 1 e = Ok ds -> Forall (fun d => d = 0 \/ d = 1 \/ d = -1)%Z ds ->
  cyclotomic_exp_naf one mul csqr uinv x e = Ok (zp x (uinv x) (digits_val ds)).
Proof.
  intros Px Py Hxy E Hd. unfold cyclotomic_exp_naf. rewrite E. cbn [bind]. f_equal.
  change one with (zp x (uinv x) 0). rewrite cyc_naf_loop_spec; auto.
  - now rewrite digits_fold.
  - apply Forall_rev. exact Hd.
Qed.
Lemma naf_digits ds : wnaf_wf 1 ds -> Forall (fun d => d = 0 \/ d = 1 \/ d = -1)%Z ds.
Proof.
  intros W. apply Forall_forall. intros d Hd. apply In_nth with (d := 0%Z) in Hd as (i & _ & <-).
  destruct (wf_digits 1 ds W i) as [|[O A]]; auto. change (2 ^ Z.of_nat 1)%Z with 2%Z in A.
  right. destruct (Z.eq_dec (nth i ds 0%Z) 0) as [Z0|]; [rewrite Z0 in O; discriminate|]. lia.
Qed.
Lemma cyclotomic_exp_naf_spec x e : limbs e -> (1 <= length e)%nat -> (val e <> Bn (length e) - 1)%Z ->
  P x -> P (uinv x) -> mul x (uinv x) = one ->
  cyclotomic_exp_naf one mul csqr uinv x e = Ok (npow one mul x (Z.to_nat (val e))).
Proof.
  intros L N V Px Py Hxy. pose proof (val_bound e L) as Hb.
  destruct (find_wnaf_spec 1 e) as (ds & E & _ & D & W); [lia|exact L|exact N| |].
  { left. change (2 ^ Z.of_nat 1)%Z with 2%Z. lia. }
  rewrite (cyclotomic_exp_naf_digits x e ds) by (auto using naf_digits).
  rewrite D. f_equal. rewrite <- (Z2Nat.id (val e)) at 1 by lia. apply zp_nat.
Qed.
End Exp.

(** ** Fp4 *)
Section Fp4.
Context {K : Type} (F : Fops K) (R : ring_ok F) (nr : K).
Add Ring Kr4 : (rk_ring F R).
Notation F2 := (fp2_ops F nr).
Notation F4 := (fp4_ops F nr nr).
Notation norm := (quad_norm F2 (quad_u F)).
Add Ring K2r : (rk_ring F2 (fp2_ring F R nr)).

Lemma fp4_cyclotomic_squared_spec x : norm x = o1 F2 -> fp4_cyclotomic_squared F nr nr x = omul F4 x x.
Proof.
  destruct x as [a b]. intros H. unfold fp4_cyclotomic_squared. cbv zeta.
  rewrite !(rk_sqr F2 (fp2_ring F R nr)), !(fp4_mnr_spec F R nr).
  unfold fp4_ops. cbn [omul quad_ops quad_mul]. rewrite (fp4_mnr_spec F R nr).
  unfold quad_norm in H. rewrite <- H. f_equal; ring.
Qed.
Lemma fp4_norm_mul x y : norm (omul F4 x y) = omul F2 (norm x) (norm y).
Proof. apply quad_norm_mul; [apply fp2_ring; exact R|apply fp4_mnr_spec; exact R]. Qed.
Lemma fp4_unitary x : norm x = o1 F2 -> omul F4 x (quad_unitary_inverse F2 x) = o1 F4.
Proof. apply quad_unitary_spec; [apply fp2_ring; exact R|apply fp4_mnr_spec; exact R]. Qed.
Lemma fp4_norm_conj x : norm (quad_unitary_inverse F2 x) = norm x.
Proof. destruct x as [a b]. cbn [quad_unitary_inverse quad_norm]. ring. Qed.

Lemma fp4_cyclotomic_exp_spec x e : limbs e -> (1 <= length e)%nat -> (val e <> Bn (length e) - 1)%Z ->
  norm x = o1 F2 -> fp4_cyclotomic_exp F nr nr x e = Ok (fpow F4 x (Z.to_nat (val e))).
Proof.
  intros L N V Hx. unfold fp4_cyclotomic_exp.
  pose proof (fp4_ring F R nr) as R4.
  apply (cyclotomic_exp_naf_spec _ _ _ (fun x => norm x = o1 F2)); auto.
  - now apply rk_monoid.
  - now apply rk_mul_comm.
  - change (o1 F4) with (o1 F2, o0 F2). cbn [quad_norm]. ring.
  - intros a b Ha Hb. rewrite fp4_norm_mul, Ha, Hb. ring.
  - apply fp4_cyclotomic_squared_spec.
  - now rewrite fp4_norm_conj.
  - now apply fp4_unitary.
Qed.
(** The one remaining exponent of that length, 2^(64n) - 1: the result is the inverse. *)
Lemma fp4_cyclotomic_exp_all_ones x e : limbs e -> (1 <= length e)%nat -> (val e = Bn (length e) - 1)%Z ->
  norm x = o1 F2 -> fp4_cyclotomic_exp F nr nr x e = Ok (quad_unitary_inverse F2 x).
Proof.
  intros L N V Hx. unfold fp4_cyclotomic_exp.
  pose proof (fp4_ring F R nr) as R4.
  destruct (find_wnaf_all_ones e) as (ds & E & D & W); auto.
  rewrite (cyclotomic_exp_naf_digits _ _ _ (fun x => norm x = o1 F2)) with (ds := ds); auto.
  - rewrite D. cbn [zp]. change (Pos.to_nat 1) with 1%nat. now rewrite (npow_1 _ _ (rk_monoid F4 R4)).
  - now apply rk_monoid.
  - now apply rk_mul_comm.
  - change (o1 F4) with (o1 F2, o0 F2). cbn [quad_norm]. ring.
  - intros a b Ha Hb. rewrite fp4_norm_mul, Ha, Hb. ring.
  - apply fp4_cyclotomic_squared_spec.
  - now rewrite fp4_norm_conj.
  - now apply fp4_unitary.
Qed.
End Fp4.

(** ** Degree 6 over F: Fp6_2over3 over Fp and Fp12 over Fp2 *)
Section Six.
Context {K : Type} (F : Fops K) (FK : field_ok F) (nr : K) (p e m6 : nat).
Let R : ring_ok F := fk_ring F FK.
Add Ring Kr6 : (rk_ring F (fk_ring F FK)).
Add Field Kf6 : (fk_field F FK).
Notation C3 := (fp3_ops F nr).
Notation T := (quad_ops C3 (rot_mnr F nr)).
Notation Q := (p ^ e)%nat.
Hypothesis Hp : prime (Z.of_nat p).
Hypothesis Hchar : fnmul F (o1 F) p = o0 F.
Hypothesis HQ : (Q = 1 + 6 * m6)%nat.
Hypothesis Hfix : forall a, fpow F a Q = a.
(** nr is neither a square nor a cube *)
Hypothesis Hns : fpow F nr (3 * m6) = oopp F (o1 F).
Hypothesis Hnc : fpow F nr (2 * m6) <> o1 F.
Notation "x + y" := (oadd F x y). Notation "x - y" := (osub F x y). Notation "x * y" := (omul F x y).
Notation "- x" := (oopp F x). Notation "1" := (o1 F).

Let w := fpow F nr m6.
Let MF := rk_monoid F R.
Let RC : ring_ok C3 := fp3_ring F R nr.
Let RT : ring_ok T := fp6_2over3_ring F R nr.
Let MT := rk_monoid T RT.

Lemma w_eq : w * w = w - 1.
Proof.
  assert (E3 : w * (w * w) = oopp F (o1 F)).
  { rewrite <- Hns. replace (3 * m6)%nat with (m6 + (m6 + m6))%nat by lia.
    rewrite !(npow_add _ _ MF). reflexivity. }
  destruct (fk_mul_0 F FK (w + 1) (w * w - w + 1)) as [E|E].
  - replace ((w + 1) * (w * w - w + 1)) with (w * (w * w) + 1) by ring. rewrite E3. ring.
  - exfalso. apply Hnc. replace (2 * m6)%nat with (m6 + m6)%nat by lia. rewrite (npow_add _ _ MF).
    fold w. assert (w = oopp F (o1 F)) as ->; [|ring].
    replace w with ((w + 1) - 1) by ring. rewrite E. ring.
  - replace (w * w) with ((w * w - w + 1) + (w - 1)) by ring. rewrite E. ring.
Qed.

(** Frobenius, x^Q. *)
Definition phi (x : K * K * K * (K * K * K)) :=
  let '((c00, c01, c02), (c10, c11, c12)) := x in
  ((c00, (w - 1) * c01, - (w * c02)), (w * c10, - c11, (1 - w) * c12)).
Lemma phi_spec x : fpow T x Q = phi x.
Proof.
  destruct x as [[[c00 c01] c02] [[c10 c11] c12]].
  assert (Hc3 : fnmul C3 (o1 C3) p = o0 C3) by now apply cubic_char.
  rewrite (quad_frob C3 _ (cubic_u F) RC (rot_mnr_spec F R nr) p e (3 * m6)); auto; [|lia].
  unfold fp3_ops. rewrite !(cubic_frob F (omul F nr) nr R (fun _ => eq_refl) p e (2 * m6)); auto; try lia.
  rewrite !Hfix. rewrite (cubic_u_pow F (omul F nr) nr R (fun _ => eq_refl)).
  rewrite <- (cubic_scale_spec F (omul F nr) nr R (fun _ => eq_refl)). cbn [cubic_scale phi].
  replace (2 * (2 * m6))%nat with (m6 + m6 + (m6 + m6))%nat by lia.
  replace (2 * m6)%nat with (m6 + m6)%nat by lia. rewrite !(npow_add _ _ MF). fold w.
  pose proof w_eq as W. f_equal; (f_equal; [f_equal|]; ring [W]).
Qed.

Definition cyc_order := (Q * Q - Q + 1)%nat.
Lemma cyc_phi x : fpow T x cyc_order = o1 T -> omul T (phi (phi x)) x = phi x.
Proof.
  intros H. rewrite <- !phi_spec, <- (npow_mul _ _ MT). rewrite <- (npow_S_r _ _ MT).
  unfold cyc_order in H.
  replace (S (Q * Q)) with (Q * Q - Q + 1 + Q)%nat by nia.
  rewrite (npow_add _ _ MT), H. apply (ml_1_l _ _ MT).
Qed.

Lemma cyc_squared_spec x : fpow T x cyc_order = o1 T -> fp12_cyclotomic_squared F nr x = omul T x x.
Proof.
  intros H. apply cyc_phi in H. symmetry. destruct x as [[[c00 c01] c02] [[c10 c11] c12]].
  pose proof w_eq as W. clearbody w. cbn in H. injection H as H1 H2 H3 H4 H5 H6. cbn.
  apply (proj2 (rk_sub_0 F R _ _)) in H1, H2, H3, H4, H5, H6.
  f_equal; [f_equal; [f_equal|]|f_equal; [f_equal|]]; apply (rk_sub_0 F R).
  - match type of H1 with ?E = _ => transitivity (- (E + E)); [ring [W]|rewrite H1; ring] end.
  - match type of H2 with ?E = _ => transitivity (w * (E + E)); [ring [W]|rewrite H2; ring] end.
  - match type of H3 with ?E = _ => transitivity ((1 - w) * (E + E)); [ring [W]|rewrite H3; ring] end.
  - match type of H4 with ?E = _ => transitivity ((1 - w) * (E + E)); [ring [W]|rewrite H4; ring] end.
  - match type of H5 with ?E = _ => transitivity (- (E + E)); [ring [W]|rewrite H5; ring] end.
  - match type of H6 with ?E = _ => transitivity (w * (E + E)); [ring [W]|rewrite H6; ring] end.
Qed.

Lemma phi3 x : phi (phi (phi x)) = quad_unitary_inverse C3 x.
Proof.
  pose proof w_eq as W. destruct x as [[[c00 c01] c02] [[c10 c11] c12]]. cbn.
  f_equal; (f_equal; [f_equal|]; ring [W]).
Qed.
Lemma cyc_unitary x : fpow T x cyc_order = o1 T -> omul T x (quad_unitary_inverse C3 x) = o1 T.
Proof.
  intros H. rewrite <- phi3, <- !phi_spec, <- !(npow_mul _ _ MT).
  change (omul T x (fpow T x (Q * (Q * Q)))) with (fpow T x (S (Q * (Q * Q)))).
  replace (S (Q * (Q * Q))) with (cyc_order * (Q + 1))%nat.
  - rewrite (npow_mul _ _ MT). rewrite H. apply (npow_one _ _ MT).
  - unfold cyc_order. rewrite HQ. generalize m6. intros m.
    replace ((1 + 6 * m) * (1 + 6 * m) - (1 + 6 * m) + 1)%nat with ((1 + 6 * m) * (6 * m) + 1)%nat by nia.
    nia.
Qed.
Lemma cyc_order_mul x y : fpow T x cyc_order = o1 T -> fpow T y cyc_order = o1 T ->
  fpow T (omul T x y) cyc_order = o1 T.
Proof. intros Hx Hy. rewrite (frob_mul T RT), Hx, Hy. apply (ml_1_l _ _ MT). Qed.
Lemma cyc_order_inv x : fpow T x cyc_order = o1 T -> fpow T (quad_unitary_inverse C3 x) cyc_order = o1 T.
Proof.
  intros H. pose proof (cyc_unitary x H) as E. apply (f_equal (fun z => fpow T z cyc_order)) in E.
  rewrite (frob_mul T RT), H, (npow_one _ _ MT), (ml_1_l _ _ MT) in E. exact E.
Qed.

Lemma cyc_exp_bits_spec x ex : limbs ex -> fpow T x cyc_order = o1 T ->
  cyclotomic_exp_bits (o1 T) (omul T) (fp12_cyclotomic_squared F nr) x ex = fpow T x (Z.to_nat (val ex)).
Proof.
  intros L Hx. apply (cyclotomic_exp_bits_spec _ _ _ (fun x => fpow T x cyc_order = o1 T)); auto.
  - apply (npow_one _ _ MT).
  - apply cyc_order_mul.
  - apply cyc_squared_spec.
Qed.
Lemma cyc_exp_naf_spec csqr x ex : (forall x, csqr x = fp12_cyclotomic_squared F nr x) ->
  limbs ex -> (1 <= length ex)%nat -> (val ex <> Bn (length ex) - 1)%Z ->
  fpow T x cyc_order = o1 T ->
  cyclotomic_exp_naf (o1 T) (omul T) csqr (quad_unitary_inverse C3) x ex = Ok (fpow T x (Z.to_nat (val ex))).
Proof.
  intros Hs L N V Hx. apply (cyclotomic_exp_naf_spec _ _ _ (fun x => fpow T x cyc_order = o1 T)); auto.
  - apply (rk_mul_comm T RT).
  - apply (npow_one _ _ MT).
  - apply cyc_order_mul.
  - intros y Hy. rewrite Hs. now apply cyc_squared_spec.
  - now apply cyc_order_inv.
  - now apply cyc_unitary.
Qed.
Lemma cyc_exp_naf_all_ones csqr x ex : (forall x, csqr x = fp12_cyclotomic_squared F nr x) ->
  limbs ex -> (1 <= length ex)%nat -> (val ex = Bn (length ex) - 1)%Z ->
  fpow T x cyc_order = o1 T ->
  cyclotomic_exp_naf (o1 T) (omul T) csqr (quad_unitary_inverse C3) x ex = Ok (quad_unitary_inverse C3 x).
Proof.
  intros Hs L N V Hx. destruct (find_wnaf_all_ones ex) as (ds & E & D & W); auto.
  rewrite (cyclotomic_exp_naf_digits _ _ _ (fun x => fpow T x cyc_order = o1 T)) with (ds := ds); auto.
  - rewrite D. cbn [zp]. change (Pos.to_nat 1) with 1%nat. now rewrite (npow_1 _ _ MT).
  - apply (rk_mul_comm T RT).
  - apply (npow_one _ _ MT).
  - apply cyc_order_mul.
  - intros y Hy. rewrite Hs. now apply cyc_squared_spec.
  - now apply cyc_order_inv.
  - now apply cyc_unitary.
Qed.
End Six.

Lemma fp6_fp12_cyclotomic {K} (F : Fops K) nr x :
  fp6_cyclotomic_squared F nr nr x = fp12_cyclotomic_squared F nr x.
Proof. destruct x as [[[c00 c01] c02] [[c10 c11] c12]]. reflexivity. Qed.
