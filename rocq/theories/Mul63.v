(** Modular multiplication of integers through the primitive-integer Montgomery
    product of Mod63; used only to check concrete constants. *)
From Coq Require Import ZArith List Lia Bool Uint63 Znumtheory Zpow_facts.
From Verif Require Import Mod63.
Import ListNotations.
Open Scope Z_scope.

Fixpoint fdigits (n : nat) (z : Z) : list int :=
  match n with O => [] | S n' => (of_Z z land mask30)%uint63 :: fdigits n' (Z.shiftr z 30) end.

Record mctx : Type := mkctx {
  mc_m : Z; mc_n : nat; mc_md : list int; mc_m' : int; mc_zero : list int; mc_R2 : list int }.
Definition mk_ctx (m : Z) : mctx :=
  let n := ndigits m in
  let R := W30 ^ Z.of_nat n in
  mkctx m n (digits n m) (of_Z (neg_inv (m mod W30))) (digits n 0) (digits n ((R * R) mod m)).

(** Reduction of numbers that are usually within one modulus of the range. *)
Definition fmod (m v : Z) : Z :=
  if 0 <=? v then if v <? m then v else let w := v - m in if w <? m then w else v mod m
  else let w := v + m in if (0 <=? w) && (w <? m) then w else v mod m.

Definition mulmod (c : mctx) (a b : Z) : Z :=
  let m := mc_m c in
  if (0 <=? a) && (a <? m) && (0 <=? b) && (b <? m) then
    match mont (fdigits (mc_n c) a) (fdigits (mc_n c) b) (mc_md c) (mc_m' c) (mc_zero c) with
    | Some t =>
        match mont t (mc_R2 c) (mc_md c) (mc_m' c) (mc_zero c) with
        | Some r => fmod m (ev r)
        | None => (a * b) mod m
        end
    | None => (a * b) mod m
    end
  else (a * b) mod m.

Definition ctx_check (m : Z) : bool :=
  let n := ndigits m in
  let R := W30 ^ Z.of_nat n in
  (1 <? m) && Z.odd m && (m <? R).

Lemma fdigits_digits n : forall z, fdigits n z = digits n z.
Proof.
  induction n; intros z; [reflexivity|]. cbn [fdigits digits]. rewrite IHn. f_equal.
  - apply to_Z_inj. rewrite land_mask, !of_Z_spec.
    rewrite (Z.mod_small (z mod W30)).
    + rewrite wB_big. symmetry. apply Zmod_div_mod; [reflexivity|reflexivity|]. exists (2 ^ 33). reflexivity.
    + pose proof (Z.mod_pos_bound z W30 W30_pos). rewrite wB_big. unfold W30 in *. lia.
  - f_equal. now rewrite Z.shiftr_div_pow2 by lia.
Qed.
Lemma fmod_spec m v : 1 < m -> fmod m v = v mod m.
Proof.
  intros Hm. unfold fmod. destruct (0 <=? v) eqn:E0.
  - apply Z.leb_le in E0. destruct (v <? m) eqn:E1; [apply Z.ltb_lt in E1; symmetry; apply Z.mod_small; lia|].
    apply Z.ltb_ge in E1. cbv zeta. destruct (v - m <? m) eqn:E2; [|reflexivity].
    apply Z.ltb_lt in E2. replace v with (v - m + 1 * m) at 2 by lia. rewrite Z.mod_add by lia.
    symmetry. apply Z.mod_small. lia.
  - cbv zeta. destruct (0 <=? v + m) eqn:E1; [|reflexivity]. destruct (v + m <? m) eqn:E2; [|reflexivity].
    apply Z.leb_le in E1. apply Z.ltb_lt in E2. cbn [andb]. replace v with (v + m + (-1) * m) at 2 by lia.
    rewrite Z.mod_add by lia. symmetry. apply Z.mod_small. lia.
Qed.

Lemma mulmod_spec m a b : ctx_check m = true -> mulmod (mk_ctx m) a b = (a * b) mod m.
Proof.
  unfold ctx_check. cbv zeta. rewrite !andb_true_iff. intros [[Hm Om] HR].
  apply Z.ltb_lt in Hm, HR.
  unfold mulmod. cbn [mc_m mc_n mc_md mc_m' mc_zero mc_R2 mk_ctx].
  unfold mk_ctx. cbn [mc_m mc_n mc_md mc_m' mc_zero mc_R2].
  set (n := ndigits m) in *. set (md := digits n m). set (m' := of_Z _). set (R := W30 ^ Z.of_nat n) in *.
  destruct ((0 <=? a) && (a <? m) && (0 <=? b) && (b <? m)) eqn:Er; [|reflexivity].
  rewrite !andb_true_iff in Er. destruct Er as [[[A1 A2] B1] B2].
  apply Z.leb_le in A1, B1. apply Z.ltb_lt in A2, B2.
  rewrite !fdigits_digits.
  destruct (mont (digits n a) (digits n b) md m' (digits n 0)) as [t|] eqn:E1; [|reflexivity].
  destruct (mont t (digits n ((R * R) mod m)) md m' (digits n 0)) as [r|] eqn:E2; [|reflexivity].
  rewrite fmod_spec by lia.
  assert (Hn : (0 < n)%nat).
  { unfold n, ndigits.
    assert (0 <= (Z.log2 m + 3) / 30) by (apply Z.div_pos; pose proof (Z.log2_nonneg m); lia). lia. }
  assert (RP : rel_prime R m).
  { apply rel_prime_sym. apply rel_prime_Zpower_r; [lia|]. unfold W30.
    apply rel_prime_Zpower_r; [lia|]. apply rel_prime_sym, prime_rel_prime; [apply prime_2|].
    intros [k D]. rewrite D, Z.odd_mul, andb_false_r in Om. discriminate. }
  assert (Gm : good n md) by apply digits_good.
  assert (Em : ev md = m) by (apply ev_digits; fold R; lia).
  apply mont_spec with (m := m) in E1 as [Gt Vt]; auto using digits_good.
  apply mont_spec with (m := m) in E2 as [Gr Vr]; auto using digits_good.
  fold R in Vt, Vr. pose proof (Z.mod_pos_bound (R * R) m ltac:(lia)).
  rewrite ev_digits in Vr by (fold R; lia). rewrite !ev_digits in Vt by (fold R; lia).
  assert (V2 : (ev r * R) mod m = (a * b * R) mod m).
  { rewrite Vr, Z.mul_mod_idemp_r by lia. rewrite Z.mul_assoc, <- Z.mul_mod_idemp_l, Vt, Z.mul_mod_idemp_l by lia.
    reflexivity. }
  assert (D : (m | R * (ev r - a * b))).
  { apply Z.mod_divide; [lia|]. rewrite Z.mul_comm, Z.mul_sub_distr_r, Zminus_mod, V2, Z.sub_diag.
    apply Z.mod_0_l; lia. }
  apply Gauss in D; [|now apply rel_prime_sym].
  destruct D as [k D]. replace (ev r) with (a * b + k * m) by lia. apply Z_mod_plus_full.
Qed.
