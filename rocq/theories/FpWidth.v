(** Addition and subtraction need no spare bit in the modulus: the carry limb
    of the scratch space is used. *)
From Coq Require Import ZArith List Lia Bool.
From Verif Require Import Result Limbs LimbsProofs BigintProofs FpModel FpSpec FpProofs.
Import ListNotations.
Open Scope Z_scope.

Section Width.
Variable P : fp_params.
Local Notation n := (fp_n P).
Local Notation md := (fp_modulus P).
Local Notation p := (val (fp_modulus P)).
Hypothesis Hlen : length md = n.
Hypothesis Hl : limbs md.

Lemma md_lt : p < Bn n.
Proof. pose proof (val_bound md Hl) as H. rewrite Hlen in H. lia. Qed.

Lemma firstn_small d : limbs d -> length d = (n + 1)%nat -> val d < Bn n ->
  val (firstn n d) = val d.
Proof.
  intros Hd Hld Hv. pose proof (val_split n d ltac:(lia)) as Hs.
  pose proof (val_nonneg _ (limbs_skipn n d Hd)).
  pose proof (val_nonneg _ (limbs_firstn n d Hd)).
  rewrite Hs in Hv. apply high_zero in Hv; auto using Bn_pos.
  rewrite Hs, Hv. lia.
Qed.

Lemma finish d bo x y : val d - bo * Bn (n + 1) = x - y -> limbs d -> length d = (n + 1)%nat ->
  0 <= x - y < p -> bo = 0 /\ canon P (firstn n d) /\ val (firstn n d) = x - y.
Proof.
  intros Vd Ld Len Hxy. pose proof md_lt as Hp. pose proof (val_bound d Ld) as Hd. rewrite Len in Hd.
  assert (Bn n <= Bn (n + 1)).
  { rewrite Bn_add, Bn_1. pose proof B_pos. pose proof (Bn_pos n). nia. }
  assert (bo = 0).
  { destruct (Z.lt_trichotomy bo 0) as [L|[E|G]]; auto; exfalso.
    - assert (Bn (n + 1) <= - bo * Bn (n + 1)) by nia. lia.
    - assert (Bn (n + 1) <= bo * Bn (n + 1)) by nia. lia. }
  subst bo. split; auto. assert (Vd' : val d = x - y) by lia.
  assert (Vf : val (firstn n d) = val d) by (apply firstn_small; auto; lia).
  split; [|lia]. split; [rewrite firstn_length_le; lia|]. split; [apply limbs_firstn; auto|lia].
Qed.

Lemma limbs_snoc s c : limbs s -> 0 <= c < B -> limbs (s ++ [c]).
Proof. intros. apply limbs_app; split; auto. apply limbs_cons; split; [exact H0|constructor]. Qed.

Theorem add_any_width a b : canon P a -> canon P b ->
  exists r, fp_add P a b = Ok r /\ canon P r /\ val r = (val a + val b) mod p.
Proof.
  intros (La & Ha & Va) (Lb & Hb & Vb). unfold fp_add.
  pose proof md_lt as Hp. pose proof (val_nonneg a Ha). pose proof (val_nonneg b Hb).
  destruct (mpn_add_n a b) as [s carry] eqn:E.
  apply mpn_add_n_spec in E as (V & L & Len). rewrite La in *.
  pose proof (val_bound s L) as Hs. rewrite Len in Hs.
  assert (Hc : carry = 0 \/ carry = 1).
  { destruct (Z.lt_trichotomy carry 0) as [L'|[E'|G]]; auto.
    - assert (carry * Bn n <= - Bn n) by nia. lia.
    - destruct (Z.eq_dec carry 1) as [|N1]; auto. assert (2 * Bn n <= carry * Bn n) by nia. lia. }
  assert (HcB : 0 <= carry < B) by (rewrite B_eq; destruct Hc; subst; split; reflexivity || discriminate).
  assert (Vsc : val (s ++ [carry]) = val a + val b).
  { rewrite val_app, Len. cbn [val]. lia. }
  assert (Big : p <= val a + val b -> exists r,
    (let '(d, borrow) := mpn_sub (s ++ [carry]) md in
     assert_then (borrow =? 0) (Ok (firstn n d))) = Ok r /\ canon P r /\
     val r = (val a + val b) mod p).
  { intros Hge. destruct (mpn_sub (s ++ [carry]) md) as [d bo] eqn:E.
    apply mpn_sub_spec in E as (Vd & Ld & Lend).
    rewrite app_length, Len in *. cbn [length] in *. rewrite Vsc in Vd.
    destruct (finish d bo _ _ Vd Ld Lend) as (-> & Cr & Vr); [lia|].
    cbn [assert_then Z.eqb]. eexists; split; [reflexivity|]. split; auto.
    rewrite Vr. apply (Z.mod_unique _ _ 1); [left; lia|lia]. }
  destruct (Z.eqb_spec carry 0) as [->|N]; cbn [negb orb].
  - assert (Es : val s = val a + val b) by lia.
    destruct (mpn_cmp_spec s md) as [C|C|C]; [apply Big; lia| |apply Big; lia].
    exists s. rewrite <- Len at 1. rewrite firstn_length_app. split; [reflexivity|].
    split; [repeat split; auto; lia|]. rewrite Es. symmetry. apply Z.mod_small. lia.
  - assert (carry = 1) by lia. subst carry. apply Big. lia.
Qed.

Theorem sub_any_width a b : canon P a -> canon P b ->
  exists r, fp_sub P a b = Ok r /\ canon P r /\ val r = (val a - val b) mod p.
Proof.
  intros (La & Ha & Va) (Lb & Hb & Vb). unfold fp_sub.
  pose proof md_lt as Hp. pose proof (val_nonneg a Ha). pose proof (val_nonneg b Hb).
  assert (G : forall sc k, limbs sc -> length sc = (n + 1)%nat -> val sc = val a + k * p ->
    val b <= val sc < val b + p ->
    exists r, (let '(d, borrow) := mpn_sub sc b in assert_then (borrow =? 0) (Ok (firstn n d))) = Ok r /\
      canon P r /\ val r = (val a - val b) mod p).
  { intros sc k Lsc Nsc Vsc Hsc. destruct (mpn_sub sc b) as [d bo] eqn:E.
    apply mpn_sub_spec in E as (Vd & Ld & Lend). rewrite Nsc in *.
    destruct (finish d bo _ _ Vd Ld Lend) as (-> & Cr & Vr); [lia|].
    cbn [assert_then Z.eqb]. eexists; split; [reflexivity|]. split; auto.
    rewrite Vr. apply (Z.mod_unique _ _ (- k)); [left; lia|]. rewrite Vsc. ring. }
  assert (N1 : forall c, length (a ++ [c]) = (n + 1)%nat) by (intros; rewrite app_length; cbn [length]; lia).
  assert (L0 : limbs (a ++ [0])) by (apply limbs_snoc; auto; rewrite B_eq; split; reflexivity || discriminate).
  assert (V0 : val (a ++ [0]) = val a) by (rewrite val_app; cbn [val]; lia).
  cbv zeta. destruct (mpn_cmp_spec a b) as [C|C|C].
  - apply (G (a ++ [0]) 0); auto; lia.
  - destruct (mpn_add_n a md) as [s c] eqn:E.
    apply mpn_add_n_spec in E as (V & L & Len). rewrite La in *.
    pose proof (val_bound s L) as Hs. rewrite Len in Hs.
    assert (Hc : c = 0 \/ c = 1).
    { destruct (Z.lt_trichotomy c 0) as [L'|[E'|G']]; auto.
      - assert (c * Bn n <= - Bn n) by nia. lia.
      - destruct (Z.eq_dec c 1) as [|Nc]; auto. assert (2 * Bn n <= c * Bn n) by nia. lia. }
    apply (G (s ++ [c]) 1).
    + apply limbs_snoc; auto. rewrite B_eq; destruct Hc; subst; split; reflexivity || discriminate.
    + rewrite app_length, Len. reflexivity.
    + rewrite val_app, Len. cbn [val]. lia.
    + rewrite val_app, Len. cbn [val]. lia.
  - apply (G (a ++ [0]) 0); auto; lia.
Qed.
End Width.
