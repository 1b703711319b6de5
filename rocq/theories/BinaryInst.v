(** The binary field classes as instances of the generic field interface. *)
From Coq Require Import NArith ZArith List Bool Lia Ring Arith Znumtheory Eqdep_dec.
From Verif Require Import Result Limbs LimbsProofs BigintModel AlgorithmsModel AlgorithmsProofs Algebra NumTheory
  FieldOps Gf2Poly BinaryModel BinaryProofs BinaryField.
Import ListNotations.
Open Scope N_scope.

Add Ring PolyRing4 : poly_ring (morphism poly_morph, constants [poly_cst]).

(** * Naturality: the generic algorithms commute with homomorphisms *)
Section Hom.
Context {A B : Type} (ma : A -> A -> A) (mb : B -> B -> B) (h : A -> B).
Hypothesis H : forall x y, h (ma x y) = mb (h x) (h y).
Lemma hom_sqr_times n : forall x, h (sqr_times (fun x => ma x x) n x) = sqr_times (fun x => mb x x) n (h x).
Proof. induction n; intros x; cbn [sqr_times]; auto. now rewrite IHn, H. Qed.
Lemma hom_inv_loop cnt : forall i a r p, inv_loop mb cnt i (h a) (h r) (h p) =
  (let '(x, y) := inv_loop ma cnt i a r p in (h x, h y)).
Proof.
  induction cnt as [|c IH]; intros i a r p; cbn [inv_loop]; auto.
  rewrite <- hom_sqr_times, <- H. destruct i; rewrite <- ?H; apply IH.
Qed.
Lemma hom_inv_chain g z x : inv_chain g mb (h z) (h x) = h (inv_chain g ma z x).
Proof.
  destruct g; cbn [inv_chain]; unfold inv_pow2, inv_192, inv_64; rewrite ?hom_inv_loop.
  - now destruct (inv_loop _ _ _ _ _ _).
  - cbv zeta. repeat (rewrite <- ?H, <- ?hom_sqr_times). reflexivity.
  - now destruct (inv_loop _ _ _ _ _ _).
  - destruct (inv_loop _ _ _ _ _ _) as [r p]. now rewrite !H, hom_sqr_times.
  - now destruct (inv_loop _ _ _ _ _ _).
Qed.
Lemma hom_power_loop bit b i : forall f r,
  power_loop mb (fun x => mb x x) bit (h b) i f (h r) =
  (let '(f', x) := power_loop ma (fun x => ma x x) bit b i f r in (f', h x)).
Proof.
  induction i as [|i IH]; intros f r; cbn [power_loop]; auto.
  rewrite <- !H. destruct f, (bit (Z.of_nat i)); rewrite <- ?H; apply IH.
Qed.
Lemma hom_power_bigint one x e : power_bigint (h one) mb (h x) e = h (power_bigint one ma x e).
Proof.
  unfold power_bigint. rewrite hom_power_loop. now destruct (power_loop _ _ _ _ _ _ _).
Qed.
Lemma hom_npow one x n : npow (h one) mb (h x) n = h (npow one ma x n).
Proof. induction n; cbn [npow]; auto. now rewrite IHn, H. Qed.
End Hom.

(** * The carrier *)
Definition gokb (G : gf_class) (l : list N) : bool :=
  (length l =? gn G)%nat && forallb (fun w => w <? 2 ^ gW G) l.
Lemma gokb_spec G l : gokb G l = true <-> gok G l.
Proof.
  unfold gokb, gok, words. rewrite andb_true_iff, Nat.eqb_eq, forallb_forall, Forall_forall.
  split; intros [L F]; split; auto; intros w Hw; apply N.ltb_lt, F, Hw.
Qed.
Definition GF (G : gf_class) : Type := { l : list N | gokb G l = true }.
Definition rep {G} (x : GF G) : list N := proj1_sig x.
Definition mkGF {G} (l : list N) (H : gok G l) : GF G := exist _ l (proj2 (gokb_spec G l) H).
Lemma rep_ok {G} (x : GF G) : gok G (rep x). Proof. destruct x as [l H]. now apply gokb_spec. Qed.
Lemma rep_mk {G} l (H : gok G l) : rep (mkGF l H) = l. Proof. reflexivity. Qed.
Lemma rep_inj {G} (x y : GF G) : rep x = rep y -> x = y.
Proof. destruct x as [l H], y as [m K]. cbn. intros ->. f_equal. apply UIP_dec, bool_dec. Qed.

Lemma class_W1 g : 1 <= gW (gf_of g). Proof. destruct g; vm_compute; discriminate. Qed.
Lemma class_n1 g : (1 <= gn (gf_of g))%nat. Proof. destruct g; cbn; lia. Qed.
Lemma class_m g : gmod (gf_of g) < 2 ^ gW (gf_of g). Proof. destruct g; reflexivity. Qed.

Section Inst.
Variable g : gf_name.
Notation G := (gf_of g).
Variable mul : list N -> list N -> list N.
Hypothesis Hmul : prod_spec G mul.
Notation W := (gW G).
Notation k := (gk G).
Notation f := (gpoly G).
Notation "a == b" := (pcong f a b) (at level 70).
Notation E := (GF G).

Definition vl (x : E) : N := gval W (rep x).
Lemma vl_lt x : vl x < 2 ^ k. Proof. apply gval_k, rep_ok. Qed.
Lemma vl_inj x y : vl x = vl y -> x = y.
Proof. intros H. apply rep_inj, (gok_inj G); auto using rep_ok. Qed.
Lemma vl_cong x y : vl x == vl y -> x = y.
Proof. intros H. apply vl_inj, (pcong_unique f k); auto using vl_lt. apply gpoly_ge; auto using class_n1, class_W1, class_m. Qed.

Definition ezero : E := mkGF (gf_zero G) (proj1 (zero_spec G (class_W1 g) (class_n1 g) (class_m g))).
Definition eone : E := mkGF (gf_one G) (proj1 (one_spec G (class_W1 g) (class_n1 g) (class_m g))).
Definition eadd (x y : E) : E := mkGF (gf_add (rep x) (rep y)) (proj1 (xor_ok G _ _ (rep_ok x) (rep_ok y))).
Definition esub (x y : E) : E := mkGF (gf_sub (rep x) (rep y)) (proj1 (xor_ok G _ _ (rep_ok x) (rep_ok y))).
Definition emul (x y : E) : E := mkGF (mul (rep x) (rep y)) (proj1 (Hmul _ _ (rep_ok x) (rep_ok y))).
Lemma neg_id a : gf_neg_of g a = a.
Proof. destruct g; auto. destruct a as [|? [|? [|? ?]]]; reflexivity. Qed.
Lemma neg_ok x : gok G x -> gok G (gf_neg_of g x). Proof. now rewrite neg_id. Qed.
Definition eopp (x : E) : E := mkGF (gf_neg_of g (rep x)) (neg_ok _ (rep_ok x)).
Definition esqr (x : E) : E := mkGF (gf_squared mul (rep x)) (proj1 (Hmul _ _ (rep_ok x) (rep_ok x))).
Definition einv (x : E) : result E :=
  if gf_is_zero (rep x) then AssertFail else Ok (inv_chain g emul ezero x).
Definition eeqb (x y : E) : bool := gf_eqb (rep x) (rep y).
Definition gf_ops : Fops E := mkFops ezero eone eadd esub emul eopp esqr einv eeqb.

Lemma vl_zero : vl ezero = 0. Proof. apply (zero_spec G (class_W1 g) (class_n1 g) (class_m g)). Qed.
Lemma vl_one : vl eone = 1. Proof. apply (one_spec G (class_W1 g) (class_n1 g) (class_m g)). Qed.
Lemma vl_add x y : vl (eadd x y) = N.lxor (vl x) (vl y).
Proof. apply (xor_ok G _ _ (rep_ok x) (rep_ok y)). Qed.
Lemma vl_sub x y : vl (esub x y) = N.lxor (vl x) (vl y).
Proof. apply (xor_ok G _ _ (rep_ok x) (rep_ok y)). Qed.
Lemma vl_mul x y : vl (emul x y) == pmul (vl x) (vl y).
Proof. apply pcong_sym. apply (Hmul _ _ (rep_ok x) (rep_ok y)). Qed.
Lemma vl_opp x : vl (eopp x) = vl x.
Proof. unfold vl, eopp. now rewrite rep_mk, neg_id. Qed.

Lemma gf_eqb_spec : forall a b, gf_eqb a b = true <-> a = b.
Proof.
  induction a as [|x a IH]; intros [|y b]; cbn [gf_eqb]; split; try discriminate; auto.
  - rewrite andb_true_iff, N.eqb_eq, IH. now intros [-> ->].
  - intros [= -> ->]. rewrite N.eqb_refl. now apply IH.
Qed.
Lemma is_zero_spec a : gok G a -> gf_is_zero a = true <-> a = gf_zero G.
Proof.
  intros Ha. destruct (zero_spec G (class_W1 g) (class_n1 g) (class_m g)) as [Zo Zv]. split.
  - intros Hz. apply (gok_inj G); auto. rewrite Zv. apply gval_0; [apply Ha|].
    unfold gf_is_zero in Hz. rewrite forallb_forall in Hz. apply Forall_forall. intros w Hw. now apply N.eqb_eq, Hz.
  - intros ->. apply gval_0 in Zv; [|apply Zo]. apply forallb_forall. intros w Hw.
    rewrite Forall_forall in Zv. now apply N.eqb_eq, Zv.
Qed.

Lemma gf_ring : ring_ok gf_ops.
Proof.
  constructor; cbn.
  - constructor; intros; apply vl_cong; rewrite ?vl_add, ?vl_sub, ?vl_opp, ?vl_zero.
    + apply pcong_eq. ring.
    + apply pcong_eq. ring.
    + apply pcong_eq. ring.
    + eapply pcong_trans; [apply vl_mul|]. rewrite vl_one, pmul_1_l. apply pcong_refl.
    + eapply pcong_trans; [apply vl_mul|]. rewrite pmul_comm. apply pcong_sym, vl_mul.
    + eapply pcong_trans; [apply vl_mul|]. eapply pcong_trans; [apply pcong_mul; [apply pcong_refl|apply vl_mul]|].
      rewrite pmul_assoc. apply pcong_sym. eapply pcong_trans; [apply vl_mul|]. apply pcong_mul; [apply vl_mul|apply pcong_refl].
    + eapply pcong_trans; [apply vl_mul|]. rewrite vl_add, pmul_lxor_l. apply pcong_add; apply pcong_sym, vl_mul.
    + apply pcong_refl.
    + apply pcong_eq. ring.
  - intros x y. unfold eeqb. rewrite gf_eqb_spec. split; [apply rep_inj|now intros ->].
  - reflexivity.
Qed.
Add Ring gfring : (rk_ring gf_ops gf_ring).
Lemma e_monoid : monoid_laws eone emul. Proof. exact (rk_monoid gf_ops gf_ring). Qed.
Lemma e_comm x y : emul x y = emul y x. Proof. exact (rk_mul_comm gf_ops gf_ring x y). Qed.

(** Characteristic 2. *)
Lemma gf_char2 x : eadd x x = ezero.
Proof. apply vl_inj. rewrite vl_add, vl_zero. apply N.lxor_nilpotent. Qed.

(** The code's functions on words are the projections. *)
Lemma rep_inv_chain x : rep (inv_chain g emul ezero x) = inv_chain g mul (gf_zero G) (rep x).
Proof. symmetry. now apply (hom_inv_chain emul mul rep (fun _ _ => eq_refl) g ezero x). Qed.
Lemma rep_einv x : rmap rep (einv x) = gf_inverse mul g (rep x).
Proof.
  unfold einv, gf_inverse, assert_then. destruct (gf_is_zero (rep x)); cbn [negb]; auto.
  rewrite <- rep_inv_chain. reflexivity.
Qed.
Lemma rep_power x e : rep (power_bigint eone emul x e) = gf_pow_bigint mul g (rep x) e.
Proof. symmetry. exact (hom_power_bigint emul mul rep (fun _ _ => eq_refl) eone x e). Qed.

(** Iterated squaring. *)
Notation sg := (sqr_times (fun x => emul x x)).
Lemma vl_sg n : forall x, vl (sg n x) == sq_iter n (vl x).
Proof.
  induction n; intros x; cbn [sqr_times sq_iter]; [apply pcong_refl|].
  eapply pcong_trans; [apply IHn|]. apply sq_iter_cong. apply vl_mul.
Qed.

Section Irreducible.
Hypothesis FROB : sq_iter (N.to_nat k) 2 == 2.
Hypothesis IDEM : forall z, z < 2 ^ k -> pmul z z == z -> z = 0 \/ z = 1.

Lemma sg_all x : sg (N.to_nat k) x = x.
Proof. apply vl_cong. eapply pcong_trans; [apply vl_sg|]. now apply frob_all. Qed.
Lemma inv_chain_spec x : x <> ezero -> emul x (inv_chain g emul ezero x) = eone.
Proof.
  intros N. pose proof (inv_chain_sg eone emul e_monoid e_comm g ezero x) as H. rewrite sg_all in H.
  set (r := inv_chain g emul ezero x) in *. set (e := emul x r).
  assert (A : forall a b c, emul a (emul b c) = emul (emul a b) c) by apply (ml_assoc _ _ e_monoid).
  assert (Ex : emul e x = x) by (unfold e; now rewrite (e_comm x r), <- A).
  assert (Ee : emul e e = e) by (unfold e at 2; now rewrite A, Ex).
  destruct (IDEM (vl e)) as [V|V].
  - apply vl_lt.
  - eapply pcong_trans; [apply pcong_sym, vl_mul|]. rewrite Ee. apply pcong_refl.
  - exfalso. apply N. rewrite <- Ex. replace e with ezero by (apply vl_inj; now rewrite vl_zero).
    exact (rk_mul_0_l gf_ops gf_ring x).
  - apply vl_inj. now rewrite vl_one.
Qed.

Theorem gf_field : field_ok gf_ops.
Proof.
  constructor; cbn.
  - apply gf_ring.
  - intros H. assert (V : vl eone = vl ezero) by now rewrite H. rewrite vl_one, vl_zero in V. discriminate.
  - intros x N. exists (inv_chain g emul ezero x). split; [|now apply inv_chain_spec].
    unfold einv. destruct (gf_is_zero (rep x)) eqn:Z; auto. exfalso. apply N, rep_inj.
    apply is_zero_spec in Z; [exact Z|apply rep_ok].
  - unfold einv. destruct (gf_is_zero (rep ezero)) eqn:Z; auto. exfalso.
    assert (T : gf_is_zero (rep ezero) = true) by (apply is_zero_spec; [apply rep_ok|reflexivity]). congruence.
Qed.

(** On words. *)
Theorem gf_inverse_spec a : gok G a -> a <> gf_zero G ->
  exists b, gf_inverse mul g a = Ok b /\ gok G b /\ mul a b = gf_one G.
Proof.
  intros Ha N. set (x := mkGF a Ha). assert (Nx : x <> ezero).
  { intros H. apply N. exact (f_equal rep H). }
  destruct (fk_inv _ gf_field x Nx) as (y & E & M). exists (rep y). split; [|split; [apply rep_ok|]].
  - pose proof (rep_einv x) as H. cbn [oinv gf_ops] in E. rewrite E in H. cbn in H. symmetry. exact H.
  - exact (f_equal rep M).
Qed.
Theorem gf_inverse_zero : gf_inverse mul g (gf_zero G) = AssertFail.
Proof.
  change (gf_zero G) with (rep ezero). rewrite <- rep_einv.
  pose proof (fk_inv_0 _ gf_field) as H. cbn [oinv gf_ops o0] in H. now rewrite H.
Qed.

(** Power by 2^(k-1). *)
Lemma sqrt_exp : limbs (limbs_of (gn G) (gsqrt G)) /\ val (limbs_of (gn G) (gsqrt G)) = (2 ^ Z.of_nat (N.to_nat k - 1))%Z.
Proof. split; [apply limbs_of_limbs|]. destruct g; reflexivity. Qed.
Lemma esqrt_sg x : power_bigint eone emul x (limbs_of (gn G) (gsqrt G)) = sg (N.to_nat k - 1) x.
Proof.
  destruct sqrt_exp as [L V]. rewrite (power_bigint_spec eone emul e_monoid) by auto. rewrite V.
  rewrite (sqr_times_spec eone emul _ e_monoid) by auto. f_equal.
  generalize (N.to_nat k - 1)%nat. intros n. rewrite <- (Nat2Z.id (2 ^ n)), Nat2Z.inj_pow. reflexivity.
Qed.
Theorem gf_sqrt_spec a : gok G a ->
  gok G (gf_sqrt mul g a) /\ mul (gf_sqrt mul g a) (gf_sqrt mul g a) = a.
Proof.
  intros Ha. set (x := mkGF a Ha). unfold gf_sqrt. change a with (rep x). rewrite <- rep_power, esqrt_sg.
  split; [apply rep_ok|]. transitivity (rep (emul (sg (N.to_nat k - 1) x) (sg (N.to_nat k - 1) x))); [reflexivity|].
  f_equal. rewrite <- (sg_S_r eone emul e_monoid e_comm).
  replace (S (N.to_nat k - 1)) with (N.to_nat k); [apply sg_all|]. destruct g; reflexivity.
Qed.
(** The square root is unique. *)
Theorem gf_sqrt_unique a b : gok G a -> gok G b -> mul b b = a -> b = gf_sqrt mul g a.
Proof.
  intros Ha Hb E. destruct (gf_sqrt_spec a Ha) as [Hs Es].
  set (x := mkGF b Hb). set (y := mkGF (gf_sqrt mul g a) Hs).
  assert (Exy : emul x x = emul y y).
  { apply rep_inj. transitivity a; [exact E|symmetry; exact Es]. }
  destruct (fk_sqr_eq _ gf_field x y Exy) as [H|H].
  - exact (f_equal rep H).
  - assert (O : oopp gf_ops y = y) by (apply vl_inj, vl_opp). rewrite O in H. exact (f_equal rep H).
Qed.

(** The field polynomial is irreducible. *)
Theorem gf_irreducible a b : pmul a b = f -> a = 1 \/ b = 1.
Proof.
  intros Hab.
  assert (Fk : 2 ^ k <= f) by (apply gpoly_ge; auto using class_n1, class_W1, class_m).
  assert (Ff : f < 2 ^ (k + 1)).
  { unfold gpoly. apply lxor_lt.
    - rewrite N.pow_add_r. pose proof (pow2_nz k). lia.
    - eapply N.lt_trans; [apply (gmod_k G); auto using class_n1, class_W1, class_m|].
      rewrite N.pow_add_r. pose proof (pow2_nz k). lia. }
  assert (NZ : forall u v, pmul u v = f -> u <> 0 /\ v <> 0).
  { intros u v H. pose proof (pow2_nz k). split; intros ->; rewrite ?pmul_0_l, ?pmul_0_r in H; lia. }
  (* a factor of degree k forces the other to be 1 *)
  assert (Big : forall u v, pmul u v = f -> 2 ^ k <= u -> v = 1).
  { intros u v H Hu. destruct (NZ u v H) as [_ Nv]. destruct (N.eq_dec v 1) as [|N1]; auto. exfalso.
    assert (Hv : 1 <= N.log2 v) by (change 1 with (N.log2 2); apply N.log2_le_mono; lia).
    assert (Hu' : k <= N.log2 u) by (apply N.log2_le_pow2; [pose proof (pow2_nz k); lia|auto]).
    assert (Nu : u <> 0) by (pose proof (pow2_nz k); lia).
    destruct (pmul_log2 u v Nu Nv) as [L _]. rewrite H in L.
    assert (N.log2 f < k + 1) by (apply N.log2_lt_pow2; [pose proof (pow2_nz k); lia|auto]). lia. }
  destruct (N.lt_ge_cases a (2 ^ k)) as [La|La]; [|right; eauto].
  destruct (N.lt_ge_cases b (2 ^ k)) as [Lb|Lb]; [|left; rewrite pmul_comm in Hab; eauto].
  destruct (NZ a b Hab) as [Na Nb]. exfalso.
  assert (Sp : forall v, v < 2 ^ k -> exists x : E, vl x = v).
  { intros v Hv. destruct (gsplit_spec W (gn G) v Hv) as (L & Wd & V).
    exists (mkGF (gsplit W (gn G) v) (conj L Wd)). exact V. }
  destruct (Sp a La) as [x Vx], (Sp b Lb) as [y Vy].
  assert (P : omul gf_ops x y = o0 gf_ops).
  { apply vl_cong. eapply pcong_trans; [apply vl_mul|]. rewrite Vx, Vy, Hab.
    change (vl (o0 gf_ops)) with (vl ezero). rewrite vl_zero. apply pcong_f. }
  destruct (fk_mul_0 _ gf_field x y P) as [H|H].
  - apply Na. rewrite <- Vx, H. apply vl_zero.
  - apply Nb. rewrite <- Vy, H. apply vl_zero.
Qed.
End Irreducible.
End Inst.
