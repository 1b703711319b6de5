(** Proofs about MultiexpProfileModel.v. *)
From Coq Require Import ZArith List Bool Lia.
From Verif Require Import Result Limbs LimbsProofs BigintModel GroupOps WnafModel WnafProofs MultiexpModel MultiexpProofs BosCosterProofs
  MultiexpExtra PackingModel PackingProofs MultiexpProfileModel.
Import ListNotations.
Open Scope result_scope.

Section Profile.
Context {T G S : Type} (O : gops T) (ok : T -> Prop) (den : T -> G) (z : G) (add : G -> G -> G) (opp : G -> G).
Hypothesis GO : gops_ok O ok den z add opp.
Variable eqb : T -> T -> bool.
Hypothesis EQ : forall a b, ok a -> ok b -> (eqb a b = true <-> den a = den b).
Variables (as_bigint : S -> list Z) (tbl : list Z) (make_heap : list (nat * list Z) -> list (nat * list Z)) (nl : nat) (mixed : bool).
Hypothesis HT : (length tbl <= 29)%nat.
Hypothesis HN : (1 <= nl)%nat.
Hypothesis MH : make_heap_ok make_heap.
Variables (random_element : nat -> T) (sha512_rng : Z -> S).
Hypothesis RE : forall i, ok (random_element i).
Hypothesis SR : forall i, sok as_bigint nl (sha512_rng i).
Notation msum := (msum den z add opp as_bigint).
Notation vok := (fun v => ok v /\ (mixed = true -> g_is_special O v = true)).

Lemma generate_ok first count size : exists gs, generate_group_elements O random_element first count size = Ok gs /\
  length gs = count /\ Forall (fun g => length g = size /\ Forall vok g) gs.
Proof.
  unfold generate_group_elements.
  destruct (mapM_spec (fun i => x <- g_to_special O (random_element (first + i)) ;; Ok (repeat x size))
    (fun _ g => length g = size /\ Forall vok g) (seq 0 count)) as (gs & E & F).
  - intros i _. destruct (go_special _ _ _ _ _ _ GO (random_element (first + i)) (RE _)) as (x & Ex & Ox & Sx & _).
    rewrite Ex. cbn [bind]. eexists. split; [reflexivity|]. split; [apply repeat_length|].
    apply Forall_forall. intros v Hv. apply repeat_spec in Hv. now subst.
  - exists gs. split; auto. split.
    + now rewrite <- (Forall2_len _ _ _ F), seq_length.
    + clear -F. induction F; constructor; tauto.
Qed.
Lemma scalars_ok count size : length (generate_scalars sha512_rng count size) = count /\
  Forall (fun s => length s = size /\ Forall (sok as_bigint nl) s) (generate_scalars sha512_rng count size).
Proof.
  unfold generate_scalars. rewrite map_length, seq_length. split; auto.
  apply Forall_forall. intros s Hs. apply in_map_iff in Hs as (i & <- & _). rewrite map_length, seq_length. split; auto.
  apply Forall_forall. intros x Hx. apply in_map_iff in Hx as (j & <- & _). apply SR.
Qed.

Lemma profile_ok (vk : T -> Prop) m method size :
  method_ok ok den z add opp as_bigint nl vk m method -> (Z.of_nat size <= m)%Z ->
  forall gs ss, length gs = length ss -> Forall (fun g => length g = size /\ Forall vk g) gs ->
  Forall (fun s => length s = size /\ Forall (sok as_bigint nl) s) ss ->
  exists ans, profile_multiexp O method gs ss = Ok ans /\ Forall ok ans /\
    map den ans = map (fun p => msum (fst p) (snd p)) (combine gs ss).
Proof.
  intros H Hm. induction gs as [|g gs IH]; intros [|s ss] L Hg Hs; cbn in L; try discriminate.
  - exists []. repeat split; constructor.
  - apply Forall_cons_iff in Hg as [[Lg Vg] Hg]. apply Forall_cons_iff in Hs as [[Ls Vs] Hs].
    destruct (IH ss) as (ans & E & Oa & Da); auto.
    destruct (H g s) as (a & Ea & Ok_a & D); auto; [congruence|rewrite Lg; auto|].
    exists (a :: ans). cbn [profile_multiexp]. unfold multi_exp at 1. rewrite Nat.eqb_refl, orb_true_r, Ea. cbn [bind].
    rewrite E. cbn [bind map combine fst snd]. rewrite D, Da. auto.
Qed.
Lemma differ_false a : forall b, Forall ok a -> Forall ok b -> map den a = map den b -> answers_differ eqb a b = false.
Proof.
  induction a as [|x a IH]; intros [|y b] Ha Hb E; cbn in *; try discriminate; auto.
  apply Forall_cons_iff in Ha as [Hx Ha]. apply Forall_cons_iff in Hb as [Hy Hb]. injection E as E1 E2.
  rewrite (proj2 (EQ x y Hx Hy) E1), (IH b) by auto. reflexivity.
Qed.

Lemma pow_bound e : (e < 31)%nat -> (Z.of_nat (2 ^ e) <= 2 ^ 42)%Z.
Proof. intros H. rewrite Nat2Z.inj_pow. apply Z.pow_le_mono_r; lia. Qed.

Theorem csv_row_ok en cmp first e : (e <= 30)%nat ->
  csv_row O eqb as_bigint tbl make_heap nl mixed random_element sha512_rng en cmp first e =
    Ok (mkLine e (if (e <=? en)%nat then 3 else 2) false false).
Proof.
  intros He. unfold csv_row. replace (31 <=? e)%nat with false by (symmetry; apply Nat.leb_gt; lia).
  assert (B : (Z.of_nat (2 ^ e) <= 2 ^ 42)%Z) by (apply pow_bound; lia).
  set (size := (2 ^ e)%nat) in *. clearbody size.
  destruct (generate_ok first 10 size) as (gs & E & L & Hg). rewrite E. cbn [bind].
  destruct (scalars_ok 10 size) as (Ls & Hs). set (ss := generate_scalars _ _ _) in *. clearbody ss. cbv zeta.
  destruct (methods_all O ok den z add opp as_bigint GO tbl nl make_heap (2 ^ 42) mixed HT HN MH) as (Mn & _ & Mb & Mc).
  assert (Hg' : Forall (fun g => length g = size /\ Forall ok g) gs).
  { eapply Forall_impl; [|exact Hg]. cbn. intros g [? ?]. split; auto. eapply Forall_impl; [|eassumption]. cbn. tauto. }
  destruct (profile_ok ok _ _ size Mc B gs ss) as (bc & Ebc & Obc & Dbc); auto; [congruence|].
  destruct (profile_ok vok _ _ size Mb B gs ss) as (dj & Edj & Odj & Ddj); auto; [congruence|].
  rewrite Ebc. cbn [bind]. rewrite Edj. cbn [bind].
  rewrite (differ_false bc dj), andb_false_r by (auto; congruence).
  destruct (e <=? en)%nat; [|reflexivity].
  destruct (profile_ok ok _ _ size Mn B gs ss) as (nv & Env & Onv & Dnv); auto; [congruence|].
  rewrite Env. cbn [bind]. rewrite (differ_false bc nv), andb_false_r by (auto; congruence). reflexivity.
Qed.

Theorem csv_ok es ef en cmp : (ef <= 30)%nat ->
  print_performance_csv O eqb as_bigint tbl make_heap nl mixed random_element sha512_rng es ef en cmp =
    Ok (map (fun k => mkLine (es + k) (if (es + k <=? en)%nat then 3 else 2) false false) (seq 0 (ef + 1 - es))).
Proof.
  intros H. unfold print_performance_csv.
  assert (X : forall l, (forall k, In k l -> (es + k <= 30)%nat) ->
    mapM (fun k => csv_row O eqb as_bigint tbl make_heap nl mixed random_element sha512_rng en cmp (10 * k) (es + k)) l =
    Ok (map (fun k => mkLine (es + k) (if (es + k <=? en)%nat then 3 else 2) false false) l)).
  { induction l as [|k l IH]; intros Hl; [reflexivity|]. cbn [mapM map].
    rewrite csv_row_ok by (apply Hl; now left). cbn [bind]. rewrite IH by (intros; apply Hl; now right). reflexivity. }
  apply X. intros k Hk. apply in_seq in Hk. lia.
Qed.
End Profile.

From Verif Require Import FpModel FpSpec FpField FieldOps CurveModel CurveSpec CurveGroup CurveProofs CurveExtra Bn128Model Bn128Proofs Bn128Shipped.
(** The two groups of bn128 with scalars of a prime field. *)
Theorem bn128_csv_ok {K} (F : Fops K) (FK : field_ok F) b ec_add ec_dbl : oadd F (o1 F) (o1 F) <> o0 F ->
  sw_disc F (o0 F) b <> o0 F -> ecdouble_ok F b ec_dbl -> ecadd_ok F b ec_add ->
  forall P (OK : fp_ok P) tbl make_heap mixed random_element sha512_rng, (length tbl <= 29)%nat -> make_heap_ok make_heap ->
  (forall i, jac_ok F b (random_element i)) ->
  print_performance_csv (bn_gops F ec_add ec_dbl) (bn_eqb F) (fscalar P) tbl make_heap (fp_n P) mixed random_element sha512_rng 2 20 14 true =
    Ok (map (fun k => mkLine (2 + k) (if (2 + k <=? 14)%nat then 3 else 2) false false) (seq 0 19)).
Proof.
  intros H2 HD DBL ADD P OK tbl mh mixed re rng HT MH RE.
  pose proof (bn_gops_ok F FK b H2 HD ec_add ec_dbl DBL ADD) as GO.
  refine (csv_ok _ _ _ _ _ _ GO (bn_eqb F) _ (fscalar P) tbl mh (fp_n P) mixed HT _ MH re rng RE _ 2 20 14 true _).
  - intros p q Op Oq. rewrite (bn_eqb_den F FK p q), sp_dent_eq, !jac_dent_val by auto. reflexivity.
  - exact (ok_n P OK).
  - intros i. apply (fscalar_sok P OK).
  - repeat constructor.
Qed.

Lemma csv_example :
  csv_row zgops Z.eqb (fun s : list Z => s) [11; 24; 60; 127]%Z (@rev _) 1 false (fun i => Z.of_nat i) (fun i => [i + 1]%Z) 1 true 0 1 =
    Ok (mkLine 1 3 false false) /\
  csv_row zgops (fun _ _ => false) (fun s : list Z => s) [11; 24; 60; 127]%Z (@rev _) 1 false (fun i => Z.of_nat i) (fun i => [i + 1]%Z) 0 true 0 1 =
    Ok (mkLine 1 2 true false).
Proof. vm_compute. split; reflexivity. Qed.
