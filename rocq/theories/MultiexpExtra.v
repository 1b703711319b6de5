(** Instances and boundary cases for the scalar multiplication properties: the
    integers as a group, field elements as scalars, BDLO12 on huge vectors. *)
From Coq Require Import ZArith List Lia Bool Permutation.
From Verif Require Import Result Limbs LimbsProofs BigintModel BigintProofs UtilsModel UtilsProofs
  FpModel FpSpec FpProofs FpField FpIoProofs Algebra AlgorithmsProofs GroupOps GroupProofs
  WnafModel WnafProofs MultiexpModel MultiexpProofs BosCosterProofs.
Import ListNotations.
Open Scope Z_scope.
Open Scope result_scope.

(** ** The additive group of integers *)
Definition zgops : gops Z :=
  {| g_default := 0; g_zero := 0; g_add := Z.add; g_sub := Z.sub; g_mixed_add := Z.add;
     g_dbl := Z.mul 2; g_is_zero := Z.eqb 0; g_is_special := fun _ => true;
     g_to_special := Ok; g_batch_special := Ok |}.
Lemma zgops_ok : gops_ok zgops (fun _ => True) (fun x => x) 0 Z.add Z.opp.
Proof.
  constructor; cbn -[Z.mul Z.eqb].
  - constructor; [constructor|..]; intros; lia.
  - auto.
  - auto.
  - auto.
  - intros a b _ _. split; auto.
  - auto.
  - intros a _. split; [auto|lia].
  - intros a _. rewrite Z.eqb_eq. split; congruence.
  - intros a _. exists a. auto.
  - intros l _ _. exists l. split; auto. induction l; auto.
Qed.
(** ** Prime field elements as scalars *)
Section FpScalars.
Variable P : fp_params.
Hypothesis OK : fp_ok P.
Definition fscalar (x : Fp P) : list Z := get_ok [] (fp_as_bigint P (repr P x)).

Lemma fscalar_spec x : fp_as_bigint P (repr P x) = Ok (fscalar x) /\ val (fscalar x) = toZ P x.
Proof.
  unfold fscalar, toZ. destruct (repr_canon P x) as (Lc & Cl & _).
  destruct (as_bigint_spec P OK (repr P x) Cl Lc) as (r & E & C & V & _).
  rewrite E. cbn [get_ok]. auto.
Qed.
Lemma fscalar_sok x : sok fscalar (fp_n P) x.
Proof.
  unfold sok, fscalar. destruct (repr_canon P x) as (Lc & Cl & _).
  destruct (as_bigint_spec P OK (repr P x) Cl Lc) as (r & E & (C1 & C2 & C3) & V & _).
  rewrite E. cbn [get_ok]. split; auto. split; auto. pose proof (ok_half P OK). lia.
Qed.
Lemma feqb_zero x : feqb P x (fzero P OK) = (val (fscalar x) =? 0).
Proof.
  destruct (fscalar_spec x) as [_ ->]. apply eq_true_iff_eq. rewrite (feqb_eq P OK), Z.eqb_eq. split.
  - intros ->. apply (toZ_zero P OK).
  - intros H. apply (toZ_inj P OK). now rewrite (toZ_zero P OK).
Qed.
Lemma feqb_one x : feqb P x (fone P OK) = (val (fscalar x) =? 1).
Proof.
  destruct (fscalar_spec x) as [_ ->]. apply eq_true_iff_eq. rewrite (feqb_eq P OK), Z.eqb_eq. split.
  - intros ->. apply (toZ_one P OK).
  - intros H. apply (toZ_inj P OK). now rewrite (toZ_one P OK).
Qed.
End FpScalars.

(** ** BDLO12 on more than 2^42 bases: [1 << c] is undefined *)
Lemma bdlo_too_long {T S} (O : gops T) (as_bigint : S -> list Z) mixed vec sc s :
  length vec = length sc -> 2 ^ 42 < Z.of_nat (length vec) < 2 ^ 63 ->
  In s sc -> limbs (as_bigint s) -> 0 < val (as_bigint s) ->
  multi_exp_BDLO12 O as_bigint mixed vec sc = UB.
Proof.
  intros L Hlen Hin Ls Hs. unfold multi_exp_BDLO12, bdlo_c.
  rewrite log2_spec by (rewrite B_eq; lia). cbn [bind].
  replace (Z.of_nat (length vec) =? 0) with false by (symmetry; apply Z.eqb_neq; lia).
  set (l := Z.log2_up (Z.of_nat (length vec))).
  assert (Hl : 43 <= l <= 63).
  { split; unfold l.
    - change 43 with (Z.succ 42). apply Z.le_succ_l.
      apply Z.log2_up_lt_pow2; lia.
    - change 63 with (Z.log2_up (2 ^ 63)). apply Z.log2_up_le_mono. lia. }
  assert (Hd2 : 3 * (l / 3) <= l < 3 * (l / 3) + 3).
  { pose proof (Z.div_mod l 3 ltac:(lia)). pose proof (Z.mod_pos_bound l 3 ltac:(lia)). lia. }
  set (c := wrap64 _). assert (Hc : 31 <= c).
  { unfold c, wrap64. rewrite Zminus_mod_idemp_r, Z.mod_small by (rewrite B_eq; lia). lia. }
  replace (length sc <? length vec)%nat with false by (symmetry; apply Nat.ltb_ge; lia).
  rewrite L, firstn_all.
  destruct (fold_max [] (Nat.le_0_l _) 1 (le_n _) (map as_bigint sc) 0) as [H0 HF].
  set (nb := fold_left _ (map as_bigint sc) 0) in *.
  assert (Hnb : 1 <= nb).
  { rewrite Forall_forall in HF. specialize (HF (as_bigint s) (in_map as_bigint sc s Hin)).
    rewrite bigint_num_bits_spec in HF by auto.
    destruct (bit_length_spec (val (as_bigint s))) as (B0 & B1 & _); [lia|].
    destruct (Z.eq_dec (bit_length (val (as_bigint s))) 0) as [E|E]; [|lia].
    rewrite E in B1. change (2 ^ 0) with 1 in B1. lia. }
  replace (31 <=? c) with true by (symmetry; apply Z.leb_le; lia).
  replace (0 <? (nb + c - 1) / c) with true; auto.
  symmetry. apply Z.ltb_lt. apply Z.div_str_pos. lia.
Qed.

(** A Bos-Coster run with enough fuel for its scalars, as a plain function. *)
Definition bos_coster {T S} (O : gops T) (as_bigint : S -> list Z) tbl make_heap nl vec sc : result T :=
  multi_exp_bos_coster O as_bigint tbl make_heap nl (Datatypes.S (Z.to_nat (bc_bound as_bigint sc))) vec sc.

Section Methods.
Context {T G S : Type} (O : gops T) (ok : T -> Prop) (den : T -> G)
  (z : G) (add : G -> G -> G) (opp : G -> G).
Hypothesis GO : gops_ok O ok den z add opp.
Variable as_bigint : S -> list Z.
Variables (tbl : list Z) (nl : nat).
Hypothesis Htbl : (length tbl <= 29)%nat.
Hypothesis Hnl : (1 <= nl)%nat.

Lemma bound_nonneg sc : Forall (sok as_bigint nl) sc -> 0 <= bc_bound as_bigint sc.
Proof.
  induction 1 as [|s sc (Ls & _) F IHs]; cbn [bc_bound fold_right]; [lia|]. fold (bc_bound as_bigint sc).
  pose proof (val_nonneg _ Ls). lia.
Qed.

(** The four methods meet the specification used by the chunked versions. *)
Lemma naive_method m : method_ok ok den z add opp as_bigint nl ok m (multi_exp_naive O as_bigint tbl).
Proof. intros vec sc L _ Hv Hs. eapply multi_exp_naive_spec; eauto. Qed.
Lemma plain_method m : method_ok ok den z add opp as_bigint nl ok m
  (multi_exp_naive_plain (g_zero O) (g_add O) (field_smul O as_bigint)).
Proof. intros vec sc L _ Hv Hs. eapply multi_exp_naive_plain_spec; eauto. Qed.
Lemma bdlo_method mixed : method_ok ok den z add opp as_bigint nl (vok O ok mixed) (2 ^ 42)
  (multi_exp_BDLO12 O as_bigint mixed).
Proof. intros vec sc L Hl Hv Hs. apply (multi_exp_BDLO12_spec O ok den z add opp GO as_bigint tbl Htbl nl Hnl); auto. Qed.
Lemma bos_coster_method make_heap m : make_heap_ok make_heap ->
  method_ok ok den z add opp as_bigint nl ok m (bos_coster O as_bigint tbl make_heap nl).
Proof.
  intros MH vec sc L _ Hv Hs. pose proof (bound_nonneg sc Hs).
  destruct (multi_exp_bos_coster_spec O ok den z add opp GO as_bigint tbl Htbl nl Hnl make_heap MH vec sc)
    as (t & Ot & Dt & E); auto.
  exists t. split; [|auto]. unfold bos_coster. apply E. lia.
Qed.
End Methods.

(** ** Scalars as raw limb lists, for the examples *)
Lemma sok_list nl l : limbsb l = true -> length l = nl -> (2 * val l <? Bn nl) = true ->
  sok (fun s : list Z => s) nl l.
Proof. intros H1 H2 H3. split; [now apply limbsb_iff|]. split; auto. now apply Z.ltb_lt. Qed.

(** ** Statements as used by the property theorems *)
Lemma find_wnaf_refuted : exists w k ds, (1 <= w <= 62)%nat /\ limbs k /\ length k = 1%nat /\
  find_wnaf w k = Ok ds /\ digits_val ds <> val k.
Proof.
  assert (L : limbs [2 ^ 64 - 1]) by (apply limbsb_iff; reflexivity).
  destruct (find_wnaf_carry_lost 1 [2 ^ 64 - 1]) as (ds & E & V).
  - lia.
  - exact L.
  - cbn. lia.
  - apply Z.ltb_lt. reflexivity.
  - reflexivity.
  - exists 1%nat, [2 ^ 64 - 1], ds. split; [lia|]. split; [exact L|]. split; [reflexivity|]. split; [exact E|].
    rewrite V. pose proof (Bn_pos (length [2 ^ 64 - 1])). lia.
Qed.

Section Stmts.
Context {T G S : Type} (O : gops T) (ok : T -> Prop) (den : T -> G)
  (z : G) (add : G -> G -> G) (opp : G -> G).

Lemma field_smul_field P (OK : fp_ok P) : gops_ok O ok den z add opp -> forall (x : Fp P) base, ok base ->
  ok (field_smul O (fscalar P) x base) /\
  den (field_smul O (fscalar P) x base) = gmul z add opp (toZ P x) (den base).
Proof.
  intros GO x base Hb. destruct (fscalar_spec P OK x) as [_ V]. rewrite <- V.
  apply (field_smul_spec O ok den z add opp GO); auto. apply (fscalar_sok P OK x).
Qed.

Variable as_bigint : S -> list Z.
Lemma bdlo12_all : gops_ok O ok den z add opp -> forall mixed nl vec sc, (1 <= nl)%nat ->
  length vec = length sc -> Z.of_nat (length vec) <= 2 ^ 42 ->
  Forall (fun v => ok v /\ (mixed = true -> g_is_special O v = true)) vec -> Forall (sok as_bigint nl) sc ->
  exists t, multi_exp_BDLO12 O as_bigint mixed vec sc = Ok t /\ ok t /\ den t = msum den z add opp as_bigint vec sc.
Proof.
  intros GO mixed nl vec sc Hn.
  exact (multi_exp_BDLO12_spec O ok den z add opp GO as_bigint [] (Nat.le_0_l _) nl Hn mixed vec sc).
Qed.
Lemma chunks_all : gops_ok O ok den z add opp -> forall nl vok maxlen inner, (1 <= nl)%nat ->
  method_ok ok den z add opp as_bigint nl vok maxlen inner ->
  forall chunks vec sc, (1 <= chunks)%nat -> length vec = length sc -> Z.of_nat (length vec) <= maxlen ->
  Forall vok vec -> Forall (sok as_bigint nl) sc ->
  exists t, ok t /\ den t = msum den z add opp as_bigint vec sc /\
    forall order, Permutation order (seq 0 chunks) -> multi_exp O inner chunks order vec sc = Ok t.
Proof.
  intros GO nl vok maxlen inner Hn HI.
  exact (multi_exp_spec O ok den z add opp GO as_bigint [] (Nat.le_0_l _) nl Hn vok maxlen inner HI).
Qed.
Lemma methods_all : gops_ok O ok den z add opp -> forall tbl nl make_heap m mixed,
  (length tbl <= 29)%nat -> (1 <= nl)%nat -> make_heap_ok make_heap ->
  method_ok ok den z add opp as_bigint nl ok m (multi_exp_naive O as_bigint tbl) /\
  method_ok ok den z add opp as_bigint nl ok m
    (multi_exp_naive_plain (g_zero O) (g_add O) (field_smul O as_bigint)) /\
  method_ok ok den z add opp as_bigint nl (fun v => ok v /\ (mixed = true -> g_is_special O v = true)) (2 ^ 42)
    (multi_exp_BDLO12 O as_bigint mixed) /\
  method_ok ok den z add opp as_bigint nl ok m (bos_coster O as_bigint tbl make_heap nl).
Proof.
  intros GO tbl nl mh m mixed Ht Hn MH. split; [|split; [|split]].
  - now apply naive_method.
  - now apply plain_method.
  - exact (bdlo_method O ok den z add opp GO as_bigint tbl nl Ht Hn mixed).
  - now apply bos_coster_method.
Qed.
Lemma bos_coster_terminates : gops_ok O ok den z add opp -> forall tbl nl make_heap vec sc,
  (length tbl <= 29)%nat -> (1 <= nl)%nat -> make_heap_ok make_heap ->
  length vec = length sc -> Forall ok vec -> Forall (sok as_bigint nl) sc ->
  exists bound, forall fuel, (bound <= fuel)%nat ->
    exists t, multi_exp_bos_coster O as_bigint tbl make_heap nl fuel vec sc = Ok t.
Proof.
  intros GO tbl nl mh vec sc Ht Hn MH L Hv Hs.
  pose proof (bound_nonneg as_bigint tbl nl Ht Hn sc Hs).
  destruct (multi_exp_bos_coster_spec O ok den z add opp GO as_bigint tbl Ht nl Hn mh MH vec sc)
    as (t & Ot & Dt & E); auto.
  exists (Datatypes.S (Z.to_nat (bc_bound as_bigint sc))). intros fuel Hf. exists t. apply E. lia.
Qed.
Lemma mixed_all : gops_ok O ok den z add opp -> forall nl vok maxlen inner mixed s_is0 s_is1, (1 <= nl)%nat ->
  method_ok ok den z add opp as_bigint nl vok maxlen inner ->
  (forall v, vok v -> ok v /\ (mixed = true -> g_is_special O v = true)) ->
  (forall s, sok as_bigint nl s -> s_is0 s = (val (as_bigint s) =? 0)) ->
  (forall s, sok as_bigint nl s -> s_is1 s = (val (as_bigint s) =? 1)) ->
  forall chunks vec sc, (1 <= chunks)%nat -> length vec = length sc -> Z.of_nat (length vec) <= maxlen ->
  Forall vok vec -> Forall (sok as_bigint nl) sc ->
  exists t, ok t /\ den t = msum den z add opp as_bigint vec sc /\
    forall order, Permutation order (seq 0 chunks) ->
      multi_exp_with_mixed_addition O inner mixed s_is0 s_is1 chunks order vec sc = Ok t.
Proof.
  intros GO nl vok maxlen inner mixed s0 s1 Hn HI Hv H0 H1.
  exact (multi_exp_mixed_spec O ok den z add opp GO as_bigint [] (Nat.le_0_l _) nl Hn vok
    (fun v H => proj1 (Hv v H)) maxlen inner HI mixed (fun v H => proj2 (Hv v H)) s0 s1 H0 H1).
Qed.
Lemma windowed_all : gops_ok O ok den z add opp -> forall ss w g s,
  0 < ss < 2 ^ 63 -> 1 <= w <= 32 -> ok g -> limbs (as_bigint s) -> val (as_bigint s) < 2 ^ ss ->
  exists table t, get_window_table O ss w g = Ok table /\
    windowed_exp O as_bigint ss w table s = Ok t /\ ok t /\
    den t = gmul z add opp (val (as_bigint s)) (den g).
Proof.
  intros GO. exact (windowed_exp_spec O ok den z add opp GO as_bigint [] (Nat.le_0_l _) 1 (le_n _)).
Qed.
Lemma batch_all : gops_ok O ok den z add opp -> forall ss w g v,
  0 < ss < 2 ^ 63 -> 1 <= w <= 32 -> ok g ->
  Forall (fun s => limbs (as_bigint s) /\ val (as_bigint s) < 2 ^ ss) v ->
  exists table r, get_window_table O ss w g = Ok table /\
    (forall order, Permutation order (seq 0 (length v)) -> batch_exp O as_bigint ss w table order v = Ok r) /\
    Forall2 (fun s t => windowed_exp O as_bigint ss w table s = Ok t /\ ok t /\
      den t = gmul z add opp (val (as_bigint s)) (den g)) v r.
Proof.
  intros GO. exact (batch_exp_spec O ok den z add opp GO as_bigint [] (Nat.le_0_l _) 1 (le_n _)).
Qed.
Lemma batch_coeff_all : gops_ok O ok den z add opp -> forall (smul : S -> S -> S) coeff ss w g v,
  0 < ss < 2 ^ 63 -> 1 <= w <= 32 -> ok g ->
  Forall (fun s => limbs (as_bigint (smul coeff s)) /\ val (as_bigint (smul coeff s)) < 2 ^ ss) v ->
  exists table r, get_window_table O ss w g = Ok table /\
    (forall order, Permutation order (seq 0 (length v)) ->
       batch_exp_with_coeff O as_bigint smul ss w table order coeff v = Ok r) /\
    Forall2 (fun s t => windowed_exp O as_bigint ss w table (smul coeff s) = Ok t /\ ok t /\
      den t = gmul z add opp (val (as_bigint (smul coeff s))) (den g)) v r.
Proof.
  intros GO. exact (batch_exp_with_coeff_spec O ok den z add opp GO as_bigint [] (Nat.le_0_l _) 1 (le_n _)).
Qed.
Lemma batch_special_all : gops_ok O ok den z add opp -> forall vec, Forall ok vec ->
  exists r, batch_to_special O vec = Ok r /\
    Forall2 (fun a b => g_to_special O (if g_is_zero O a then g_zero O else a) = Ok b /\
      ok b /\ g_is_special O b = true /\ den b = den a) vec r.
Proof.
  intros GO vec Hv. destruct (batch_to_special_exact O ok den z add opp GO vec Hv) as (r & E & F).
  destruct (batch_to_special_spec O ok den z add opp GO vec Hv) as (r' & E' & F').
  rewrite E in E'. injection E' as <-. exists r. split; auto. clear -F F'.
  induction F; inversion F'; subst; auto.
Qed.
End Stmts.

Lemma window_size_pos lowmem tbl n : 1 <= get_exp_window_size lowmem tbl n.
Proof. exact (get_exp_window_size_pos [] (Nat.le_0_l _) 1 (le_n _) lowmem tbl n). Qed.

Lemma windowed_large_refuted : exists table t, get_window_table zgops 3 2 1 = Ok table /\
  windowed_exp zgops (fun s : list Z => s) 3 2 table [12] = Ok t /\ t <> 12.
Proof.
  eexists. eexists. split; [vm_compute; reflexivity|]. split; [vm_compute; reflexivity|]. lia.
Qed.

Lemma inner_product_spec {T} zero (add mul : T -> T -> T) a b :
  monoid_laws zero add -> length a = length b ->
  inner_product zero add mul a b =
  Ok (nprod zero add (map (fun vs => mul (snd vs) (fst vs)) (combine a b))).
Proof.
  intros M L. unfold inner_product, multi_exp_naive_plain. rewrite (naive_plain_spec zero add mul M) by auto.
  now rewrite (ml_1_l _ _ M).
Qed.

Lemma field_scalars P (OK : fp_ok P) (x : Fp P) :
  sok (fscalar P) (fp_n P) x /\ fp_as_bigint P (repr P x) = Ok (fscalar P x) /\
  val (fscalar P x) = toZ P x /\
  feqb P x (fzero P OK) = (val (fscalar P x) =? 0) /\ feqb P x (fone P OK) = (val (fscalar P x) =? 1).
Proof.
  destruct (fscalar_spec P OK x) as [E V].
  split; [apply (fscalar_sok P OK)|]. split; auto. split; auto. split; [apply feqb_zero|apply feqb_one].
Qed.

Lemma example_multi_exp :
  let vec := [3; -7; 0; 11; 5] in
  let sc := [[12345; 0]; [0; 5]; [7; 7]; [1; 0]; [99; 2 ^ 62]] in
  Forall (sok (fun s : list Z => s) 2) sc /\
  (forall make_heap, make_heap_ok make_heap -> exists t,
    multi_exp_bos_coster zgops (fun s : list Z => s) [11; 24; 60; 127] make_heap 2
      (Z.to_nat (2 ^ 130)) vec sc = Ok t /\
    multi_exp_naive zgops (fun s => s) [11; 24; 60; 127] vec sc = Ok t /\
    multi_exp_BDLO12 zgops (fun s => s) true vec sc = Ok t).
Proof.
  intros vec sc.
  assert (Hs : Forall (sok (fun s : list Z => s) 2) sc).
  { unfold sc. repeat (apply Forall_cons; [apply sok_list; reflexivity|]). constructor. }
  split; [exact Hs|]. intros mh MH.
  assert (Hv : Forall (fun _ : Z => True) vec) by (repeat constructor).
  assert (Hv' : Forall (vok zgops (fun _ : Z => True) true) vec) by (repeat constructor).
  assert (Ht : (length [11; 24; 60; 127]%Z <= 29)%nat) by (cbn; lia).
  assert (L2 : (1 <= 2)%nat) by lia.
  assert (Lvs : length vec = length sc) by reflexivity.
  assert (Hlen : Z.of_nat (length vec) <= 2 ^ 42) by (apply Z.leb_le; reflexivity).
  assert (Hb : bc_bound (fun s : list Z => s) sc < 2 ^ 130) by (apply Z.ltb_lt; vm_compute; reflexivity).
  generalize (2 ^ 130), Hb. clear Hb. intros fuel Hb. clearbody sc vec.
  destruct (multi_exp_bos_coster_spec zgops _ _ 0 Z.add Z.opp zgops_ok (fun s : list Z => s) _ Ht 2 L2 mh MH vec sc
    Lvs Hv Hs) as (t1 & _ & D1 & E1).
  destruct (multi_exp_naive_spec zgops _ _ 0 Z.add Z.opp zgops_ok (fun s : list Z => s) _ Ht 2 L2 vec sc
    Lvs Hv Hs) as (t2 & E2 & _ & D2).
  destruct (multi_exp_BDLO12_spec zgops _ _ 0 Z.add Z.opp zgops_ok (fun s : list Z => s) _ Ht 2 L2 true vec sc
    Lvs Hlen Hv' Hs) as (t3 & E3 & _ & D3).
  exists t1. rewrite D2, <- D1 in E2. rewrite D3, <- D1 in E3.
  pose proof (bound_nonneg (fun s : list Z => s) _ 2 Ht L2 sc Hs).
  split; [|split; [exact E2|exact E3]]. apply E1. rewrite Z2Nat.id; lia.
Qed.

(** ** Vectors of different lengths *)
Lemma naive_plain_mismatch {T S} (zero : T) (add : T -> T -> T) (smul : S -> T -> T) : forall vec sc,
  ((length vec < length sc)%nat -> multi_exp_naive_plain zero add smul vec sc = AssertFail) /\
  ((length sc < length vec)%nat -> multi_exp_naive_plain zero add smul vec sc = UB).
Proof.
  unfold multi_exp_naive_plain. intros vec. generalize zero.
  induction vec as [|v vec IH]; intros r [|s sc]; cbn [length naive_plain_loop]; split; intros H; try lia; auto;
    apply (IH (add r (smul s v)) sc); lia.
Qed.

Lemma naive_mismatch {T G S} (O : gops T) (ok : T -> Prop) (den : T -> G) z add opp (as_bigint : S -> list Z) :
  gops_ok O ok den z add opp -> forall tbl nl vec sc, (length tbl <= 29)%nat -> (1 <= nl)%nat ->
  Forall ok vec -> Forall (sok as_bigint nl) sc ->
  ((length vec < length sc)%nat -> multi_exp_naive O as_bigint tbl vec sc = AssertFail) /\
  ((length sc < length vec)%nat -> multi_exp_naive O as_bigint tbl vec sc = UB).
Proof.
  intros GO tbl nl vec sc Ht Hn. unfold multi_exp_naive. generalize (g_zero O). revert sc.
  induction vec as [|v vec IH]; intros [|s sc] r Hv Hs; cbn [length naive_loop]; (split; intros H; [try lia|try lia]); auto.
  all: inversion Hv as [|? ? Ov Hv']; subst; inversion Hs as [|? ? Os Hs']; subst.
  all: destruct Os as (L1 & L2 & L3); destruct (opt_exp_ok O ok den z add opp GO tbl Ht nl Hn v (as_bigint s)
      (bigint_num_bits (as_bigint s)) Ov L1 L2 L3) as (t & E & _); rewrite E; cbn [bind];
    apply (IH sc (g_add O r t)); auto; lia.
Qed.

(** ** The window that opt_window_wnaf_exp picks *)
Lemma best_window_spec rt bits : (best_window rt bits <= length rt)%nat /\
  (forall i, (best_window rt bits <= i < length rt)%nat -> bits < nth i (rev rt) 0) /\
  (best_window rt bits <> 0%nat -> nth (best_window rt bits - 1) (rev rt) 0 <= bits).
Proof.
  induction rt as [|x rt (IH1 & IH2 & IH3)]; cbn [best_window length rev]; [repeat split; intros; lia|].
  destruct (Z.leb_spec x bits) as [L|L].
  - split; [lia|]. split; [lia|]. intros _. rewrite app_nth2; rewrite rev_length; [|lia].
    replace (Datatypes.S (length rt) - 1 - length rt)%nat with 0%nat by lia. exact L.
  - split; [lia|]. split.
    + intros i Hi. destruct (Nat.eq_dec i (length rt)) as [->|N].
      * rewrite app_nth2; rewrite rev_length; [|lia]. rewrite Nat.sub_diag. exact L.
      * rewrite app_nth1 by (rewrite rev_length; lia). apply IH2. lia.
    + intros N. rewrite app_nth1 by (rewrite rev_length; lia). auto.
Qed.
Lemma opt_window_choice {T} (O : gops T) tbl base k bits : exists w, (w <= length tbl)%nat /\
  opt_window_wnaf_exp O tbl base k bits =
    (if (w =? 0)%nat then Ok (scalar_mul O base k) else fixed_window_wnaf_exp O w base k) /\
  (w <> 0%nat -> nth (w - 1) tbl 0 <= bits) /\ (forall i, (w <= i < length tbl)%nat -> bits < nth i tbl 0).
Proof.
  destruct (best_window_spec (rev tbl) bits) as (H1 & H2 & H3). rewrite rev_involutive in *. rewrite rev_length in *.
  exists (best_window (rev tbl) bits). split; [exact H1|]. split; [|auto].
  unfold opt_window_wnaf_exp. destruct (best_window (rev tbl) bits); reflexivity.
Qed.
