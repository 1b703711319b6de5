(** Correctness of the multi-exponentiation routines (except Bos-Coster) and of
    fixed-base windowed exponentiation. *)
From Coq Require Import ZArith List Lia Bool Permutation.
From Verif Require Import Result Limbs LimbsProofs BigintModel BigintProofs UtilsModel UtilsProofs
  FpModel FpIoProofs Algebra AlgorithmsProofs GroupOps GroupProofs WnafModel WnafProofs MultiexpModel.
Import ListNotations.
Open Scope Z_scope.
Open Scope result_scope.

Lemma lor_disjoint_pow a j : 0 <= j -> 0 <= a < 2 ^ j -> Z.lor a (Z.shiftl 1 j) = a + 2 ^ j.
Proof.
  intros Hj Ha. rewrite Z.shiftl_1_l.
  assert (D : Z.land a (2 ^ j) = 0).
  { apply Z.bits_inj'. intros k Hk. rewrite Z.land_spec, Z.bits_0.
    destruct (Z.eq_dec k j) as [->|Hne].
    - replace (Z.testbit a j) with false; auto. symmetry.
      destruct (Z.eq_dec a 0) as [->|]; [apply Z.bits_0|].
      apply Z.bits_above_log2; [lia|]. apply Z.log2_lt_pow2; lia.
    - rewrite Z.pow2_bits_false by lia. apply andb_false_r. }
  rewrite <- Z.lxor_lor by auto. symmetry. now apply Z.add_nocarry_lxor.
Qed.

Lemma testbit_shift v s j : 0 <= s -> 0 <= j -> Z.testbit v (s + j) = Z.testbit (v / 2 ^ s) j.
Proof. intros. rewrite <- Z.shiftr_div_pow2, Z.shiftr_spec by lia. f_equal. lia. Qed.

Lemma bucket_id_spec e start todo : forall j id, limbs e -> 0 <= start ->
  id = (val e / 2 ^ start) mod 2 ^ Z.of_nat j ->
  bucket_id e start j todo id = (val e / 2 ^ start) mod 2 ^ Z.of_nat (j + todo).
Proof.
  induction todo as [|t IH]; intros j id L Hs Hid; cbn [bucket_id].
  - now rewrite Nat.add_0_r.
  - rewrite <- Nat.add_succ_comm. apply IH; auto.
    rewrite bigint_test_bit_spec by (auto; lia). rewrite testbit_shift by lia.
    rewrite Nat2Z.inj_succ, <- Z.add_1_r, mod_pow2_S by lia.
    pose proof (Z.mod_pos_bound (val e / 2 ^ start) (2 ^ Z.of_nat j) ltac:(apply pow2_pos; lia)).
    rewrite Hid. destruct (Z.testbit _ _); cbn [Z.b2z]; [|lia].
    rewrite lor_disjoint_pow by lia. lia.
Qed.

Lemma window_index_spec e start todo : forall j id, limbs e -> 0 <= start -> (j + todo <= 32)%nat ->
  id = (val e / 2 ^ start) mod 2 ^ Z.of_nat j ->
  window_index e start j todo id = Ok ((val e / 2 ^ start) mod 2 ^ Z.of_nat (j + todo)).
Proof.
  induction todo as [|t IH]; intros j id L Hs Hj Hid; cbn [window_index].
  - rewrite Nat.add_0_r. now rewrite Hid.
  - replace (32 <=? j)%nat with false by (symmetry; apply Nat.leb_gt; lia).
    rewrite <- Nat.add_succ_comm.
    rewrite bigint_test_bit_spec by (auto; lia). rewrite testbit_shift by lia.
    pose proof (Z.mod_pos_bound (val e / 2 ^ start) (2 ^ Z.of_nat j) ltac:(apply pow2_pos; lia)).
    pose proof (mod_pow2_S (val e / 2 ^ start) (Z.of_nat j) ltac:(lia)) as Hm.
    destruct (Z.testbit _ _); cbn [Z.b2z] in Hm; apply IH; auto; try lia;
      rewrite Nat2Z.inj_succ, <- Z.add_1_r, Hm, Hid; rewrite ?lor_disjoint_pow by lia; lia.
Qed.

Lemma vec_at_ok {A} (l : list A) i x : nth_error l i = Some x -> vec_at l (Z.of_nat i) = Ok x.
Proof.
  intros H. unfold vec_at. replace (_ <? 0) with false by (symmetry; apply Z.ltb_ge; lia).
  now rewrite Nat2Z.id, H.
Qed.

Lemma nth_error_upd {A} (l : list A) i j x : (i < length l)%nat ->
  nth_error (upd l i x) j = if (j =? i)%nat then Some x else nth_error l j.
Proof.
  revert i j; induction l as [|y l IH]; intros [|i] [|j] H; cbn in *; try lia; auto.
  apply IH. lia.
Qed.

(** ** Parallel loops *)
Lemma run_schedule_spec {A} (f : nat -> result A) (g : nat -> A) order : forall partial,
  NoDup order -> (forall i, In i order -> (i < length partial)%nat /\ f i = Ok (g i)) ->
  exists p, run_schedule f order partial = Ok p /\ length p = length partial /\
    forall i, nth_error p i = if in_dec Nat.eq_dec i order then Some (g i) else nth_error partial i.
Proof.
  induction order as [|k order IH]; intros partial ND H; cbn [run_schedule].
  - exists partial. split; auto.
  - inversion ND as [|? ? Hk ND']; subst.
    destruct (H k (or_introl eq_refl)) as [Lk Ek]. rewrite Ek. cbn [bind].
    destruct (IH (upd partial k (g k)) ND') as (p & E & L & N).
    { intros i Hi. rewrite upd_length. apply H. now right. }
    exists p. split; auto. rewrite upd_length in L. split; auto.
    intros i. rewrite N. rewrite nth_error_upd by auto.
    destruct (in_dec Nat.eq_dec i order), (in_dec Nat.eq_dec i (k :: order)) as [Hi|Hi]; auto.
    + exfalso. apply Hi. now right.
    + destruct Hi as [->|]; [|easy]. now rewrite Nat.eqb_refl.
    + replace (i =? k)%nat with false; auto. symmetry. apply Nat.eqb_neq. intros ->. apply Hi. now left.
Qed.

Lemma nth_error_ext {A} (l l' : list A) : (forall i, nth_error l i = nth_error l' i) -> l = l'.
Proof.
  revert l'; induction l as [|x l IH]; intros [|y l'] H; auto.
  - specialize (H 0%nat). discriminate.
  - specialize (H 0%nat). discriminate.
  - f_equal; [specialize (H 0%nat); cbn in H; congruence|]. apply IH. intros i. exact (H (S i)).
Qed.

Lemma nth_error_map_seq {A} (f : nat -> A) n i :
  nth_error (map f (seq 0 n)) i = if (i <? n)%nat then Some (f i) else None.
Proof.
  destruct (i <? n)%nat eqn:E.
  - apply Nat.ltb_lt in E. rewrite nth_error_map.
    rewrite (nth_error_nth' _ 0%nat) by (rewrite seq_length; auto). rewrite seq_nth; auto.
  - apply Nat.ltb_ge in E. apply nth_error_None. now rewrite map_length, seq_length.
Qed.

(** Any completion order of iterations 0 .. n-1 fills the vector the same way. *)
Theorem run_schedule_all {A} (f : nat -> result A) (g : nat -> A) order init n :
  Permutation order (seq 0 n) -> (forall i, (i < n)%nat -> f i = Ok (g i)) ->
  run_schedule f order (repeat init n) = Ok (map g (seq 0 n)).
Proof.
  intros HP H.
  destruct (run_schedule_spec f g order (repeat init n)) as (p & E & L & N).
  - eapply Permutation_NoDup; [symmetry; exact HP|apply seq_NoDup].
  - intros i Hi. apply (Permutation_in _ HP) in Hi. apply in_seq in Hi. rewrite repeat_length.
    split; [lia|]. apply H. lia.
  - rewrite E. f_equal. apply nth_error_ext. intros i. rewrite N, nth_error_map_seq.
    destruct (in_dec Nat.eq_dec i order) as [Hi|Hi].
    + apply (Permutation_in _ HP) in Hi. apply in_seq in Hi.
      replace (i <? n)%nat with true; auto. symmetry. apply Nat.ltb_lt. lia.
    + replace (i <? n)%nat with false.
      * apply nth_error_None. rewrite repeat_length.
        destruct (le_lt_dec n i); auto. exfalso. apply Hi.
        apply (Permutation_in _ (Permutation_sym HP)). apply in_seq. lia.
      * symmetry. apply Nat.ltb_ge. destruct (le_lt_dec n i); auto. exfalso. apply Hi.
        apply (Permutation_in _ (Permutation_sym HP)). apply in_seq. lia.
Qed.

(** ** naive_plain and inner_product, in any commutative monoid *)
Lemma naive_plain_spec {T S} zero (add : T -> T -> T) (smul : S -> T -> T) : monoid_laws zero add ->
  forall vec sc res, length vec = length sc ->
  naive_plain_loop add smul vec sc res =
  Ok (add res (nprod zero add (map (fun vs => smul (snd vs) (fst vs)) (combine vec sc)))).
Proof.
  intros M. induction vec as [|v vec IH]; intros [|s sc] res L; try discriminate; cbn [naive_plain_loop].
  - cbn. now rewrite (ml_1_r _ _ M).
  - rewrite IH by (cbn in L; lia). cbn [combine map nprod fst snd]. now rewrite (ml_assoc _ _ M).
Qed.

Section Multiexp.
Context {T G S : Type} (O : gops T) (ok : T -> Prop) (den : T -> G)
  (z : G) (add : G -> G -> G) (opp : G -> G).
Hypothesis GO : gops_ok O ok den z add opp.
Notation mul := (gmul z add opp).
Let AG := go_group _ _ _ _ _ _ GO.
Variable as_bigint : S -> list Z.
Variable tbl : list Z.
Hypothesis Htbl : (length tbl <= 29)%nat.
Variable nl : nat.
Hypothesis Hnl : (1 <= nl)%nat.

(** Scalars: nl limbs, one spare bit (true of every prime field element). *)
Definition sok (s : S) : Prop :=
  limbs (as_bigint s) /\ length (as_bigint s) = nl /\ 2 * val (as_bigint s) < Bn nl.
Notation sval s := (val (as_bigint s)).
(** The sum of products. *)
Definition msum (vec : list T) (sc : list S) : G :=
  nprod z add (map (fun vs => mul (sval (snd vs)) (den (fst vs))) (combine vec sc)).

Notation A0r := (ag_0_r z add opp AG).
Notation A0l := (ag_0_l z add opp AG).
Notation Aassoc := (ag_assoc z add opp AG).
Notation Acomm := (ag_commut z add opp AG).

Lemma msum_cons v vec s sc : msum (v :: vec) (s :: sc) = add (mul (sval s) (den v)) (msum vec sc).
Proof. reflexivity. Qed.
Lemma msum_app vec vec' sc sc' : length vec = length sc ->
  msum (vec ++ vec') (sc ++ sc') = add (msum vec sc) (msum vec' sc').
Proof.
  revert sc; induction vec as [|v vec IH]; intros [|s sc] L; try discriminate.
  - cbn [app]. unfold msum at 2. cbn [combine map nprod]. now rewrite A0l.
  - cbn [app]. rewrite !msum_cons, IH by (cbn in L; lia). apply Aassoc.
Qed.

Lemma wnaf_safe e w : length e = nl -> 2 * val e < Bn nl -> (w <= 29)%nat ->
  val e <= Bn (length e) - 2 ^ Z.of_nat w.
Proof.
  intros L H Hw. rewrite L. destruct (Bn_half nl Hnl) as (h & E & Hh).
  pose proof (pow_le_B w ltac:(lia)) as HB. rewrite B_eq in HB. change (2 ^ 64) with (2 * 2 ^ 63) in HB. lia.
Qed.

Lemma opt_exp_ok v e bits : ok v -> limbs e -> length e = nl -> 2 * val e < Bn nl ->
  exists t, opt_window_wnaf_exp O tbl v e bits = Ok t /\ ok t /\ den t = mul (val e) (den v).
Proof.
  intros Hv L Le Hs. apply (opt_window_wnaf_exp_spec O ok den z add opp GO); auto; [lia|].
  left. now apply wnaf_safe.
Qed.

(** *** naive *)
Lemma naive_loop_spec vec : forall sc res, length vec = length sc -> Forall ok vec -> Forall sok sc -> ok res ->
  exists t, naive_loop O as_bigint tbl vec sc res = Ok t /\ ok t /\ den t = add (den res) (msum vec sc).
Proof.
  induction vec as [|v vec IH]; intros [|s sc] res L Hv Hs Hr; try discriminate; cbn [naive_loop].
  - exists res. split; auto. split; auto. unfold msum. cbn. now rewrite A0r.
  - inversion Hv; inversion Hs as [|? ? (L1 & L2 & L3)]; subst.
    destruct (opt_exp_ok v (as_bigint s) (bigint_num_bits (as_bigint s))) as (t & E & Ot & Dt); auto.
    rewrite E. cbn [bind]. destruct (go_add _ _ _ _ _ _ GO res t Hr Ot) as [Oa Da].
    destruct (IH sc (g_add O res t)) as (r & Er & Or & Dr); auto.
    exists r. split; auto. split; auto. rewrite Dr, Da, Dt, msum_cons. now rewrite Aassoc.
Qed.
Theorem multi_exp_naive_spec vec sc : length vec = length sc -> Forall ok vec -> Forall sok sc ->
  exists t, multi_exp_naive O as_bigint tbl vec sc = Ok t /\ ok t /\ den t = msum vec sc.
Proof.
  intros L Hv Hs. destruct (go_zero _ _ _ _ _ _ GO) as [Oz Dz].
  destruct (naive_loop_spec vec sc (g_zero O)) as (t & E & Ot & Dt); auto.
  exists t. split; auto. split; auto. now rewrite Dt, Dz, A0l.
Qed.

(** *** naive_plain *)
Lemma field_smul_spec s v : limbs (as_bigint s) -> ok v ->
  ok (field_smul O as_bigint s v) /\ den (field_smul O as_bigint s v) = mul (sval s) (den v).
Proof. intros L Hv. apply (scalar_mul_spec O ok den z add opp GO); auto. Qed.

Theorem multi_exp_naive_plain_spec vec sc : length vec = length sc -> Forall ok vec -> Forall sok sc ->
  exists t, multi_exp_naive_plain (g_zero O) (g_add O) (field_smul O as_bigint) vec sc = Ok t /\
    ok t /\ den t = msum vec sc.
Proof.
  unfold multi_exp_naive_plain. destruct (go_zero _ _ _ _ _ _ GO) as [Oz Dz].
  assert (X : forall vec sc res, length vec = length sc -> Forall ok vec -> Forall sok sc -> ok res ->
    exists t, naive_plain_loop (g_add O) (field_smul O as_bigint) vec sc res = Ok t /\ ok t /\
      den t = add (den res) (msum vec sc)).
  { clear vec sc. induction vec as [|v vec IH]; intros [|s sc] res L Hv Hs Hr; try discriminate;
      cbn [naive_plain_loop].
    - exists res. split; auto. split; auto. unfold msum. cbn. now rewrite A0r.
    - inversion Hv; inversion Hs as [|? ? (L1 & L2 & L3)]; subst.
      destruct (field_smul_spec s v) as [Ot Dt]; auto.
      destruct (go_add _ _ _ _ _ _ GO res _ Hr Ot) as [Oa Da].
      destruct (IH sc (g_add O res (field_smul O as_bigint s v))) as (r & Er & Or & Dr); auto.
      exists r. split; auto. split; auto. rewrite Dr, Da, Dt, msum_cons. now rewrite Aassoc. }
  intros L Hv Hs. destruct (X vec sc (g_zero O)) as (t & E & Ot & Dt); auto.
  exists t. split; auto. split; auto. now rewrite Dt, Dz, A0l.
Qed.

(** *** batch_to_special *)
Lemma batch_to_special_exact vec : Forall ok vec ->
  exists r, batch_to_special O vec = Ok r /\
    Forall2 (fun a b => g_to_special O (if g_is_zero O a then g_zero O else a) = Ok b) vec r.
Proof.
  intros Hv. unfold batch_to_special.
  destruct (go_batch _ _ _ _ _ _ GO (filter (fun v => negb (g_is_zero O v)) vec)) as (nz & E & F).
  { apply Forall_forall. intros x Hx. apply filter_In in Hx. rewrite Forall_forall in Hv. now apply Hv. }
  { apply Forall_forall. intros x Hx. apply filter_In in Hx. now apply negb_true_iff. }
  rewrite E. cbn [bind].
  destruct (go_special _ _ _ _ _ _ GO (g_zero O)) as (zs & Ez & _); [apply GO|].
  rewrite Ez. cbn [bind]. clear E. revert nz F.
  induction vec as [|v vec IH]; intros nz F; cbn [put_back].
  - exists []. auto.
  - inversion Hv; subst. cbn [filter] in F. destruct (g_is_zero O v) eqn:Ezv; cbn [negb] in *.
    + destruct (IH ltac:(auto) nz F) as (r & Er & Fr). rewrite Er. cbn [bind].
      exists (zs :: r). split; auto. constructor; auto. now rewrite Ezv.
    + inversion F as [|? x ? nz' Hx F']; subst.
      destruct (IH ltac:(auto) nz' F') as (r & Er & Fr). rewrite Er. cbn [bind].
      exists (x :: r). split; auto. constructor; auto. now rewrite Ezv.
Qed.

Lemma batch_to_special_spec vec : Forall ok vec ->
  exists r, batch_to_special O vec = Ok r /\
    Forall2 (fun a b => ok b /\ g_is_special O b = true /\ den b = den a) vec r.
Proof.
  intros Hv. destruct (batch_to_special_exact vec Hv) as (r & E & F). exists r. split; auto.
  clear E. induction F as [|a b vec r Hab F IH]; auto. inversion Hv; subst. constructor; auto.
  destruct (g_is_zero O a) eqn:Ez.
  - destruct (go_special _ _ _ _ _ _ GO (g_zero O)) as (zs & Es & Os & Ss & Ds); [apply GO|].
    rewrite Es in Hab. injection Hab as <-. split; auto. split; auto.
    rewrite Ds. destruct (go_zero _ _ _ _ _ _ GO) as [_ Dz]. rewrite Dz. symmetry.
    now apply (go_is_zero _ _ _ _ _ _ GO).
  - destruct (go_special _ _ _ _ _ _ GO a) as (zs & Es & Os & Ss & Ds); auto.
    rewrite Es in Hab. injection Hab as <-. auto.
Qed.

(** *** BDLO12 *)
Section BDLO12.
Variable mixed : bool.
(** Bases must be in special form when mixed addition is used. *)
Definition vok (v : T) : Prop := ok v /\ (mixed = true -> g_is_special O v = true).

Lemma add_bucket_spec a b : ok a -> vok b ->
  ok (add_bucket O mixed a b) /\ den (add_bucket O mixed a b) = add (den a) (den b).
Proof.
  intros Ha [Hb Hs]. unfold add_bucket. destruct mixed.
  - apply (go_mixed _ _ _ _ _ _ GO); auto.
  - apply (go_add _ _ _ _ _ _ GO); auto.
Qed.

Definition bden (b : bool * T) : G := if fst b then den (snd b) else z.
Definition bok (b : bool * T) : Prop := ok (snd b).

(** sum_j (s+j) * bucket_j *)
Fixpoint wsum (s : Z) (l : list (bool * T)) : G :=
  match l with [] => z | b :: l' => add (mul s (bden b)) (wsum (s + 1) l') end.

Lemma wsum_upd l : forall s i b b' x, nth_error l i = Some b -> bden b' = add (bden b) x ->
  wsum s (upd l i b') = add (wsum s l) (mul (s + Z.of_nat i) x).
Proof.
  induction l as [|a l IH]; intros s i b b' x Hi Hb; [destruct i; discriminate|].
  destruct i as [|i]; cbn [nth_error upd wsum] in *.
  - injection Hi as ->. rewrite Hb, (gmul_distr z add opp AG). cbn [Z.of_nat]. rewrite Z.add_0_r.
    rewrite <- !Aassoc. f_equal. apply Acomm.
  - rewrite (IH (s + 1) i b b' x Hi Hb), Aassoc. f_equal. f_equal. lia.
Qed.
Lemma wsum_zero s n : wsum s (repeat (false, g_default O) n) = z.
Proof.
  revert s; induction n; intros s; cbn [repeat wsum]; auto. rewrite IHn.
  unfold bden. cbn [fst]. now rewrite (gmul_zero z add opp AG), A0l.
Qed.
Lemma wsum_app s l l' : wsum s (l ++ l') = add (wsum s l) (wsum (s + Z.of_nat (length l)) l').
Proof.
  revert s; induction l as [|a l IH]; intros s; cbn [app wsum length].
  - cbn [Z.of_nat]. now rewrite Z.add_0_r, A0l.
  - rewrite IH, Aassoc. f_equal. f_equal. lia.
Qed.

Definition ids (exps : list (list Z)) (start : Z) (c : nat) : list Z :=
  map (fun e => (val e / 2 ^ start) mod 2 ^ Z.of_nat c) exps.
(** sum_i k_i * v_i for integer coefficients *)
Definition lin (ks : list Z) (vec : list T) : G :=
  nprod z add (map (fun kv => mul (fst kv) (den (snd kv))) (combine ks vec)).

Lemma fill_buckets_spec c start : 0 <= start -> forall bases exps buckets,
  length bases = length exps -> Forall vok bases -> Forall limbs exps ->
  length buckets = Z.to_nat (2 ^ Z.of_nat c) -> Forall bok buckets ->
  exists r, fill_buckets O mixed bases exps start c buckets = Ok r /\
    length r = length buckets /\ Forall bok r /\
    wsum 0 r = add (wsum 0 buckets) (lin (ids exps start c) bases).
Proof.
  intros Hs. induction bases as [|b bases IH]; intros [|e exps] buckets L Hb He Lb Hbk;
    try discriminate; cbn [fill_buckets].
  - exists buckets. split; auto. split; auto. split; auto. unfold lin. cbn. now rewrite A0r.
  - inversion Hb as [|? ? Hb1 Hb2]; inversion He as [|? ? He1 He2]; subst.
    rewrite (bucket_id_spec e start c 0 0) by (auto; cbn; now rewrite Z.mod_1_r).
    cbn [Nat.add]. set (id := (val e / 2 ^ start) mod 2 ^ Z.of_nat c).
    assert (Hid : 0 <= id < 2 ^ Z.of_nat c) by (apply Z.mod_pos_bound, pow2_pos; lia).
    assert (El : lin (ids (e :: exps) start c) (b :: bases)
      = add (mul id (den b)) (lin (ids exps start c) bases)) by reflexivity.
    destruct (Z.eqb_spec id 0) as [E0|E0].
    + destruct (IH exps buckets) as (r & Er & Lr & Or & Dr); auto.
      exists r. split; auto. split; auto. split; auto. rewrite Dr, El, E0, gmul_0, A0l. reflexivity.
    + assert (exists q, nth_error buckets (Z.to_nat id) = Some q) as [[nz v] Eq].
      { destruct (nth_error buckets (Z.to_nat id)) eqn:E; eauto.
        apply nth_error_None in E. lia. }
      pose proof (vec_at_ok _ _ _ Eq) as Va. rewrite Z2Nat.id in Va by lia. rewrite Va. cbn [bind].
      assert (Hv : ok v).
      { apply nth_error_In in Eq. rewrite Forall_forall in Hbk. exact (Hbk _ Eq). }
      assert (Hnew : ok (if nz then add_bucket O mixed v b else b) /\
        den (if nz then add_bucket O mixed v b else b) = add (bden (nz, v)) (den b)).
      { unfold bden; cbn [fst snd]. destruct nz.
        - now apply add_bucket_spec.
        - split; [apply Hb1|]. now rewrite A0l. }
      destruct Hnew as [On Dn].
      destruct (IH exps (upd buckets (Z.to_nat id) (true, if nz then add_bucket O mixed v b else b)))
        as (r & Er & Lr & Or & Dr); auto.
      * rewrite upd_length. auto.
      * clear -Hbk On. revert Hbk. generalize (Z.to_nat id). induction buckets; intros [|i] H; cbn [upd]; auto;
          inversion H; subst; constructor; auto.
      * rewrite upd_length in Lr. exists r. split; auto. split; auto. split; auto.
        rewrite Dr, (wsum_upd buckets 0 (Z.to_nat id) (nz, v)
          (true, if nz then add_bucket O mixed v b else b) (den b) Eq Dn), El, <- Aassoc. f_equal. f_equal. f_equal. lia.
Qed.

(** sum over the processing order: the first entry is added |L| times. *)
Fixpoint dsum (l : list (bool * T)) : G :=
  match l with [] => z | b :: l' => add (mul (Z.of_nat (length l)) (bden b)) (dsum l') end.
Lemma dsum_rev l : dsum (rev l) = wsum 1 l.
Proof.
  induction l as [|y l IH] using rev_ind; auto.
  rewrite rev_app_distr. cbn [rev app dsum]. rewrite IH, wsum_app. cbn [length wsum].
  rewrite rev_length, A0r, Acomm. f_equal. f_equal. lia.
Qed.

Lemma sum_buckets_spec bs : forall rs res,
  Forall (fun b => fst b = true -> vok (snd b)) bs ->
  (fst rs = true -> ok (snd rs)) -> (fst res = true -> ok (snd res)) ->
  let r := sum_buckets O mixed bs rs res in
  (fst r = true -> ok (snd r)) /\
  bden r = add (bden res) (add (mul (Z.of_nat (length bs)) (bden rs)) (dsum bs)).
Proof.
  induction bs as [|[nz v] bs IH]; intros rs res Hb Hrs Hres; cbn [sum_buckets].
  - split; auto. cbn [length dsum Z.of_nat]. now rewrite gmul_0, A0l, A0r.
  - inversion Hb as [|? ? Hv Hb']; subst. cbn [fst snd] in Hv.
    set (rs1 := if nz then (true, if fst rs then add_bucket O mixed (snd rs) v else v) else rs).
    assert (H1 : (fst rs1 = true -> ok (snd rs1)) /\ bden rs1 = add (bden rs) (bden (nz, v))).
    { unfold rs1, bden. cbn [fst snd]. destruct nz; [|split; [auto|now rewrite A0r]].
      cbn [fst snd]. destruct (fst rs).
      - destruct (add_bucket_spec (snd rs) v) as [O1 D1]; auto.
      - split; [intros _; now apply Hv|now rewrite A0l]. }
    destruct H1 as [O1 D1].
    set (res1 := if fst rs1 then (true, if fst res then g_add O (snd res) (snd rs1) else snd rs1) else res).
    assert (H2 : (fst res1 = true -> ok (snd res1)) /\ bden res1 = add (bden res) (bden rs1)).
    { unfold res1. destruct (fst rs1) eqn:E1.
      - unfold bden. rewrite E1. cbn [fst snd]. destruct (fst res).
        + destruct (go_add _ _ _ _ _ _ GO (snd res) (snd rs1)) as [O2 D2]; auto.
        + split; auto. now rewrite A0l.
      - split; auto. unfold bden at 3. rewrite E1. now rewrite A0r. }
    destruct H2 as [O2 D2].
    destruct (IH rs1 res1 Hb' O1 O2) as [O3 D3]. split; auto. rewrite D3, D2, D1.
    cbn [dsum length]. rewrite Nat2Z.inj_succ, <- Z.add_1_r, !(gmul_succ z add opp AG).
    set (a := bden res). set (b := bden rs). set (x := bden (nz, v)). set (n := Z.of_nat (length bs)).
    rewrite (gmul_distr z add opp AG).
    set (nb := mul n b). set (nx := mul n x). set (d := dsum bs).
    agroup_eq AG.
Qed.

Lemma dbl_times_spec k : forall x, ok x ->
  ok (dbl_times O k x) /\ den (dbl_times O k x) = mul (2 ^ Z.of_nat k) (den x).
Proof.
  induction k as [|k IH]; intros x Hx; cbn [dbl_times].
  - split; auto. change (2 ^ Z.of_nat 0) with 1. now rewrite (gmul_1 z add opp AG).
  - destruct (go_dbl _ _ _ _ _ _ GO x Hx) as [O1 D1]. destruct (IH _ O1) as [O2 D2]. split; auto.
    rewrite D2, D1, <- (gmul_2 z add opp AG), <- (gmul_mul z add opp AG).
    f_equal. rewrite Nat2Z.inj_succ, Z.pow_succ_r by lia. ring.
Qed.

Lemma lin_add ks ks' vec : length ks = length vec -> length ks' = length vec ->
  add (lin ks vec) (lin ks' vec) = lin (map (fun p => fst p + snd p) (combine ks ks')) vec.
Proof.
  revert ks ks'; induction vec as [|v vec IH]; intros [|k ks] [|k' ks'] L L'; try discriminate.
  - unfold lin. cbn. apply A0l.
  - assert (E : forall k ks, lin (k :: ks) (v :: vec) = add (mul k (den v)) (lin ks vec)) by reflexivity.
    cbn [combine map fst snd]. rewrite !E, <- IH by (cbn in *; lia).
    rewrite (gmul_add z add opp AG). agroup_eq AG.
Qed.
Lemma lin_mul m ks vec : mul m (lin ks vec) = lin (map (Z.mul m) ks) vec.
Proof.
  revert vec; induction ks as [|k ks IH]; intros [|v vec]; cbn [map];
    try (unfold lin; cbn; apply (gmul_zero z add opp AG)).
  assert (E : forall k ks, lin (k :: ks) (v :: vec) = add (mul k (den v)) (lin ks vec)) by reflexivity.
  rewrite !E, <- IH, (gmul_distr z add opp AG), (gmul_mul z add opp AG). reflexivity.
Qed.

Lemma bdlo_groups_spec c bases exps : (1 <= c)%nat -> length bases = length exps ->
  Forall vok bases -> Forall limbs exps ->
  forall k res, (fst res = true -> ok (snd res)) ->
  (fst res = false -> ok (snd res) /\ den (snd res) = z) ->
  bden res = lin (map (fun e => val e / 2 ^ (Z.of_nat k * Z.of_nat c)) exps) bases ->
  exists t, bdlo_groups O mixed k c bases exps res = Ok t /\ ok t /\
    den t = lin (map val exps) bases.
Proof.
  intros Hc L Hb He. induction k as [|k IH]; intros res H1 H2 D.
  - cbn [bdlo_groups]. exists (snd res). split; auto.
    assert (E : map (fun e => val e / 2 ^ (Z.of_nat 0 * Z.of_nat c)) exps = map val exps).
    { apply map_ext. intros e. cbn [Z.of_nat]. rewrite Z.mul_0_l. apply Z.div_1_r. }
    rewrite E in D. unfold bden in D. destruct (fst res); auto.
    destruct (H2 eq_refl) as [Ho Hd]. split; auto. congruence.
  - cbn [bdlo_groups].
    set (res1 := if fst res then (true, dbl_times O c (snd res)) else res).
    assert (HR : (fst res1 = true -> ok (snd res1)) /\ (fst res1 = false -> ok (snd res1) /\ den (snd res1) = z)
      /\ bden res1 = mul (2 ^ Z.of_nat c) (bden res)).
    { unfold res1, bden. destruct (fst res) eqn:Ef.
      - destruct (dbl_times_spec c (snd res)) as [Od Dd]; auto. cbn [fst snd].
        split; auto. split; [easy|auto].
      - rewrite Ef. split; [easy|]. split; auto. now rewrite (gmul_zero z add opp AG). }
    destruct HR as (R1 & R2 & R3).
    set (start := Z.of_nat k * Z.of_nat c).
    set (init := repeat (false, g_default O) (Z.to_nat (2 ^ Z.of_nat c))).
    destruct (go_default _ _ _ _ _ _ GO) as [Odef Ddef].
    destruct (fill_buckets_spec c start ltac:(unfold start; lia) bases exps init L Hb He) as (bk & Eb & Lb & Ob & Db).
    { unfold init. apply repeat_length. }
    { unfold init. apply Forall_forall. intros x Hx. apply repeat_spec in Hx. subst. exact Odef. }
    rewrite Eb. cbn [bind].
    assert (HB : exists bk', (if mixed then
                    vs <- batch_to_special O (map snd bk) ;; Ok (combine (map fst bk) vs)
                  else Ok bk) = Ok bk' /\ Forall (fun b => fst b = true -> vok (snd b)) bk' /\
              wsum 0 bk' = wsum 0 bk /\ length bk' = length bk).
    { destruct mixed eqn:Em.
      - destruct (batch_to_special_spec (map snd bk)) as (vs & Es & Fs).
        { apply Forall_forall. intros x Hx. apply in_map_iff in Hx as (y & <- & Hy).
          rewrite Forall_forall in Ob. now apply Ob. }
        rewrite Es. cbn [bind]. eexists; split; [reflexivity|].
        clear -Fs Em. assert (X : Forall (fun b => fst b = true -> vok (snd b)) (combine (map fst bk) vs) /\
          (forall s, wsum s (combine (map fst bk) vs) = wsum s bk) /\
          length (combine (map fst bk) vs) = length bk); [|intuition].
        revert vs Fs. induction bk as [|[nz v] bk IH]; intros vs Fs; inversion Fs as [|? x ? vs' (X1 & X2 & X3) Fs']; subst.
        + cbn. auto.
        + cbn [map combine fst snd length] in *. destruct (IH _ Fs') as (Y1 & Y2 & Y3).
          split; [|split].
          * constructor; auto. intros _. split; auto.
          * intros s. cbn [wsum]. rewrite Y2. f_equal. f_equal. unfold bden. cbn [fst snd]. now rewrite X3.
          * lia.
      - exists bk. split; auto. split; auto. apply Forall_forall. intros x Hx _. split; [|congruence].
        rewrite Forall_forall in Ob. now apply Ob. }
    destruct HB as (bk' & Ebk & Fbk & Wbk & Lbk). rewrite Ebk. cbn [bind].
    destruct (sum_buckets_spec (rev (skipn 1 bk')) (false, g_default O) res1) as [S1 S2]; auto; try easy.
    { apply Forall_rev. clear -Fbk. destruct bk'; cbn; auto. now inversion Fbk. }
    assert (Dsum : bden (sum_buckets O mixed (rev (skipn 1 bk')) (false, g_default O) res1)
              = lin (map (fun e => val e / 2 ^ (Z.of_nat k * Z.of_nat c)) exps) bases).
    { rewrite S2. unfold bden at 2. cbn [fst]. rewrite (gmul_zero z add opp AG), A0l, dsum_rev.
      assert (W : wsum 1 (skipn 1 bk') = wsum 0 bk').
      { destruct bk' as [|x bk']; cbn [skipn wsum]; auto. now rewrite gmul_0, A0l. }
      rewrite W, Wbk, Db. unfold init. rewrite wsum_zero, A0l, R3, D, lin_mul.
      unfold ids. rewrite lin_add by (rewrite ?map_length; auto).
      f_equal. clear -Hc. induction exps as [|e exps IH]; cbn [map combine fst snd]; auto.
      rewrite IH. f_equal. fold start.
      assert (E : 2 ^ (Z.of_nat (Datatypes.S k) * Z.of_nat c) = 2 ^ start * 2 ^ Z.of_nat c).
      { rewrite <- Z.pow_add_r by (unfold start; lia). f_equal. unfold start. lia. }
      rewrite E, <- Z.div_div by (try apply Z.pow_nonzero; try apply pow2_pos; unfold start; lia).
      symmetry. apply Z.div_mod. apply Z.pow_nonzero; lia. }
    apply IH; auto.
    + intros Hf. assert (Hsnd : snd (sum_buckets O mixed (rev (skipn 1 bk')) (false, g_default O) res1) = snd res1
          /\ fst res1 = false).
      { revert Hf. generalize (rev (skipn 1 bk')). intros bs.
        assert (X : forall bs rs r0, fst (sum_buckets O mixed bs rs r0) = false ->
           sum_buckets O mixed bs rs r0 = r0).
        { clear. induction bs as [|[nz v] bs IH]; intros rs r0 H; cbn [sum_buckets] in *; auto.
          set (rs1 := if nz then _ else rs) in *.
          rewrite IH by exact H. apply IH in H as H'. rewrite H' in H.
          destruct (fst rs1); [discriminate|reflexivity]. }
        intros H. rewrite (X _ _ _ H). rewrite (X _ _ _ H) in H. split; [reflexivity|exact H]. }
      destruct Hsnd as [-> Hf1]. auto.
Qed.

Lemma bdlo_c_spec len : 0 <= len <= 2 ^ 42 ->
  exists c, bdlo_c len = Ok c /\ 2 <= c <= 30.
Proof.
  intros H. unfold bdlo_c. rewrite log2_spec by (rewrite B_eq; lia). cbn [bind].
  eexists; split; [reflexivity|].
  set (l := if len =? 0 then 0 else Z.log2_up len).
  assert (Hl : 0 <= l <= 42).
  { unfold l. destruct (len =? 0) eqn:E; [lia|]. apply Z.eqb_neq in E.
    split; [apply Z.log2_up_nonneg|]. change 42 with (Z.log2_up (2 ^ 42)). apply Z.log2_up_le_mono. lia. }
  assert (Hd : 0 <= l / 3 <= 14) by (split; [apply Z.div_pos; lia|apply Z.div_le_upper_bound; lia]).
  assert (Hd2 : 3 * (l / 3) <= l < 3 * (l / 3) + 3).
  { pose proof (Z.div_mod l 3 ltac:(lia)). pose proof (Z.mod_pos_bound l 3 ltac:(lia)). lia. }
  unfold wrap64. rewrite Zminus_mod_idemp_r, Z.mod_small by (rewrite B_eq; lia). lia.
Qed.

Lemma fold_max l : forall m, m <= fold_left (fun m e => Z.max m (bigint_num_bits e)) l m /\
  Forall (fun e => bigint_num_bits e <= fold_left (fun m e => Z.max m (bigint_num_bits e)) l m) l.
Proof.
  induction l as [|e l IH]; intros m; cbn [fold_left]; [split; auto; lia|].
  destruct (IH (Z.max m (bigint_num_bits e))) as [H1 H2]. split; [lia|]. constructor; auto. lia.
Qed.

Theorem multi_exp_BDLO12_spec vec sc : length vec = length sc -> Z.of_nat (length vec) <= 2 ^ 42 ->
  Forall vok vec -> Forall sok sc ->
  exists t, multi_exp_BDLO12 O as_bigint mixed vec sc = Ok t /\ ok t /\ den t = msum vec sc.
Proof.
  intros L Hlen Hv Hs. unfold multi_exp_BDLO12.
  destruct (bdlo_c_spec (Z.of_nat (length vec))) as (c & Ec & Hc); [lia|]. rewrite Ec. cbn [bind].
  replace (length sc <? length vec)%nat with false by (symmetry; apply Nat.ltb_ge; lia).
  rewrite L, firstn_all. set (exps := map as_bigint sc).
  set (nb := fold_left _ exps 0). set (ng := (nb + c - 1) / c).
  replace (31 <=? c) with false by (symmetry; apply Z.leb_gt; lia). rewrite andb_false_r.
  destruct (go_default _ _ _ _ _ _ GO) as [Odef Ddef].
  assert (He : Forall limbs exps).
  { unfold exps. apply Forall_forall. intros x Hx. apply in_map_iff in Hx as (s & <- & Hx).
    rewrite Forall_forall in Hs. apply (Hs s Hx). }
  destruct (fold_max exps 0) as [Hnb0 Hnb]. fold nb in Hnb0, Hnb.
  assert (Hng : nb <= ng * c /\ 0 <= ng).
  { unfold ng. pose proof (Z.div_mod (nb + c - 1) c ltac:(lia)).
    pose proof (Z.mod_pos_bound (nb + c - 1) c ltac:(lia)). split; [lia|]. apply Z.div_pos; lia. }
  destruct (bdlo_groups_spec (Z.to_nat c) vec exps) with (k := Z.to_nat ng) (res := (false, g_default O))
    as (t & E & Ot & Dt); auto; try lia; try easy.
  - unfold exps. rewrite map_length. auto.
  - unfold bden. cbn [fst]. symmetry.
    assert (E0 : map (fun e => val e / 2 ^ (Z.of_nat (Z.to_nat ng) * Z.of_nat (Z.to_nat c))) exps = map (fun _ => 0) exps).
    { apply map_ext_in. intros e Hin. rewrite !Z2Nat.id by lia.
      rewrite Forall_forall in He, Hnb. specialize (He e Hin). specialize (Hnb e Hin).
      rewrite bigint_num_bits_spec in Hnb by auto. pose proof (val_nonneg e He).
      destruct (bit_length_spec (val e)) as (B0 & B1 & _); auto.
      apply Z.div_small. split; auto. eapply Z.lt_le_trans; [exact B1|]. apply Z.pow_le_mono_r; lia. }
    rewrite E0. unfold lin. clearbody exps. clear -AG. generalize (vec) as vs. induction exps as [|e exps IH]; intros [|v vs]; cbn; auto.
    rewrite A0l. apply IH.
  - exists t. split; auto. split; auto. rewrite Dt. unfold msum, lin, exps. clear. f_equal.
    revert sc. induction vec as [|v vec IH]; intros [|s sc]; cbn [map combine fst snd]; auto. f_equal. apply IH.
Qed.
End BDLO12.

(** *** Chunked evaluation *)
Section Chunks.
Variable vok : T -> Prop.
Hypothesis vok_ok : forall v, vok v -> ok v.
Variable maxlen : Z.
Definition method_ok (inner : list T -> list S -> result T) : Prop :=
  forall vec sc, length vec = length sc -> Z.of_nat (length vec) <= maxlen ->
  Forall vok vec -> Forall sok sc ->
  exists t, inner vec sc = Ok t /\ ok t /\ den t = msum vec sc.
Variable inner : list T -> list S -> result T.
Hypothesis HI : method_ok inner.

Lemma chunk_length {A} chunks one i (l : list A) : (i < chunks)%nat -> (chunks * one <= length l)%nat ->
  length (chunk_of chunks one i l) =
  if (i =? chunks - 1)%nat then (length l - i * one)%nat else one.
Proof.
  intros Hi Hl. unfold chunk_of. destruct (i =? chunks - 1)%nat eqn:E.
  - apply skipn_length.
  - rewrite firstn_length, skipn_length. apply Nat.eqb_neq in E. nia.
Qed.
Lemma Forall_chunk {A} (Q : A -> Prop) chunks one i l : Forall Q l -> Forall Q (chunk_of chunks one i l).
Proof.
  intros H. unfold chunk_of. assert (X : Forall Q (skipn (i * one) l)).
  { rewrite <- (firstn_skipn (i * one) l) in H. apply Forall_app in H. tauto. }
  destruct (_ =? _)%nat; auto. rewrite <- (firstn_skipn one (skipn (i * one) l)) in X.
  apply Forall_app in X. tauto.
Qed.

(** The chunks' sums add up to the whole. *)
Lemma msum_chunks one : forall chunks i vec sc, length vec = length sc ->
  ((chunks + i) * one <= length vec)%nat ->
  nprod z add (map (fun j => msum (firstn one (skipn (j * one) vec)) (firstn one (skipn (j * one) sc))) (seq i chunks))
  = msum (firstn (chunks * one) (skipn (i * one) vec)) (firstn (chunks * one) (skipn (i * one) sc)).
Proof.
  induction chunks as [|k IH]; intros i vec sc L Hl.
  - cbn. reflexivity.
  - cbn [seq map nprod]. rewrite (IH (Datatypes.S i)) by (auto; lia).
    replace (Datatypes.S i * one)%nat with (one + i * one)%nat by lia.
    rewrite <- !skipn_skipn.
    replace (Datatypes.S k * one)%nat with (one + k * one)%nat by lia.
    rewrite <- msum_app by (rewrite !firstn_length, !skipn_length; lia).
    set (v := skipn (i * one) vec). set (s := skipn (i * one) sc).
    assert (X : forall A (l : list A) a b, firstn a l ++ firstn b (skipn a l) = firstn (a + b) l).
    { clear. intros A l. induction l; intros [|a'] b; cbn; auto; [now rewrite !firstn_nil|]. f_equal. apply IHl. }
    now rewrite !X.
Qed.

Theorem multi_exp_spec chunks vec sc : (1 <= chunks)%nat -> length vec = length sc ->
  Z.of_nat (length vec) <= maxlen -> Forall vok vec -> Forall sok sc ->
  exists t, ok t /\ den t = msum vec sc /\
    forall order, Permutation order (seq 0 chunks) -> multi_exp O inner chunks order vec sc = Ok t.
Proof.
  intros Hc L Hm Hv Hs. unfold multi_exp.
  destruct ((length vec <? chunks)%nat || (chunks =? 1)%nat) eqn:E.
  { destruct (HI vec sc) as (t & Et & Ot & Dt); auto. exists t. auto. }
  apply orb_false_iff in E as [E1 E2]. apply Nat.ltb_ge in E1. apply Nat.eqb_neq in E2.
  replace (chunks =? 0)%nat with false by (symmetry; apply Nat.eqb_neq; lia).
  set (one := (length vec / chunks)%nat).
  assert (Hone : (chunks * one <= length vec)%nat) by (apply Nat.mul_div_le; lia).
  assert (Hi : forall i, (i < chunks)%nat -> exists t,
    inner (chunk_of chunks one i vec) (chunk_of chunks one i sc) = Ok t /\ ok t /\
    den t = msum (chunk_of chunks one i vec) (chunk_of chunks one i sc)).
  { intros i Hi. apply HI.
    - rewrite !chunk_length by lia. now rewrite L.
    - rewrite chunk_length by lia. destruct (_ =? _)%nat; nia.
    - now apply Forall_chunk.
    - now apply Forall_chunk. }
  set (f := fun i => inner (chunk_of chunks one i vec) (chunk_of chunks one i sc)).
  set (g := fun i => get_ok (g_zero O) (f i)).
  assert (Hg : forall i, (i < chunks)%nat -> f i = Ok (g i) /\ ok (g i) /\
    den (g i) = msum (chunk_of chunks one i vec) (chunk_of chunks one i sc)).
  { intros i Hi'. destruct (Hi i Hi') as (t & Et & Ot & Dt). unfold g, f. rewrite Et. cbn [get_ok]. auto. }
  assert (Hsum : forall l a, Forall (fun i => (i < chunks)%nat) l -> ok a ->
    ok (fold_left (g_add O) (map g l) a) /\
    den (fold_left (g_add O) (map g l) a) =
      add (den a) (nprod z add (map (fun i => msum (chunk_of chunks one i vec) (chunk_of chunks one i sc)) l))).
  { induction l as [|i l IHl]; intros a Fl Ha; cbn [map fold_left nprod].
    - split; auto. now rewrite A0r.
    - inversion Fl; subst. destruct (Hg i) as (_ & Oi & Di); auto.
      destruct (go_add _ _ _ _ _ _ GO a (g i) Ha Oi) as [O1 D1].
      destruct (IHl (g_add O a (g i))) as [O2 D2]; auto. split; auto. rewrite D2, D1, Di. agroup_eq AG. }
  destruct (go_zero _ _ _ _ _ _ GO) as [Oz Dz].
  destruct (Hsum (seq 0 chunks) (g_zero O)) as [O1 D1]; auto.
  { apply Forall_forall. intros i Hin. apply in_seq in Hin. lia. }
  exists (fold_left (g_add O) (map g (seq 0 chunks)) (g_zero O)). split; auto. split.
  - rewrite D1, Dz, A0l.
    replace (seq 0 chunks) with (seq 0 (chunks - 1) ++ [(chunks - 1)%nat]).
    2:{ replace chunks with (chunks - 1 + 1)%nat at 3 by lia. rewrite seq_app. reflexivity. }
    rewrite map_app, nprod_app by apply AG. cbn [map nprod].
    rewrite (map_ext_in _ (fun j => msum (firstn one (skipn (j * one) vec)) (firstn one (skipn (j * one) sc)))).
    2:{ intros i Hin. apply in_seq in Hin. unfold chunk_of.
        replace (i =? chunks - 1)%nat with false by (symmetry; apply Nat.eqb_neq; lia). reflexivity. }
    rewrite msum_chunks by (auto; nia). cbn [Nat.mul skipn]. rewrite A0r.
    unfold chunk_of. rewrite Nat.eqb_refl.
    rewrite <- msum_app by (rewrite !firstn_length; lia). now rewrite !firstn_skipn.
  - intros order HP. fold f.
    rewrite (run_schedule_all f g order (g_zero O) chunks HP); [reflexivity|].
    intros i Hi'. now apply Hg.
Qed.

Theorem multi_exp_zero_chunks order vec sc : multi_exp O inner 0 order vec sc = UB.
Proof. unfold multi_exp. replace (length vec <? 0)%nat with false; auto. Qed.

(** *** multi_exp_with_mixed_addition *)
Variable mixed : bool.
Hypothesis vok_special : forall v, vok v -> mixed = true -> g_is_special O v = true.
Variables s_is0 s_is1 : S -> bool.
Hypothesis His0 : forall s, sok s -> s_is0 s = (sval s =? 0).
Hypothesis His1 : forall s, sok s -> s_is1 s = (sval s =? 1).

Lemma split_scalars_spec vec : forall sc acc g p, length vec = length sc -> length g = length p ->
  Forall vok vec -> Forall sok sc -> ok acc -> Forall vok g -> Forall sok p ->
  exists acc' g' p', split_scalars O mixed s_is0 s_is1 vec sc acc g p = (acc', g', p') /\
    ok acc' /\ length g' = length p' /\ (length g' <= length g + length vec)%nat /\
    Forall vok g' /\ Forall sok p' /\
    add (den acc') (msum g' p') = add (den acc) (add (msum g p) (msum vec sc)).
Proof.
  induction vec as [|v vec IH]; intros [|s sc] acc g p L Lg Hv Hs Ha Hg Hp; try discriminate; cbn [split_scalars].
  - exists acc, g, p. cbn [length]. rewrite Nat.add_0_r. repeat (split; auto).
    unfold msum at 3. cbn. now rewrite A0r.
  - inversion Hv; inversion Hs; subst. rewrite msum_cons.
    rewrite His0, His1 by auto. cbn [length] in *.
    destruct (Z.eqb_spec (sval s) 0) as [E0|E0].
    + destruct (IH sc acc g p) as (a' & g' & p' & E & X1 & X2 & X3 & X4 & X5 & X6); auto.
      exists a', g', p'. rewrite E. split; auto. split; auto. split; auto. split; [lia|]. split; auto. split; auto.
      rewrite X6, E0, gmul_0. agroup_eq AG.
    + destruct (Z.eqb_spec (sval s) 1) as [E1|E1].
      * assert (Hadd : ok (if mixed then g_mixed_add O acc v else g_add O acc v) /\
          den (if mixed then g_mixed_add O acc v else g_add O acc v) = add (den acc) (den v)).
        { destruct mixed eqn:Em; [apply (go_mixed _ _ _ _ _ _ GO)|apply (go_add _ _ _ _ _ _ GO)]; auto. }
        destruct Hadd as [Oa Da].
        destruct (IH sc (if mixed then g_mixed_add O acc v else g_add O acc v) g p)
          as (a' & g' & p' & E & X1 & X2 & X3 & X4 & X5 & X6); auto.
        exists a', g', p'. rewrite E. split; auto. split; auto. split; auto. split; [lia|]. split; auto. split; auto.
        rewrite X6, Da, E1, (gmul_1 z add opp AG). agroup_eq AG.
      * destruct (IH sc acc (g ++ [v]) (p ++ [s])) as (a' & g' & p' & E & X1 & X2 & X3 & X4 & X5 & X6); auto.
        { rewrite !app_length. cbn. lia. }
        { apply Forall_app; auto. }
        { apply Forall_app; auto. }
        exists a', g', p'. rewrite E. split; auto. split; auto. split; auto.
        split; [rewrite app_length in X3; cbn in X3; lia|]. split; auto. split; auto.
        rewrite X6, msum_app by auto. rewrite msum_cons. unfold msum at 2. cbn [combine map nprod]. agroup_eq AG.
Qed.

Theorem multi_exp_mixed_spec chunks vec sc : (1 <= chunks)%nat -> length vec = length sc ->
  Z.of_nat (length vec) <= maxlen -> Forall vok vec -> Forall sok sc ->
  exists t, ok t /\ den t = msum vec sc /\
    forall order, Permutation order (seq 0 chunks) ->
      multi_exp_with_mixed_addition O inner mixed s_is0 s_is1 chunks order vec sc = Ok t.
Proof.
  intros Hc L Hm Hv Hs. unfold multi_exp_with_mixed_addition.
  replace (length vec =? length sc)%nat with true by (symmetry; now apply Nat.eqb_eq). cbn [assert_then].
  destruct (go_zero _ _ _ _ _ _ GO) as [Oz Dz].
  destruct (split_scalars_spec vec sc (g_zero O) [] []) as (a & g & p & E & X1 & X2 & X3 & X4 & X5 & X6); auto.
  rewrite E. destruct (multi_exp_spec chunks g p) as (t & Ot & Dt & Et); auto; [cbn [length] in X3; lia|].
  destruct (go_add _ _ _ _ _ _ GO a t X1 Ot) as [O1 D1].
  exists (g_add O a t). split; auto. split.
  - rewrite D1, Dt, X6, Dz. unfold msum at 1. cbn [combine map nprod]. agroup_eq AG.
  - intros order HP. rewrite Et by auto. reflexivity.
Qed.
End Chunks.

Lemma mixed_length_mismatch (inner : list T -> list S -> result T) mixed s0 s1 chunks order vec sc : length vec <> length sc ->
  multi_exp_with_mixed_addition O inner mixed s0 s1 chunks order vec sc = AssertFail.
Proof.
  intros H. unfold multi_exp_with_mixed_addition. replace (_ =? _)%nat with false; auto.
  symmetry. now apply Nat.eqb_neq.
Qed.

(** *** Fixed-base windows *)
Lemma window_row_spec n : forall gi go, ok gi -> ok go ->
  length (window_row O n gi go) = n /\
  forall i, (i < n)%nat -> exists t, nth_error (window_row O n gi go) i = Some t /\ ok t /\
    den t = add (den gi) (mul (Z.of_nat i) (den go)).
Proof.
  induction n; intros gi go Hi Ho; cbn [window_row length].
  - split; auto. intros i Hlt. lia.
  - destruct (go_add _ _ _ _ _ _ GO gi go Hi Ho) as [O1 D1].
    destruct (IHn _ go O1 Ho) as [L I]. split; [lia|]. intros [|i] Hlt.
    + exists gi. split; auto. split; auto. cbn [Z.of_nat]. rewrite gmul_0. now rewrite A0r.
    + destruct (I i ltac:(lia)) as (t & E & Ot & Dt). exists t. split; auto. split; auto.
      rewrite Dt, D1, Nat2Z.inj_succ, <- Z.add_1_r, (gmul_succ z add opp AG). agroup_eq AG.
Qed.
Lemma add_self_spec k : forall x, ok x ->
  ok (add_self_times O k x) /\ den (add_self_times O k x) = mul (2 ^ Z.of_nat k) (den x).
Proof.
  induction k as [|k IH]; intros x Hx; cbn [add_self_times].
  - split; auto. change (2 ^ Z.of_nat 0) with 1. now rewrite (gmul_1 z add opp AG).
  - destruct (go_add _ _ _ _ _ _ GO x x Hx Hx) as [O1 D1]. destruct (IH _ O1) as [O2 D2]. split; auto.
    rewrite D2, D1, <- (gmul_2 z add opp AG), <- (gmul_mul z add opp AG).
    f_equal. rewrite Nat2Z.inj_succ, Z.pow_succ_r by lia. ring.
Qed.

Lemma window_rows_spec window lastw rows : forall g, ok g ->
  length (window_rows O rows window lastw g) = rows /\
  forall o, (o < rows)%nat -> exists row, nth_error (window_rows O rows window lastw g) o = Some row /\
    forall i, (i < (if (o =? rows - 1)%nat then lastw else Z.to_nat (2 ^ Z.of_nat window)))%nat ->
    exists t, nth_error row i = Some t /\ ok t /\
      den t = mul (Z.of_nat i * 2 ^ (Z.of_nat o * Z.of_nat window)) (den g).
Proof.
  induction rows as [|r IH]; intros g Hg.
  - split; auto. intros o Ho. lia.
  - cbn [window_rows]. destruct (add_self_spec window g Hg) as [O1 D1].
    destruct (IH _ O1) as [L I]. split; [cbn [length]; lia|].
    intros [|o] Ho.
    + eexists; split; [reflexivity|]. cbn [Z.of_nat]. intros i Hi.
      destruct (go_zero _ _ _ _ _ _ GO) as [Oz Dz].
      set (cur := if (r =? 0)%nat then lastw else Z.to_nat (2 ^ Z.of_nat window)).
      assert (Hcur : (i < cur)%nat).
      { unfold cur. replace (Datatypes.S r - 1)%nat with r in Hi by lia. rewrite Nat.eqb_sym. exact Hi. }
      destruct (window_row_spec cur (g_zero O) g Oz Hg) as [Lr Ir].
      destruct (Ir i Hcur) as (t & Et & Ot & Dt). exists t.
      split; [rewrite nth_error_app1 by lia; exact Et|]. split; auto.
      rewrite Dt, Dz, A0l. f_equal. cbn. lia.
    + destruct (I o ltac:(lia)) as (row & Er & Hr). exists row. split; [exact Er|].
      intros i Hi. destruct (Hr i) as (t & Et & Ot & Dt).
      { replace (o =? r - 1)%nat with (Datatypes.S o =? Datatypes.S r - 1)%nat; auto.
        apply eq_true_iff_eq. rewrite !Nat.eqb_eq. lia. }
      exists t. split; auto. split; auto. rewrite Dt, D1, <- (gmul_mul z add opp AG). f_equal.
      replace (Z.of_nat (Datatypes.S o) * Z.of_nat window) with (Z.of_nat o * Z.of_nat window + Z.of_nat window) by lia.
      rewrite Z.pow_add_r by lia. ring.
Qed.

Lemma outerc_spec ss w : 0 < ss < 2 ^ 63 -> 1 <= w <= 32 ->
  let oc := window_outerc ss w in 1 <= oc /\ (oc - 1) * w < ss <= oc * w.
Proof.
  intros Hs Hw. unfold window_outerc, wrap64. rewrite Z.mod_small by (rewrite B_eq; lia).
  pose proof (Z.div_mod (ss + w - 1) w ltac:(lia)). pose proof (Z.mod_pos_bound (ss + w - 1) w ltac:(lia)).
  cbn zeta. split; [|lia]. apply Z.div_le_lower_bound; lia.
Qed.

Lemma windowed_loop_spec window table e g lastw rows : (window <= 32)%nat -> limbs e -> ok g ->
  (forall o, (o < rows)%nat -> exists row, nth_error table o = Some row /\
    forall i, (i < (if (o =? rows - 1)%nat then lastw else Z.to_nat (2 ^ Z.of_nat window)))%nat ->
    exists t, nth_error row i = Some t /\ ok t /\
      den t = mul (Z.of_nat i * 2 ^ (Z.of_nat o * Z.of_nat window)) (den g)) ->
  ((0 < rows)%nat -> val e / 2 ^ ((Z.of_nat rows - 1) * Z.of_nat window) < Z.of_nat lastw) ->
  forall todo outer res, (outer + todo = rows)%nat -> ok res ->
  den res = mul (val e mod 2 ^ (Z.of_nat outer * Z.of_nat window)) (den g) ->
  exists t, windowed_loop O outer todo window table e res = Ok t /\ ok t /\
    den t = mul (val e mod 2 ^ (Z.of_nat rows * Z.of_nat window)) (den g).
Proof.
  intros Hw L Hg HT HL. induction todo as [|t IH]; intros outer res Hr Or Dr; cbn [windowed_loop].
  - assert (Heq : outer = rows) by lia. rewrite Heq in Dr. eauto.
  - set (start := Z.of_nat outer * Z.of_nat window).
    assert (Hst : 0 <= start) by (unfold start; lia).
    rewrite (window_index_spec e start window 0 0) by (auto; cbn; now rewrite Z.mod_1_r).
    cbn [bind Nat.add]. destruct (HT outer ltac:(lia)) as (row & Er & Hrow).
    rewrite (vec_at_ok _ _ _ Er). cbn [bind].
    set (id := (val e / 2 ^ start) mod 2 ^ Z.of_nat window).
    assert (Hid : 0 <= id < 2 ^ Z.of_nat window) by (apply Z.mod_pos_bound, pow2_pos; lia).
    destruct (Hrow (Z.to_nat id)) as (x & Ex & Ox & Dx).
    { destruct (outer =? rows - 1)%nat eqn:Eo; [|lia]. apply Nat.eqb_eq in Eo.
      assert (Hq : val e / 2 ^ start < Z.of_nat lastw).
      { unfold start. replace (Z.of_nat outer) with (Z.of_nat rows - 1) by lia. apply HL. lia. }
      assert (id <= val e / 2 ^ start).
      { apply Z.mod_le; [|apply pow2_pos; lia]. apply Z.div_pos; [now apply val_nonneg|apply pow2_pos; lia]. }
      lia. }
    pose proof (vec_at_ok _ _ _ Ex) as Va. rewrite Z2Nat.id in Va by lia. rewrite Va. cbn [bind].
    destruct (go_add _ _ _ _ _ _ GO res x Or Ox) as [O1 D1].
    apply IH; auto; [lia|]. rewrite D1, Dr, Dx, <- (gmul_add z add opp AG). f_equal.
    rewrite Z2Nat.id by lia. fold start.
    replace (Z.of_nat (Datatypes.S outer) * Z.of_nat window) with (start + Z.of_nat window) by (unfold start; lia).
    rewrite Z.pow_add_r, Z.rem_mul_r by (try apply Z.pow_nonzero; try apply pow2_pos; lia).
    fold id. ring.
Qed.

Theorem windowed_exp_spec ss w g s : 0 < ss < 2 ^ 63 -> 1 <= w <= 32 -> ok g ->
  limbs (as_bigint s) -> sval s < 2 ^ ss ->
  exists table t, get_window_table O ss w g = Ok table /\
    windowed_exp O as_bigint ss w table s = Ok t /\ ok t /\ den t = mul (sval s) (den g).
Proof.
  intros Hs Hw Hg L Hv. destruct (outerc_spec ss w Hs Hw) as (Ho1 & Ho2).
  unfold get_window_table, windowed_exp.
  replace (64 <=? w) with false by (symmetry; apply Z.leb_gt; lia).
  replace (w =? 0) with false by (symmetry; apply Z.eqb_neq; lia). cbn [orb].
  set (oc := window_outerc ss w) in *.
  assert (Esh : wrap64 (ss - wrap64 ((oc - 1) * w)) = ss - (oc - 1) * w).
  { unfold wrap64. rewrite Zminus_mod_idemp_r. apply Z.mod_small. rewrite B_eq. lia. }
  rewrite Esh. set (sh := ss - (oc - 1) * w) in *.
  assert (Hsh : 1 <= sh <= w) by (unfold sh; lia).
  replace (64 <=? sh) with false by (symmetry; apply Z.leb_gt; lia).
  destruct (window_rows_spec (Z.to_nat w) (Z.to_nat (2 ^ sh)) (Z.to_nat oc) g Hg) as [Lt It].
  set (table := window_rows O (Z.to_nat oc) (Z.to_nat w) (Z.to_nat (2 ^ sh)) g) in *.
  destruct (It 0%nat ltac:(lia)) as (row & Er & Hrow).
  assert (P1 : 0 < 2 ^ sh) by (apply pow2_pos; lia).
  assert (P2 : 0 < 2 ^ Z.of_nat (Z.to_nat w)) by (apply pow2_pos; lia).
  destruct (Hrow 0%nat) as (x & Ex & Ox & Dx); [destruct (_ =? _)%nat; lia|].
  assert (V0 : vec_at table 0 = Ok row) by (apply (vec_at_ok table 0); auto).
  assert (V1 : vec_at row 0 = Ok x) by (apply (vec_at_ok row 0); auto).
  pose proof (val_nonneg _ L) as Hnn.
  destruct (windowed_loop_spec (Z.to_nat w) table (as_bigint s) g (Z.to_nat (2 ^ sh)) (Z.to_nat oc))
    with (todo := Z.to_nat oc) (outer := 0%nat) (res := x) as (t & Et & Ot & Dt); auto; try lia.
  - intros _. rewrite !Z2Nat.id by lia. apply Z.div_lt_upper_bound; [apply pow2_pos; nia|].
    rewrite <- Z.pow_add_r by nia. replace ((oc - 1) * w + sh) with ss by (unfold sh; lia). exact Hv.
  - rewrite Dx. f_equal. cbn. now rewrite Z.mod_1_r.
  - exists table, t. split; auto. rewrite V0. cbn [bind]. rewrite V1. cbn [bind].
    split; auto. split; auto. rewrite Dt. f_equal. rewrite !Z2Nat.id by lia.
    apply Z.mod_small. split; auto. eapply Z.lt_le_trans; [exact Hv|]. apply Z.pow_le_mono_r; lia.
Qed.

Lemma exp_window_pos rt n : 1 <= exp_window rt n.
Proof. induction rt; cbn [exp_window]; [lia|]. destruct (_ && _); lia. Qed.
Lemma get_exp_window_size_pos lm t n : 1 <= get_exp_window_size lm t n.
Proof.
  unfold get_exp_window_size. destruct t; [destruct lm; lia|].
  pose proof (exp_window_pos (rev (z0 :: t)) n). destruct lm; lia.
Qed.

(** *** Batches *)
Lemma window_table_ok ss w g : 0 < ss < 2 ^ 63 -> 1 <= w <= 32 -> ok g ->
  exists table row x, get_window_table O ss w g = Ok table /\ vec_at table 0 = Ok row /\ vec_at row 0 = Ok x.
Proof.
  intros Hs Hw Hg. destruct (outerc_spec ss w Hs Hw) as (Ho1 & Ho2).
  unfold get_window_table.
  replace (64 <=? w) with false by (symmetry; apply Z.leb_gt; lia).
  replace (w =? 0) with false by (symmetry; apply Z.eqb_neq; lia). cbn [orb].
  set (oc := window_outerc ss w) in *.
  assert (Esh : wrap64 (ss - wrap64 ((oc - 1) * w)) = ss - (oc - 1) * w).
  { unfold wrap64. rewrite Zminus_mod_idemp_r. apply Z.mod_small. rewrite B_eq. lia. }
  rewrite Esh. set (sh := ss - (oc - 1) * w) in *.
  assert (Hsh : 1 <= sh <= w) by (unfold sh; lia).
  replace (64 <=? sh) with false by (symmetry; apply Z.leb_gt; lia).
  destruct (window_rows_spec (Z.to_nat w) (Z.to_nat (2 ^ sh)) (Z.to_nat oc) g Hg) as [Lt It].
  set (table := window_rows O (Z.to_nat oc) (Z.to_nat w) (Z.to_nat (2 ^ sh)) g) in *.
  destruct (It 0%nat ltac:(lia)) as (row & Er & Hrow).
  assert (P1 : 0 < 2 ^ sh) by (apply pow2_pos; lia).
  assert (P2 : 0 < 2 ^ Z.of_nat (Z.to_nat w)) by (apply pow2_pos; lia).
  destruct (Hrow 0%nat) as (x & Ex & _); [destruct (_ =? _)%nat; lia|].
  exists table, row, x. split; auto.
  split; [apply (vec_at_ok table 0); auto|apply (vec_at_ok row 0); auto].
Qed.

Lemma schedule_map (f : S -> result T) v (x0 : T) :
  Forall (fun s => exists t, f s = Ok t) v ->
  exists r, (forall order x0, Permutation order (seq 0 (length v)) ->
    run_schedule (fun i => match nth_error v i with Some s => f s | None => UB end) order
      (repeat x0 (length v)) = Ok r) /\
    Forall2 (fun s t => f s = Ok t) v r.
Proof.
  intros H.
  set (g := fun i => match nth_error v i with Some s => get_ok x0 (f s) | None => x0 end).
  exists (map g (seq 0 (length v))). split.
  - intros order' x1 HP. apply (run_schedule_all _ g); auto. intros i Hi. unfold g.
    destruct (nth_error v i) eqn:E; [|apply nth_error_None in E; lia].
    rewrite Forall_forall in H. destruct (H s) as (t & Et); [eapply nth_error_In; eauto|].
    rewrite Et. reflexivity.
  - assert (X : map g (seq 0 (length v)) = map (fun s => get_ok x0 (f s)) v).
    { apply nth_error_ext. intros i. rewrite nth_error_map_seq, nth_error_map. unfold g.
      destruct (i <? length v)%nat eqn:E.
      - apply Nat.ltb_lt in E. destruct (nth_error v i) eqn:E'; auto. apply nth_error_None in E'. lia.
      - apply Nat.ltb_ge in E. apply nth_error_None in E. now rewrite E. }
    rewrite X. clear X g. induction H as [|s v (t & Et) H IH]; cbn [map]; constructor; auto.
    rewrite Et. reflexivity.
Qed.

(** batch_exp: every completion order gives the list of the s_i * g. *)
Theorem batch_exp_spec ss w g v : 0 < ss < 2 ^ 63 -> 1 <= w <= 32 -> ok g ->
  Forall (fun s => limbs (as_bigint s) /\ sval s < 2 ^ ss) v ->
  exists table r, get_window_table O ss w g = Ok table /\
    (forall order, Permutation order (seq 0 (length v)) -> batch_exp O as_bigint ss w table order v = Ok r) /\
    Forall2 (fun s t => windowed_exp O as_bigint ss w table s = Ok t /\ ok t /\ den t = mul (sval s) (den g)) v r.
Proof.
  intros Hs Hw Hg Hv. destruct (window_table_ok ss w g Hs Hw Hg) as (table & row & x & Et & E0 & E1).
  assert (X : Forall (fun s => exists t, windowed_exp O as_bigint ss w table s = Ok t /\ ok t /\
     den t = mul (sval s) (den g)) v).
  { eapply Forall_impl; [|exact Hv]. intros s [L1 L2].
    destruct (windowed_exp_spec ss w g s) as (t' & t & Et' & Ew & Ot & Dt); auto.
    rewrite Et in Et'. injection Et' as <-. eauto. }
  destruct (schedule_map (windowed_exp O as_bigint ss w table) v x) as (r & Er & Fr); auto.
  { eapply Forall_impl; [|exact X]. intros s (t & H & _). eauto. }
  exists table, r. split; auto. split.
  - intros order HP. unfold batch_exp. rewrite E0. cbn [bind]. rewrite E1. cbn [bind]. now apply Er.
  - clear -X Fr. induction Fr; auto. inversion X as [|? ? (t & Et & Ot & Dt)]; subst.
    constructor; auto. split; auto. rewrite H in Et. injection Et as ->. auto.
Qed.

Theorem batch_exp_with_coeff_spec (smul : S -> S -> S) coeff ss w g v : 0 < ss < 2 ^ 63 -> 1 <= w <= 32 -> ok g ->
  Forall (fun s => limbs (as_bigint (smul coeff s)) /\ sval (smul coeff s) < 2 ^ ss) v ->
  exists table r, get_window_table O ss w g = Ok table /\
    (forall order, Permutation order (seq 0 (length v)) ->
       batch_exp_with_coeff O as_bigint smul ss w table order coeff v = Ok r) /\
    Forall2 (fun s t => windowed_exp O as_bigint ss w table (smul coeff s) = Ok t /\ ok t /\
      den t = mul (sval (smul coeff s)) (den g)) v r.
Proof.
  intros Hs Hw Hg Hv. destruct (window_table_ok ss w g Hs Hw Hg) as (table & row & x & Et & E0 & E1).
  assert (X : Forall (fun s => exists t, windowed_exp O as_bigint ss w table (smul coeff s) = Ok t /\ ok t /\
     den t = mul (sval (smul coeff s)) (den g)) v).
  { eapply Forall_impl; [|exact Hv]. intros s [L1 L2].
    destruct (windowed_exp_spec ss w g (smul coeff s)) as (t' & t & Et' & Ew & Ot & Dt); auto.
    rewrite Et in Et'. injection Et' as <-. eauto. }
  destruct (schedule_map (fun s => windowed_exp O as_bigint ss w table (smul coeff s)) v x)
    as (r & Er & Fr); auto.
  { eapply Forall_impl; [|exact X]. intros s (t & H & _). eauto. }
  exists table, r. split; auto. split.
  - intros order HP. unfold batch_exp_with_coeff. rewrite E0. cbn [bind]. rewrite E1. cbn [bind]. now apply Er.
  - clear -X Fr. induction Fr; auto. inversion X as [|? ? (t & Et & Ot & Dt)]; subst.
    constructor; auto. split; auto. rewrite H in Et. injection Et as ->. auto.
Qed.
End Multiexp.
