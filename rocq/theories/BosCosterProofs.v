(** Bos-Coster multi-exponentiation: the heap is restored by every round, the
    weighted sum is invariant, and the loop terminates. *)
From Coq Require Import ZArith List Lia Bool Permutation.
From Verif Require Import Result Limbs LimbsProofs BigintModel BigintProofs UtilsModel UtilsProofs
  FpModel FpIoProofs Algebra AlgorithmsProofs GroupOps GroupProofs WnafModel WnafProofs MultiexpModel MultiexpProofs.
Import ListNotations.
Open Scope Z_scope.
Open Scope result_scope.

Notation oexp := (nat * list Z)%type.
Notation key x := (val (snd x)).

Lemma oexp_lt_spec a b : oexp_lt a b = (key a <? key b).
Proof.
  unfold oexp_lt. destruct (mpn_cmp_spec (snd a) (snd b)); symmetry;
    [apply Z.ltb_ge|apply Z.ltb_lt|apply Z.ltb_ge]; lia.
Qed.

(** ** Heaps *)
Definition child (i j : nat) : Prop := (j = 2 * i + 1 \/ j = 2 * i + 2)%nat.
(** No element is larger than its parent: what std::make_heap establishes. *)
Definition is_heap (q : list oexp) : Prop :=
  forall i j x y, child i j -> nth_error q i = Some x -> nth_error q j = Some y -> oexp_lt x y = false.
Definition make_heap_ok (mk : list oexp -> list oexp) : Prop :=
  forall l, Permutation (mk l) l /\ is_heap (mk l).

Section Heap.
Notation K q i := (match nth_error q i with Some x => key x | None => 0 end).
Lemma is_heap_iff (q : list oexp) : is_heap q <->
  forall i j, child i j -> (j < length q)%nat -> K q j <= K q i.
Proof.
  split.
  - intros H i j Hc Hj. destruct (nth_error q i) as [x|] eqn:Ei.
    + destruct (nth_error q j) as [y|] eqn:Ej; [|apply nth_error_None in Ej; lia].
      pose proof (H i j x y Hc Ei Ej) as Hl. rewrite oexp_lt_spec in Hl. apply Z.ltb_ge in Hl. exact Hl.
    + apply nth_error_None in Ei. unfold child in Hc. lia.
  - intros H i j x y Hc Ei Ej. assert (Hj : (j < length q)%nat) by (apply nth_error_Some; congruence).
    specialize (H i j Hc Hj). rewrite Ei, Ej in H. rewrite oexp_lt_spec. apply Z.ltb_ge. lia.
Qed.

Lemma q_at_ok (q : list oexp) i : (i < length q)%nat -> exists x, nth_error q i = Some x /\ q_at q i = Ok x.
Proof.
  intros H. unfold q_at. destruct (nth_error q i) eqn:E; [eauto|]. apply nth_error_None in E. lia.
Qed.

Lemma upd_perm {A} (l : list A) i x y : nth_error l i = Some x -> Permutation (x :: upd l i y) (y :: l).
Proof.
  revert i; induction l as [|a l IH]; intros [|i] H; try discriminate; cbn [nth_error upd] in *.
  - injection H as ->. apply perm_swap.
  - etransitivity; [apply perm_swap|]. etransitivity; [apply perm_skip, IH, H|]. apply perm_swap.
Qed.

Lemma swap_spec (q : list oexp) i j : (i < length q)%nat -> (j < length q)%nat -> i <> j ->
  exists q', swap q i j = Ok q' /\ length q' = length q /\ Permutation q' q /\
    K q' i = K q j /\ K q' j = K q i /\ forall k, k <> i -> k <> j -> K q' k = K q k.
Proof.
  intros Hi Hj Hij. destruct (q_at_ok q i Hi) as (x & Ex & Qx). destruct (q_at_ok q j Hj) as (y & Ey & Qy).
  unfold swap. rewrite Qx, Qy. cbn [bind]. eexists; split; [reflexivity|].
  rewrite !upd_length. split; auto. split; [|split; [|split]].
  - apply (Permutation_cons_inv (a := y)).
    etransitivity; [apply upd_perm|].
    + rewrite nth_error_upd by auto. replace (j =? i)%nat with false; auto. symmetry. now apply Nat.eqb_neq; auto.
    + now apply upd_perm.
  - rewrite nth_error_upd by (rewrite upd_length; auto). replace (i =? j)%nat with false by (symmetry; now apply Nat.eqb_neq).
    rewrite nth_error_upd by auto. rewrite Nat.eqb_refl. now rewrite Ey.
  - rewrite nth_error_upd by (rewrite upd_length; auto). rewrite Nat.eqb_refl. now rewrite Ex.
  - intros k Hk1 Hk2. rewrite nth_error_upd by (rewrite upd_length; auto).
    replace (k =? j)%nat with false by (symmetry; now apply Nat.eqb_neq).
    rewrite nth_error_upd by auto. replace (k =? i)%nat with false by (symmetry; now apply Nat.eqb_neq). reflexivity.
Qed.

Lemma child_neq i j : child i j -> (i < j)%nat.
Proof. unfold child. lia. Qed.
Lemma child_fun i i' j : child i j -> child i' j -> i = i'.
Proof. unfold child. lia. Qed.

(** Heap except for the element at [pos], whose parent dominates its children. *)
Definition hole (q : list oexp) (pos : nat) : Prop :=
  (forall i j, child i j -> (j < length q)%nat -> i <> pos -> j <> pos -> K q j <= K q i) /\
  (forall i j, child i pos -> child pos j -> (j < length q)%nat -> K q j <= K q i).
(** Heap except that the element at [pos] may exceed its parent. *)
Definition high (q : list oexp) (pos : nat) : Prop :=
  (forall i j, child i j -> (j < length q)%nat -> j <> pos -> K q j <= K q i) /\
  (forall i j, child i pos -> child pos j -> (j < length q)%nat -> K q j <= K q i).

Lemma hole_step q pos c o q' : hole q pos -> child pos c -> child pos o -> c <> o ->
  (c < length q)%nat -> (o < length q)%nat -> K q o <= K q c ->
  length q' = length q -> K q' pos = K q c -> K q' c = K q pos ->
  (forall k, k <> pos -> k <> c -> K q' k = K q k) -> hole q' c.
Proof.
  intros [H1 H2] Cc Co Hne Lc Lo Hmax L E1 E2 E3. pose proof (child_neq _ _ Cc).
  split.
  - intros i j Hij Lj Hi Hj. pose proof (child_neq _ _ Hij). rewrite L in Lj.
    destruct (Nat.eq_dec i pos) as [->|Hip].
    + rewrite E1, E3 by lia. assert (j = o) by (unfold child in *; lia). subst. auto.
    + destruct (Nat.eq_dec j pos) as [->|Hjp].
      * rewrite E1, E3 by lia. now apply (H2 i c).
      * rewrite !E3 by lia. now apply H1.
  - intros i j Hic Hcj Lj. rewrite L in Lj. pose proof (child_neq _ _ Hcj).
    rewrite (child_fun _ _ _ Hic Cc). rewrite E1, E3 by lia. apply H1; auto; lia.
Qed.

Lemma sift_down_spec : forall fuel q pos, (length q - pos < fuel)%nat -> (pos < length q)%nat ->
  Nat.odd (length q) = true -> hole q pos ->
  exists q' pos', sift_down fuel q pos = Ok (q', pos') /\ length q' = length q /\ Permutation q' q /\
    (pos' < length q')%nat /\ high q' pos'.
Proof.
  induction fuel as [|f IH]; intros q pos Hf Hp Ho Hh; [lia|]. cbn [sift_down].
  destruct (2 * pos + 2 <? length q)%nat eqn:E.
  - apply Nat.ltb_lt in E.
    destruct (q_at_ok q (2 * pos + 1) ltac:(lia)) as (l & El & Ql).
    destruct (q_at_ok q (2 * pos + 2) ltac:(lia)) as (r & Er & Qr).
    rewrite Ql, Qr. cbn [bind]. rewrite oexp_lt_spec.
    destruct (Z.ltb_spec (key l) (key r)) as [C|C].
    + destruct (swap_spec q pos (2 * pos + 2)) as (q' & Es & Ls & Ps & S1 & S2 & S3); try lia.
      rewrite Es. cbn [bind].
      destruct (IH q' (2 * pos + 2)%nat) as (q'' & p'' & Ed & Ld & Pd & Lp & Hd); try lia; try (rewrite Ls; auto).
      { apply (hole_step q pos (2 * pos + 2) (2 * pos + 1)); auto; unfold child; try lia. rewrite El, Er. lia. }
      exists q'', p''. split; auto. split; [lia|]. split; [now rewrite Pd|]. auto.
    + destruct (swap_spec q pos (2 * pos + 1)) as (q' & Es & Ls & Ps & S1 & S2 & S3); try lia.
      rewrite Es. cbn [bind].
      destruct (IH q' (2 * pos + 1)%nat) as (q'' & p'' & Ed & Ld & Pd & Lp & Hd); try lia; try (rewrite Ls; auto).
      { apply (hole_step q pos (2 * pos + 1) (2 * pos + 2)); auto; unfold child; try lia. rewrite El, Er. lia. }
      exists q'', p''. split; auto. split; [lia|]. split; [now rewrite Pd|]. auto.
  - apply Nat.ltb_ge in E. exists q, pos. split; auto. split; auto. split; auto. split; auto.
    apply Nat.odd_spec in Ho as [m Hm]. destruct Hh as [H1 H2]. split; auto.
    intros i j Hij Lj Hj. apply H1; auto. intros ->. unfold child in Hij. lia.
Qed.

Lemma sift_up_spec : forall fuel q pos, (pos < fuel)%nat -> (pos < length q)%nat -> high q pos ->
  exists q', sift_up fuel q pos = Ok q' /\ length q' = length q /\ Permutation q' q /\ is_heap q'.
Proof.
  induction fuel as [|f IH]; intros q pos Hf Hp [H1 H2]; [lia|]. cbn [sift_up].
  destruct (0 <? pos)%nat eqn:E0.
  - apply Nat.ltb_lt in E0. set (p := ((pos - 1) / 2)%nat).
    assert (Cp : child p pos).
    { unfold p, child. pose proof (Nat.div_mod (pos - 1) 2 ltac:(lia)).
      pose proof (Nat.mod_upper_bound (pos - 1) 2 ltac:(lia)). lia. }
    pose proof (child_neq _ _ Cp) as Hlt.
    destruct (q_at_ok q p ltac:(lia)) as (x & Ex & Qx).
    destruct (q_at_ok q pos Hp) as (y & Ey & Qy). rewrite Qx, Qy. cbn [bind]. rewrite oexp_lt_spec.
    destruct (Z.ltb_spec (key x) (key y)) as [C|C].
    + destruct (swap_spec q pos p) as (q' & Es & Ls & Ps & S1 & S2 & S3); try lia.
      rewrite Es. cbn [bind].
      destruct (IH q' p) as (q'' & Eu & Lu & Pu & Hu); try lia.
      { split.
        - intros i j Hij Lj Hj. rewrite Ls in Lj. pose proof (child_neq _ _ Hij).
          destruct (Nat.eq_dec i p) as [->|Hip].
          + rewrite S2. destruct (Nat.eq_dec j pos) as [->|Hjp].
            * rewrite S1, Ex, Ey. lia.
            * rewrite S3 by lia. pose proof (H1 p j Hij Lj Hjp) as X. rewrite Ex in X. rewrite Ey. lia.
          + assert (j <> pos) by (intros ->; apply Hip; eapply child_fun; eauto).
            destruct (Nat.eq_dec i pos) as [->|Hipos].
            * rewrite S1, S3 by lia. now apply H2.
            * rewrite !S3 by lia. now apply H1.
        - intros i j Hip Hpj Lj. rewrite Ls in Lj. pose proof (child_neq _ _ Hip). pose proof (child_neq _ _ Hpj).
          pose proof (H1 i p Hip ltac:(lia) ltac:(lia)) as X.
          rewrite (S3 i) by lia. destruct (Nat.eq_dec j pos) as [->|Hjp].
          + rewrite S1. exact X.
          + rewrite S3 by lia. pose proof (H1 p j Hpj Lj Hjp). lia. }
      exists q''. split; auto. split; [lia|]. split; auto. now rewrite Pu.
    + exists q. split; auto. split; auto. split; auto. apply is_heap_iff. intros i j Hij Lj.
      destruct (Nat.eq_dec j pos) as [->|Hj]; auto. rewrite (child_fun _ _ _ Hij Cp), Ex, Ey. lia.
  - apply Nat.ltb_ge in E0. exists q. split; auto. split; auto. split; auto.
    apply is_heap_iff. intros i j Hij Lj. apply H1; auto. pose proof (child_neq _ _ Hij). lia.
Qed.

Lemma parent_of j : (0 < j)%nat -> exists i, child i j.
Proof.
  intros H. exists ((j - 1) / 2)%nat. unfold child. pose proof (Nat.div_mod (j - 1) 2 ltac:(lia)).
  pose proof (Nat.mod_upper_bound (j - 1) 2 ltac:(lia)). lia.
Qed.
Lemma heap_root q : is_heap q -> forall j, (j < length q)%nat -> K q j <= K q 0%nat.
Proof.
  intros H. rewrite is_heap_iff in H. induction j as [j IH] using (well_founded_induction lt_wf). intros Lj.
  destruct (Nat.eq_dec j 0) as [->|Hj]; [lia|]. destruct (parent_of j ltac:(lia)) as [i Hi].
  pose proof (child_neq _ _ Hi). pose proof (H i j Hi Lj). specialize (IH i ltac:(lia) ltac:(lia)). lia.
Qed.
Lemma heap_second q : is_heap q -> forall j, (0 < j < length q)%nat ->
  K q j <= Z.max (K q 1%nat) (K q 2%nat).
Proof.
  intros H. rewrite is_heap_iff in H. induction j as [j IH] using (well_founded_induction lt_wf). intros Lj.
  destruct (parent_of j ltac:(lia)) as [i Hi].
  pose proof (child_neq _ _ Hi). destruct (Nat.eq_dec i 0) as [->|Hi0].
  - unfold child in Hi. assert (j = 1 \/ j = 2)%nat as [-> | ->] by lia; lia.
  - pose proof (H i j Hi ltac:(lia)). specialize (IH i ltac:(lia) ltac:(lia)). lia.
Qed.
Lemma heap_app_zero q i e : is_heap q -> Forall (fun x => limbs (snd x)) q -> val e = 0 -> is_heap (q ++ [(i, e)]).
Proof.
  intros H F He. rewrite is_heap_iff in *. intros a b Hab Lb. rewrite app_length in Lb. cbn [length] in Lb.
  pose proof (child_neq _ _ Hab).
  rewrite (nth_error_app1 q [(i, e)] (n := a)) by lia.
  destruct (Nat.eq_dec b (length q)) as [->|Hb].
  - rewrite nth_error_app2, Nat.sub_diag by lia. cbn [nth_error snd]. rewrite He.
    destruct (nth_error q a) as [x|] eqn:Ea; [|lia]. apply nth_error_In in Ea.
    rewrite Forall_forall in F. apply val_nonneg. now apply F.
  - rewrite nth_error_app1 by lia. apply H; auto; lia.
Qed.
End Heap.

Lemma nprod_perm {G} z (add : G -> G -> G) : monoid_laws z add -> (forall x y, add x y = add y x) ->
  forall l l', Permutation l l' -> nprod z add l = nprod z add l'.
Proof.
  intros M C l l' HP. induction HP; cbn [nprod]; auto; try congruence.
  rewrite !(ml_assoc _ _ M). f_equal. apply C.
Qed.

Section BosCoster.
Context {T G S : Type} (O : gops T) (ok : T -> Prop) (den : T -> G)
  (z : G) (add : G -> G -> G) (opp : G -> G).
Hypothesis GO : gops_ok O ok den z add opp.
Notation mul := (gmul z add opp).
Let AG := go_group _ _ _ _ _ _ GO.
Variable as_bigint : S -> list Z.
Variable tbl : list Z.
Hypothesis Htbl : (length tbl <= 29)%nat.
Variable nl : nat.
Hypothesis Hnl : (1 <= nl)%nat.
Variable make_heap : list oexp -> list oexp.
Hypothesis MH : make_heap_ok make_heap.
Notation A0r := (ag_0_r z add opp AG).
Notation A0l := (ag_0_l z add opp AG).

Definition gden (g : list T) (i : nat) : G := match nth_error g i with Some t => den t | None => z end.
(** The weighted sum held by the heap. *)
Definition qsum (g : list T) (q : list oexp) : G :=
  nprod z add (map (fun x => mul (key x) (gden g (fst x))) q).
Definition esum (q : list oexp) : Z := fold_right (fun x s => key x + s) 0 q.
Definition eok (x : oexp) : Prop := limbs (snd x) /\ length (snd x) = nl /\ 2 * key x < Bn nl.

Lemma qsum_perm g q q' : Permutation q q' -> qsum g q = qsum g q'.
Proof.
  intros H. apply nprod_perm; [apply AG|apply (ag_commut z add opp AG)|]. now apply Permutation_map.
Qed.
Lemma esum_perm q q' : Permutation q q' -> esum q = esum q'.
Proof. induction 1; unfold esum in *; cbn [fold_right] in *; lia. Qed.
Lemma esum_nonneg q : Forall eok q -> 0 <= esum q.
Proof.
  induction 1 as [|x q (L & _) F IH]; cbn [esum fold_right]; [lia|]. fold (esum q).
  pose proof (val_nonneg _ L). lia.
Qed.
Lemma qsum_zero g q : Forall (fun x => key x = 0) q -> qsum g q = z.
Proof.
  induction 1 as [|x q E F IH]; auto. unfold qsum. cbn [map nprod]. fold (qsum g q).
  now rewrite IH, E, gmul_0, A0l.
Qed.
Lemma qsum_upd g q i t : ~ In i (map fst q) -> (i < length g)%nat -> qsum (upd g i t) q = qsum g q.
Proof.
  intros Hi Hl. unfold qsum. f_equal. apply map_ext_in. intros x Hx. f_equal. unfold gden.
  rewrite nth_error_upd by auto. replace (fst x =? i)%nat with false; auto.
  symmetry. apply Nat.eqb_neq. intros <-. apply Hi. now apply in_map.
Qed.

Record inv (q : list oexp) (g : list T) : Prop := {
  i_len : length q = length g;
  i_odd : Nat.odd (length q) = true;
  i_three : (3 <= length q)%nat;
  i_heap : is_heap q;
  i_eok : Forall eok q;
  i_idx : Permutation (map fst q) (seq 0 (length g));
  i_g : Forall ok g }.

Lemma opt_ok v e bits : ok v -> eok e ->
  exists t, opt_window_wnaf_exp O tbl v (snd e) bits = Ok t /\ ok t /\ den t = mul (key e) (den v).
Proof.
  intros Hv (L & Le & Hs). apply (opt_window_wnaf_exp_spec O ok den z add opp GO); auto; [lia|].
  left. eapply wnaf_safe; eauto; lia.
Qed.

Lemma g_at_ok g i : (i < length g)%nat -> Forall ok g -> exists t, g_at g i = Ok t /\ ok t /\ gden g i = den t.
Proof.
  intros H F. unfold g_at, gden. destruct (nth_error g i) eqn:E; [|apply nth_error_None in E; lia].
  exists t. split; auto. split; auto. rewrite Forall_forall in F. apply F. eapply nth_error_In; eauto.
Qed.

Lemma round_heap q x : is_heap q -> Nat.odd (length q) = true -> (0 < length q)%nat ->
  exists q1 pos q2, sift_down (length (upd q 0 x) + 1) (upd q 0 x) 0 = Ok (q1, pos) /\
    sift_up (length q1 + 1) q1 pos = Ok q2 /\ is_heap q2 /\ Permutation q2 (upd q 0 x) /\ length q2 = length q.
Proof.
  intros H Ho Hl.
  destruct (sift_down_spec (length (upd q 0 x) + 1) (upd q 0 x) 0) as (q1 & pos & E1 & L1 & P1 & Lp & Hh);
    try (rewrite upd_length); try lia; auto.
  { rewrite is_heap_iff in H. split.
    - intros i j Hij Lj Hi Hj. rewrite upd_length in Lj. rewrite !nth_error_upd by auto.
      replace (i =? 0)%nat with false by (symmetry; now apply Nat.eqb_neq).
      replace (j =? 0)%nat with false by (symmetry; now apply Nat.eqb_neq). now apply H.
    - intros i j Hi. apply child_neq in Hi. lia. }
  destruct (sift_up_spec (length q1 + 1) q1 pos) as (q2 & E2 & L2 & P2 & H2); try lia; auto.
  exists q1, pos, q2. rewrite upd_length in *. split; auto. split; auto. split; auto.
  split; [now rewrite P2|lia].
Qed.

Lemma in_positions (q : list oexp) i x : nth_error q i = Some x -> (0 < i)%nat ->
  exists a rest, nth_error q 0 = Some a /\ Permutation q (a :: x :: rest) /\
    forall y, Permutation (upd q 0 y) (y :: x :: rest).
Proof.
  intros Hi H0. destruct q as [|a q]; [destruct i; discriminate|]. destruct i as [|i]; [lia|].
  cbn [nth_error] in *. apply nth_error_split in Hi as (l1 & l2 & -> & _).
  exists a, (l1 ++ l2). split; auto. assert (P : Permutation (l1 ++ x :: l2) (x :: l1 ++ l2)).
  { symmetry. apply Permutation_middle. }
  split; [now apply perm_skip|]. intros y. cbn [upd]. now apply perm_skip.
Qed.

Theorem bos_coster_loop_spec : forall n q g res, inv q g -> ok res -> esum q <= Z.of_nat n ->
  exists t, ok t /\ den t = add (den res) (qsum g q) /\
    forall fuel, (n < fuel)%nat -> bos_coster_loop O tbl fuel q g res = Ok t.
Proof.
  induction n as [n IH] using (well_founded_induction lt_wf). intros q g res I Hr Hn.
  pose proof I as [IL IO I3 IH' IE II IG].
  destruct (q_at_ok q 0 ltac:(lia)) as (a & Ea & Qa).
  destruct (q_at_ok q 1 ltac:(lia)) as (x1 & E1 & Q1).
  destruct (q_at_ok q 2 ltac:(lia)) as (x2 & E2 & Q2).
  set (b := if oexp_lt x1 x2 then x2 else x1).
  assert (Hb : exists k, (0 < k)%nat /\ nth_error q k = Some b /\ key b = Z.max (key x1) (key x2)).
  { unfold b. rewrite oexp_lt_spec. destruct (Z.ltb_spec (key x1) (key x2)).
    - exists 2%nat. split; [lia|]. split; auto. lia.
    - exists 1%nat. split; [lia|]. split; auto. lia. }
  destruct Hb as (kb & Hkb & Eb & Kb).
  destruct (in_positions q kb b Eb Hkb) as (a' & rest & Ea' & Pq & Pu).
  rewrite Ea in Ea'. injection Ea' as <-.
  assert (EA : eok a) by (rewrite Forall_forall in IE; apply IE; eapply nth_error_In; eauto).
  assert (EB : eok b) by (rewrite Forall_forall in IE; apply IE; eapply nth_error_In; eauto).
  assert (ER : Forall eok rest).
  { pose proof (Permutation_Forall Pq IE) as IE2. inversion IE2 as [|? ? ? X]. now inversion X. }
  assert (ND : NoDup (fst a :: fst b :: map fst rest)).
  { eapply Permutation_NoDup; [|apply (seq_NoDup (length g) 0)].
    rewrite <- II. apply (Permutation_map fst) in Pq. exact Pq. }
  assert (Bd : forall x, In x q -> (fst x < length g)%nat).
  { intros x Hx. apply (in_map fst) in Hx. apply (Permutation_in _ II) in Hx. apply in_seq in Hx. lia. }
  assert (Ba : (fst a < length g)%nat) by (apply Bd; eapply nth_error_In; eauto).
  assert (Bb : (fst b < length g)%nat) by (apply Bd; eapply nth_error_In; eauto).
  destruct (g_at_ok g (fst a) Ba IG) as (ga & Ga & Oga & Dga).
  destruct (g_at_ok g (fst b) Bb IG) as (gb & Gb & Ogb & Dgb).
  assert (Hmax : key b <= key a).
  { assert (Lk : (kb < length q)%nat) by (apply nth_error_Some; congruence).
    pose proof (heap_root q IH' kb Lk) as X. rewrite Eb, Ea in X. exact X. }
  pose proof (val_nonneg _ (proj1 EB)) as NB. pose proof (esum_nonneg _ ER) as NR.
  assert (Sq : esum q = key a + (key b + esum rest)) by (rewrite (esum_perm _ _ Pq); reflexivity).
  assert (Qq : qsum g q = add (mul (key a) (den ga)) (add (mul (key b) (den gb)) (qsum g rest))).
  { rewrite (qsum_perm g _ _ Pq). unfold qsum. cbn [map nprod]. now rewrite Dga, Dgb. }
  destruct (opt_ok ga a (bigint_num_bits (snd a)) Oga EA) as (ta & Ta & Ota & Dta).
  destruct (bigint_is_zero (snd b)) eqn:Ez.
  - (* the rest is zero *)
    rewrite bigint_is_zero_spec in Ez by apply EB. apply Z.eqb_eq in Ez.
    destruct (go_add _ _ _ _ _ _ GO res ta Hr Ota) as [Or Dr].
    exists (g_add O res ta). split; auto. split.
    + rewrite Dr, Dta, Qq. f_equal. rewrite Ez, gmul_0, A0l.
      assert (Z0 : qsum g rest = z); [|now rewrite Z0, A0r].
      apply qsum_zero. assert (Htl : forall j, (0 < j < length q)%nat ->
         match nth_error q j with Some x => key x | None => 0 end <= 0).
      { intros j Hj. pose proof (heap_second q IH' j Hj) as X. rewrite E1, E2 in X. lia. }
      assert (Ft : Forall (fun x => key x <= 0) (tl q)).
      { apply Forall_forall. intros x Hx. apply In_nth_error in Hx as [j Hj].
        specialize (Htl (Datatypes.S j)). destruct q as [|q0 q]; [cbn in I3; lia|]. cbn [tl] in Hj.
        cbn [nth_error length] in Htl. rewrite Hj in Htl. apply Htl.
        assert (j < length q)%nat by (apply nth_error_Some; congruence). lia. }
      assert (Pt : Permutation (tl q) (b :: rest)).
      { destruct q as [|q0 q]; [cbn in I3; lia|]. cbn [nth_error] in Ea. injection Ea as ->.
        apply (Permutation_cons_inv (a := a)). exact Pq. }
      apply (Permutation_Forall Pt) in Ft. inversion Ft as [|? ? _ Ft']; subst.
      apply Forall_forall. intros x Hx. rewrite Forall_forall in Ft', ER.
      specialize (Ft' x Hx). destruct (ER x Hx) as (Lx & _). pose proof (val_nonneg _ Lx). lia.
    + intros [|f] Hf; [lia|]. cbn [bos_coster_loop]. rewrite Qa, Q1, Q2. cbn [bind]. fold b.
      rewrite Ga. cbn [bind].
      replace (bigint_is_zero (snd b)) with true
        by (symmetry; rewrite bigint_is_zero_spec by apply EB; now apply Z.eqb_eq).
      rewrite Ta. reflexivity.
  - pose proof Ez as Ez'. rewrite bigint_is_zero_spec in Ez by apply EB. apply Z.eqb_neq in Ez.
    set (bbits := bigint_num_bits (snd b)). set (d := wrap64 (bigint_num_bits (snd a) - bbits)).
    set (limit := if 20 <=? d then 20 else d).
    set (cond := bbits <? Z.shiftl 1 limit).
    assert (STEP : exists ar g' res', (if cond then
             t <- opt_window_wnaf_exp O tbl ga (snd a) (bigint_num_bits (snd a)) ;;
             Ok (bigint_clear (snd a), g, g_add O res t)
           else
             gb <- g_at g (fst b) ;;
             Ok (fst (mpn_sub (snd a) (snd b)), upd g (fst b) (g_add O gb ga), res)) = Ok (ar, g', res') /\
         eok (fst a, ar) /\ val ar < key a /\ length g' = length g /\ Forall ok g' /\ ok res' /\
         add (den res') (qsum g' ((fst a, ar) :: b :: rest)) = add (den res) (qsum g q)).
    { destruct cond.
      - rewrite Ta. cbn [bind]. do 3 eexists. split; [reflexivity|].
        destruct (go_add _ _ _ _ _ _ GO res ta Hr Ota) as [Or Dr].
        assert (Vc : val (bigint_clear (snd a)) = 0) by apply bigint_clear_spec.
        destruct EA as (LA & LLA & HA).
        split; [split; [|split]|]; cbn [snd].
        + unfold bigint_clear. apply Forall_forall. intros y Hy. apply repeat_spec in Hy. subst. split; [lia|reflexivity].
        + unfold bigint_clear. now rewrite repeat_length.
        + rewrite Vc. apply Bn_pos.
        + rewrite Vc. split; [lia|]. split; auto. split; auto. split; auto.
          rewrite Dr, Dta, Qq. unfold qsum at 1. cbn [map nprod fst snd]. fold (qsum g rest).
          rewrite Vc, gmul_0, Dgb. agroup_eq AG.
      - rewrite Gb. cbn [bind]. do 3 eexists. split; [reflexivity|].
        destruct (mpn_sub (snd a) (snd b)) as [r bo] eqn:Es. cbn [fst].
        apply mpn_sub_spec in Es as (Vs & Ls & Lens).
        destruct EA as (LA & LLA & HA). destruct EB as (LB & LLB & HB).
        assert (Vr : val r = key a - key b).
        { pose proof (val_bound (snd a) LA). pose proof (val_bound r Ls). rewrite Lens in *.
          set (M := Bn (length (snd a))) in *.
          assert (bo = 0); [|lia]. clear -Vs H H0 Hmax NB.
          assert (bo <= 0) by nia. assert (0 <= bo) by nia. lia. }
        split; [split; [|split]|]; cbn [snd]; auto; try congruence; try lia.
        split; [lia|]. split; [apply upd_length|].
        destruct (go_add _ _ _ _ _ _ GO gb ga Ogb Oga) as [Oab Dab].
        split.
        { clear -IG Oab. revert IG. generalize (fst b). induction g; intros [|i] H; cbn [upd]; auto;
            inversion H; subst; constructor; auto. }
        split; auto. f_equal. rewrite Qq. unfold qsum at 1. cbn [map nprod fst snd].
        fold (qsum (upd g (fst b) (g_add O gb ga)) rest).
        inversion ND as [|? ? Nab ND']; inversion ND' as [|? ? Nb ND'']; subst.
        rewrite qsum_upd by auto. unfold gden. rewrite !nth_error_upd by auto. rewrite Nat.eqb_refl.
        replace (fst a =? fst b)%nat with false
          by (symmetry; apply Nat.eqb_neq; intros E; apply Nab; left; auto).
        change (match nth_error g (fst a) with Some t => den t | None => z end) with (gden g (fst a)).
        rewrite Dga, Dab, Vr, (gmul_sub z add opp AG), (gmul_distr z add opp AG). agroup_eq AG. }
    destruct STEP as (ar & g' & res' & Es & EAr & Hlt & Lg & Og & Or & Inv).
    destruct (round_heap q (fst a, ar) IH' IO ltac:(lia)) as (q1 & pos & q2 & D1 & D2 & H2 & P2 & L2).
    assert (P2' : Permutation q2 ((fst a, ar) :: b :: rest)) by (rewrite P2; apply Pu).
    assert (S2 : esum q2 = val ar + (key b + esum rest)) by (rewrite (esum_perm _ _ P2'); reflexivity).
    assert (Hn0 : 0 <= val ar) by (apply val_nonneg, EAr).
    destruct (IH (Z.to_nat (esum q2)) ltac:(lia) q2 g' res') as (t & Ot & Dt & Ft); auto; try lia.
    { constructor; auto; try lia.
      - now rewrite L2.
      - apply (Permutation_Forall (Permutation_sym P2')). constructor; auto.
      - rewrite Lg, <- II. apply (Permutation_map fst) in P2', Pq. cbn [map fst] in *.
        now rewrite P2', Pq. }
    exists t. split; auto. split.
    { rewrite Dt, (qsum_perm g' _ _ P2'). exact Inv. }
    intros [|f] Hf; [lia|]. cbn [bos_coster_loop]. rewrite Qa, Q1, Q2. cbn [bind]. fold b.
    rewrite Ga. cbn [bind]. rewrite Ez'. fold bbits d limit cond. rewrite Es. cbn [bind].
    rewrite D1. cbn [bind]. rewrite D2. cbn [bind]. apply Ft. lia.
Qed.

Notation sok := (sok as_bigint nl).
Notation msum := (msum den z add opp as_bigint).

Lemma qsum_combine vec : forall pre sc suf, length vec = length sc ->
  qsum (pre ++ vec ++ suf) (combine (seq (length pre) (length vec)) (map as_bigint sc)) = msum vec sc.
Proof.
  induction vec as [|v vec IH]; intros pre [|s sc] suf L; try discriminate; auto.
  cbn [length seq map combine]. unfold qsum. cbn [map nprod fst snd]. rewrite msum_cons. f_equal.
  - unfold gden. rewrite nth_error_app2, Nat.sub_diag by lia. reflexivity.
  - specialize (IH (pre ++ [v]) sc suf). rewrite <- IH by (cbn in L; lia).
    unfold qsum. rewrite app_length. cbn [length]. rewrite Nat.add_1_r.
    rewrite <- (app_assoc pre [v]). reflexivity.
Qed.

(** Fuel enough for the scalars. *)
Definition bc_bound (sc : list S) : Z := fold_right (fun s n => val (as_bigint s) + n) 0 sc.

Lemma esum_combine sc : forall k, esum (combine (seq k (length sc)) (map as_bigint sc)) = bc_bound sc.
Proof.
  induction sc as [|s sc IH]; intros k; auto. cbn [length seq map combine bc_bound fold_right].
  unfold esum. cbn [fold_right snd]. fold (bc_bound sc). rewrite <- (IH (Datatypes.S k)). reflexivity.
Qed.

Lemma combine_fst {A B} (l : list A) : forall l' : list B, length l = length l' -> map fst (combine l l') = l.
Proof. induction l; intros [|y l'] L; try discriminate; cbn; auto. f_equal. apply IHl. cbn in L; lia. Qed.

Theorem multi_exp_bos_coster_spec vec sc : length vec = length sc -> Forall ok vec -> Forall sok sc ->
  exists t, ok t /\ den t = msum vec sc /\
    forall fuel, bc_bound sc < Z.of_nat fuel ->
      multi_exp_bos_coster O as_bigint tbl make_heap nl fuel vec sc = Ok t.
Proof.
  intros L Hv Hs. destruct (go_zero _ _ _ _ _ _ GO) as [Oz Dz].
  assert (Nb : 0 <= bc_bound sc).
  { clear -Hs. induction Hs as [|s sc (Ls & _) F IHs]; cbn [bc_bound fold_right]; [lia|]. fold (bc_bound sc).
    pose proof (val_nonneg _ Ls). lia. }
  destruct vec as [|v1 vec].
  { destruct sc; [|discriminate]. exists (g_zero O). split; auto. }
  destruct vec as [|v2 vec].
  { destruct sc as [|s [|s' sc]]; try discriminate.
    assert (Hv1 : ok v1) by now inversion Hv. assert (Ls : limbs (as_bigint s)) by (inversion Hs as [|? ? (Ls & _)]; exact Ls).
    destruct (field_smul_spec O ok den z add opp GO as_bigint s v1) as [Of Df]; auto.
    exists (field_smul O as_bigint s v1). split; auto. split; [|reflexivity].
    rewrite Df, msum_cons. unfold MultiexpProofs.msum. cbn. now rewrite A0r. }
  set (vs := v1 :: v2 :: vec) in *.
  assert (Hlen : (2 <= length vs)%nat) by (cbn; lia).
  assert (Eunf : forall fuel, multi_exp_bos_coster O as_bigint tbl make_heap nl fuel vs sc =
     if (length sc <? length vs)%nat then UB else
      assert_then (length sc =? length vs)%nat (
      let q := make_heap (combine (seq 0 (length sc)) (map as_bigint sc)) in
      let '(q, g) :=
        if Nat.odd (length sc) then (q, vs)
        else (q ++ [(length sc, bigint_of_ulong nl 0)], vs ++ [g_zero O]) in
      assert_then (Nat.odd (length g)) (
      assert_then (length q =? length g)%nat (
      bos_coster_loop O tbl fuel q g (g_zero O))))) by reflexivity.
  clearbody vs.
  set (q0 := make_heap (combine (seq 0 (length sc)) (map as_bigint sc))) in *.
  destruct (MH (combine (seq 0 (length sc)) (map as_bigint sc))) as [P0 H0]. fold q0 in P0, H0.
  assert (L0 : length q0 = length sc).
  { rewrite (Permutation_length P0), combine_length, seq_length, map_length. lia. }
  assert (F0 : Forall eok q0).
  { apply (Permutation_Forall (Permutation_sym P0)). apply Forall_forall. intros [i e] Hin.
    apply in_combine_r in Hin. apply in_map_iff in Hin as (s & <- & Hin).
    rewrite Forall_forall in Hs. exact (Hs s Hin). }
  assert (I0 : Permutation (map fst q0) (seq 0 (length sc))).
  { rewrite (Permutation_map fst P0), combine_fst; auto. rewrite seq_length, map_length. auto. }
  assert (S0 : esum q0 = bc_bound sc) by (rewrite (esum_perm _ _ P0); apply esum_combine).
  assert (Q0 : forall suf, qsum (vs ++ suf) q0 = msum vs sc).
  { intros suf. rewrite (qsum_perm _ _ _ P0). rewrite <- L. apply (qsum_combine vs [] sc suf L). }
  replace (length sc <? length vs)%nat with false in Eunf by (symmetry; apply Nat.ltb_ge; lia).
  replace (length sc =? length vs)%nat with true in Eunf by (symmetry; apply Nat.eqb_eq; lia).
  cbn [assert_then] in Eunf.
  destruct (Nat.odd (length sc)) eqn:Eo.
  - destruct (bos_coster_loop_spec (Z.to_nat (bc_bound sc)) q0 vs (g_zero O)) as (t & Ot & Dt & Ft); auto; try lia.
    { constructor; auto; try lia.
      - now rewrite L0.
      - rewrite L0. destruct (length sc) as [|[|[|k]]]; cbn in *; try discriminate; try lia.
      - now rewrite L. }
    exists t. split; auto. split.
    + rewrite Dt, Dz, A0l. rewrite <- (Q0 []). now rewrite app_nil_r.
    + intros fuel Hf. rewrite Eunf, L, Eo. cbn [assert_then].
      replace (length q0 =? length sc)%nat with true by (symmetry; apply Nat.eqb_eq; lia). cbn [assert_then].
      apply Ft. lia.
  - destruct (bigint_of_ulong_spec nl 0 Hnl) as (V0 & Lm0 & Ln0); [split; [lia|reflexivity]|].
    set (pad := (length sc, bigint_of_ulong nl 0)) in *.
    assert (Pp : Permutation (q0 ++ [pad]) (pad :: q0)) by (symmetry; apply Permutation_cons_append).
    assert (Ep : eok pad).
    { split; [exact Lm0|]. split; [exact Ln0|]. cbn [snd pad]. unfold pad. cbn [snd]. rewrite V0. apply Bn_pos. }
    assert (Oo : Nat.odd (length sc + 1) = true).
    { rewrite Nat.add_1_r, Nat.odd_succ, <- Nat.negb_odd, Eo. reflexivity. }
    destruct (bos_coster_loop_spec (Z.to_nat (bc_bound sc)) (q0 ++ [pad]) (vs ++ [g_zero O]) (g_zero O))
      as (t & Ot & Dt & Ft); auto; try lia.
    { constructor; rewrite ?app_length; cbn [length]; auto; try lia.
      - now rewrite L0.
      - apply heap_app_zero; auto. eapply Forall_impl; [|exact F0]. intros x (X & _). exact X.
      - apply Forall_app. split; auto.
      - rewrite map_app, L, seq_app. cbn [map seq]. now apply Permutation_app.
      - apply Forall_app. split; auto. }
    { rewrite (esum_perm _ _ Pp). unfold esum. cbn [fold_right]. fold (esum q0). unfold pad. cbn [snd]. rewrite V0. lia. }
    exists t. split; auto. split.
    + rewrite Dt, Dz, A0l, (qsum_perm _ _ _ Pp). unfold qsum, pad. cbn [map nprod fst snd].
      rewrite V0, gmul_0, A0l. apply (Q0 [g_zero O]).
    + intros fuel Hf. rewrite Eunf. rewrite !app_length. cbn [length]. rewrite L, Oo. cbn [assert_then].
      replace (length q0 + 1 =? length sc + 1)%nat with true by (symmetry; apply Nat.eqb_eq; lia). cbn [assert_then].
      apply Ft. lia.
Qed.
End BosCoster.

(** ** An implementation of make_heap meeting its specification *)
Fixpoint insert_desc (x : oexp) (l : list oexp) : list oexp :=
  match l with
  | [] => [x]
  | y :: l' => if oexp_lt x y then y :: insert_desc x l' else x :: l
  end.
Definition sort_desc (l : list oexp) : list oexp := fold_right insert_desc [] l.

Fixpoint desc (l : list oexp) : Prop :=
  match l with [] => True | x :: l' => Forall (fun y => key y <= key x) l' /\ desc l' end.
Lemma insert_perm x l : Permutation (insert_desc x l) (x :: l).
Proof.
  induction l as [|y l IH]; cbn [insert_desc]; auto. destruct (oexp_lt x y); auto.
  rewrite IH. apply perm_swap.
Qed.
Lemma insert_desc_ok x l : desc l -> desc (insert_desc x l).
Proof.
  induction l as [|y l IH]; cbn [insert_desc desc]; auto. intros [F D]. rewrite oexp_lt_spec.
  destruct (Z.ltb_spec (key x) (key y)); cbn [desc].
  - split; [|auto]. apply (Permutation_Forall (Permutation_sym (insert_perm x l))). constructor; auto. lia.
  - split; [|split; auto]. constructor; auto. eapply Forall_impl; [|exact F]. cbn. lia.
Qed.
Lemma sort_desc_ok : make_heap_ok sort_desc.
Proof.
  intros l. assert (X : Permutation (sort_desc l) l /\ desc (sort_desc l)).
  { induction l as [|x l [P D]]; cbn [sort_desc fold_right]; [split; auto; exact I|]. fold (sort_desc l). split.
    - rewrite insert_perm. now apply perm_skip.
    - now apply insert_desc_ok. }
  destruct X as [P D]. split; auto. generalize dependent (sort_desc l). intros q _ D.
  assert (X : forall q, desc q -> forall i j x y, (i < j)%nat -> nth_error q i = Some x -> nth_error q j = Some y ->
     key y <= key x).
  { clear. induction q as [|a q IH]; intros Hd i j x y Hij Ei Ej; [destruct i; discriminate|].
    destruct Hd as [F D]. destruct i as [|i], j as [|j]; cbn [nth_error] in *; try lia.
    - injection Ei as ->. apply nth_error_In in Ej. rewrite Forall_forall in F. now apply F.
    - apply (IH D i j); auto. lia. }
  intros i j x y Hc Ei Ej. rewrite oexp_lt_spec. apply Z.ltb_ge. apply (X q D i j); auto. now apply child_neq.
Qed.
