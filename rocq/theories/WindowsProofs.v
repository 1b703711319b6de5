(** The choice of windows with the shipped tables. *)
From Coq Require Import ZArith List Bool Lia Permutation.
From Verif Require Import Result Limbs LimbsProofs BigintModel GroupOps WnafModel WnafProofs MultiexpModel MultiexpProofs MultiexpExtra WindowsModel.
Import ListNotations.
Open Scope Z_scope.

(** ** The fixed-base choice *)
(** [w] is the largest window with a non-zero entry that [n] reaches; window 1 otherwise. *)
Definition best_fixed (tbl : list Z) (n w : Z) : Prop :=
  1 <= w <= Z.of_nat (length tbl) /\
  (w = 1 \/ nth (Z.to_nat (w - 1)) tbl 0 <> 0 /\ nth (Z.to_nat (w - 1)) tbl 0 <= n) /\
  forall i, w <= Z.of_nat i < Z.of_nat (length tbl) -> nth i tbl 0 = 0 \/ n < nth i tbl 0.
Lemma exp_window_spec rt n : rt <> [] -> best_fixed (rev rt) n (exp_window rt n).
Proof.
  induction rt as [|x rt IH]; [congruence|]. intros _. cbn [exp_window rev]. unfold best_fixed. rewrite app_length, rev_length. cbn [length].
  destruct (negb (x =? 0) && (x <=? n)) eqn:E.
  - apply andb_true_iff in E. destruct E as [E1 E2]. apply negb_true_iff, Z.eqb_neq in E1. apply Z.leb_le in E2.
    split; [lia|]. split.
    + right. replace (Z.to_nat (Z.of_nat (length rt) + 1 - 1)) with (length (rev rt)) by (rewrite rev_length; lia). rewrite nth_middle. auto.
    + intros i Hi. lia.
  - assert (X : x = 0 \/ n < x).
    { apply andb_false_iff in E. destruct E as [E|E]; [left; apply negb_false_iff, Z.eqb_eq in E; exact E|right; apply Z.leb_gt in E; exact E]. }
    destruct rt as [|y rt].
    + cbn. split; [lia|]. split; [auto|]. intros i Hi. lia.
    + destruct IH as (H1 & H2 & H3); [congruence|]. set (l := y :: rt) in *. rewrite rev_length in *. split; [lia|]. split.
      * destruct H2 as [H2|H2]; [auto|right]. rewrite app_nth1 by (rewrite rev_length; lia). exact H2.
      * intros i Hi. destruct (Nat.eq_dec i (length l)) as [->|N].
        -- rewrite <- (rev_length l), nth_middle. exact X.
        -- rewrite app_nth1 by (rewrite rev_length; lia). apply H3. lia.
Qed.
Lemma best_fixed_unique tbl n w w' : best_fixed tbl n w -> best_fixed tbl n w' -> w = w'.
Proof.
  assert (A : forall w w', best_fixed tbl n w -> best_fixed tbl n w' -> w < w' -> False).
  { clear. intros w w' (H1 & H2 & H3) (G1 & G2 & G3) L. destruct G2 as [->|[N Le]]; [lia|].
    destruct (H3 (Z.to_nat (w' - 1))); lia. }
  intros H G. destruct (Z.lt_trichotomy w w') as [L|[L|L]]; auto; exfalso; eauto.
Qed.
Lemma window_size_spec tbl n : tbl <> [] -> best_fixed tbl n (get_exp_window_size false tbl n) /\
  get_exp_window_size true tbl n = Z.min 14 (get_exp_window_size false tbl n).
Proof.
  intros N. unfold get_exp_window_size. destruct tbl as [|x tbl]; [congruence|]. split; [|reflexivity].
  rewrite <- (rev_involutive (x :: tbl)) at 1. apply exp_window_spec. intros E. apply (f_equal (@length Z)) in E. rewrite rev_length in E. discriminate E.
Qed.
Lemma choice_all : forall tbl n, tbl <> [] ->
  let w := get_exp_window_size false tbl n in
  1 <= w <= Z.of_nat (length tbl) /\
  (w = 1 \/ nth (Z.to_nat (w - 1)) tbl 0 <> 0 /\ nth (Z.to_nat (w - 1)) tbl 0 <= n) /\
  (forall i, w <= Z.of_nat i < Z.of_nat (length tbl) -> nth i tbl 0 = 0 \/ n < nth i tbl 0) /\
  get_exp_window_size true tbl n = Z.min 14 w.
Proof. intros tbl n N w. destruct (window_size_spec tbl n N) as [(H1 & H2 & H3) H4]. auto. Qed.
Lemma choice_empty n : get_exp_window_size false [] n = 17 /\ get_exp_window_size true [] n = 14.
Proof. split; reflexivity. Qed.
Lemma window_size_mono tbl n n' : n <= n' -> get_exp_window_size false tbl n <= get_exp_window_size false tbl n'.
Proof.
  intros L. destruct tbl as [|x t]; [reflexivity|]. set (tbl := x :: t). assert (N : tbl <> []) by discriminate.
  destruct (window_size_spec tbl n N) as [(H1 & H2 & H3) _]. destruct (window_size_spec tbl n' N) as [(G1 & G2 & G3) _].
  set (w := get_exp_window_size false tbl n) in *. set (w' := get_exp_window_size false tbl n') in *.
  destruct (Z.le_gt_cases w w') as [|Gt]; auto. exfalso. destruct H2 as [->|[Nz Le]]; [lia|].
  destruct (G3 (Z.to_nat (w - 1))); lia.
Qed.
(** ** The shipped tables *)
(** Non-zero entries increase, the first is 1, there are at most 22, and the wNAF
    entries increase. *)
Fixpoint increasing (m : Z) (l : list Z) : bool :=
  match l with [] => true | x :: l' => if x =? 0 then increasing m l' else (m <? x) && increasing x l' end.
Definition windows_check (W : windows) : bool :=
  (length (wt_fixed W) =? 22)%nat && increasing 0 (wt_fixed W) && (hd 0 (wt_fixed W) =? 1) && forallb (fun x => x <? 2 ^ 28) (wt_fixed W) &&
  (length (wt_wnaf W) =? 4)%nat && increasing 0 (wt_wnaf W) && forallb (fun x => negb (x =? 0)) (wt_wnaf W).
Lemma shipped_check : forallb windows_check shipped_windows = true. Proof. vm_compute. reflexivity. Qed.
Definition doc_check (W : windows) : bool :=
  forallb (fun d => let w := fst d in
    (1 <=? w) && (w <=? 22) &&
    match fst (snd d) with
    | Some l => negb (nth (Z.to_nat (w - 1)) (wt_fixed W) 0 =? 0) && (100 * nth (Z.to_nat (w - 1)) (wt_fixed W) 0 <=? l + 50)
    | None => w =? 1
    end &&
    forallb (fun i => (nth i (wt_fixed W) 0 =? 0) || match snd (snd d) with Some h => h - 50 <=? 100 * nth i (wt_fixed W) 0 | None => false end)
      (seq (Z.to_nat w) (22 - Z.to_nat w))) (wt_doc W).
Lemma shipped_doc_check : forallb doc_check shipped_windows = true. Proof. vm_compute. reflexivity. Qed.
Lemma increasing_above l : forall m i, increasing m l = true -> (i < length l)%nat -> nth i l 0 = 0 \/ m < nth i l 0.
Proof.
  induction l as [|x l IH]; intros m i H Hi; cbn [length] in Hi; [lia|]. cbn [increasing] in H. destruct (Z.eqb_spec x 0) as [E|E].
  - destruct i as [|i]; [left; exact E|]. apply IH; auto; lia.
  - apply andb_true_iff in H. destruct H as [H1 H2]. apply Z.ltb_lt in H1. destruct i as [|i]; [right; exact H1|].
    cbn [nth]. destruct (IH x i H2); [lia|auto|right; lia].
Qed.
Lemma increasing_nth l : forall m i j, increasing m l = true -> (i < j < length l)%nat -> nth i l 0 <> 0 -> nth j l 0 = 0 \/ nth i l 0 < nth j l 0.
Proof.
  induction l as [|x l IH]; intros m i j H Hi N; cbn [length] in Hi; [lia|]. cbn [increasing] in H. destruct j as [|j]; [lia|]. destruct (Z.eqb_spec x 0) as [E|E].
  - destruct i as [|i]; [now cbn in N|]. cbn [nth] in *. apply (IH m); auto; lia.
  - apply andb_true_iff in H. destruct H as [_ H2]. destruct i as [|i]; cbn [nth] in *; [apply increasing_above; auto; lia|apply (IH x); auto; lia].
Qed.
Section Shipped.
Variable W : windows.
Hypothesis HW : In W shipped_windows.
Lemma W_check : (length (wt_fixed W) = 22)%nat /\ increasing 0 (wt_fixed W) = true /\ hd 0 (wt_fixed W) = 1 /\
  (length (wt_wnaf W) = 4)%nat /\ increasing 0 (wt_wnaf W) = true /\ forall i, (i < 4)%nat -> nth i (wt_wnaf W) 0 <> 0.
Proof.
  pose proof (proj1 (forallb_forall _ _) shipped_check W HW) as C. unfold windows_check in C. rewrite !andb_true_iff in C.
  destruct C as ((((((C1 & C2) & C3) & C4) & C5) & C6) & C7). apply Nat.eqb_eq in C1, C5. apply Z.eqb_eq in C3.
  repeat (split; [assumption|]). intros i Hi. rewrite forallb_forall in C7. 
  assert (I : In (nth i (wt_wnaf W) 0) (wt_wnaf W)) by (apply nth_In; lia). specialize (C7 _ I).
  apply negb_true_iff, Z.eqb_neq in C7. exact C7.
Qed.
Lemma W_ne : wt_fixed W <> []. Proof. destruct W_check as (L & _). intros E. rewrite E in L. discriminate L. Qed.
Theorem shipped_fixed n lowmem : best_fixed (wt_fixed W) n (get_exp_window_size false (wt_fixed W) n) /\
  1 <= get_exp_window_size lowmem (wt_fixed W) n <= if lowmem then 14 else 22.
Proof.
  destruct W_check as (L & _). destruct (window_size_spec (wt_fixed W) n W_ne) as [H E]. split; [exact H|]. destruct H as [H _]. rewrite L in H.
  destruct lowmem; [rewrite E|]; lia.
Qed.
(** Every window with a non-zero entry is used, from its entry on. *)
Theorem shipped_fixed_reached w : (1 <= w <= 22)%nat -> let e := nth (w - 1) (wt_fixed W) 0 in
  e <> 0 -> get_exp_window_size false (wt_fixed W) e = Z.of_nat w /\ get_exp_window_size false (wt_fixed W) (e - 1) < Z.max 2 (Z.of_nat w).
Proof.
  intros Hw e N. destruct W_check as (L & I & H1 & _). destruct (window_size_spec (wt_fixed W) e W_ne) as [H _].
  split.
  - apply (best_fixed_unique (wt_fixed W) e); [exact H|]. split; [lia|]. split.
    + right. replace (Z.to_nat (Z.of_nat w - 1)) with (w - 1)%nat by lia. fold e. lia.
    + intros i Hi. apply (increasing_nth _ 0 (w - 1) i I); [lia|exact N].
  - destruct (window_size_spec (wt_fixed W) (e - 1) W_ne) as [(G1 & G2 & G3) _]. set (v := get_exp_window_size false (wt_fixed W) (e - 1)) in *.
    destruct G2 as [->|[Nz Le]]; [lia|]. destruct (Z.lt_ge_cases v (Z.max 2 (Z.of_nat w))) as [|Ge]; auto. exfalso.
    destruct (Z.eq_dec v (Z.of_nat w)) as [E|E].
    + replace (Z.to_nat (v - 1)) with (w - 1)%nat in Le by lia. fold e in Le. lia.
    + destruct (increasing_nth _ 0 (w - 1) (Z.to_nat (v - 1)) I) as [X|X]; lia.
Qed.
(** The choice agrees with the measurements recorded beside the table, away from
    the rounding of their bounds. *)
Theorem shipped_documented w lo hi n : In (w, (lo, hi)) (wt_doc W) ->
  match lo with Some l => l + 50 <= 100 * n | None => True end -> match hi with Some h => 100 * n < h - 50 | None => True end ->
  get_exp_window_size false (wt_fixed W) n = w.
Proof.
  intros D Hl Hh. destruct W_check as (L & _). destruct (window_size_spec (wt_fixed W) n W_ne) as [H _].
  pose proof (proj1 (forallb_forall _ _) shipped_doc_check W HW) as C. unfold doc_check in C. rewrite forallb_forall in C. specialize (C _ D).
  cbn [fst snd] in C. rewrite !andb_true_iff in C. destruct C as (((C1 & C2) & C3) & C4). apply Z.leb_le in C1, C2.
  apply (best_fixed_unique (wt_fixed W) n); [exact H|]. split; [lia|]. split.
  - destruct lo as [l|]; [|apply Z.eqb_eq in C3; auto]. apply andb_true_iff in C3. destruct C3 as [C3 C5].
    apply negb_true_iff, Z.eqb_neq in C3. apply Z.leb_le in C5. right. split; [exact C3|lia].
  - intros i Hi. rewrite forallb_forall in C4. specialize (C4 i ltac:(apply in_seq; lia)). apply orb_true_iff in C4.
    destruct C4 as [C4|C4]; [left; apply Z.eqb_eq; exact C4|right]. destruct hi as [h|]; [apply Z.leb_le in C4; lia|discriminate C4].
Qed.
Lemma best_window_at tbl bits w : (w <= length tbl)%nat -> (w <> 0%nat -> nth (w - 1) tbl 0 <= bits) -> (forall i, (w <= i < length tbl)%nat -> bits < nth i tbl 0) ->
  best_window (rev tbl) bits = w.
Proof.
  intros H1 H2 H3. destruct (best_window_spec (rev tbl) bits) as (G1 & G3 & G2). rewrite rev_involutive in *. rewrite rev_length in *.
  set (v := best_window (rev tbl) bits) in *. destruct (Nat.lt_trichotomy v w) as [L|[L|L]]; auto; exfalso.
  - specialize (H2 ltac:(lia)). specialize (G3 (w - 1)%nat ltac:(lia)). lia.
  - specialize (G2 ltac:(lia)). specialize (H3 (v - 1)%nat ltac:(lia)). lia.
Qed.
(** The wNAF window is the number of entries the size reaches: the entries
    increase. *)
Theorem shipped_wnaf bits w : (w <= 4)%nat -> (w <> 0%nat -> nth (w - 1) (wt_wnaf W) 0 <= bits) -> ((w < 4)%nat -> bits < nth w (wt_wnaf W) 0) ->
  forall {T} (O : gops T) base k, opt_window_wnaf_exp O (wt_wnaf W) base k bits =
    if (w =? 0)%nat then Ok (scalar_mul O base k) else fixed_window_wnaf_exp O w base k.
Proof.
  intros Hw H1 H2 T O base k. destruct W_check as (_ & _ & _ & L & I & NZ). unfold opt_window_wnaf_exp. rewrite (best_window_at _ bits w); [destruct w; reflexivity|lia|exact H1|].
  intros i Hi. destruct (Nat.eq_dec i w) as [->|Ne]; [apply H2; lia|].
  destruct (increasing_nth _ 0 w i I) as [X|X]; [lia|apply NZ; lia|exfalso; apply (NZ i); auto; lia|]. specialize (H2 ltac:(lia)). lia.
Qed.
Section Group.
Context {T G S : Type} (O : gops T) (ok : T -> Prop) (den : T -> G) (z : G) (add : G -> G -> G) (opp : G -> G) (as_bigint : S -> list Z).
Hypothesis GO : gops_ok O ok den z add opp.
(** The tables never make the exponentiations fail. *)
Theorem shipped_batch n lowmem ss g v : 0 < ss < 2 ^ 63 -> ok g -> Forall (fun s => limbs (as_bigint s) /\ val (as_bigint s) < 2 ^ ss) v ->
  let w := get_exp_window_size lowmem (wt_fixed W) n in
  exists table r, get_window_table O ss w g = Ok table /\
    (forall order, Permutation order (seq 0 (length v)) -> batch_exp O as_bigint ss w table order v = Ok r) /\
    Forall2 (fun s t => ok t /\ den t = gmul z add opp (val (as_bigint s)) (den g)) v r.
Proof.
  intros Hs Hg Hv w. destruct (shipped_fixed n lowmem) as [_ B]. fold w in B.
  destruct (batch_all O ok den z add opp as_bigint GO ss w g v Hs) as (table & r & H1 & H2 & H3); auto; [destruct lowmem; lia|].
  exists table, r. split; [exact H1|]. split; [exact H2|]. clear - H3. induction H3 as [|s t v r [_ H] _ IH]; constructor; auto.
Qed.
Theorem shipped_opt nl base s bits : (1 <= nl)%nat -> sok as_bigint nl s -> ok base ->
  exists t, opt_window_wnaf_exp O (wt_wnaf W) base (as_bigint s) bits = Ok t /\ ok t /\ den t = gmul z add opp (val (as_bigint s)) (den base).
Proof.
  intros Hn (Sl & Sn & Sv) Hb. destruct W_check as (_ & _ & _ & L & _).
  apply (opt_window_wnaf_exp_spec O ok den z add opp GO); auto; [lia|lia|]. left. rewrite L, Sn.
  assert (B1 : Bn 1 <= Bn nl). { destruct nl as [|k]; [lia|]. unfold Bn. apply Z.pow_le_mono_r; lia. }
  change (Bn 1) with (2 ^ 64) in B1. cbn - [Z.pow]. change (2 ^ 4) with 16. lia.
Qed.
End Group.
End Shipped.
