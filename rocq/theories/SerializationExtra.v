(** Malformed and redundant container encodings: numbers that do not fit, bit
    entries other than 0 and 1, repeated set elements and map keys. *)
From Coq Require Import ZArith List Lia Bool Sorted.
From Verif Require Import Result Limbs LimbsProofs StreamModel StreamProofs
  SerializationModel SerializationProofs.
Import ListNotations.
Open Scope Z_scope.

Lemma read_u64_too_big w z rest : B <= z -> number_end rest ->
  Forall (fun c => is_space c = true) w ->
  read_u64 (w ++ dec z ++ rest) = StreamFail.
Proof.
  intros Hz Hr Hw. assert (0 < B) by (unfold B; lia). unfold read_u64.
  rewrite skip_ws_spaces, skip_ws_dec by (auto; lia).
  rewrite take_digits_app by (auto; apply dec_digits; lia).
  pose proof (dec_nonempty z). rewrite dec_val by lia.
  destruct (dec z) eqn:E; [congruence|].
  replace (z <? B) with false; auto. symmetry. apply Z.ltb_ge; lia.
Qed.

Lemma read_u64_too_big0 z rest : B <= z -> read_u64 (dec z ++ [ch_nl] ++ rest) = StreamFail.
Proof. intros H. apply (read_u64_too_big [] z ([ch_nl] ++ rest) H); [reflexivity|constructor]. Qed.

Theorem oversized_size {T T1 T2} bin (rd : stream -> result (T * stream)) (lt : T -> T -> bool)
  (rk : stream -> result (T1 * stream)) (rv : stream -> result (T2 * stream)) (ltk : T1 -> T1 -> bool) n rest :
  2 ^ 64 <= n ->
  input_bool (dec n ++ [ch_nl] ++ rest) = StreamFail /\
  input_bool_vector (dec n ++ [ch_nl] ++ rest) = StreamFail /\
  deserialize_bit_vector (dec n ++ [ch_nl] ++ rest) = StreamFail /\
  read_vector bin rd (dec n ++ [ch_nl] ++ rest) = StreamFail /\
  read_set rd lt (dec n ++ [ch_nl] ++ rest) = StreamFail /\
  read_map rk rv ltk (dec n ++ [ch_nl] ++ rest) = StreamFail.
Proof.
  intros H. change (2 ^ 64) with B in H.
  unfold input_bool, input_bool_vector, deserialize_bit_vector, read_vector, read_set, read_map.
  rewrite !(read_u64_too_big0 n rest H). cbn [bind]. tauto.
Qed.

Lemma read_many_bad_bit v : forall x m rest, 1 < x ->
  read_many read_bool (length v + S m)
    ([ch_nl] ++ flat_map (fun b : bool => dec (if b then 1 else 0) ++ [ch_nl]) v ++ dec x ++ [ch_nl] ++ rest)
  = StreamFail.
Proof.
  induction v as [|b v IH]; intros x m rest Hx; cbn [length read_many flat_map Nat.add].
  - unfold read_bool at 1. cbn [app].
    change (ch_nl :: dec x ++ ch_nl :: rest) with ([ch_nl] ++ dec x ++ [ch_nl] ++ rest).
    destruct (Z_lt_ge_dec x B) as [L|G].
    + rewrite (read_u64_dec [ch_nl] x ([ch_nl] ++ rest)); [|lia|apply number_end_nl|repeat constructor].
      cbn [bind]. destruct (Z.eqb_spec x 0); [lia|]. destruct (Z.eqb_spec x 1); [lia|]. reflexivity.
    + rewrite (read_u64_too_big [ch_nl] x ([ch_nl] ++ rest)); [reflexivity|lia|apply number_end_nl|repeat constructor].
  - unfold read_bool at 1. rewrite <- !app_assoc.
    rewrite (read_u64_dec [ch_nl] (if b then 1 else 0));
      [|destruct b; unfold B; lia|apply number_end_nl|repeat constructor].
    specialize (IH x m rest Hx). cbn [bind]. destruct b.
    + change (1 =? 0) with false. change (1 =? 1) with true. cbv iota. cbn [bind]. rewrite IH. reflexivity.
    + change (0 =? 0) with true. cbv iota. cbn [bind]. rewrite IH. reflexivity.
Qed.

Theorem bit_vector_reject v x m rest : 1 < x -> Z.of_nat (length v + S m) < 2 ^ 64 ->
  deserialize_bit_vector (dec (Z.of_nat (length v + S m)) ++ [ch_nl] ++
    flat_map (fun b : bool => dec (if b then 1 else 0) ++ [ch_nl]) v ++ dec x ++ [ch_nl] ++ rest) = StreamFail.
Proof.
  intros Hx H. unfold deserialize_bit_vector. rewrite read_size by (unfold B; lia). cbn [bind]. rewrite Nat2Z.id.
  now apply read_many_bad_bit.
Qed.

Section Any.
Context {T : Type} (ltb : T -> T -> bool).
Hypothesis lt_irr : forall x, ltb x x = false.
Hypothesis lt_trans : forall x y z, ltb x y = true -> ltb y z = true -> ltb x z = true.
Hypothesis lt_total : forall x y, ltb x y = false -> ltb y x = false -> x = y.
Notation increasing := (StronglySorted (fun x y => ltb x y = true)).

Lemma set_insert_in x s y : In y (set_insert ltb x s) <-> y = x \/ In y s.
Proof.
  clear lt_irr lt_trans.
  induction s as [|z s IH]; cbn [set_insert]; [cbn; intuition|].
  destruct (ltb x z) eqn:E1; [cbn; intuition|]. destruct (ltb z x) eqn:E2.
  - cbn [In]. rewrite IH. tauto.
  - pose proof (lt_total _ _ E1 E2). subst. cbn [In]. intuition.
Qed.
Lemma set_insert_sorted x s : increasing s -> increasing (set_insert ltb x s).
Proof.
  induction 1 as [|z s Hs IH Hz]; cbn [set_insert]; [repeat constructor|].
  destruct (ltb x z) eqn:E1.
  - constructor; [now constructor|]. constructor; auto. eapply Forall_impl; [|exact Hz]. cbn. intros a Ha. eapply lt_trans; eauto.
  - destruct (ltb z x) eqn:E2; [|now constructor]. constructor; auto.
    rewrite Forall_forall in *. intros y Hy. apply set_insert_in in Hy. destruct Hy as [->|Hy]; auto.
Qed.
Lemma set_fold_in l : forall acc y, In y (fold_left (fun a x => set_insert ltb x a) l acc) <-> In y l \/ In y acc.
Proof.
  induction l as [|x l IH]; intros acc y; cbn [fold_left In]; [tauto|].
  rewrite IH, set_insert_in. intuition.
Qed.
Lemma set_fold_sorted l : forall acc, increasing acc -> increasing (fold_left (fun a x => set_insert ltb x a) l acc).
Proof. induction l as [|x l IH]; intros acc H; cbn [fold_left]; auto using set_insert_sorted. Qed.

Theorem set_read_any (wr : T -> stream) (rd : stream -> result (T * stream)) v rest :
  Forall (roundtrips wr rd [ch_nl]) v -> Z.of_nat (length v) < 2 ^ 64 ->
  exists s, read_set rd ltb (write_set wr v ++ rest) = Ok (s, rest) /\ increasing s /\ forall x, In x s <-> In x v.
Proof.
  intros RT H. unfold write_set, read_set. rewrite <- !app_assoc.
  rewrite read_size by (unfold B; lia). cbn [bind consume_newline read_char]. rewrite Nat2Z.id.
  rewrite read_many_app.
  - cbn [bind]. eexists. split; [reflexivity|]. split; [apply set_fold_sorted; constructor|].
    intros x. rewrite set_fold_in. cbn. tauto.
  - intros x tl Hx. rewrite Forall_forall in RT. unfold read_set_elt. rewrite <- app_assoc, (RT x Hx). reflexivity.
Qed.
End Any.

Section AnyMap.
Context {T1 T2 : Type} (ltb : T1 -> T1 -> bool).
Hypothesis lt_irr : forall x, ltb x x = false.
Hypothesis lt_trans : forall x y z, ltb x y = true -> ltb y z = true -> ltb x z = true.
Hypothesis lt_total : forall x y, ltb x y = false -> ltb y x = false -> x = y.
Notation increasing := (StronglySorted (fun x y : T1 * T2 => ltb (fst x) (fst y) = true)).

Lemma map_assign_in k v m k' v' : increasing m ->
  In (k', v') (map_assign ltb k v m) <-> (k' = k /\ v' = v) \/ (k' <> k /\ In (k', v') m).
Proof.
  assert (NE : forall x y, ltb x y = true -> y <> x) by (intros x y E ->; rewrite lt_irr in E; discriminate).
  induction 1 as [|[kz vz] m Hs IH Hz]; cbn [map_assign].
  - cbn. split; [intros [E|[]]; inversion E; tauto|intros [[-> ->]|[_ []]]; tauto].
  - cbn [fst] in Hz. destruct (ltb k kz) eqn:E1; [|destruct (ltb kz k) eqn:E2].
    + cbn [In]. split.
      * intros [E|[E|E]].
        -- inversion E; tauto.
        -- inversion E; subst. right. split; [now apply NE|now left].
        -- right. split; [|now right]. apply NE. rewrite Forall_forall in Hz. apply Hz in E. cbn [fst] in E. eapply lt_trans; eauto.
      * intros [[-> ->]|[_ E]]; tauto.
    + cbn [In]. rewrite IH. split.
      * intros [E|[E|[E E']]]; [|tauto|tauto]. inversion E; subst. right. split; [|now left].
        intros ->. rewrite lt_irr in E2. discriminate.
      * tauto.
    + pose proof (lt_total _ _ E1 E2); subst. cbn [In]. split.
      * intros [E|E]; [inversion E; tauto|]. right. split; [|now right].
        apply NE. rewrite Forall_forall in Hz. apply (Hz _ E).
      * intros [[-> ->]|[N [E|E]]]; [tauto|inversion E; congruence|tauto].
Qed.
Lemma map_assign_sorted k v m : increasing m -> increasing (map_assign ltb k v m).
Proof.
  intros H. induction H as [|[kz vz] m Hs IH Hz]; cbn [map_assign]; [repeat constructor|].
  cbn [fst] in Hz. destruct (ltb k kz) eqn:E1.
  - constructor; [now constructor|]. constructor; auto. eapply Forall_impl; [|exact Hz]. cbn. intros a Ha. eapply lt_trans; eauto.
  - destruct (ltb kz k) eqn:E2.
    + constructor; auto. rewrite Forall_forall in *. intros [ky vy] Hy. apply map_assign_in in Hy; auto. cbn [fst].
      destruct Hy as [[-> ->]|[_ Hy]]; auto. apply (Hz _ Hy).
    + pose proof (lt_total _ _ E1 E2); subst. constructor; auto.
Qed.
Lemma map_fold_sorted l : forall acc, increasing acc ->
  increasing (fold_left (fun a kv => map_assign ltb (fst kv) (snd kv) a) l acc).
Proof. induction l as [|x l IH]; intros acc H; cbn [fold_left]; auto using map_assign_sorted. Qed.

(** The entry of [k] is the last one written. *)
Definition last_entry (l : list (T1 * T2)) (k : T1) (v : T2) : Prop :=
  exists l1 l2, l = l1 ++ (k, v) :: l2 /\ forall v', ~ In (k, v') l2.

Lemma last_entry_cons kv l k v :
  last_entry (kv :: l) k v <-> last_entry l k v \/ (kv = (k, v) /\ forall v', ~ In (k, v') l).
Proof.
  clear. split.
  - intros (l1 & l2 & E & N). destruct l1 as [|x l1]; cbn in E; inversion E; subst; [tauto|]. left. exists l1, l2. tauto.
  - intros [(l1 & l2 & E & N)|[-> N]]; [exists (kv :: l1), l2; subst; tauto|exists [], l; tauto].
Qed.

Lemma map_fold_in l : forall acc k v, increasing acc ->
  In (k, v) (fold_left (fun a kv => map_assign ltb (fst kv) (snd kv) a) l acc) <->
  last_entry l k v \/ (In (k, v) acc /\ forall v', ~ In (k, v') l).
Proof.
  induction l as [|[k0 v0] l IH]; intros acc k v H; cbn [fold_left fst snd].
  - cbn. split; [tauto|]. intros [(l1 & l2 & E & _)|?]; [destruct l1; discriminate|tauto].
  - rewrite IH by now apply map_assign_sorted. rewrite map_assign_in by auto. rewrite last_entry_cons. cbn [In]. split.
    + intros [?|[[[-> ->]|[N I]] N']]; [tauto|tauto|]. right. split; [auto|]. intros v' [E|E]; [inversion E; congruence|eapply N'; eauto].
    + intros [[?|[E N]]|[I N]]; [tauto|inversion E; subst; tauto|]. right. split.
      * right. split; auto. intros ->. apply (N v0). now left.
      * intros v' I'. apply (N v'). now right.
Qed.

Theorem map_read_any (wk : T1 -> stream) rk (wv : T2 -> stream) rv m rest :
  Forall (fun kv => roundtrips wk rk [ch_nl] (fst kv) /\ roundtrips wv rv [ch_nl] (snd kv)) m ->
  Z.of_nat (length m) < 2 ^ 64 ->
  exists s, read_map rk rv ltb (write_map wk wv m ++ rest) = Ok (s, rest) /\ increasing s /\
    forall k v, In (k, v) s <-> exists l1 l2, m = l1 ++ (k, v) :: l2 /\ forall v', ~ In (k, v') l2.
Proof.
  intros RT H. unfold write_map, read_map. rewrite <- !app_assoc.
  rewrite read_size by (unfold B; lia). cbn [bind consume_newline read_char]. rewrite Nat2Z.id.
  rewrite read_many_app.
  - cbn [bind]. eexists. split; [reflexivity|]. split; [apply map_fold_sorted; constructor|].
    intros k v. rewrite map_fold_in by constructor. cbn [In]. unfold last_entry. tauto.
  - intros [k v] tl Hx. rewrite Forall_forall in RT. destruct (RT _ Hx) as [RK RV].
    unfold read_map_elt. cbn [fst snd] in *. rewrite <- !app_assoc, RK.
    cbn [bind consume_newline read_char app]. change (ch_nl :: tl) with ([ch_nl] ++ tl). rewrite RV. reflexivity.
Qed.
End AnyMap.
