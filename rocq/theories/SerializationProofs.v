(** Round trips of the container serialisation, and SHA512_rng. *)
From Coq Require Import ZArith List Lia Bool Sorted.
From Verif Require Import Result Limbs LimbsProofs StreamModel StreamProofs BigintProofs UtilsModel
  FpModel FpSpec FpProofs FpIoProofs SerializationModel.
Import ListNotations.
Open Scope Z_scope.

Lemma number_end_nl r : number_end (ch_nl :: r). Proof. reflexivity. Qed.

Lemma read_u64_dec0 z rest : 0 <= z < B -> number_end rest -> read_u64 (dec z ++ rest) = Ok (z, rest).
Proof. intros. now apply (read_u64_dec [] z rest). Qed.

Lemma read_size n rest : Z.of_nat n < B ->
  read_u64 (dec (Z.of_nat n) ++ [ch_nl] ++ rest) = Ok (Z.of_nat n, ch_nl :: rest).
Proof.
  intros H. apply (read_u64_dec []); auto using number_end_nl. lia.
Qed.

Lemma read_many_app {T} (rd : stream -> result (T * stream)) (wr : T -> stream) v rest :
  (forall x tl, In x v -> rd (wr x ++ tl) = Ok (x, tl)) ->
  read_many rd (length v) (flat_map wr v ++ rest) = Ok (v, rest).
Proof.
  induction v as [|x v IH]; intros H; cbn [flat_map length read_many app]; auto.
  rewrite <- app_assoc, H by (now left). cbn [bind].
  rewrite IH by (intros; apply H; now right). reflexivity.
Qed.

Theorem bool_roundtrip b rest : input_bool (output_bool b ++ rest) = Ok (b, rest).
Proof.
  unfold output_bool, input_bool. rewrite <- app_assoc.
  rewrite read_u64_dec0; [|destruct b; unfold B; lia|apply number_end_nl].
  destruct b; reflexivity.
Qed.

(** Anything but 0 and 1 fires the assertion. *)
Theorem bool_reject v rest : 1 < v < B -> input_bool (dec v ++ [ch_nl] ++ rest) = AssertFail.
Proof.
  intros H. unfold input_bool.
  rewrite read_u64_dec0; [|lia|apply number_end_nl].
  cbn [bind consume_newline read_char app].
  replace (v =? 0) with false by (symmetry; apply Z.eqb_neq; lia).
  replace (v =? 1) with false by (symmetry; apply Z.eqb_neq; lia). reflexivity.
Qed.

Theorem bool_vector_roundtrip v rest : Z.of_nat (length v) < 2 ^ 64 ->
  input_bool_vector (output_bool_vector v ++ rest) = Ok (v, rest).
Proof.
  intros H. unfold output_bool_vector, input_bool_vector. rewrite <- !app_assoc.
  rewrite read_size by (unfold B; lia). cbn [bind consume_newline read_char]. rewrite Nat2Z.id.
  apply read_many_app. intros. apply bool_roundtrip.
Qed.

Section Containers.
Context {T : Type} (wr : T -> stream) (rd : stream -> result (T * stream)).

(** Element x round trips when followed by [sep] (what a container writes
    after an element) and anything else. *)
Definition roundtrips (sep : stream) (x : T) : Prop :=
  forall rest, rd (wr x ++ sep ++ rest) = Ok (x, sep ++ rest).

Theorem vector_roundtrip bin v rest : Forall (roundtrips (output_newline bin)) v -> Z.of_nat (length v) < 2 ^ 64 ->
  read_vector bin rd (write_vector bin wr v ++ rest) = Ok (v, rest).
Proof.
  intros RT H. unfold write_vector, read_vector. rewrite <- !app_assoc.
  rewrite read_size by (unfold B; lia). cbn [bind consume_newline read_char]. rewrite Nat2Z.id.
  apply read_many_app. intros x tl Hx. rewrite Forall_forall in RT. unfold read_elt. rewrite <- app_assoc, (RT x Hx). cbn [bind].
  destruct bin; reflexivity.
Qed.

Theorem reserialize_spec x : rd (wr x) = Ok (x, []) -> reserialize wr rd x = Ok x.
Proof. unfold reserialize. now intros ->. Qed.

Variable ltb : T -> T -> bool.
Hypothesis lt_irr : forall x, ltb x x = false.
Hypothesis lt_trans : forall x y z, ltb x y = true -> ltb y z = true -> ltb x z = true.

Lemma lt_asym x y : ltb x y = true -> ltb y x = false.
Proof.
  intros H. destruct (ltb y x) eqn:E; auto.
  rewrite <- (lt_irr x). symmetry. eapply lt_trans; eauto.
Qed.

Notation increasing := (StronglySorted (fun x y => ltb x y = true)).

Lemma set_insert_last x s : Forall (fun y => ltb y x = true) s -> set_insert ltb x s = s ++ [x].
Proof.
  induction 1 as [|y s Hy Hs IH]; cbn [set_insert app]; auto.
  rewrite (lt_asym y x Hy), Hy. now rewrite IH.
Qed.

Lemma set_insert_all l : forall acc, increasing (acc ++ l) ->
  fold_left (fun a x => set_insert ltb x a) l acc = acc ++ l.
Proof.
  induction l as [|x l IH]; intros acc H; cbn [fold_left]; [now rewrite app_nil_r|].
  rewrite set_insert_last.
  - rewrite IH; rewrite <- app_assoc; auto.
  - clear IH. induction acc as [|y acc IH]; constructor.
    + inversion H; subst. rewrite Forall_forall in *. apply H3. apply in_or_app. right. now left.
    + apply IH. now inversion H.
Qed.

Theorem set_roundtrip v rest : Forall (roundtrips [ch_nl]) v -> Z.of_nat (length v) < 2 ^ 64 -> increasing v ->
  read_set rd ltb (write_set wr v ++ rest) = Ok (v, rest).
Proof.
  intros RT H S. unfold write_set, read_set. rewrite <- !app_assoc.
  rewrite read_size by (unfold B; lia). cbn [bind consume_newline read_char]. rewrite Nat2Z.id.
  rewrite read_many_app.
  - cbn [bind]. rewrite set_insert_all; auto.
  - intros x tl Hx. rewrite Forall_forall in RT. unfold read_set_elt. rewrite <- app_assoc, (RT x Hx). reflexivity.
Qed.
End Containers.

Section Map.
Context {T1 T2 : Type} (wk : T1 -> stream) (rk : stream -> result (T1 * stream))
  (wv : T2 -> stream) (rv : stream -> result (T2 * stream)) (ltb : T1 -> T1 -> bool).
Hypothesis lt_irr : forall x, ltb x x = false.
Hypothesis lt_trans : forall x y z, ltb x y = true -> ltb y z = true -> ltb x z = true.
Notation increasing := (StronglySorted (fun x y : T1 * T2 => ltb (fst x) (fst y) = true)).

Lemma map_assign_last k v m : Forall (fun y : T1 * T2 => ltb (fst y) k = true) m ->
  map_assign ltb k v m = m ++ [(k, v)].
Proof.
  induction 1 as [|[k' v'] m Hy Hs IH]; cbn [map_assign app]; auto. cbn [fst] in Hy.
  rewrite (lt_asym ltb lt_irr lt_trans k' k Hy), Hy. now rewrite IH.
Qed.

Lemma map_assign_all l : forall acc, increasing (acc ++ l) ->
  fold_left (fun a kv => map_assign ltb (fst kv) (snd kv) a) l acc = acc ++ l.
Proof.
  induction l as [|[k v] l IH]; intros acc H; cbn [fold_left fst snd]; [now rewrite app_nil_r|].
  rewrite map_assign_last.
  - rewrite IH; rewrite <- app_assoc; auto.
  - clear IH. induction acc as [|y acc IH]; constructor.
    + inversion H; subst. rewrite Forall_forall in *.
      apply (H3 (k, v)). apply in_or_app. right. now left.
    + apply IH. now inversion H.
Qed.

Theorem map_roundtrip m rest :
  Forall (fun kv => roundtrips wk rk [ch_nl] (fst kv) /\ roundtrips wv rv [ch_nl] (snd kv)) m ->
  Z.of_nat (length m) < 2 ^ 64 -> increasing m ->
  read_map rk rv ltb (write_map wk wv m ++ rest) = Ok (m, rest).
Proof.
  intros RT H S. unfold write_map, read_map. rewrite <- !app_assoc.
  rewrite read_size by (unfold B; lia). cbn [bind consume_newline read_char]. rewrite Nat2Z.id.
  rewrite read_many_app.
  - cbn [bind]. rewrite map_assign_all; auto.
  - intros [k v] tl Hx. rewrite Forall_forall in RT. destruct (RT _ Hx) as [RK RV].
    unfold read_map_elt. cbn [fst snd] in *. rewrite <- !app_assoc, RK.
    cbn [bind consume_newline read_char app]. change (ch_nl :: tl) with ([ch_nl] ++ tl). rewrite RV. reflexivity.
Qed.
End Map.

(** serialize_bit_vector writes a newline after every bit; the reader leaves
    the last one in the stream. *)
Lemma bits_roundtrip v : forall rest,
  read_many read_bool (length v)
    ([ch_nl] ++ flat_map (fun b : bool => dec (if b then 1 else 0) ++ [ch_nl]) v ++ rest) =
  Ok (v, ch_nl :: rest).
Proof.
  induction v as [|b v IH]; intros rest; cbn [length read_many flat_map]; [reflexivity|].
  unfold read_bool at 1. rewrite <- !app_assoc.
  rewrite (read_u64_dec [ch_nl] (if b then 1 else 0));
    [|destruct b; unfold B; lia|apply number_end_nl|repeat constructor].
  cbn [bind]. replace (if (if b then 1 else 0) =? 0 then _ else _)
    with (Ok (b, [ch_nl] ++ flat_map (fun b : bool => dec (if b then 1 else 0) ++ [ch_nl]) v ++ rest))
    by (destruct b; reflexivity).
  cbn [bind]. rewrite IH. reflexivity.
Qed.

Theorem bit_vector_roundtrip v rest : Z.of_nat (length v) < 2 ^ 64 ->
  deserialize_bit_vector (serialize_bit_vector v ++ rest) = Ok (v, ch_nl :: rest).
Proof.
  intros H. unfold serialize_bit_vector, deserialize_bit_vector. rewrite <- !app_assoc.
  rewrite read_size by (unfold B; lia). cbn [bind]. rewrite Nat2Z.id. apply bits_roundtrip.
Qed.

(** Field elements inside containers. *)
Lemma fp_roundtrips P bin mont a : fp_ok P -> canon P a ->
  roundtrips (fun x => get_ok [] (fp_write P bin mont x)) (fp_read P bin mont) (output_newline bin) a.
Proof.
  intros OK C rest. destruct (fp_stream_roundtrip P OK bin mont a [] (output_newline bin ++ rest) C) as (w & Ew & Er).
  - destruct bin; auto. split; auto. reflexivity.
  - rewrite Ew. cbn [get_ok]. exact Er.
Qed.

Theorem fp_vector_roundtrip P bin mont v rest : fp_ok P -> Forall (canon P) v -> Z.of_nat (length v) < 2 ^ 64 ->
  read_vector bin (fp_read P bin mont)
    (write_vector bin (fun x => get_ok [] (fp_write P bin mont x)) v ++ rest) = Ok (v, rest).
Proof.
  intros OK C H. apply vector_roundtrip; auto.
  eapply Forall_impl; [|exact C]. intros a Ca. now apply fp_roundtrips.
Qed.

Theorem draw_until_spec {T} (bad : T -> bool) fuel : forall src r, draw_until bad fuel src = Ok r ->
  bad r = false /\ exists k, (k < fuel)%nat /\ r = src k /\ forall j, (j < k)%nat -> bad (src j) = true.
Proof.
  induction fuel as [|f IH]; intros src r; cbn [draw_until]; [discriminate|].
  destruct (bad (src 0%nat)) eqn:E.
  - intros H. destruct (IH _ _ H) as (Hb & k & Hk & Hr & Hj). split; auto. exists (S k).
    split; [lia|]. split; auto. intros [|j] Hj'; auto. apply Hj. lia.
  - intros H. injection H as <-. split; auto. exists 0%nat. split; [lia|]. split; auto. intros; lia.
Qed.

(** *** SHA512_rng *)
Section Sha.
Variable P : fp_params.
Hypothesis OK : fp_ok P.
Hypothesis NB : fp_num_bits P = bit_length (val (fp_modulus P)).
Hypothesis Top : nth (fp_n P - 1) (fp_modulus P) 0 <> 0.
Variable sha : Z -> Z -> list Z.
Hypothesis sha_ok : forall i j, limbs (sha i j) /\ length (sha i j) = 8%nat.
Let n := fp_n P.
Let p := val (fp_modulus P).

(** The candidate of the k-th iteration: the low num_bits bits of the digest. *)
Definition sha_val (idx : Z) (k : nat) : Z :=
  val (firstn n (sha idx (wrap64 (Z.of_nat k)))) mod 2 ^ bit_length p.

Lemma sha_attempt_spec idx k : (n <= 8)%nat ->
  let r := sha_attempt P sha idx (wrap64 (Z.of_nat k)) in
  limbs r /\ length r = n /\ val r = sha_val idx k.
Proof.
  intros Hn r. destruct (sha_ok idx (wrap64 (Z.of_nat k))) as [L N].
  assert (L1 : limbs (firstn n (sha idx (wrap64 (Z.of_nat k))))) by now apply limbs_firstn.
  assert (N1 : length (firstn n (sha idx (wrap64 (Z.of_nat k)))) = n) by (rewrite firstn_length; lia).
  exact (clear_high_mask P OK NB Top _ L1 N1).
Qed.

Lemma wrap64_succ k : wrap64 (wrap64 (Z.of_nat k) + 1) = wrap64 (Z.of_nat (S k)).
Proof.
  unfold wrap64. rewrite Z.add_mod_idemp_l by (unfold B; lia). f_equal. lia.
Qed.

Lemma sha512_loop_spec fuel idx : (n <= 8)%nat -> forall k0,
  (forall r, sha512_loop P sha fuel idx (wrap64 (Z.of_nat k0)) = Ok r ->
     exists k, (k0 <= k < k0 + fuel)%nat /\ canon P r /\ den P r = sha_val idx k /\
       sha_val idx k < p /\ forall j, (k0 <= j < k)%nat -> p <= sha_val idx j) /\
  (forall k, (k0 <= k < k0 + fuel)%nat -> sha_val idx k < p ->
     exists r, sha512_loop P sha fuel idx (wrap64 (Z.of_nat k0)) = Ok r).
Proof.
  intros Hn. induction fuel as [|f IH]; intros k0; cbn [sha512_loop].
  - split; [discriminate|intros; lia].
  - destruct (sha_attempt_spec idx k0 Hn) as (L & N & V).
    specialize (IH (S k0)) as [IH1 IH2]. rewrite wrap64_succ.
    assert (Retry : p <= sha_val idx k0 ->
      (forall r, sha512_loop P sha f idx (wrap64 (Z.of_nat (S k0))) = Ok r ->
        exists k, (k0 <= k < k0 + S f)%nat /\ canon P r /\ den P r = sha_val idx k /\
         sha_val idx k < p /\ forall j, (k0 <= j < k)%nat -> p <= sha_val idx j) /\
      (forall k, (k0 <= k < k0 + S f)%nat -> sha_val idx k < p ->
         exists r, sha512_loop P sha f idx (wrap64 (Z.of_nat (S k0))) = Ok r)).
    { intros H0. split.
      - intros r E. destruct (IH1 r E) as (k & Hk & C & D & Hp & Hj).
        exists k. split; [lia|]. split; auto. split; auto. split; auto.
        intros j Hj'. destruct (Nat.eq_dec j k0) as [->|]; auto. apply Hj. lia.
      - intros k Hk Hlt. apply (IH2 k); auto.
        destruct (Nat.eq_dec k k0) as [->|]; [lia|lia]. }
    destruct (mpn_cmp_spec (sha_attempt P sha idx (wrap64 (Z.of_nat k0))) (fp_modulus P)) as [C|C|C];
      fold p in C; rewrite V in C.
    + apply Retry. lia.
    + destruct (fp_of_bigint_spec P OK _ L N) as (r & E & Cr & D). rewrite E. split.
      * intros r' E'. injection E' as <-. exists k0. split; [lia|]. split; auto.
        split; [|split; [auto|intros; lia]].
        rewrite D, V. fold p. apply Z.mod_small. split; auto.
        unfold sha_val. apply Z.mod_pos_bound. apply Z.pow_pos_nonneg; [lia|].
        apply bit_length_spec. pose proof (p_gt1 P OK) as Hp. fold p in Hp. lia.
      * intros. eauto.
    + apply Retry. lia.
Qed.

Theorem sha512_rng_spec fuel idx : fp_num_bits P <= 512 ->
  (forall r, sha512_rng P sha fuel idx = Ok r ->
     exists k, (k < fuel)%nat /\ canon P r /\ den P r = sha_val idx k /\
       sha_val idx k < p /\ forall j, (j < k)%nat -> p <= sha_val idx j) /\
  (forall k, (k < fuel)%nat -> sha_val idx k < p -> exists r, sha512_rng P sha fuel idx = Ok r).
Proof.
  intros Hb.
  assert (Hn : (n <= 8)%nat).
  { pose proof (num_bits_range P OK NB Top) as Hr. unfold n. lia. }
  unfold sha512_rng. replace (fp_num_bits P <=? 512) with true by (symmetry; apply Z.leb_le; lia).
  cbn [assert_then]. replace (8 <? fp_n P)%nat with false by (symmetry; apply Nat.ltb_ge; exact Hn).
  destruct (sha512_loop_spec fuel idx Hn 0) as [H1 H2]. change (wrap64 (Z.of_nat 0)) with 0 in *. split.
  - intros r E. destruct (H1 r E) as (k & Hk & C & D & Hp & Hj). exists k.
    split; [lia|]. split; auto. split; auto. split; auto. intros; apply Hj; lia.
  - intros k Hk. apply H2. lia.
Qed.
Theorem sha512_rng_too_big fuel idx : 512 < fp_num_bits P -> sha512_rng P sha fuel idx = AssertFail.
Proof.
  intros H. unfold sha512_rng. now replace (fp_num_bits P <=? 512) with false by (symmetry; apply Z.leb_gt; lia).
Qed.
End Sha.
