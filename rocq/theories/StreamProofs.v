(** Lemmas about the byte-stream primitives. *)
From Coq Require Import ZArith List Lia Bool.
From Verif Require Import Result Limbs LimbsProofs StreamModel.
Import ListNotations.
Open Scope Z_scope.

Lemma is_digit_spec c : is_digit c = true <-> 48 <= c <= 57.
Proof.
  unfold is_digit, ch_0, ch_9. rewrite andb_true_iff, !Z.leb_le. tauto.
Qed.

Lemma is_space_spec c : is_space c = true <-> c = 32 \/ 9 <= c <= 13.
Proof.
  unfold is_space. rewrite orb_true_iff, andb_true_iff, Z.eqb_eq, !Z.leb_le. tauto.
Qed.

Lemma digit_not_space c : is_digit c = true -> is_space c = false.
Proof.
  intros H. apply is_digit_spec in H.
  destruct (is_space c) eqn:E; auto. apply is_space_spec in E. lia.
Qed.

Lemma digits_val_app a b :
  digits_val (a ++ b) =
  fold_left (fun acc c => 10 * acc + (c - ch_0)) b (digits_val a).
Proof. unfold digits_val. apply fold_left_app. Qed.

Lemma digits_val_snoc a c : digits_val (a ++ [c]) = 10 * digits_val a + (c - ch_0).
Proof. rewrite digits_val_app. reflexivity. Qed.

Lemma digits_val_nonneg l : Forall (fun c => is_digit c = true) l -> 0 <= digits_val l.
Proof.
  induction l as [|c l IH] using rev_ind; intros H; [reflexivity|].
  apply Forall_app in H as [H1 H2]. inversion H2; subst.
  rewrite digits_val_snoc. apply is_digit_spec in H3. specialize (IH H1).
  unfold ch_0. lia.
Qed.

Lemma dec_fuel_val f z : 0 <= z < 2 * 2 ^ Z.of_nat f -> digits_val (dec_fuel f z) = z.
Proof.
  revert z; induction f as [|f IH]; intros z Hz; cbn [dec_fuel].
  - cbn in Hz. unfold digits_val. cbn [fold_left].
    rewrite Z.mod_small by lia. lia.
  - destruct (z <? 10) eqn:E.
    + unfold digits_val. cbn [fold_left]. lia.
    + apply Z.ltb_ge in E. rewrite digits_val_snoc, IH.
      * pose proof (Z.div_mod z 10). lia.
      * rewrite Nat2Z.inj_succ, Z.pow_succ_r in Hz by lia.
        split; [apply Z.div_pos; lia|].
        apply Z.div_lt_upper_bound; lia.
Qed.

Lemma dec_fuel_digits f z : 0 <= z ->
  Forall (fun c => is_digit c = true) (dec_fuel f z).
Proof.
  revert z; induction f as [|f IH]; intros z Hz; cbn [dec_fuel].
  - constructor; [|constructor]. apply is_digit_spec. unfold ch_0.
    pose proof (Z.mod_pos_bound z 10). lia.
  - destruct (z <? 10) eqn:E.
    + apply Z.ltb_lt in E. constructor; [|constructor].
      apply is_digit_spec. unfold ch_0. lia.
    + apply Forall_app; split; [apply IH, Z.div_pos; lia|].
      constructor; [|constructor]. apply is_digit_spec. unfold ch_0.
      pose proof (Z.mod_pos_bound z 10). lia.
Qed.

Lemma dec_val z : 0 <= z -> digits_val (dec z) = z.
Proof.
  intros Hz. unfold dec. apply dec_fuel_val.
  rewrite Z2Nat.id by apply Z.log2_nonneg.
  split; auto. destruct (Z.eq_dec z 0) as [->|]; [cbn; lia|].
  pose proof (Z.log2_spec z). rewrite Z.pow_succ_r in H by apply Z.log2_nonneg. lia.
Qed.

Lemma dec_digits z : 0 <= z -> Forall (fun c => is_digit c = true) (dec z).
Proof. apply dec_fuel_digits. Qed.

Lemma dec_nonempty z : dec z <> [].
Proof.
  unfold dec. destruct (Z.to_nat (Z.log2 z)); cbn [dec_fuel]; [discriminate|].
  destruct (z <? 10); [discriminate|].
  intros E. apply app_eq_nil in E as [_ E]. discriminate.
Qed.

Lemma forallb_Forall {A} (f : A -> bool) l :
  forallb f l = true <-> Forall (fun x => f x = true) l.
Proof. rewrite forallb_forall, Forall_forall. tauto. Qed.

(** What may follow a token so that extraction stops there. *)
Definition token_end (rest : stream) : Prop :=
  match rest with [] => True | c :: _ => is_space c = true end.
Definition number_end (rest : stream) : Prop :=
  match rest with [] => True | c :: _ => is_digit c = false end.

Lemma take_token_app t rest :
  Forall (fun c => is_space c = false) t -> token_end rest ->
  take_token (t ++ rest) = (t, rest).
Proof.
  induction t as [|c t IH]; intros Ht Hr; cbn [app take_token].
  - destruct rest as [|c r]; auto. cbn in *. now rewrite Hr.
  - inversion Ht; subst. rewrite H1, IH; auto.
Qed.

Lemma take_digits_app t rest :
  Forall (fun c => is_digit c = true) t -> number_end rest ->
  take_digits (t ++ rest) = (t, rest).
Proof.
  induction t as [|c t IH]; intros Ht Hr; cbn [app take_digits].
  - destruct rest as [|c r]; auto. cbn in *. now rewrite Hr.
  - inversion Ht; subst. rewrite H1, IH; auto.
Qed.

Lemma skip_ws_nonspace c s : is_space c = false -> skip_ws (c :: s) = c :: s.
Proof. intros H. cbn [skip_ws]. now rewrite H. Qed.

Lemma skip_ws_spaces w s :
  Forall (fun c => is_space c = true) w -> skip_ws (w ++ s) = skip_ws s.
Proof.
  induction 1; cbn [app skip_ws]; auto. now rewrite H.
Qed.

Lemma digits_nonspace t :
  Forall (fun c => is_digit c = true) t -> Forall (fun c => is_space c = false) t.
Proof. apply Forall_impl. apply digit_not_space. Qed.

Lemma skip_ws_dec z rest : 0 <= z -> skip_ws (dec z ++ rest) = dec z ++ rest.
Proof.
  intros Hz. pose proof (dec_digits z Hz) as Hd. pose proof (dec_nonempty z).
  destruct (dec z) as [|c l]; [congruence|]. cbn [app].
  apply skip_ws_nonspace, digit_not_space. now inversion Hd.
Qed.

Lemma read_string_dec w z rest : 0 <= z -> token_end rest ->
  Forall (fun c => is_space c = true) w ->
  read_string (w ++ dec z ++ rest) = (dec z, rest).
Proof.
  intros Hz Hr Hw. unfold read_string.
  rewrite skip_ws_spaces, skip_ws_dec by auto.
  apply take_token_app; auto. apply digits_nonspace, dec_digits; auto.
Qed.

Lemma read_u64_dec w z rest : 0 <= z < B -> number_end rest ->
  Forall (fun c => is_space c = true) w ->
  read_u64 (w ++ dec z ++ rest) = Ok (z, rest).
Proof.
  intros Hz Hr Hw. unfold read_u64.
  rewrite skip_ws_spaces, skip_ws_dec by (auto; lia).
  rewrite take_digits_app by (auto; apply dec_digits; lia).
  pose proof (dec_nonempty z). rewrite dec_val by lia.
  destruct (dec z) eqn:E; [congruence|].
  replace (z <? B) with true; auto. symmetry. apply Z.ltb_lt; lia.
Qed.

(** Little-endian bytes. *)
Lemma le_bytes_length k z : length (le_bytes k z) = k.
Proof. revert z; induction k; intros; cbn; auto. Qed.

Lemma le_bytes_bytes k z : bytes (le_bytes k z).
Proof.
  revert z; induction k; intros; cbn [le_bytes]; constructor.
  - apply Z.mod_pos_bound; lia.
  - apply IHk.
Qed.

Lemma le_val_bytes k z : 0 <= z < 256 ^ Z.of_nat k -> le_val (le_bytes k z) = z.
Proof.
  revert z; induction k as [|k IH]; intros z Hz; cbn [le_bytes le_val].
  - cbn in Hz. lia.
  - rewrite Nat2Z.inj_succ, Z.pow_succ_r in Hz by lia.
    rewrite IH.
    + pose proof (Z.div_mod z 256). lia.
    + split; [apply Z.div_pos; lia|]. apply Z.div_lt_upper_bound; lia.
Qed.
