(** Proofs about NdebugParseModel.v. *)
From Coq Require Import ZArith List Bool Lia.
From Verif Require Import Result Limbs LimbsProofs BigintModel BigintProofs UtilsModel FpModel FieldOps AlgorithmsModel AlgorithmsProofs AlgorithmsField
  StreamModel NdebugParseModel Examples.
Import ListNotations.
Open Scope Z_scope.

Lemma char_digit c : 0 <= c < 256 -> ((c - ch_0) mod 256 <? 10) = is_digit c.
Proof.
  unfold is_digit, ch_0, ch_9. intros H.
  destruct (Z_lt_dec c 48).
  - replace (48 <=? c) with false by (symmetry; apply Z.leb_gt; lia).
    rewrite <- (Z.mod_add _ 1) by lia. rewrite Z.mod_small by lia. apply Z.ltb_ge. lia.
  - replace (48 <=? c) with true by (symmetry; apply Z.leb_le; lia).
    rewrite Z.mod_small by lia. cbn [andb].
    destruct (Z.leb_spec c 57); [apply Z.ltb_lt|apply Z.ltb_ge]; lia.
Qed.

Lemma chars_digits s : bytes s -> forallb (fun d => d <? 10) (map (fun c => (c - ch_0) mod 256) s) = forallb is_digit s.
Proof. induction 1 as [|c s Hc Hs IH]; [reflexivity|]. cbn [map forallb]. now rewrite char_digit, IH. Qed.

Lemma chars_val s : forallb is_digit s = true -> forall acc,
  fold_left (fun acc d => 10 * acc + d) (map (fun c => (c - ch_0) mod 256) s) acc = fold_left (fun acc c => 10 * acc + (c - ch_0)) s acc.
Proof.
  induction s as [|c s IH]; intros H acc; [reflexivity|]. cbn [map fold_left forallb] in *.
  apply andb_true_iff in H as [Hc Hs]. rewrite Z.mod_small; [now apply IH|].
  unfold is_digit, ch_0, ch_9 in *. apply andb_true_iff in Hc as [A C]. apply Z.leb_le in A, C. lia.
Qed.

Definition no_assert {T} (r : result T) : result T := match r with Ok a => Ok a | Throw => Throw | StreamFail => StreamFail | OutOfFuel => OutOfFuel | _ => UB end.

Lemma of_string_nd n s : bytes s -> bigint_of_string_nd n s = no_assert (bigint_of_string n s).
Proof.
  intros HB. unfold bigint_of_string_nd, mpn_set_str10, bigint_of_string, digits_val.
  destruct s as [|c s]; [reflexivity|].
  rewrite (chars_digits (c :: s)) by auto.
  destruct (forallb is_digit (c :: s)) eqn:E.
  - rewrite (chars_val (c :: s) E). cbn [map].
    destruct (_ <? _)%nat; reflexivity.
  - reflexivity.
Qed.

Lemma skip_ws_bytes s : bytes s -> bytes (skip_ws s).
Proof. induction 1 as [|c s Hc Hs IH]; [constructor|]. cbn [skip_ws]. destruct (is_space c); auto. constructor; auto. Qed.
Lemma take_token_bytes s : bytes s -> bytes (fst (take_token s)).
Proof.
  induction 1 as [|c s Hc Hs IH]; [constructor|]. cbn [take_token]. destruct (is_space c); [constructor|].
  destruct (take_token s) as [t r]. cbn [fst] in *. constructor; auto.
Qed.

Lemma read_text_nd n s : bytes s -> bigint_read_text_nd n s = no_assert (bigint_read_text n s).
Proof.
  intros HB. unfold bigint_read_text_nd, bigint_read_text.
  pose proof (take_token_bytes _ (skip_ws_bytes _ HB)) as HT. unfold read_string.
  destruct (take_token (skip_ws s)) as [t r]. cbn [fst] in HT.
  rewrite of_string_nd by auto. now destruct (bigint_of_string n t).
Qed.

(** An element that is not a number. *)
Lemma fp_read_nd_malformed P mont s : bytes s -> bigint_read_text (fp_n P) s = AssertFail ->
  fp_read P false mont s = AssertFail /\ fp_read_nd P false mont s = UB.
Proof.
  intros HB E. unfold fp_read, fp_read_nd. rewrite (read_text_nd _ _ HB), E. split; reflexivity.
Qed.
Lemma fp_read_nd_agrees P bin mont s : bytes s -> bigint_read_text (fp_n P) s <> AssertFail ->
  fp_read_nd P bin mont s = fp_read P bin mont s.
Proof.
  intros HB E. unfold fp_read, fp_read_nd. destruct bin; [reflexivity|].
  rewrite (read_text_nd _ _ HB). now destruct (bigint_read_text (fp_n P) s).
Qed.

Lemma from_words_nd_agrees P mont old words : fp_num_bits P <= 64 * Z.of_nat (length words) ->
  fp_from_words_nd P mont old words = fp_from_words P mont old words.
Proof.
  intros H. unfold fp_from_words_nd, fp_from_words.
  set (b := Z.of_nat (length words) * 64 - fp_num_bits P).
  assert (0 <= b) by (unfold b; lia).
  replace (0 <=? b) with true by (symmetry; apply Z.leb_le; lia). cbn [assert_then].
  rewrite (Z.quot_div_nonneg b 64), (Z.rem_mod_nonneg b 64) by lia.
  pose proof (Z.div_pos b 64). pose proof (Z.mod_pos_bound b 64).
  replace (b / 64 <? 0) with false by (symmetry; apply Z.ltb_ge; lia).
  replace (b mod 64 <? 0) with false by (symmetry; apply Z.ltb_ge; lia).
  reflexivity.
Qed.
Lemma from_words_nd_short P mont old words : 64 * Z.of_nat (length words) < fp_num_bits P ->
  fp_from_words P mont old words = AssertFail /\ fp_from_words_nd P mont old words = UB.
Proof.
  intros H. unfold fp_from_words_nd, fp_from_words.
  set (b := Z.of_nat (length words) * 64 - fp_num_bits P).
  assert (Hb : b < 0) by (unfold b; lia). split.
  - replace (0 <=? b) with false by (symmetry; apply Z.leb_gt; lia). reflexivity.
  - destruct (Z.quot b 64 <? 0) eqn:E; [reflexivity|]. destruct (_ <? _)%nat; [reflexivity|].
    replace (Z.rem b 64 <? 0) with true; [reflexivity|]. symmetry. apply Z.ltb_lt.
    apply Z.ltb_ge in E. pose proof (Z.quot_rem b 64). lia.
Qed.

Section Sqrt.
Context {K : Type} (F : Fops K) (S : sqrt_params K).
Definition field_sqrt_nd (fuel : nat) (a : K) : result K :=
  tonelli_shanks_sqrt_nd (o0 F) (o1 F) (omul F) (osqr F) (oeqb F) S fuel a.
Lemma sqrt_nd_agrees q fuel a : ring_ok F -> sqrt_ok F S q -> field_sqrt_nd fuel a = field_sqrt F S false fuel a.
Proof.
  intros R [Hs Lt Ltm Ht Hq Hn Hz]. unfold field_sqrt_nd, tonelli_shanks_sqrt_nd, field_sqrt, tonelli_shanks_sqrt.
  assert (A : (sq_s S =? 0) = false) by (apply Z.eqb_neq; lia).
  assert (B : bigint_is_even (sq_t S) = false).
  { rewrite bigint_is_even_spec, Ht by auto. rewrite Z.even_add, Z.even_mul. reflexivity. }
  assert (C : oeqb F (sq_nqr S) (o0 F) = false).
  { destruct (oeqb F (sq_nqr S) (o0 F)) eqn:E; auto. apply (rk_eqb F R) in E. congruence. }
  rewrite A, B, C. reflexivity.
Qed.
Lemma sqrt_nd_square q fuel y : field_ok F -> char_not_2 F -> sqrt_ok F S q -> order_divides F q -> sq_s S < Z.of_nat fuel ->
  exists r, field_sqrt_nd fuel (omul F y y) = Ok r /\ (r = y \/ r = oopp F y).
Proof.
  intros FK C O D L. rewrite (sqrt_nd_agrees q) by (auto; apply FK). now apply (field_sqrt_square F S q).
Qed.
Lemma sqrt_nd_nonsquare q fuel a : field_ok F -> char_not_2 F -> sqrt_ok F S q -> order_divides F q ->
  (forall y, omul F y y <> a) -> field_sqrt_nd fuel a = OutOfFuel.
Proof.
  intros FK C O D N. rewrite (sqrt_nd_agrees q) by (auto; apply FK). now apply (field_sqrt_nonsquare F S q false).
Qed.
End Sqrt.

Lemma parse_examples :
  bigint_of_string 1 [49; 97] = AssertFail /\ bigint_of_string_nd 1 [49; 97] = UB /\
  bigint_of_string_nd 1 [49; 50] = Ok [12] /\
  fp_from_words toy false [0] [] = AssertFail /\ fp_from_words_nd toy false [0] [] = UB.
Proof. vm_compute. repeat split. Qed.
