(** Every reachable prime-field value is canonical. *)
From Coq Require Import ZArith List Lia Bool Znumtheory.
From Verif Require Import Result Limbs LimbsProofs StreamModel StreamProofs
  BigintModel BigintProofs FpModel FpSpec FpProofs FpField FpIoProofs.
Import ListNotations.
Open Scope Z_scope.

Lemma limbs_of_bytes_spec n l : Forall (fun c => 0 <= c < 256) l -> (8 * n <= length l)%nat ->
  limbs (limbs_of_bytes n l) /\ length (limbs_of_bytes n l) = n.
Proof.
  revert l; induction n as [|n IH]; intros l Hl Hn; cbn [limbs_of_bytes].
  - split; [constructor|reflexivity].
  - destruct (IH (skipn 8 l)) as [L E].
    { rewrite <- (firstn_skipn 8 l) in Hl. apply Forall_app in Hl. tauto. }
    { rewrite skipn_length. lia. }
    split; [|cbn [length]; lia]. apply limbs_cons. split; auto.
    assert (Lf : length (firstn 8 l) = 8%nat) by (rewrite firstn_length; lia).
    assert (Hf : Forall (fun c => 0 <= c < 256) (firstn 8 l)).
    { rewrite <- (firstn_skipn 8 l) in Hl. apply Forall_app in Hl. tauto. }
    assert (G : forall k, Forall (fun c => 0 <= c < 256) k -> 0 <= le_val k < 256 ^ Z.of_nat (length k)).
    { clear. induction k as [|c k IH]; intros H; cbn [le_val length]; [cbn; lia|].
      inversion H; subst. rewrite Nat2Z.inj_succ, Z.pow_succ_r by lia. specialize (IH H3). lia. }
    specialize (G _ Hf). rewrite Lf in G. exact G.
Qed.

Section Reach.
Variable P : fp_params.
Hypothesis OK : fp_ok P.
Hypothesis OKI : fp_ok_inv P.
Hypothesis NB : fp_num_bits P = bit_length (val (fp_modulus P)).

Lemma of_long_canon x u r : - 2 ^ 63 <= x < 2 ^ 63 -> fp_of_long P x u = Ok r -> canon P r.
Proof.
  intros Hx. unfold fp_of_long. destruct (u || (0 <=? x)) eqn:E.
  - intros E1. assert (Hl : is_limb (x mod B)) by (apply Z.mod_pos_bound; reflexivity).
    destruct (fp_set_ulong_spec P OK (x mod B) Hl) as (r' & E2 & C & _).
    unfold fp_set_ulong in E2. congruence.
  - destruct (x =? - 2 ^ 63); [discriminate|].
    destruct (mpn_sub_1 (fp_modulus P) (- x)) as [d b] eqn:E1.
    apply mpn_sub_1_spec in E1 as (V & L & Len). rewrite (ok_len P OK) in Len.
    unfold assert_then. destruct (b =? 0); [|discriminate].
    destruct (times_Rsq_spec P OK d L Len) as [_ (r' & E2 & C & _)]. intros E3. congruence.
Qed.

Theorem produced_canon a : produced P a -> canon P a.
Proof.
  induction 1.
  - destruct (fp_of_bigint_spec P OK b) as (r' & E & C & _); auto. congruence.
  - eapply of_long_canon; eauto.
  - destruct (fp_set_ulong_spec P OK x) as (r' & E & C & _); auto. congruence.
  - apply (fp_zero_spec P OK).
  - destruct (fp_one_spec P OK) as (r' & E & C & _). congruence.
  - destruct (fp_add_spec P OK a b) as (r' & E & C & _); auto. congruence.
  - destruct (fp_sub_spec P OK a b) as (r' & E & C & _); auto. congruence.
  - destruct (fp_mul_spec P OK a b) as (r' & E & C & _); auto. congruence.
  - destruct (fp_squared_spec P OK a) as (r' & E & C & _); auto. congruence.
  - apply (fp_neg_spec P OK); auto.
  - destruct (Z.eq_dec (den P a) 0) as [Z0|N0].
    + rewrite (fp_invert_zero P OK) in H0; auto. discriminate.
    + destruct (fp_invert_prime_spec P OK OKI a) as (r' & E & C & _); auto. congruence.
  - destruct (fp_random_element_spec P OK NB (oki_top P OKI) fuel src) as [H1 _].
    destruct (H1 r H) as (k & _ & C & _). exact C.
  - destruct (from_words_flag_default P OK NB (oki_top P OKI) old w) as (r' & E & C & _); auto.
    { apply IHproduced. }
    rewrite E in H2. injection H2 as <- _. exact C.
  - unfold fp_read in H0.
    assert (Hb : exists b rest', (if bin then bigint_read_bin (fp_n P) s else bigint_read_text (fp_n P) s) = Ok (b, rest')
       /\ limbs b /\ length b = fp_n P).
    { destruct bin.
      - unfold bigint_read_bin, read_bytes in *. destruct (length s <? 8 * fp_n P)%nat eqn:El; [discriminate|].
        apply Nat.ltb_ge in El. cbn [bind] in *. eexists _, _. split; [reflexivity|].
        apply limbs_of_bytes_spec.
        + specialize (H eq_refl). rewrite <- (firstn_skipn (8 * fp_n P) s) in H.
          apply Forall_app in H. tauto.
        + rewrite firstn_length. lia.
      - unfold bigint_read_text in *. destruct (read_string s) as [t r0].
        destruct (bigint_of_string (fp_n P) t) eqn:Es; cbn [bind] in *; try discriminate.
        apply bigint_of_string_ok_inv in Es as (_ & _ & _ & _ & L & N). eauto. }
    destruct Hb as (b & rest' & E & L & N). rewrite E in H0. cbn [bind] in H0.
    destruct (times_Rsq_spec P OK b L N) as [_ (r' & E2 & C & _)]. rewrite E2 in H0.
    cbn [bind] in H0. congruence.
Qed.

Theorem produced_equality a b : produced P a -> produced P b ->
  (fp_eqb a b = true <-> den P a = den P b) /\ (fp_is_zero a = true <-> den P a = 0) /\
  (den P a = den P b -> a = b).
Proof.
  intros Ha%produced_canon Hb%produced_canon. repeat split.
  - rewrite (fp_eqb_spec P OK) by auto. apply Z.eqb_eq.
  - rewrite (fp_eqb_spec P OK) by auto. apply Z.eqb_eq.
  - rewrite (fp_is_zero_spec P OK) by auto. apply Z.eqb_eq.
  - rewrite (fp_is_zero_spec P OK) by auto. apply Z.eqb_eq.
  - apply (den_inj P OK); auto.
Qed.
End Reach.
