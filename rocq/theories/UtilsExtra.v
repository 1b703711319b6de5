(** Lemmas in the form wanted by PropertiesUtils.v. *)
From Coq Require Import ZArith List Lia Bool.
From Verif Require Import Result Limbs LimbsProofs UtilsModel UtilsProofs.
Open Scope Z_scope.

Lemma log2_least n : 0 <= n < 2 ^ 64 ->
  exists k, log2 n = Ok k /\ 0 <= k /\ n <= 2 ^ k /\ (forall j, 0 <= j -> n <= 2 ^ j -> k <= j).
Proof.
  intros Hn. rewrite log2_spec by auto. eexists. split; [reflexivity|].
  destruct (n =? 0) eqn:E.
  - apply Z.eqb_eq in E. subst. split; [lia|]. split; [cbn; lia|]. intros; lia.
  - apply Z.eqb_neq in E. destruct (next_pow2_least n) as [H1 H2]; [lia|].
    unfold next_pow2 in *. split; [apply Z.log2_up_nonneg|]. split; auto.
    intros j Hj Hle. specialize (H2 j Hj Hle). apply Z.pow_le_mono_r_iff in H2; lia.
Qed.

Lemma round_up_least n : 1 <= n <= 2 ^ 63 ->
  exists k, 0 <= k /\ round_to_next_power_of_2 n = Ok (2 ^ k) /\ get_power_of_two n = 2 ^ k /\
    n <= 2 ^ k /\ (forall j, 0 <= j -> n <= 2 ^ j -> 2 ^ k <= 2 ^ j).
Proof.
  intros Hn. exists (Z.log2_up n). split; [apply Z.log2_up_nonneg|].
  rewrite round_to_next_power_of_2_spec, get_power_of_two_spec by auto.
  split; [reflexivity|]. split; [reflexivity|]. apply next_pow2_least. lia.
Qed.

Lemma div_ceil_negative :
  exists x y q, y <> 0 /\ div_ceil x y = Ok q /\ q * y <> x /\ Z.rem x y = 0.
Proof. exists 4, (-2), 0. split; [lia|]. split; [reflexivity|]. split; [lia|reflexivity]. Qed.
