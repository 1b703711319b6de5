(** Lemmas in the form wanted by PropertiesFp.v. *)
From Coq Require Import ZArith List Lia Bool Znumtheory.
From Verif Require Import Result Limbs LimbsProofs StreamModel StreamProofs
  BigintModel BigintProofs FpModel FpSpec FpProofs FpField FpIoProofs Examples.
Import ListNotations.
Open Scope Z_scope.

Lemma invert_full P a : fp_ok P -> fp_ok_inv P -> canon P a ->
  (den P a <> 0 ->
   exists r o, fp_invert P a = Ok r /\ canon P r /\ fp_one P = Ok o /\ fp_mul P a r = Ok o) /\
  (den P a = 0 -> fp_invert P a = AssertFail).
Proof.
  intros OK OKI C. split; [|apply (fp_invert_zero P OK a C)]. intros N.
  destruct (fp_invert_prime_spec P OK OKI a C N) as (r & E & Cr & D).
  destruct (fp_one_spec P OK) as (o & Eo & Co & Do).
  destruct (fp_mul_spec P OK a r C Cr) as (m & Em & Cm & Dm).
  exists r, o. repeat split; auto; try apply Cr.
  rewrite Em. f_equal. apply (den_inj P OK); auto. congruence.
Qed.

Lemma num_bits_full a : limbs a ->
  (bigint_num_bits a = 0 <-> val a = 0) /\
  (val a <> 0 -> 2 ^ (bigint_num_bits a - 1) <= val a < 2 ^ bigint_num_bits a).
Proof.
  intros H. rewrite bigint_num_bits_spec by auto. pose proof (val_nonneg a H).
  destruct (bit_length_spec (val a)) as (H1 & H2 & H3); auto. split.
  - unfold bit_length. destruct (val a =? 0) eqn:E; [apply Z.eqb_eq in E|apply Z.eqb_neq in E]; [tauto|].
    pose proof (Z.log2_nonneg (val a)). lia.
  - intros N. split; [apply H3; lia|auto].
Qed.

Lemma bigint_observers a b : limbs a -> limbs b -> length a = length b ->
  bigint_is_zero a = (val a =? 0) /\ bigint_is_even a = Z.even (val a) /\
  bigint_as_ulong a = val a mod 2 ^ 64 /\ val (bigint_clear a) = 0 /\
  bigint_eqb a b = (val a =? val b) /\ bigint_neqb a b = negb (val a =? val b) /\
  bigint_ltb a b = (val a <? val b) /\ (val a = val b <-> a = b).
Proof.
  intros Ha Hb Hl. repeat split.
  - now apply bigint_is_zero_spec.
  - now apply bigint_is_even_spec.
  - now apply bigint_as_ulong_spec.
  - exact (bigint_clear_spec a).
  - apply bigint_eqb_val.
  - unfold bigint_neqb. now rewrite bigint_eqb_val.
  - intros E. apply val_inj; auto.
  - now intros ->.
Qed.

Lemma decimal_full n v : 0 <= v < 2 ^ (64 * Z.of_nat n) ->
  exists b, bigint_of_string n (dec v) = Ok b /\ length b = n /\ limbs b /\ val b = v.
Proof.
  intros Hv. exists (limbs_of n v). rewrite dec_roundtrip by auto.
  repeat split; auto using limbs_of_length, limbs_of_limbs. now apply val_limbs_of_small.
Qed.

Lemma bigint_of_mpz_full n r :
  (0 <= r < 2 ^ (64 * Z.of_nat n) ->
   exists b, bigint_of_mpz n r = Ok b /\ length b = n /\ limbs b /\ val b = r) /\
  (~ 0 <= r < 2 ^ (64 * Z.of_nat n) -> bigint_of_mpz n r = AssertFail).
Proof.
  destruct (bigint_of_mpz_ok n r) as [H1 H2]. split; [|exact H2]. intros Hr. exists (limbs_of n r).
  split; [exact (H1 Hr)|]. split; [apply limbs_of_length|]. split; [apply limbs_of_limbs|]. now apply val_limbs_of_small.
Qed.

Lemma of_string_non_digit n s : (exists c, In c s /\ is_digit c = false) -> bigint_of_string n s = AssertFail.
Proof.
  intros (c & Hc & Hd). unfold bigint_of_string. destruct (forallb is_digit s) eqn:E; auto.
  rewrite forallb_forall in E. specialize (E c Hc). congruence.
Qed.

Lemma of_string_too_large n s : s <> [] -> Forall (fun c => is_digit c = true) s ->
  2 ^ (64 * Z.of_nat n) <= digits_val s -> bigint_of_string n s = UB.
Proof.
  intros Hne Hd Hv. unfold bigint_of_string. rewrite (proj2 (forallb_Forall _ _) Hd).
  destruct s as [|c s]; [congruence|]. cbv zeta.
  destruct (n <? set_str_size (digits_val (c :: s)))%nat eqn:E; auto.
  apply Nat.ltb_ge in E. apply set_str_size_le in E; [unfold Bn in E; lia|].
  assert (0 < 2 ^ (64 * Z.of_nat n)) by (apply Z.pow_pos_nonneg; lia). lia.
Qed.

Lemma full_width_refuted :
  exists P a b, (fp_n P = 1)%nat /\ 1 < val (fp_modulus P) < 2 ^ 64 /\ Z.odd (val (fp_modulus P)) = true /\
    (fp_inv P * val (fp_modulus P) + 1) mod 2 ^ 64 = 0 /\
    val (fp_Rsquared P) = (2 ^ 64 * 2 ^ 64) mod val (fp_modulus P) /\
    canon P a /\ canon P b /\ fp_mul P a b = AssertFail.
Proof.
  exists {| fp_n := 1; fp_modulus := [2 ^ 64 - 59]; fp_inv := 14694863923124558067;
            fp_Rsquared := [3481]; fp_Rcubed := [0]; fp_num_bits := 64 |}.
  exists [2 ^ 64 - 60], [2 ^ 64 - 60].
  split; [reflexivity|]. split; [vm_compute; auto|]. split; [vm_compute; reflexivity|].
  split; [vm_compute; reflexivity|]. split; [vm_compute; reflexivity|].
  split; [apply canonb_iff; vm_compute; reflexivity|].
  split; [apply canonb_iff; vm_compute; reflexivity|]. vm_compute. reflexivity.
Qed.

Lemma from_words_refuted : exists P old w r, fp_ok P /\ fp_ok_inv P /\
  fp_num_bits P = bit_length (val (fp_modulus P)) /\
  length w = fp_n P /\ limbs w /\ canon P old /\
  val (fp_modulus P) <= val w < 2 ^ fp_num_bits P /\
  fp_from_words P false old w = Ok (r, true).
Proof.
  exists toy, [0], [65540]. eexists.
  split; [exact toy_ok|]. split; [exact toy_oki|].
  split; [vm_compute; reflexivity|]. split; [reflexivity|].
  split; [apply limbsb_iff; vm_compute; reflexivity|].
  split; [apply canonb_iff; vm_compute; reflexivity|].
  split; [split; [vm_compute; discriminate|vm_compute; reflexivity]|]. vm_compute. reflexivity.
Qed.
