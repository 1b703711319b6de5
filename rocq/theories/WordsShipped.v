(** Word vectors, sizes and random points at the shipped parameters. *)
From Coq Require Import ZArith Znumtheory List Bool Lia.
From Verif Require Import Result Limbs LimbsProofs BigintModel BigintProofs FpModel FpSpec FpProofs FpField FpIoProofs Algebra FieldOps
  AlgorithmsModel AlgorithmsField GroupOps GroupProofs WnafModel ParamsModel ParamsProofs ParamsAll FpInst Examples
  ExtModel ExtSpec ExtFrob ExtProofs ExtInst CurveSpec CurveGroup CurveModel CurveProofs Hom TowerModel TowerSpec TowerProofs TowerShipped
  PairingModel PairingSpec PairingProofs PairingShipped MillerSpec MillerProofs MillerTwelve MillerRegular MillerOrder MillerShipped
  GenProofs GenShipped MillerBilinear BilinearTwelve BilinearShipped WordsModel WordsProofs.
Import ListNotations.
Open Scope Z_scope.

(** fp2.hpp:66 and field.hpp:72 promise that the words of an element are 0 above
    ceil_size_in_bits() and (fp2.hpp:71) that [from_words] ignores those bits. *)
Theorem fp2_layout_refuted : exists P x w, fp_ok P /\ fp_num_bits P = bit_length (val (fp_modulus P)) /\ all2 (canon P) x /\
  wd_to (fp2_words P true) x = Ok w /\ 2 ^ fp2_size (fp_ceil_size P) <= val w /\
  exists w' y, length w' = length w /\ val w' mod 2 ^ fp2_size (fp_ceil_size P) = val w mod 2 ^ fp2_size (fp_ceil_size P) /\
    wd_from (fp2_words P true) x w' = Ok (y, true) /\ y <> x.
Proof.
  exists toy2, ([0; 0], [0; 2 ^ 36]), [0; 0; 0; 2 ^ 36]. split; [exact toy2_ok|]. split; [reflexivity|].
  split. { split; apply (canonb_iff toy2); vm_compute; reflexivity. }
  split; [vm_compute; reflexivity|]. split; [vm_compute; discriminate|].
  exists [0; 0; 0; 0], ([0; 0], [0; 0]). split; [reflexivity|]. split; [vm_compute; reflexivity|].
  split; [vm_compute; reflexivity|discriminate].
Qed.
Lemma shipped_t C : In C shipped_fields -> fc_t C <> 1.
Proof. intros H. repeat (destruct H as [<-|H]; [vm_compute; discriminate|]). destruct H. Qed.
(** Without an odd factor in the order the shift is 9 = 3^2, a square inside the
    subgroup of order 2^s. *)
Lemma coset_shift_toy : let F := fp_ops (fc_P toy_C) (fco_ok _ toy_C_ok) (fco_inv _ toy_C_ok) in
  fpow F (coset_shift (osqr F) (fofZ (fc_P toy_C) (fco_ok _ toy_C_ok) (fc_gen toy_C))) (Z.to_nat (2 ^ 16)) = o1 F.
Proof.
  intros F. apply (fp_order (fc_P toy_C) (fco_ok _ toy_C_ok) (fco_inv _ toy_C_ok)). 
  pose proof (fp_ops_field (fc_P toy_C) (fco_ok _ toy_C_ok) (fco_inv _ toy_C_ok)) as FK. fold F in FK.
  unfold coset_shift. change (osqr (fp_ops (fc_P toy_C) (fco_ok toy_C toy_C_ok) (fco_inv toy_C toy_C_ok))) with (osqr F).
  rewrite (rk_sqr F (fk_ring F FK)). assert (N : fofZ (fc_P toy_C) (fco_ok _ toy_C_ok) (fc_gen toy_C) <> o0 F).
  { intros E. apply (f_equal (toZ (fc_P toy_C))) in E. unfold F in E. cbn [o0 fp_ops] in E.
    rewrite (toZ_zero (fc_P toy_C) (fco_ok _ toy_C_ok)), toZ_ofZ in E by (vm_compute; split; [discriminate|reflexivity]).
    vm_compute in E. discriminate E. }
  apply (fk_mul_neq_0 F FK); exact N.
Qed.

Section SW.
Context {K : Type} (F : Fops K) (FK : field_ok F) (a b : K).
Hypothesis H2 : oadd F (o1 F) (o1 F) <> o0 F.
Hypothesis HD : sw_disc F a b <> o0 F.
Context {T : Type} (O : gops T) (ok : T -> Prop) (dn : T -> apt K).
Hypothesis On : forall p, ok p -> sw_on F a b (dn p).
Hypothesis GO : gops_ok O ok (fun p => sp_mk F a b (dn p)) (sp_zero F a b) (sp_add F a b) (sp_opp F a b).
Variable C : field_consts.
Hypothesis CO : field_consts_ok C.
Variable one : T.
Hypothesis Ho : ok one.
(** The k-fold point in textbook form. *)
Definition times (k : Z) (A : apt K) : apt K := match k with Z.pos n => mult F a n A | _ => Inf end.
Lemma times_gmul k : 0 <= k -> proj1_sig (gmul (sp_zero F a b) (sp_add F a b) (sp_opp F a b) k (sp_mk F a b (dn one))) = times k (dn one).
Proof.
  intros Hk. change (zmult F a b k (dn one) = times k (dn one)). destruct k as [|n|n]; [reflexivity| |lia].
  cbn [times]. symmetry. apply (zmult_mult F FK a b H2 HD). now apply On.
Qed.
Theorem sw_random_point fuel src p : curve_random_element O (fc_P C) one fuel src = Ok p ->
  ok p /\ exists k, 0 <= k < fc_p C /\ dn p = times k (dn one).
Proof.
  intros E. destruct (random_point O ok _ _ _ _ GO (fc_P C) (fco_ok C CO) (fco_bits C CO) (oki_top _ (fco_inv C CO)) one Ho fuel src p E) as (Op & k & Hk & D).
  split; [exact Op|]. exists k. split; [exact Hk|]. rewrite <- times_gmul by lia. rewrite <- D. symmetry. apply (sp_mk_val F FK). now apply On.
Qed.
End SW.

