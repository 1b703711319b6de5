(** C72: mul_by_cofactor. *)
From Coq Require Import ZArith List.
From Verif Require Import Limbs GroupOps WnafModel ParamsModel TowerModel CofactorModel CofactorProofs.
Import ListNotations.
Open Scope Z_scope.

Theorem C72_multiple T G (O : gops T) ok (den : T -> G) z add opp : gops_ok O ok den z add opp -> forall bits h p,
  0 <= h < Bn (h_limbs bits) -> ok p ->
  ok (mul_by_cofactor O bits h p) /\ den (mul_by_cofactor O bits h p) = gmul z add opp h (den p).
Proof. exact (mul_by_cofactor_spec O ok den z add opp). Qed.
Print Assumptions C72_multiple.

(** Where the cofactor is 1 the code returns the point. *)
Theorem C72_one T G (O : gops T) ok (den : T -> G) z add opp : gops_ok O ok den z add opp -> forall p,
  den (mul_by_cofactor_one p) = gmul z add opp 1 (den p).
Proof. exact (cofactor_one O ok den z add opp). Qed.
Print Assumptions C72_one.

(** The image has order dividing r if the order of the point divides h r, which is
    what it means that h is the cofactor.  The orders of the curves are not proved. *)
Theorem C72_into_partial T G (O : gops T) ok (den : T -> G) z add opp : gops_ok O ok den z add opp -> forall bits h r p,
  0 <= h < Bn (h_limbs bits) -> ok p -> gmul z add opp (h * r) (den p) = z ->
  gmul z add opp r (den (mul_by_cofactor O bits h p)) = z.
Proof. exact (cofactor_into O ok den z add opp). Qed.
Print Assumptions C72_into_partial.

(** On the points of order r it is injective. *)
Theorem C72_injective T G (O : gops T) ok (den : T -> G) z add opp : gops_ok O ok den z add opp -> forall bits h r p q,
  0 <= h < Bn (h_limbs bits) -> ok p -> ok q -> Z.gcd h r = 1 ->
  gmul z add opp r (den p) = z -> gmul z add opp r (den q) = z ->
  den (mul_by_cofactor O bits h p) = den (mul_by_cofactor O bits h q) -> den p = den q.
Proof. exact (cofactor_inj O ok den z add opp). Qed.
Print Assumptions C72_injective.

(** Every shipped cofactor fits h_bitcount, is prime to r, and h r is within Hasse's
    interval around the size of the field plus one. *)
Theorem C72_constants c : In c shipped_cofactors -> cofactor_good c.
Proof. exact (shipped_cofactors_good c). Qed.
Print Assumptions C72_constants.

(** For G1 (alt_bn128, bls12_381, mnt4, mnt6) no other h is in the interval. *)
Theorem C72_g1_unique c h : In c [nth 0 shipped_cofactors (mkCofactor 0 0 0 0); nth 2 shipped_cofactors (mkCofactor 0 0 0 0);
    nth 4 shipped_cofactors (mkCofactor 0 0 0 0); nth 6 shipped_cofactors (mkCofactor 0 0 0 0)] ->
  (h * co_r c - co_field c - 1) ^ 2 <= 4 * co_field c -> h = co_h c.
Proof. exact (g1_unique c h). Qed.
Print Assumptions C72_g1_unique.

(** For G2, h r is the order the trace of the curve gives to the twist. *)
Theorem C72_twists :
  sextic_trace alt_bn128_tower /\ sextic_trace bls12_381_tower /\
  (let q := fc_p mnt4_Fq_C in let r := fc_p mnt4_Fr_C in let t := q + 1 - ft_h1 mnt4_tower * r in
   ft_h2 mnt4_tower * r = q ^ 2 + 1 + (t ^ 2 - 2 * q)) /\
  (let q := fc_p mnt6_Fq_C in let r := fc_p mnt6_Fr_C in let t := q + 1 - mnt6_h1 * r in
   mnt6_h2 * r = q ^ 3 + 1 + (t ^ 3 - 3 * q * t)).
Proof. exact twist_traces. Qed.
Print Assumptions C72_twists.

(** The cofactors returned unmultiplied are 1; with 256 for 507 bits h of bls12_381's
    G2 would lose its top. *)
Example C72_example : length shipped_cofactors = 8%nat /\ bt_h1 alt_bn128_tower = 1 /\ ft_h1 mnt4_tower = 1 /\ mnt6_h1 = 1 /\
  h_limbs 1 = 1%nat /\ h_limbs 126 = 2%nat /\ h_limbs 507 = 8%nat /\
  val (limbs_of (h_limbs 256) (bt_h2 bls12_381_tower)) <> bt_h2 bls12_381_tower.
Proof. vm_compute. repeat split. discriminate. Qed.
