(** The shipped generators (C52). *)
From Coq Require Import ZArith List Bool.
From Verif Require Import Mul63 FpField FieldOps ParamsModel ParamsProofs ExtModel ExtFrob CurveSpec CurveModel Hom TowerModel TowerSpec TowerProofs TowerShipped PairingModel PairingShipped Result FinalExpProofs MillerSpec MillerTwelve ExtInst MillerShipped MontRing HomMont HomPairing GenProofs.
Open Scope Z_scope.

Lemma alt_bn128_gen_check : gen_check alt_bn128_tower = true. Proof. vm_compute. reflexivity. Qed.
Lemma bls12_381_gen_check : gen_check bls12_381_tower = true. Proof. vm_compute. reflexivity. Qed.
Lemma shipped_ctx D : In D shipped_twelve -> ctx_check (fc_p (bt_Fq D)) = true.
Proof. intros [<-|[<-|[]]]; vm_compute; reflexivity. Qed.
Lemma base_mont C CO : rctx_check (fc_p C) = true -> homi (cF C CO) (r_ops (mk_rctx (fc_p C))) (mont (fc_P C)).
Proof. exact (mont_homi (fc_P C) (fco_ok C CO) (fco_inv C CO)). Qed.
Lemma base_mont_e C CO : rctx_check (fc_p C) = true -> forall z, mont_e (mk_rctx (fc_p C)) (cn C) z = mont (fc_P C) (ce C CO z).
Proof. unfold cn. rewrite (FpSpec.ok_len _ (fco_ok C CO)). exact (mont_of (fc_P C) (fco_ok C CO)). Qed.
Lemma shipped_rctx D : In D shipped_twelve -> rctx_check (fc_p (bt_Fq D)) = true.
Proof. intros [<-|[<-|[]]]; vm_compute; reflexivity. Qed.
Theorem shipped_generators D CO : In D shipped_twelve -> let F := cF (bt_Fq D) CO in let e := ce (bt_Fq D) CO in
  tw_G1 F e D (gen1 e D) /\ tw_G2 F e D (gen2 e D).
Proof.
  intros HI F e. apply (gen_ok F e (toZ (fc_P (bt_Fq D))) D (base_prime (bt_Fq D) CO) (shipped_twelve_ok D CO HI) (base_hom _ CO (shipped_ctx D HI))) with (hM := mont (fc_P (bt_Fq D))).
  - destruct HI as [<-|[<-|[]]]; [exact alt_bn128_mill|exact bls12_381_mill].
  - exact (base_mont _ CO (shipped_rctx D HI)).
  - exact (base_mont_e _ CO (shipped_rctx D HI)).
  - destruct HI as [<-|[<-|[]]]; [exact alt_bn128_gen_check|exact bls12_381_gen_check].
Qed.
Theorem shipped_mul_by_q D CO Q : In D shipped_twelve -> let F := cF (bt_Fq D) CO in let e := ce (bt_Fq D) CO in
  let F2 := twF2 F e D in let F12 := twF12 F e D in
  psi F12 (emb12 F2) (tw_u F e D) (jac_den F2 (bn_mul_by_q F (e (bt_nr2 D)) (map e (bt_c2 D)) (map2 e (bt_qX D)) (map2 e (bt_qY D)) Q)) =
  frob_pt F12 (cq (bt_Fq D)) (psi F12 (emb12 F2) (tw_u F e D) (jac_den F2 Q)).
Proof.
  intros HI F e. apply (tw_mul_by_q F e (toZ (fc_P (bt_Fq D))) D (base_prime (bt_Fq D) CO) (shipped_twelve_ok D CO HI) (base_hom _ CO)).
  destruct HI as [<-|[<-|[]]]; [exact alt_bn128_mill|exact bls12_381_mill].
Qed.
Lemma at_generators D CO ate pairing : In D shipped_twelve -> let F := cF (bt_Fq D) CO in let e := ce (bt_Fq D) CO in let F2 := twF2 F e D in
  textbook F e D ate pairing -> exists c, Z.gcd c (fc_p (bt_Fr D)) = 1 /\
  pairing (e (fst (bt_G1 D)), e (snd (bt_G1 D)), o1 F) (map2 e (fst (bt_G2 D)), map2 e (snd (bt_G2 D)), o1 F2) =
  Ok (fpow (twF12 F e D) (ate (gen2 e D) (e (fst (bt_G1 D))) (e (snd (bt_G1 D))))
        (Z.to_nat (c * ((fc_p (bt_Fq D) ^ 12 - 1) / fc_p (bt_Fr D))))).
Proof.
  intros HI F e F2 (c & _ & Cg & H). exists c. split; [exact Cg|].
  destruct (shipped_generators D CO HI) as [G1 G2].
  pose proof (pb_field F _ (base_prime (bt_Fq D) CO)) as FK.
  pose proof (shipped_twelve_ok D CO HI) as T. pose proof (to_m F e D T) as [m Em].
  assert (FK2 : field_ok F2) by exact (two_field F _ (base_prime (bt_Fq D) CO) _ m Em (to_nr2 F e D T)).
  exact (proj2 (H _ _ _ _ _ (den_aff F FK _ _) (den_aff F2 FK2 _ _) G1 G2)).
Qed.
