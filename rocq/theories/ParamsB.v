(** Certificates and checks for the constants of alt_bn128_Fq, bn128_Fq, bls12_381_Fr. *)
From Coq Require Import ZArith List.
From Verif Require Import NumTheory Certs FpModel ParamsModel ParamsProofs.
Import ListNotations.
Open Scope Z_scope.

Definition alt_bn128_Fq_cert : cert :=
  (Pock 21888242871839275222246405745257275088696311157297823662689037894645226208583 3 [((Pock 13427688667394608761327070753331941386769 2 [((Pock 173171039 2 [((Small 13327), 1)]), 1); ((Pock 4562087 5 [((Small 109), 1); ((Small 17), 1); ((Small 2), 1)]), 1); ((Pock 1853641 17 [((Small 19), 1); ((Small 3), 2); ((Small 2), 3)]), 1)]), 1); ((Pock 11465965001 2 [((Small 327599), 1)]), 1); ((Pock 405928799 2 [((Small 3691), 1); ((Small 11), 1)]), 1); ((Small 11003), 1); ((Small 983), 1); ((Small 311), 1); ((Small 229), 1); ((Small 67), 1); ((Small 29), 1); ((Small 13), 1); ((Small 3), 2); ((Small 2), 1)]).
Lemma alt_bn128_Fq_prime_check : check alt_bn128_Fq_cert = true.
Proof. vm_compute. reflexivity. Qed.
Lemma alt_bn128_Fq_ok : field_consts_ok alt_bn128_Fq_C.
Proof. apply (consts_check_sound _ _ alt_bn128_Fq_prime_check). vm_compute. reflexivity. Qed.

Lemma bn128_Fq_ok : field_consts_ok bn128_Fq_C.
Proof. apply (consts_check_sound _ _ alt_bn128_Fq_prime_check). vm_compute. reflexivity. Qed.

Definition bls12_381_Fr_cert : cert :=
  (Pock 52435875175126190479447740508185965837690552500527637822603658699938581184513 7 [((Pock 254760293 2 [((Pock 63690073 2 [((Pock 2653753 2 [((Small 110573), 1)]), 1)]), 1)]), 2); ((Pock 52437899 2 [((Small 609743), 1)]), 1); ((Pock 2529403 2 [((Small 18329), 1)]), 1); ((Pock 2508409 2 [((Small 7), 2); ((Small 3), 4)]), 1); ((Small 906349), 2); ((Small 859267), 1); ((Small 125527), 1); ((Small 10177), 1); ((Small 19), 1); ((Small 11), 1); ((Small 3), 1); ((Small 2), 32)]).
Lemma bls12_381_Fr_prime_check : check bls12_381_Fr_cert = true.
Proof. vm_compute. reflexivity. Qed.
Lemma bls12_381_Fr_ok : field_consts_ok bls12_381_Fr_C.
Proof. apply (consts_check_sound _ _ bls12_381_Fr_prime_check). vm_compute. reflexivity. Qed.

