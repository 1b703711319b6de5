(** Certificates and checks for the constants of bls12_381_Fq. *)
From Coq Require Import ZArith List.
From Verif Require Import NumTheory Certs FpModel ParamsModel ParamsProofs.
Import ListNotations.
Open Scope Z_scope.

Definition bls12_381_Fq_cert : cert :=
  (Pock 4002409555221667393417789825735904156556882819939007885332058136124031650490837864442687629129015664037894272559787 2 [((Pock 15778400344354997994418419698270088123916926905054652752758194827714659 2 [((Pock 1125266252156850182658904441386709967 2 [((Pock 3819663927398918131021 6 [((Small 755057), 1); ((Small 113), 1); ((Small 19), 1); ((Small 5), 1); ((Small 3), 2)]), 1)]), 1)]), 1); ((Pock 2584487767265781317813 2 [((Pock 7259797099061183477 2 [((Pock 1928745244171409 2 [((Pock 9272813673901 2 [((Small 7577), 1); ((Small 7), 1); ((Small 5), 2); ((Small 3), 1)]), 1)]), 1)]), 1)]), 1); ((Pock 52437899 2 [((Small 609743), 1)]), 1); ((Small 859267), 1); ((Small 10177), 1); ((Small 47), 1); ((Small 23), 1); ((Small 11), 1); ((Small 3), 2); ((Small 2), 1)]).
Lemma bls12_381_Fq_prime_check : check bls12_381_Fq_cert = true.
Proof. vm_compute. reflexivity. Qed.
Lemma bls12_381_Fq_ok : field_consts_ok bls12_381_Fq_C.
Proof. apply (consts_check_sound _ _ bls12_381_Fq_prime_check). vm_compute. reflexivity. Qed.

