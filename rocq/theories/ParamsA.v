(** Certificates and checks for the constants of alt_bn128_Fr, bn128_Fr, edwards_Fr, edwards_Fq. *)
From Coq Require Import ZArith List.
From Verif Require Import NumTheory Certs FpModel ParamsModel ParamsProofs.
Import ListNotations.
Open Scope Z_scope.

Definition alt_bn128_Fr_cert : cert :=
  (Pock 21888242871839275222246405745257275088548364400416034343698204186575808495617 5 [((Pock 13818364434197438864469338081 2 [((Pock 65865678001877903 2 [((Pock 639533339 2 [((Small 853), 1); ((Small 229), 1)]), 1)]), 1)]), 1); ((Pock 1670836401704629 2 [((Pock 5156902474397 2 [((Pock 12048837557 2 [((Small 661), 1); ((Small 7), 2); ((Small 2), 2)]), 1)]), 1)]), 1); ((Pock 405928799 2 [((Small 3691), 1); ((Small 11), 1)]), 1); ((Small 237073), 1); ((Small 11003), 1); ((Small 983), 1); ((Small 29), 1); ((Small 13), 1); ((Small 3), 2); ((Small 2), 28)]).
Lemma alt_bn128_Fr_prime_check : check alt_bn128_Fr_cert = true.
Proof. vm_compute. reflexivity. Qed.
Lemma alt_bn128_Fr_ok : field_consts_ok alt_bn128_Fr_C.
Proof. apply (consts_check_sound _ _ alt_bn128_Fr_prime_check). vm_compute. reflexivity. Qed.

Lemma bn128_Fr_ok : field_consts_ok bn128_Fr_C.
Proof. apply (consts_check_sound _ _ alt_bn128_Fr_prime_check). vm_compute. reflexivity. Qed.

Definition edwards_Fr_cert : cert :=
  (Pock 1552511030102430251236801561344621993261920897571225601 19 [((Pock 5679531856541001669394577 2 [((Pock 3866581 2 [((Small 21481), 1)]), 1); ((Small 478901), 1); ((Small 131), 1)]), 1); ((Small 1021), 1); ((Small 263), 1); ((Small 113), 1); ((Small 79), 2); ((Small 53), 1); ((Small 29), 1); ((Small 17), 1); ((Small 7), 3); ((Small 5), 2); ((Small 3), 1); ((Small 2), 31)]).
Lemma edwards_Fr_prime_check : check edwards_Fr_cert = true.
Proof. vm_compute. reflexivity. Qed.
Lemma edwards_Fr_ok : field_consts_ok edwards_Fr_C.
Proof. apply (consts_check_sound _ _ edwards_Fr_prime_check). vm_compute. reflexivity. Qed.

Definition edwards_Fq_cert : cert :=
  (Pock 6210044120409721004947206240885978274523751269793792001 61 [((Pock 1682846480381357 2 [((Pock 1730134517 2 [((Pock 39321239 2 [((Small 105137), 1)]), 1)]), 1)]), 1); ((Pock 711890597413 2 [((Pock 19774738817 3 [((Small 281), 1); ((Small 7), 1); ((Small 2), 7)]), 1)]), 1); ((Small 1021), 1); ((Small 263), 1); ((Small 79), 2); ((Small 53), 1); ((Small 29), 1); ((Small 17), 1); ((Small 7), 2); ((Small 5), 3); ((Small 3), 2); ((Small 2), 31)]).
Lemma edwards_Fq_prime_check : check edwards_Fq_cert = true.
Proof. vm_compute. reflexivity. Qed.
Lemma edwards_Fq_ok : field_consts_ok edwards_Fq_C.
Proof. apply (consts_check_sound _ _ edwards_Fq_prime_check). vm_compute. reflexivity. Qed.

