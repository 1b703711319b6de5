(** Certificates and checks for the constants of mnt4_Fr, mnt6_Fq, mnt4_Fq, mnt6_Fr. *)
From Coq Require Import ZArith List.
From Verif Require Import NumTheory Certs FpModel ParamsModel ParamsProofs.
Import ListNotations.
Open Scope Z_scope.

Definition mnt4_Fr_cert : cert :=
  (Pock 475922286169261325753349249653048451545124878552823515553267735739164647307408490559963137 10 [((Pock 832668823862928114206893884097921187 2 [((Pock 688987631240801274977929423 2 [((Pock 215503530768389060287 2 [((Pock 30204125999 2 [((Pock 46755613 2 [((Small 22013), 1)]), 1)]), 1)]), 1)]), 1)]), 2); ((Small 43), 2); ((Small 7), 4); ((Small 3), 2); ((Small 2), 34)]).
Lemma mnt4_Fr_prime_check : check mnt4_Fr_cert = true.
Proof. vm_compute. reflexivity. Qed.
Lemma mnt4_Fr_ok : field_consts_ok mnt4_Fr_C.
Proof. apply (consts_check_sound _ _ mnt4_Fr_prime_check). vm_compute. reflexivity. Qed.

Lemma mnt6_Fq_ok : field_consts_ok mnt6_Fq_C.
Proof. apply (consts_check_sound _ _ mnt4_Fr_prime_check). vm_compute. reflexivity. Qed.

Definition mnt4_Fq_cert : cert :=
  (Pock 475922286169261325753349249653048451545124879242694725395555128576210262817955800483758081 17 [((Pock 46886843293762334669203941507635473727 2 [((Pock 211749493256267713227913350318551 2 [((Pock 3365725416887341693 5 [((Pock 42932779 2 [((Pock 1022209 2 [((Small 11), 3)]), 1)]), 1); ((Small 3), 3); ((Small 2), 2)]), 1)]), 1)]), 1); ((Pock 832668823862928114206893884097921187 2 [((Pock 688987631240801274977929423 2 [((Pock 215503530768389060287 2 [((Pock 30204125999 2 [((Pock 46755613 2 [((Small 22013), 1)]), 1)]), 1)]), 1)]), 1)]), 1); ((Small 263), 1); ((Small 167), 1); ((Small 67), 1); ((Small 43), 1); ((Small 7), 2); ((Small 5), 1); ((Small 3), 1); ((Small 2), 17)]).
Lemma mnt4_Fq_prime_check : check mnt4_Fq_cert = true.
Proof. vm_compute. reflexivity. Qed.
Lemma mnt4_Fq_ok : field_consts_ok mnt4_Fq_C.
Proof. apply (consts_check_sound _ _ mnt4_Fq_prime_check). vm_compute. reflexivity. Qed.

Lemma mnt6_Fr_ok : field_consts_ok mnt6_Fr_C.
Proof. apply (consts_check_sound _ _ mnt4_Fq_prime_check). vm_compute. reflexivity. Qed.

