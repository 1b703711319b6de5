(** The loop counts of the Miller loops against the field and group orders.
    [signed] is the count with its sign flag. *)
From Coq Require Import ZArith List Bool Lia.
From Verif Require Import ParamsModel TowerModel TowerShipped.
Open Scope Z_scope.

(** The optimal ate pairing of a Barreto-Naehrig curve: 6z + 2 + q - q^2 + q^3 = 0 mod r. *)
Lemma alt_bn128_loop : let D := alt_bn128_tower in let q := fc_p (bt_Fq D) in let r := fc_p (bt_Fr D) in
  let T := signed (bt_loop_neg D) (bt_loop D) in
  T = 6 * signed (bt_z_neg D) (bt_z D) + 2 /\ (r | T + q - q ^ 2 + q ^ 3) /\ (r | q ^ 4 - q ^ 2 + 1).
Proof.
  cbv zeta. split; [vm_compute; reflexivity|].
  split; apply Z.mod_divide; try (vm_compute; discriminate); vm_compute; reflexivity.
Qed.
(** The ate pairing: T = q mod r. *)
Lemma bls12_381_loop : let D := bls12_381_tower in let q := fc_p (bt_Fq D) in let r := fc_p (bt_Fr D) in
  let T := signed (bt_loop_neg D) (bt_loop D) in
  T = signed (bt_z_neg D) (bt_z D) /\ (r | T - q) /\ (r | q ^ 4 - q ^ 2 + 1).
Proof.
  cbv zeta. split; [vm_compute; reflexivity|].
  split; apply Z.mod_divide; try (vm_compute; discriminate); vm_compute; reflexivity.
Qed.
Lemma mnt4_loop : let D := mnt4_tower in let q := fc_p (ft_Fq D) in let r := fc_p (ft_Fr D) in
  (r | signed (ft_loop_neg D) (ft_loop D) - q) /\ (r | q ^ 2 + 1).
Proof. cbv zeta. split; apply Z.mod_divide; try (vm_compute; discriminate); vm_compute; reflexivity. Qed.
Lemma mnt6_loop : let D := mnt6_tower in let q := fc_p (st_Fq D) in let r := fc_p (st_Fr D) in
  (r | signed (st_loop_neg D) (st_loop D) - q) /\ (r | q ^ 2 - q + 1).
Proof. cbv zeta. split; apply Z.mod_divide; try (vm_compute; discriminate); vm_compute; reflexivity. Qed.
(** edwards has no sign flag; its count is -q mod r, which gives the inverse of
    the ate pairing. *)
Lemma edwards_loop : let D := edwards_tower in let q := fc_p (st_Fq D) in let r := fc_p (st_Fr D) in
  (r | st_loop D + q) /\ ~ (r | st_loop D - q) /\ (r | q ^ 2 - q + 1).
Proof.
  cbv zeta. split; [apply Z.mod_divide; try (vm_compute; discriminate); vm_compute; reflexivity|].
  split; [|apply Z.mod_divide; try (vm_compute; discriminate); vm_compute; reflexivity].
  intros H. apply Z.mod_divide in H; [|vm_compute; discriminate]. vm_compute in H. discriminate.
Qed.
