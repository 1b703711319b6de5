(** Small instances showing that the hypotheses of the pairing theorems can be
    met: towers over F_13 with short loop counts. *)
From Coq Require Import ZArith List Bool Lia.
From Verif Require Import Result Limbs LimbsProofs Algebra NumTheory FieldOps ZmInst ExtModel ExtSpec ExtFrob ExtInst ExtProofs ExtExtra
  CurveModel FinalExpModel PairingModel PairingSpec PairingProofs.
Import ListNotations.
Open Scope Z_scope.

Definition size {A} (r : result (list A)) : option nat := match r with Ok l => Some (length l) | _ => None end.
Definition size2 {L} (r : result (@mnt_G2_precomp L)) : option (nat * nat) :=
  match r with Ok q => Some (length (dbl_coeffs q), length (add_coeffs q)) | _ => None end.
Definition q2 : (Zm 13 * Zm 13) * (Zm 13 * Zm 13) * (Zm 13 * Zm 13) := ((f13 2, f13 3), (f13 5, f13 1), o1 F169).
Notation F3 := (fp3_ops F13 (f13 2)).
Definition q3 : (Zm 13 * Zm 13 * Zm 13) * (Zm 13 * Zm 13 * Zm 13) * (Zm 13 * Zm 13 * Zm 13) :=
  ((f13 2, f13 3, f13 1), (f13 5, f13 1, f13 0), o1 F3).
Lemma bls_size : size (bls_precompute_G2 F13 (f13 2) xi xi [22] q2) = Some 6%nat.
Proof. vm_compute. reflexivity. Qed.
Lemma alt_size : size (alt_precompute_G2 F13 (f13 2) xi xi [22] false t2_13 (o1 F169) (o1 F169) q2) = Some 8%nat.
Proof. vm_compute. reflexivity. Qed.
Lemma mnt4_size neg : size2 (mnt_precompute_G2 F13 F169 (quad_scale (omul F13)) (f13 0, f13 1) (f13 0, f13 1) [22] neg q2) =
  Some (4%nat, if neg then 3%nat else 2%nat).
Proof. destruct neg; vm_compute; reflexivity. Qed.
Lemma mnt6_size neg : size2 (mnt_precompute_G2 F13 F3 (cubic_scale (omul F13)) (f13 0, f13 1, f13 0) (f13 0, f13 1, f13 0) [22] neg q3) =
  Some (4%nat, if neg then 3%nat else 2%nat).
Proof. destruct neg; vm_compute; reflexivity. Qed.
Lemma edw_size : size (edw_precompute_G2 F3 (fun x => x) [22] q3) = Some 6%nat.
Proof. vm_compute. reflexivity. Qed.
Lemma tate_size : size (tate_precompute_G1 F13 [22] (f13 2, f13 3, f13 1)) = Some 6%nat.
Proof. vm_compute. reflexivity. Qed.
Lemma affine4_size : match affine_precompute_G2 F169 (f13 0, f13 1) (f13 0, f13 1) [22] q2 with Ok (_, cs) => Some (length cs) | _ => None end = Some 7%nat.
Proof. vm_compute. reflexivity. Qed.

(** Reduced pairings of the neutral element that reach the end. *)
Definition t61_13 := map (fun k => powz F169 xi ((13 ^ k - 1) / 3)) [0; 1; 2; 3; 4; 5].
Definition t62_13 := map (fun k => powz F169 xi (2 * (13 ^ k - 1) / 3)) [0; 1; 2; 3; 4; 5].
Definition t12_13 := map (fun k => powz F169 xi ((13 ^ k - 1) / 6)) [0; 1; 2; 3; 4; 5; 6; 7; 8; 9; 10; 11].
Definition t31_13 := map (fun k => powz F13 (f13 2) ((13 ^ k - 1) / 3)) [0; 1; 2].
Definition t32_13 := map (fun k => powz F13 (f13 2) (2 * (13 ^ k - 1) / 3)) [0; 1; 2].
Definition t6_13 := map (fun k => powz F13 (f13 2) ((13 ^ k - 1) / 6)) [0; 1; 2; 3; 4; 5].
Definition p1 : Zm 13 * Zm 13 * Zm 13 := (f13 2, f13 3, f13 1).
Definition is_one {T} (F : Fops T) (r : result T) : bool := match r with Ok x => oeqb F x (o1 F) | _ => false end.
Lemma bls_neutral_runs :
  is_one T12 (bls_reduced_pairing F13 (f13 2) xi xi t2_13 t61_13 t62_13 t12_13 xi xi [22] true [3] true (jac_zero F13) q2) = true /\
  is_one T12 (bls_reduced_pairing F13 (f13 2) xi xi t2_13 t61_13 t62_13 t12_13 xi xi [5] true [3] true p1 (jac_zero F169)) = true.
Proof. split; vm_compute; reflexivity. Qed.
Lemma alt_neutral_runs :
  is_one T12 (alt_reduced_pairing F13 (f13 2) xi xi t2_13 t61_13 t62_13 t12_13 xi xi (o1 F169) (o1 F169) [22] false [3] true (jac_zero F13) q2) = true.
Proof. vm_compute. reflexivity. Qed.
Lemma edwards_neutral_runs :
  is_one T6 (edwards_reduced_pairing F13 (f13 2) (f13 2) (f13 2) t31_13 t32_13 t6_13 (edwards_mul_by_a F13 (f13 1) (f13 2)) [22] [1] [3] true
    (edw_zero F13) q3) = true.
Proof. vm_compute. reflexivity. Qed.
Lemma mnt6_neutral_runs :
  is_one T6 (mnt6_reduced_pairing F13 (f13 2) (f13 2) (f13 2) t31_13 t32_13 t6_13 (f13 0, f13 0, f13 11) [22] true [1] [3] true p1 (prj_zero F3)) = true.
Proof. vm_compute. reflexivity. Qed.
