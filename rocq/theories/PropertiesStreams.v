(** Property theorems for the stream operators of extension-field elements and
    of the pairing precomputations: C53, C54.

    [before bin ws]: ws is empty (binary) or white space (text);
    [after bin rest]: in text mode rest starts with white space or is empty. *)
From Coq Require Import ZArith List Bool.
From Verif Require Import Result Limbs StreamModel SerializationModel FpModel FpSpec FpField FpInst AlgorithmsField FieldOps
  CurveSpec CurveModel CurveIoModel CurveIoProofs CurveExtra PairingModel PrecompIoModel PrecompIoProofs Examples.
Import ListNotations.
Open Scope Z_scope.

(** ** C53: pairing precomputations *)
(** alt_bn128 and bls12_381 *)
Theorem C53_twelve_g1 P (OK : fp_ok P) bin mont (p : Fp P * Fp P) : let C := fp_codec P bin mont in
  exists w, write2 bin C p = Ok w /\ forall ws rest, before bin ws -> after bin rest ->
    read2 bin C (ws ++ w ++ rest) = Ok (p, rest).
Proof. exact (io2 bin _ (fp_codec_ok P bin mont OK) p). Qed.
Print Assumptions C53_twelve_g1.
Theorem C53_twelve_g2 P (OK : fp_ok P) bin mont p : let C := fp2_codec bin (fp_codec P bin mont) in
  Z.of_nat (length (snd p)) < 2 ^ 64 ->
  exists w, bn_g2_write bin C p = Ok w /\ forall ws rest, before bin ws ->
    bn_g2_read bin C (ws ++ w ++ rest) = Ok (p, rest).
Proof. exact (bn_g2_io bin _ (fp2_codec_ok bin _ (fp_codec_ok P bin mont OK)) p). Qed.
Print Assumptions C53_twelve_g2.
(** mnt4: the twist field is Fp2 *)
Theorem C53_mnt4_g1 P (OK : fp_ok P) bin mont p : let C := fp_codec P bin mont in let CL := fp2_codec bin C in
  exists w, mnt_g1_write bin C CL p = Ok w /\ forall ws rest, before bin ws -> after bin rest ->
    mnt_g1_read bin C CL (ws ++ w ++ rest) = Ok (p, rest).
Proof. exact (mnt_g1_io bin _ _ p (fp_codec_ok P bin mont OK) (fp2_codec_ok bin _ (fp_codec_ok P bin mont OK))). Qed.
Print Assumptions C53_mnt4_g1.
Theorem C53_mnt4_g2 P (OK : fp_ok P) bin mont q : let CL := fp2_codec bin (fp_codec P bin mont) in
  Z.of_nat (length (dbl_coeffs q)) < 2 ^ 64 -> Z.of_nat (length (add_coeffs q)) < 2 ^ 64 ->
  exists w, mnt_g2_write bin CL q = Ok w /\ forall ws rest, before bin ws ->
    mnt_g2_read bin CL (ws ++ w ++ rest) = Ok (q, rest).
Proof. exact (mnt_g2_io bin _ (fp2_codec_ok bin _ (fp_codec_ok P bin mont OK)) q). Qed.
Print Assumptions C53_mnt4_g2.
(** mnt6: the twist field is Fp3 *)
Theorem C53_mnt6_g1 P (OK : fp_ok P) bin mont p : let C := fp_codec P bin mont in let CL := fp3_codec bin C in
  exists w, mnt_g1_write bin C CL p = Ok w /\ forall ws rest, before bin ws -> after bin rest ->
    mnt_g1_read bin C CL (ws ++ w ++ rest) = Ok (p, rest).
Proof. exact (mnt_g1_io bin _ _ p (fp_codec_ok P bin mont OK) (fp3_codec_ok bin _ (fp_codec_ok P bin mont OK))). Qed.
Print Assumptions C53_mnt6_g1.
Theorem C53_mnt6_g2 P (OK : fp_ok P) bin mont q : let CL := fp3_codec bin (fp_codec P bin mont) in
  Z.of_nat (length (dbl_coeffs q)) < 2 ^ 64 -> Z.of_nat (length (add_coeffs q)) < 2 ^ 64 ->
  exists w, mnt_g2_write bin CL q = Ok w /\ forall ws rest, before bin ws ->
    mnt_g2_read bin CL (ws ++ w ++ rest) = Ok (q, rest).
Proof. exact (mnt_g2_io bin _ (fp3_codec_ok bin _ (fp_codec_ok P bin mont OK)) q). Qed.
Print Assumptions C53_mnt6_g2.
(** edwards *)
Theorem C53_edwards_ate_g1 P (OK : fp_ok P) bin mont p : let C := fp_codec P bin mont in
  exists w, write3 bin C p = Ok w /\ forall ws rest, before bin ws -> after bin rest ->
    edw_g1_read C (ws ++ w ++ rest) = Ok (p, rest).
Proof. exact (edw_g1_io bin _ (fp_codec_ok P bin mont OK) p). Qed.
Print Assumptions C53_edwards_ate_g1.
Theorem C53_edwards_ate_g2 P (OK : fp_ok P) bin mont l : let CL := fp3_codec bin (fp_codec P bin mont) in
  Z.of_nat (length l) < 2 ^ 64 ->
  exists w, conics_write bin CL l = Ok w /\ forall rest, conics_read bin CL (w ++ rest) = Ok (l, rest).
Proof. exact (conics_io bin _ (fp3_codec_ok bin _ (fp_codec_ok P bin mont OK)) l). Qed.
Print Assumptions C53_edwards_ate_g2.
Theorem C53_edwards_tate_g1 P (OK : fp_ok P) bin mont l : let C := fp_codec P bin mont in
  Z.of_nat (length l) < 2 ^ 64 ->
  exists w, conics_write bin C l = Ok w /\ forall rest, conics_read bin C (w ++ rest) = Ok (l, rest).
Proof. exact (conics_io bin _ (fp_codec_ok P bin mont OK) l). Qed.
Print Assumptions C53_edwards_tate_g1.
Theorem C53_edwards_tate_g2 P (OK : fp_ok P) bin mont p : let CL := fp3_codec bin (fp_codec P bin mont) in
  exists w, write2 bin CL p = Ok w /\ forall ws rest, before bin ws -> after bin rest ->
    read2 bin CL (ws ++ w ++ rest) = Ok (p, rest).
Proof. exact (io2 bin _ (fp3_codec_ok bin _ (fp_codec_ok P bin mont OK)) p). Qed.
Print Assumptions C53_edwards_tate_g2.
(** bn128, whatever the ate-pairing library's field streams are, as long as
    they round trip: the text is consumed without error, and the target object
    keeps the P (Q) it had before. *)
Theorem C53_bn128_g1_refuted {K} bin (C : codec K) P old : codec_ok bin C -> old <> P ->
  exists w P', bn128_g1_write bin C P = Ok w /\ P' <> P /\
    forall rest, bn128_g1_read bin C old (w ++ rest) = Ok (P', rest).
Proof.
  exact (fun CO N => let '(ex_intro _ w (conj E R)) := bn128_g1_lost bin C CO P old in
    ex_intro _ w (ex_intro _ old (conj E (conj N R)))).
Qed.
Print Assumptions C53_bn128_g1_refuted.
Theorem C53_bn128_g2_refuted {K} bin (C : codec K) Q coeffs old : codec_ok bin C -> old <> Q ->
  Z.of_nat (length coeffs) < 2 ^ 64 ->
  exists w Q', bn128_g2_write bin C (Q, coeffs) = Ok w /\ Q' <> Q /\
    forall rest, bn128_g2_read bin C old (w ++ rest) = Ok ((Q', coeffs), rest).
Proof.
  exact (fun CO N HL => let '(ex_intro _ w (conj E R)) := bn128_g2_lost bin C CO Q coeffs old HL in
    ex_intro _ w (ex_intro _ old (conj E (conj N R)))).
Qed.
Print Assumptions C53_bn128_g2_refuted.
Example C53_hypotheses_met : fp_ok toy /\ codec_ok false (fp_codec toy false true) /\
  exists P old : Fp toy * Fp toy * Fp toy, old <> P.
Proof. exact toy_streams. Qed.

(** ** C54: extension-field elements, and vectors of them *)
Theorem C54_fp2 P (OK : fp_ok P) bin mont x : let C := fp2_codec bin (fp_codec P bin mont) in
  exists w, cd_wr C x = Ok w /\ forall ws rest, before bin ws -> after bin rest -> cd_rd C (ws ++ w ++ rest) = Ok (x, rest).
Proof. exact (co_rt _ _ (fp2_codec_ok bin _ (fp_codec_ok P bin mont OK)) x). Qed.
Print Assumptions C54_fp2.
Theorem C54_fp3 P (OK : fp_ok P) bin mont x : let C := fp3_codec bin (fp_codec P bin mont) in
  exists w, cd_wr C x = Ok w /\ forall ws rest, before bin ws -> after bin rest -> cd_rd C (ws ++ w ++ rest) = Ok (x, rest).
Proof. exact (co_rt _ _ (fp3_codec_ok bin _ (fp_codec_ok P bin mont OK)) x). Qed.
Print Assumptions C54_fp3.
Theorem C54_fp4 P (OK : fp_ok P) bin mont x : let C := fp4_codec bin (fp_codec P bin mont) in
  exists w, cd_wr C x = Ok w /\ forall ws rest, before bin ws -> after bin rest -> cd_rd C (ws ++ w ++ rest) = Ok (x, rest).
Proof. exact (co_rt _ _ (fp4_codec_ok bin _ (fp_codec_ok P bin mont OK)) x). Qed.
Print Assumptions C54_fp4.
Theorem C54_fp6_2over3 P (OK : fp_ok P) bin mont x : let C := fp6_2over3_codec bin (fp_codec P bin mont) in
  exists w, cd_wr C x = Ok w /\ forall ws rest, before bin ws -> after bin rest -> cd_rd C (ws ++ w ++ rest) = Ok (x, rest).
Proof. exact (co_rt _ _ (fp6_2over3_codec_ok bin _ (fp_codec_ok P bin mont OK)) x). Qed.
Print Assumptions C54_fp6_2over3.
Theorem C54_fp6_3over2 P (OK : fp_ok P) bin mont x : let C := fp6_3over2_codec bin (fp_codec P bin mont) in
  exists w, cd_wr C x = Ok w /\ forall ws rest, before bin ws -> after bin rest -> cd_rd C (ws ++ w ++ rest) = Ok (x, rest).
Proof. exact (co_rt _ _ (fp6_3over2_codec_ok bin _ (fp_codec_ok P bin mont OK)) x). Qed.
Print Assumptions C54_fp6_3over2.
Theorem C54_fp12 P (OK : fp_ok P) bin mont x : let C := fp12_codec bin (fp_codec P bin mont) in
  exists w, cd_wr C x = Ok w /\ forall ws rest, before bin ws -> after bin rest -> cd_rd C (ws ++ w ++ rest) = Ok (x, rest).
Proof. exact (co_rt _ _ (fp12_codec_ok bin _ (fp_codec_ok P bin mont OK)) x). Qed.
Print Assumptions C54_fp12.
(** Vectors: the elements are restored; in binary mode the stream stands after
    the vector... *)
Theorem C54_vector_binary {T} (C : codec T) v : codec_ok true C -> Z.of_nat (length v) < 2 ^ 64 ->
  exists w, write_sized true (cd_wr C) v = Ok w /\ forall rest, ext_read_vector (cd_rd C) (w ++ rest) = Ok (v, rest).
Proof. exact (ext_vector_binary C v). Qed.
Print Assumptions C54_vector_binary.
(** ... in text mode the newline after the last element is left in the stream. *)
Theorem C54_vector_text_refuted {T} (C : codec T) v : codec_ok false C -> Z.of_nat (length v) < 2 ^ 64 -> v <> [] ->
  exists w, write_sized false (cd_wr C) v = Ok w /\
    forall rest, ext_read_vector (cd_rd C) (w ++ rest) = Ok (v, ch_nl :: rest) /\ ch_nl :: rest <> rest.
Proof. exact (ext_vector_text C v). Qed.
Print Assumptions C54_vector_text_refuted.
(** A compressed point written after such a vector is read as the neutral
    element, whatever the point was, and no error is raised. *)
Theorem C54_vector_then_point_refuted {K T} (F : Fops K) (FK : field_ok F) (C : codec K) (CT : codec T) sqrt b v p :
  codec_ok false C -> codec_ok false CT -> v <> [] -> Z.of_nat (length v) < 2 ^ 64 ->
  exists wv wp, write_sized false (cd_wr CT) v = Ok wv /\
    sw_write C false true (jac_to_affine F) (jac_is_zero F) p = Ok wp /\
    forall rest, exists s, ext_read_vector (cd_rd CT) (wv ++ wp ++ rest) = Ok (v, s) /\
      sw_read F C false true sqrt (jac_rhs F b) (jac_zero F) s = Ok (jac_zero F, rest).
Proof. exact (vector_then_point F FK C CT sqrt b v p). Qed.
Print Assumptions C54_vector_then_point_refuted.
Example C54_hypotheses_met : codec_ok false (fp_codec toy false true) /\
  codec_ok false (fp2_codec false (fp_codec toy false true)) /\
  exists v : list (Fp toy * Fp toy), v <> [] /\ Z.of_nat (length v) < 2 ^ 64.
Proof. exact toy_vectors. Qed.
