(** C69: what print() writes determines the value printed. *)
From Coq Require Import ZArith NArith List Bool.
From Verif Require Import Result Limbs BigintModel FpModel FpSpec FpField FieldOps BinaryModel BinaryProofs StreamModel CurveModel CurveSpec Bn128Model
  PrintModel PrintProofs Examples.
Import ListNotations.
Open Scope Z_scope.

(** Prime fields: the value in decimal. *)
Theorem C69_prime P (OK : fp_ok P) a : canon P a -> fp_print P a = Ok (dec (den P a) ++ [ch_nl]).
Proof. exact (fp_print_spec P OK a). Qed.
Print Assumptions C69_prime.

(** Prime fields and every tower over them: no output is the beginning of the
    output for another element. *)
Theorem C69_fields P (OK : fp_ok P) :
  let print := fun x : Fp P => fp_print P (repr P x) in
  prefix_free print /\ prefix_free (quad_print print) /\ prefix_free (cubic_print print) /\
  prefix_free (quad_print (quad_print print)) /\ prefix_free (quad_print (cubic_print print)) /\
  prefix_free (cubic_print (quad_print print)) /\ prefix_free (quad_print (cubic_print (quad_print print))).
Proof. exact (towers_print_free P OK). Qed.
Print Assumptions C69_fields.

Theorem C69_binary g a b : gok (gf_of g) a -> gok (gf_of g) b -> gf_print g a = gf_print g b -> a = b.
Proof. exact (gf_print_inj g a b). Qed.
Print Assumptions C69_binary.

(** gf64 and larger: sixteen hexadecimal digits a word, the high word first. *)
Theorem C69_binary_words g a : gf_of g <> gf_of G32 -> gok (gf_of g) a ->
  exists ws, gf_print g a = concat ws ++ [ch_nl] /\ Forall (fun w => length w = 16%nat) ws /\ map hex_val ws = map Z.of_N (rev a).
Proof. exact (gf_print_words g a). Qed.
Print Assumptions C69_binary_words.

(** print_hex: the value in hexadecimal, without leading zeros. *)
Theorem C69_print_hex a : limbs a ->
  exists w, bigint_print_hex a = w ++ [ch_nl] /\ hex_val w = val a /\ (0 < val a -> hd 48 w <> 48).
Proof. exact (bigint_print_hex_spec a). Qed.
Print Assumptions C69_print_hex.

(** A coordinate in decimal, the highest coefficient first. *)
Theorem C69_coordinate P (OK : fp_ok P) x0 x1 x2 :
  fp_fmt P x0 = Ok (dec (den P (repr P x0))) /\
  fp2_fmt (fp_fmt P) (x0, x1) = Ok (dec (den P (repr P x1)) ++ str_z ++ dec (den P (repr P x0))) /\
  fp3_fmt (fp_fmt P) (x0, x1, x2) =
  Ok (dec (den P (repr P x2)) ++ str_z2 ++ dec (den P (repr P x1)) ++ str_z ++ dec (den P (repr P x0))).
Proof. exact (fmt_texts P OK x0 x1 x2). Qed.
Print Assumptions C69_coordinate.

(** The formats of one coordinate over Fp, Fp2 and Fp3 meet [fmt_ok]. *)
Theorem C69_formats P (OK : fp_ok P) : fmt_ok (fp_fmt P) /\ fmt_ok (fp2_fmt (fp_fmt P)) /\ fmt_ok (fp3_fmt (fp_fmt P)).
Proof. exact (formats_ok P OK). Qed.
Print Assumptions C69_formats.

(** Points: equal points print alike, and only they. *)
Theorem C69_jacobian {K} (F : Fops K) (FK : field_ok F) fmt (FO : fmt_ok fmt) p q :
  exists w, point_print fmt (jac_is_zero F) (jac_to_affine F) p = Ok w /\
  (point_print fmt (jac_is_zero F) (jac_to_affine F) q = Ok w <-> jac_eqb F p q = true).
Proof. exact (jac_print_iff F FK fmt FO p q). Qed.
Print Assumptions C69_jacobian.

Theorem C69_mnt {K} (F : Fops K) (FK : field_ok F) fmt (FO : fmt_ok fmt) a b p q : prj_ok F a b p -> prj_ok F a b q ->
  exists w, point_print fmt (prj_is_zero F) (prj_to_affine F) p = Ok w /\
  (point_print fmt (prj_is_zero F) (prj_to_affine F) q = Ok w <-> prj_eqb F p q = true).
Proof. exact (prj_print_iff F FK fmt FO a b p q). Qed.
Print Assumptions C69_mnt.

Theorem C69_edwards {K} (F : Fops K) (FK : field_ok F) fmt (FO : fmt_ok fmt) a d p q : edw_ok F a d p -> edw_ok F a d q ->
  exists w, point_print fmt (edw_is_zero F) (edw_to_affine F) p = Ok w /\
  (point_print fmt (edw_is_zero F) (edw_to_affine F) q = Ok w <-> edw_eqb F p q = true).
Proof. exact (edw_print_iff F FK fmt FO a d p q). Qed.
Print Assumptions C69_edwards.

Theorem C69_bn128 {K} (F : Fops K) (FK : field_ok F) fmt (FO : fmt_ok fmt) p q :
  exists w, bn_print fmt (bn_is_zero F) (bn_to_affine F) p = Ok w /\
  (bn_print fmt (bn_is_zero F) (bn_to_affine F) q = Ok w <-> jac_den F p = jac_den F q).
Proof. exact (bn_print_iff F FK fmt FO p q). Qed.
Print Assumptions C69_bn128.

(** print_coordinates shows the representation, except of the neutral element. *)
Theorem C69_coordinates {K} (fmt : K -> result stream) (FO : fmt_ok fmt) is_zero p q : is_zero p = false ->
  exists w, point_print_coordinates fmt is_zero p = Ok w /\ (point_print_coordinates fmt is_zero q = Ok w <-> p = q).
Proof. exact (print_coordinates_iff fmt FO is_zero p q). Qed.
Print Assumptions C69_coordinates.

(** 0x2a in gf128; "12*z + 7" and "c0/c1:". *)
Example C69_example :
  gf_print G128 [42; 1]%N = repeat 48 15 ++ [49] ++ repeat 48 14 ++ [50; 97; 10] /\
  fp2_fmt (fun z => Ok (dec z)) (7, 12) = Ok [49; 50; 42; 122; 32; 43; 32; 55] /\
  quad_print (fun z => Ok (bigint_print [z])) (7, 12) = Ok [99; 48; 47; 99; 49; 58; 10; 55; 10; 49; 50; 10] /\
  point_print (fun z => Ok (dec z)) (fun _ => false) Ok (3, 4, 1) = Ok [40; 51; 32; 44; 32; 52; 41; 10] /\
  bigint_print_hex [0; 26] = [49; 97] ++ repeat 48 16 ++ [10] /\ bigint_print_hex [0; 0] = [48; 10].
Proof. exact print_examples. Qed.
