(** Stream operators of extension-field elements, of vectors of them, and of
    the pairing precomputations.

    [bin] is BINARY_OUTPUT.  [C] and [CL] are the stream operators of the base
    field and of the twist field (CurveIoModel.v). *)
From Coq Require Import ZArith List Bool.
From Verif Require Import Result Limbs StreamModel SerializationModel FieldOps CurveModel CurveIoModel PairingModel.
Import ListNotations.
Open Scope Z_scope.
Open Scope result_scope.

(** ** Extension fields above Fp2 and Fp3: the same text with the components'
    own operators *)
Section Towers.
Context {K : Type} (bin : bool) (C : codec K).
(** fp4.tcc:344-356 *)
Definition fp4_codec : codec ((K * K) * (K * K)) := fp2_codec bin (fp2_codec bin C).
(** fp6_2over3.tcc:371-383 *)
Definition fp6_2over3_codec : codec ((K * K * K) * (K * K * K)) := fp2_codec bin (fp3_codec bin C).
(** fp6_3over2.tcc:282-294 *)
Definition fp6_3over2_codec : codec ((K * K) * (K * K) * (K * K)) := fp3_codec bin (fp2_codec bin C).
(** fp12_2over3over2.tcc:522-534 *)
Definition fp12_codec : codec (((K * K) * (K * K) * (K * K)) * ((K * K) * (K * K) * (K * K))) :=
  fp2_codec bin fp6_3over2_codec.
End Towers.

(** ** Sized lists *)
Section Lists.
Context {T : Type} (bin : bool) (wr : T -> result stream) (rd : stream -> result (T * stream)).
(** out << x << OUTPUT_NEWLINE for every element *)
Fixpoint write_all (l : list T) : result stream :=
  match l with
  | [] => Ok []
  | x :: l' => w <- wr x ;; ws <- write_all l' ;; Ok (w ++ output_newline bin ++ ws)
  end.
(** out << v.size() << "\n", then the elements *)
Definition write_sized (l : list T) : result stream :=
  ws <- write_all l ;; Ok (dec (Z.of_nat (length l)) ++ [ch_nl] ++ ws).
(** in >> s; consume_newline(in); then s times in >> c; consume_OUTPUT_NEWLINE(in) *)
Definition read_sized (s : stream) : result (list T * stream) := read_vector bin rd s.
(** fp2.tcc:291-313, fp3.tcc:293-315, fp6_3over2.tcc:308-329,
    fp12_2over3over2.tcc:548-569: vectors of extension-field elements are
    written with [write_sized] (fp2.tcc:278-289, ...), and read by
    in >> s; in.read(&b, 1); then s times in >> el. *)
Definition ext_read_vector (s : stream) : result (list T * stream) :=
  '(size, s) <- read_u64 s ;;
  '(_, s) <- read_char s ;;
  read_many rd (Z.to_nat size) s.
End Lists.

Section Fields.
Context {K : Type} (bin : bool) (C : codec K).
Local Notation sep := (output_separator bin).
Local Notation consume := (consume_output_separator bin).
(** Three fields with separators: alt_bn128_pairing.cpp:49-64 and
    bls12_381_pairing.cpp:49-64 (ell_0, ell_VW, ell_VV);
    edwards_pairing.cpp:27-41 and 102-116 (c_ZZ, c_XY, c_XZ). *)
Definition write3 (c : K * K * K) : result stream :=
  let '(a, b, d) := c in
  wa <- cd_wr C a ;; wb <- cd_wr C b ;; wd <- cd_wr C d ;; Ok (wa ++ sep ++ wb ++ sep ++ wd).
Definition read3 (s : stream) : result (K * K * K * stream) :=
  '(a, s) <- cd_rd C s ;; s <- consume s ;;
  '(b, s) <- cd_rd C s ;; s <- consume s ;;
  '(d, s) <- cd_rd C s ;; Ok ((a, b, d), s).
(** Two fields: ate_G1_precomp, alt_bn128_pairing.cpp:26-40,
    bls12_381_pairing.cpp:26-40 (PX, PY); tate_G2_precomp,
    edwards_pairing.cpp:81-93 (y0, eta). *)
Definition write2 (c : K * K) : result stream :=
  let '(a, b) := c in wa <- cd_wr C a ;; wb <- cd_wr C b ;; Ok (wa ++ sep ++ wb).
Definition read2 (s : stream) : result (K * K * stream) :=
  '(a, s) <- cd_rd C s ;; s <- consume s ;; '(b, s) <- cd_rd C s ;; Ok ((a, b), s).

(** edwards_pairing.cpp:43-73 tate_G1_precomp, 118-149 ate_G2_precomp *)
Definition conics_write (l : list (K * K * K)) : result stream := write_sized bin write3 l.
Definition conics_read (s : stream) : result (list (K * K * K) * stream) := read_sized bin read3 s.
(** edwards_pairing.cpp:158-170 ate_G1_precomp (P_XY, P_XZ, P_ZZplusYZ): the
    reader does not consume the separators. *)
Definition edw_g1_read (s : stream) : result (K * K * K * stream) :=
  '(a, s) <- cd_rd C s ;; '(b, s) <- cd_rd C s ;; '(d, s) <- cd_rd C s ;; Ok ((a, b, d), s).

(** alt_bn128_pairing.cpp:73-108, bls12_381_pairing.cpp:73-109
    ate_G2_precomp (QX, QY, coeffs). *)
Definition bn_g2_write (p : K * K * list (K * K * K)) : result stream :=
  let '(QX, QY, coeffs) := p in
  w <- write2 (QX, QY) ;; ws <- write_sized bin write3 coeffs ;; Ok (w ++ [ch_nl] ++ ws).
Definition bn_g2_read (s : stream) : result (K * K * list (K * K * K) * stream) :=
  '(Q, s) <- read2 s ;; s <- consume_newline s ;;
  '(coeffs, s) <- read_sized bin read3 s ;; Ok ((Q, coeffs), s).

(** mnt4_pairing.cpp:63-80, mnt6_pairing.cpp:63-80 ate_dbl_coeffs *)
Definition dbl_write (d : mnt_dbl_coeffs) : result stream :=
  a <- cd_wr C (c_H d) ;; b <- cd_wr C (c_4C d) ;; c <- cd_wr C (c_J d) ;; e <- cd_wr C (c_L d) ;;
  Ok (a ++ sep ++ b ++ sep ++ c ++ sep ++ e).
Definition dbl_read (s : stream) : result (mnt_dbl_coeffs * stream) :=
  '(a, s) <- cd_rd C s ;; s <- consume s ;;
  '(b, s) <- cd_rd C s ;; s <- consume s ;;
  '(c, s) <- cd_rd C s ;; s <- consume s ;;
  '(e, s) <- cd_rd C s ;; Ok ({| c_H := a; c_4C := b; c_J := c; c_L := e |}, s).
(** mnt4_pairing.cpp:88-100, mnt6_pairing.cpp:88-100 ate_add_coeffs *)
Definition add_write (d : mnt_add_coeffs) : result stream := write2 (c_L1 d, c_RZ d).
Definition add_read (s : stream) : result (mnt_add_coeffs * stream) :=
  '(p, s) <- read2 s ;; Ok ({| c_L1 := fst p; c_RZ := snd p |}, s).
(** mnt4_pairing.cpp:113-178, mnt6_pairing.cpp:115-180 ate_G2_precomp *)
Definition mnt_g2_write (q : mnt_G2_precomp) : result stream :=
  a <- cd_wr C (QX q) ;; b <- cd_wr C (QY q) ;; c <- cd_wr C (QY2 q) ;;
  d <- cd_wr C (QX_over_twist q) ;; e <- cd_wr C (QY_over_twist q) ;;
  wd <- write_sized bin dbl_write (dbl_coeffs q) ;;
  wa <- write_sized bin add_write (add_coeffs q) ;;
  Ok (a ++ sep ++ b ++ sep ++ c ++ sep ++ d ++ sep ++ e ++ [ch_nl] ++ wd ++ wa).
Definition mnt_g2_read (s : stream) : result (mnt_G2_precomp * stream) :=
  '(a, s) <- cd_rd C s ;; s <- consume s ;;
  '(b, s) <- cd_rd C s ;; s <- consume s ;;
  '(c, s) <- cd_rd C s ;; s <- consume s ;;
  '(d, s) <- cd_rd C s ;; s <- consume s ;;
  '(e, s) <- cd_rd C s ;; s <- consume_newline s ;;
  '(dc, s) <- read_sized bin dbl_read s ;;
  '(ac, s) <- read_sized bin add_read s ;;
  Ok ({| QX := a; QY := b; QY2 := c; QX_over_twist := d; QY_over_twist := e;
         dbl_coeffs := dc; add_coeffs := ac |}, s).
End Fields.

(** mnt4_pairing.cpp:35-53, mnt6_pairing.cpp:35-53 ate_G1_precomp *)
Definition mnt_g1_write {K L} bin (C : codec K) (CL : codec L) (p : mnt_G1_precomp) : result stream :=
  a <- cd_wr C (PX p) ;; b <- cd_wr C (PY p) ;; c <- cd_wr CL (PX_twist p) ;; d <- cd_wr CL (PY_twist p) ;;
  Ok (a ++ output_separator bin ++ b ++ output_separator bin ++ c ++ output_separator bin ++ d).
Definition mnt_g1_read {K L} bin (C : codec K) (CL : codec L) (s : stream) : result (mnt_G1_precomp * stream) :=
  '(a, s) <- cd_rd C s ;; s <- consume_output_separator bin s ;;
  '(b, s) <- cd_rd C s ;; s <- consume_output_separator bin s ;;
  '(c, s) <- cd_rd CL s ;; s <- consume_output_separator bin s ;;
  '(d, s) <- cd_rd CL s ;; Ok ({| PX := a; PY := b; PX_twist := c; PY_twist := d |}, s).

(** ** bn128
    [C] is the ate-pairing library's operators of bn::Fp in text mode and the
    raw copy of the object's bytes in binary mode.  Every loop
    [for (auto p : prec_P.P)] of the readers runs over copies, so that the
    array of the target object, [old], keeps its value. *)
Section Bn128.
Context {K : Type} (bin : bool) (C : codec K).
Local Notation nl := (output_newline bin).
Definition bn128_read_elt (s : stream) : result (K * stream) := read_elt bin (cd_rd C) s.
(** bn128_pairing.cpp:31-42 *)
Definition bn128_g1_write (P : K * K * K) : result stream :=
  let '(a, b, c) := P in write_all bin (cd_wr C) [a; b; c].
(** bn128_pairing.cpp:44-57 *)
Definition bn128_g1_read (old : K * K * K) (s : stream) : result (K * K * K * stream) :=
  '(_, s) <- read_many bn128_read_elt 3 s ;; Ok (old, s).
(** bn128_pairing.cpp:83-118; an Fp2 element is (a_, b_), a line is (a_, b_, c_). *)
Definition fp2_list (x : K * K) : list K := [fst x; snd x].
Definition fp2_triple_list (c : (K * K) * (K * K) * (K * K)) : list K :=
  let '(x, y, z) := c in fp2_list x ++ fp2_list y ++ fp2_list z.
Definition bn128_g2_write (p : ((K * K) * (K * K) * (K * K)) * list ((K * K) * (K * K) * (K * K))) : result stream :=
  let '(Q, coeffs) := p in
  wq <- write_all bin (cd_wr C) (fp2_triple_list Q) ;;
  wc <- write_all bin (cd_wr C) (flat_map fp2_triple_list coeffs) ;;
  Ok (wq ++ dec (Z.of_nat (length coeffs)) ++ [ch_nl] ++ wc).
(** bn128_pairing.cpp:120-165 *)
Definition bn128_read_line (s : stream) : result (((K * K) * (K * K) * (K * K)) * stream) :=
  '(aa, s) <- bn128_read_elt s ;; '(ab, s) <- bn128_read_elt s ;;
  '(ba, s) <- bn128_read_elt s ;; '(bb, s) <- bn128_read_elt s ;;
  '(ca, s) <- bn128_read_elt s ;; '(cb, s) <- bn128_read_elt s ;;
  Ok (((aa, ab), (ba, bb), (ca, cb)), s).
Definition bn128_g2_read (old : (K * K) * (K * K) * (K * K)) (s : stream)
  : result (((K * K) * (K * K) * (K * K)) * list ((K * K) * (K * K) * (K * K)) * stream) :=
  '(_, s) <- bn128_read_line s ;;
  '(count, s) <- read_u64 s ;;
  s <- consume_newline s ;;
  '(coeffs, s) <- read_many bn128_read_line (Z.to_nat count) s ;;
  Ok ((old, coeffs), s).
End Bn128.
