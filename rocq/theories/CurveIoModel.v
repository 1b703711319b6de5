(** Stream operators of extension-field elements and curve points.

    [bin] is BINARY_OUTPUT; [comp] says that NO_PT_COMPRESSION is not defined;
    [mixed] that USE_MIXED_ADDITION is defined.  Reading is total over byte
    lists; [StreamFail] stands for the stream entering a failed state. *)
From Coq Require Import ZArith List Bool.
From Verif Require Import Result Limbs StreamModel SerializationModel BigintModel FpModel FpSpec FpField FieldOps GroupOps
  CurveModel.
Import ListNotations.
Open Scope Z_scope.
Open Scope result_scope.

(** serialization.hpp:60-66 [OUTPUT_SEPARATOR], serialization.tcc:40-49. *)
Definition output_separator (bin : bool) : stream := if bin then [] else [ch_sp].
Definition consume_output_separator (bin : bool) (s : stream) : result stream :=
  if bin then Ok s else '(_, r) <- read_char s ;; Ok r.
(** [in >> c] for a char: skip white space, then take one byte. *)
Definition read_nonspace_char (s : stream) : result (Z * stream) := read_char (skip_ws s).

(** How elements of a coordinate field are written and read, and the bit of a
    y coordinate which is stored: [Y.as_bigint().data[0] & 1] in G1,
    [Y.c0.as_bigint().data[0] & 1] in G2. *)
Record codec (K : Type) := mkCodec {
  cd_wr : K -> result stream;
  cd_rd : stream -> result (K * stream);
  cd_lsb : K -> result Z
}.
Arguments mkCodec {K}. Arguments cd_wr {K}. Arguments cd_rd {K}. Arguments cd_lsb {K}.

(** fp.tcc:809-824 on the canonical elements.  A stored value which is not
    canonical (property C08) is outside this carrier; that case is mapped to
    [UB]. *)
Section FpCodec.
Variable P : fp_params.
Definition fp_of_list (l : list Z) : option (Fp P) :=
  match bool_dec (canonb P l) true with left e => Some (exist _ l e) | right _ => None end.
Definition fp_codec (bin mont : bool) : codec (Fp P) :=
  {| cd_wr := fun x => fp_write P bin mont (repr P x);
     cd_rd := fun s => '(l, r) <- fp_read P bin mont s ;;
       match fp_of_list l with Some x => Ok (x, r) | None => UB end;
     cd_lsb := fun x => b <- fp_as_bigint P (repr P x) ;; Ok (Z.land (nth 0 b 0) 1) |}.
End FpCodec.

Section ExtCodec.
Context {K : Type} (bin : bool) (C : codec K).
(** fp2.tcc:264-276; the stored bit is that of c0. *)
Definition fp2_codec : codec (K * K) :=
  {| cd_wr := fun x => w0 <- cd_wr C (fst x) ;; w1 <- cd_wr C (snd x) ;; Ok (w0 ++ output_separator bin ++ w1);
     cd_rd := fun s => '(c0, s) <- cd_rd C s ;; '(c1, s) <- cd_rd C s ;; Ok ((c0, c1), s);
     cd_lsb := fun x => cd_lsb C (fst x) |}.
(** fp3.tcc:266-279 *)
Definition fp3_codec : codec (K * K * K) :=
  {| cd_wr := fun x => w0 <- cd_wr C (fst (fst x)) ;; w1 <- cd_wr C (snd (fst x)) ;; w2 <- cd_wr C (snd x) ;;
       Ok (w0 ++ output_separator bin ++ w1 ++ output_separator bin ++ w2);
     cd_rd := fun s => '(c0, s) <- cd_rd C s ;; '(c1, s) <- cd_rd C s ;; '(c2, s) <- cd_rd C s ;; Ok ((c0, c1, c2), s);
     cd_lsb := fun x => cd_lsb C (fst (fst x)) |}.
End ExtCodec.

Section PointIo.
Context {K : Type} (F : Fops K) (C : codec K) (bin comp : bool) (sqrt : K -> result K).

(** The common part of the readers: choose the root with the stored bit.
    [Y_lsb] is an unsigned char. *)
Definition pick_root (y2 : K) (Y_lsb : Z) : result K :=
  tY <- sqrt y2 ;;
  l <- cd_lsb C tY ;;
  Ok (if l =? Y_lsb then tY else oopp F tY).
Definition y_lsb (c : Z) : Z := (c - ch_0) mod 256.

(** alt_bn128_g1.cpp:367-381, and the same text in alt_bn128_g2.cpp:383-396,
    bls12_381_g1.cpp:351-365, bls12_381_g2.cpp:369-382, mnt4_g1.cpp:396-410,
    mnt4_g2.cpp:419-433, mnt6_g1.cpp:396-410, mnt6_g2.cpp:425-439.
    [to_affine], [is_zero] are the members of the curve. *)
Definition sw_write (to_affine : pt K -> result (pt K)) (is_zero : pt K -> bool) (p : pt K) : result stream :=
  copy <- to_affine p ;;
  let '(X, Y, _) := copy in
  wx <- cd_wr C X ;;
  wy <- (if comp then l <- cd_lsb C Y ;; Ok (dec l) else cd_wr C Y) ;;
  Ok (dec (if is_zero copy then 1 else 0) ++ output_separator bin ++ wx ++ output_separator bin ++ wy).

(** alt_bn128_g1.cpp:383-428 and the same text in the other seven files; [rhs]
    is x^3 + b (written [tX2*tX + b]) or x^3 + a x + b ([(tX2 + a)*tX + b]). *)
Definition sw_read (rhs : K -> K) (zero : pt K) (s : stream) : result (pt K * stream) :=
  if comp then
    '(is_zero, s) <- read_char s ;;
    s <- consume_output_separator bin s ;;
    '(tX, s) <- cd_rd C s ;;
    s <- consume_output_separator bin s ;;
    '(c, s) <- read_char s ;;
    if is_zero =? ch_0 then tY <- pick_root (rhs tX) (y_lsb c) ;; Ok ((tX, tY, o1 F), s)
    else Ok (zero, s)
  else
    '(is_zero, s) <- read_nonspace_char s ;;
    '(tX, s) <- cd_rd C s ;;
    '(tY, s) <- cd_rd C s ;;
    Ok (if is_zero =? ch_0 then (tX, tY, o1 F) else zero, s).
Definition jac_rhs (b : K) (tX : K) : K := oadd F (omul F (osqr F tX) tX) b.
Definition prj_rhs (a b : K) (tX : K) : K := oadd F (omul F (oadd F (osqr F tX) a) tX) b.

(** edwards_g1.cpp:303-315, edwards_g2.cpp:333-344 *)
Definition edw_write (p : pt K) : result stream :=
  copy <- edw_to_affine F p ;;
  let '(X, Y, _) := copy in
  wx <- cd_wr C X ;;
  wy <- (if comp then l <- cd_lsb C Y ;; Ok (dec l) else cd_wr C Y) ;;
  Ok (wx ++ output_separator bin ++ wy).
(** edwards_g1.cpp:317-358, edwards_g2.cpp:346-388 *)
Definition edw_read (mul_a mul_d : K -> K) (mixed : bool) (s : stream) : result (pt K * stream) :=
  '(tX, s) <- cd_rd C s ;;
  s <- consume_output_separator bin s ;;
  '(tY, s) <-
    (if comp then
       '(c, s) <- read_char s ;;
       let tX2 := osqr F tX in
       i <- oinv F (osub F (o1 F) (mul_d tX2)) ;;
       tY <- pick_root (omul F (osub F (o1 F) (mul_a tX2)) i) (y_lsb c) ;;
       Ok (tY, s)
     else cd_rd C s) ;;
  let g := (tY, tX, omul F tX tY) in
  g <- (if mixed then edw_to_special F g else Ok g) ;;
  Ok (g, s).
End PointIo.
