(** The bn128 curve: libff/algebra/curves/bn128/bn128_g1.cpp, bn128_g2.cpp,
    bn_utils.tcc and bn128_gt.{hpp,cpp}.

    bn128 is a wrapper around the external library ate-pairing, which is not
    part of the repository (depends/ate-pairing is a submodule).  What it
    provides enters the model as parameters:
    - the coordinate fields bn::Fp and bn::Fp2 ([F], with [oinv] for
      [inverse()] and the zero test for [isZero()]), and bn::Fp12 for GT;
    - [ec_add], [ec_dbl]: bn::ecop::ECAdd and bn::ecop::ECDouble;
    - the codec [C] of the stream operators of bn::Fp;
    - [mie::power], taken as exponentiation by a bigint ([power_bigint]).
    Everything libff does around these calls is modelled line by line.  The
    G1 and G2 sources are the same text with Fp replaced by Fp2; the line
    numbers are those of bn128_g1.cpp, followed by those of bn128_g2.cpp where
    they differ.

    Printing and the DEBUG-only [assert(other.is_special())] are not
    modelled; the operation counters are in OpcountModel.v. *)
From Coq Require Import ZArith List Bool.
From Verif Require Import Result Limbs UtilsModel StreamModel SerializationModel FieldOps AlgorithmsModel GroupOps
  CurveModel CurveIoModel PrecompIoModel ParamsModel TowerModel.
Import ListNotations.
Open Scope result_scope.

Section Bn128.
Context {K : Type} (F : Fops K).
Local Notation "0" := (o0 F).
Local Notation "1" := (o1 F).
Local Notation "x + y" := (oadd F x y).
Local Notation "x - y" := (osub F x y).
Local Notation "x * y" := (omul F x y).
Local Notation "- x" := (oopp F x).
Local Notation sqr := (osqr F).
Local Notation "x == y" := (oeqb F x y) (at level 70).

(** ** Square roots *)

(** 49-72.  [int j = (int)(v - m) - 1]: the unsigned difference is converted to
    int, then 1 is subtracted, which overflows for INT_MIN.  The inner loop
    (52-58) is that of algorithms.tcc. *)
Fixpoint bn_sqrt_loop (fuel : nat) (v : Z) (z b x : K) : result K :=
  match fuel with
  | O => OutOfFuel
  | Datatypes.S f =>
      if b == 1 then Ok x
      else
        m <- sqrt_order 1 sqr (oeqb F) fuel b 0%Z ;;
        let d := to_int32 (wrap64 (v - m)%Z) in
        if (d =? - 2 ^ 31)%Z then UB
        else
          let w := sqr_times sqr (Z.to_nat (d - 1)%Z) z in
          let z := w * w in
          bn_sqrt_loop f m z (b * z) (x * w)
  end.
(** 27-75: [bn128_G1::sqrt], [bn128_G2::sqrt].  There is no test for zero.
    [debug] says whether DEBUG is set (35-44). *)
Definition bn_sqrt (S : sqrt_params K) (debug : bool) (fuel : nat) (el : K) : result K :=
  let w := power_bigint 1 (omul F) el (sq_tm1 S) in
  let x := el * w in
  let b := x * w in
  assert_then (negb debug || (sqr_times sqr (Z.to_nat (sq_s S - 1)%Z) b == 1))
    (bn_sqrt_loop fuel (sq_s S) (sq_nqr_to_t S) b x).

(** ** Points *)

(** bn128_init.cpp:45-47 (G1_zero), 112-114 (G2_zero). *)
Definition bn_zero : pt K := (1, 1, 0).
(** 144-147 *)
Definition bn_is_zero (p : pt K) : bool := snd p == 0.
(** 139-142 *)
Definition bn_is_special (p : pt K) : bool := bn_is_zero p || (snd p == 1).
(** 113-132 *)
Definition bn_to_affine (p : pt K) : result (pt K) :=
  let '(X, Y, Z) := p in
  if bn_is_zero p then Ok (0, 1, 0)
  else
    r <- oinv F Z ;;
    let Z := sqr r in
    let X := X * Z in
    let r := r * Z in
    let Y := Y * r in
    Ok (X, Y, 1).
(** 134-137 *)
Definition bn_to_special : pt K -> result (pt K) := bn_to_affine.
(** 149-181 *)
Definition bn_eqb (p q : pt K) : bool :=
  let '(X1, Y1, Z1) := p in let '(X2, Y2, Z2) := q in
  if bn_is_zero p then bn_is_zero q
  else if bn_is_zero q then false
  else
    let Z1sq := sqr Z1 in
    let Z2sq := sqr Z2 in
    if negb (Z2sq * X1 == Z1sq * X2) then false
    else
      let Z1cubed := Z1sq * Z1 in
      let Z2cubed := Z2sq * Z2 in
      Z2cubed * Y1 == Z1cubed * Y2.

Variable ec_add : pt K -> pt K -> pt K.
Variable ec_dbl : pt K -> pt K.
(** 326-338 *)
Definition bn_dbl (p : pt K) : pt K := ec_dbl p.
(** 188-210; [add] is 224-237. *)
Definition bn_add (p q : pt K) : pt K :=
  if bn_is_zero p then q
  else if bn_is_zero q then p
  else if bn_eqb p q then bn_dbl p
  else ec_add p q.
(** 212-217 *)
Definition bn_opp (p : pt K) : pt K := let '(X, Y, Z) := p in (X, - Y, Z).
(** 219-222 *)
Definition bn_sub (p q : pt K) : pt K := bn_add p (bn_opp q).
(** 239-324 *)
Definition bn_mixed_add (p q : pt K) : pt K :=
  let '(X1, Y1, Z1) := p in let '(X2, Y2, Z2) := q in
  if bn_is_zero p then q
  else if bn_is_zero q then p
  else
    let Z1Z1 := sqr Z1 in
    let U1 := X1 in
    let U2 := X2 * Z1Z1 in
    let Z1_cubed := Z1 * Z1Z1 in
    let S1 := Y1 in
    let S2 := Y2 * Z1_cubed in
    if (U1 == U2) && (S1 == S2) then bn_dbl p
    else
      let H := U2 - X1 in
      let HH := sqr H in
      let tmp := HH + HH in
      let I := tmp + tmp in
      let J := H * I in
      let tmp := S2 - Y1 in
      let r := tmp + tmp in
      let V := X1 * I in
      let X3 := sqr r - J - V - V in
      let tmp := Y1 * J in
      let Y3 := r * (V - X3) - tmp - tmp in
      let Z3 := sqr (Z1 + H) - Z1Z1 - HH in
      (X3, Y3, Z3).
(** 390-416; 345-371.  [b] is bn128_coeff_b, bn128_twist_coeff_b. *)
Definition bn_is_well_formed (b : K) (p : pt K) : bool :=
  let '(X, Y, Z) := p in
  if bn_is_zero p then true
  else
    let X2 := sqr X in
    let Y2 := sqr Y in
    let Z2 := sqr Z in
    let X3 := X2 * X in
    let Z3 := Z2 * Z in
    let Z6 := sqr Z3 in
    Y2 == X3 + b * Z6.
(** 508-531; 491-514.  bn_utils.tcc:13-37 [bn_batch_invert] is the text of
    field_utils.tcc [batch_invert]. *)
Definition bn_batch_step (pz : pt K * K) : pt K :=
  let '((X, Y, _), Zi) := pz in
  let Z2 := sqr Zi in
  let Z3 := Z2 * Zi in
  (X * Z2, Y * Z3, 1).
Definition bn_batch_to_special (vec : list (pt K)) : result (list (pt K)) :=
  Z_vec <- batch_inv_Z F vec ;; Ok (map bn_batch_step (combine vec Z_vec)).

Definition bn_gops : gops (pt K) :=
  mkGops _ bn_zero bn_zero bn_add bn_sub bn_mixed_add bn_dbl bn_is_zero bn_is_special
    bn_to_special bn_batch_to_special.

(** ** Streams *)
Section Io.
Variable C : codec K.
Variables bin comp : bool.
Variable sqrt : K -> result K.
(** The stored bit as a digit: 366, 384. *)
Definition bit_char (l : Z) : stream := [if (l =? 0)%Z then ch_0 else (ch_0 + 1)%Z].
(** 361-388; bn128_g2.cpp:388-419 with the codec [bn_fp2_codec] below.  The
    bit is the lowest bit of the first byte of the representation of Y ([Y.a_]
    in G2). *)
Definition bn_write (p : pt K) : result stream :=
  gcopy <- bn_to_affine p ;;
  let '(X, Y, _) := gcopy in
  wx <- cd_wr C X ;;
  wy <- (if comp then l <- cd_lsb C Y ;; Ok (bit_char l) else cd_wr C Y) ;;
  Ok ([if bn_is_zero gcopy then (ch_0 + 1)%Z else ch_0] ++ output_separator bin ++ wx ++ output_separator bin ++ wy).
(** 418-477; 421-489.  Unlike the other curves, the flag is read as a raw byte
    and the separators are consumed in both modes. *)
Definition bn_read (b : K) (s : stream) : result (pt K * stream) :=
  '(is_zero, s) <- read_char s ;;
  s <- consume_output_separator bin s ;;
  '(tX, s) <- cd_rd C s ;;
  s <- consume_output_separator bin s ;;
  if comp then
    '(c, s) <- read_char s ;;
    if (is_zero =? ch_0)%Z then
      let tX2 := sqr tX in
      let tY2 := tX2 * tX in
      let tY2 := tY2 + b in
      tY <- pick_root F C sqrt tY2 (y_lsb c) ;;
      Ok ((tX, tY, 1), s)
    else Ok (bn_zero, s)
  else
    '(tY, s) <- cd_rd C s ;;
    Ok (if (is_zero =? ch_0)%Z then (tX, tY, 1) else bn_zero, s).
(** 479-487, 489-506: vectors of G1 (bn128_G2 has no vector operators of its
    own). *)
Definition bn_write_vector (vec : list (pt K)) : result stream := write_sized bin bn_write vec.
Definition bn_read_vector (b : K) (s : stream) : result (list (pt K) * stream) := read_sized bin (bn_read b) s.
End Io.
End Bn128.

(** bn128_g2.cpp writes the coordinates [a_], [b_] of a bn::Fp2 one by one,
    consuming the separator between them when it reads (398-404, 410-413,
    431-442, 449-455). *)
Definition bn_fp2_codec {K} (bin : bool) (C : codec K) : codec (K * K) :=
  {| cd_wr := fun x => w0 <- cd_wr C (fst x) ;; w1 <- cd_wr C (snd x) ;; Ok (w0 ++ output_separator bin ++ w1);
     cd_rd := fun s => '(a, s) <- cd_rd C s ;; s <- consume_output_separator bin s ;;
       '(b, s) <- cd_rd C s ;; Ok ((a, b), s);
     cd_lsb := fun x => cd_lsb C (fst x) |}.

(** ** GT: bn128_gt.hpp, bn128_gt.cpp.  bn::Fp12 is Fp6[w]; its elements are pairs
    (a_, b_).  The streams (47-69) are those of [bn_fp2_codec] with the
    operators of bn::Fp6. *)
Section Gt.
Context {K : Type} (F : Fops (K * K)) (opp : K -> K).
(** bn128_gt.cpp:28-33 *)
Definition bn_gt_mul (x y : K * K) : K * K := omul F x y.
(** 18-21 *)
Definition bn_gt_eqb (x y : K * K) : bool := oeqb F x y.
(** 35-40: negates [b_]. *)
Definition bn_gt_unitary_inverse (x : K * K) : K * K := (fst x, opp (snd x)).
End Gt.

(** ** The constants of bn128_init.cpp:29-114, 124.  [bn128_consts] are those
    which are not given by a [twelve_consts] record; field elements are
    integers, elements of bn::Fp2 pairs of them. *)
Open Scope Z_scope.
Record bn128_consts := {
  bn_b : Z; bn_s : Z; bn_nqr_to_t : Z; bn_tm1 : Z;
  bn_twist_b : Z2; bn_s2 : Z; bn_nqr_to_t2 : Z2; bn_tm12 : Z;
  bn_G1 : Z2; bn_G2 : Z2 * Z2; bn_h1 : Z; bn_h2 : Z }.
Definition bn128_init : bn128_consts := {|
  bn_b := 3;
  bn_s := 1;
  bn_nqr_to_t := 21888242871839275222246405745257275088696311157297823662689037894645226208582;
  bn_tm1 := 5472060717959818805561601436314318772174077789324455915672259473661306552145;
  bn_twist_b := (19485874751759354771024239261021720505790618469301721065564631296452457478373, 266929791119991161246907387137283842545076965332900288569378510910307636690);
  bn_s2 := 4;
  bn_nqr_to_t2 := (5033503716262624267312492558379982687175200734934877598599011485707452665730, 314498342015008975724433667930697407966947188435857772134235984660852259084);
  bn_tm12 := 14971724250519463826312126413021210649976634891596900701138993820439690427699319920245032869357433499099632259837909383182382988566862092145199781964621;
  bn_G1 := (1, 2);
  bn_G2 := ((15267802884793550383558706039165621050290089775961208824303765753922461897946, 9034493566019742339402378670461897774509967669562610788113215988055021632533), (644888581738283025171396578091639672120333224302184904896215738366765861164, 20532875081203448695448744255224543661959516361327385779878476709582931298750));
  bn_h1 := 1;
  bn_h2 := 21888242871839275222246405745257275088844257914179612981679871602714643921549 |}.
(** The members of [sqrt_params] which the square roots of bn128 use; [t] and
    [nqr], which they do not, are arguments. *)
Definition bn_sqrt_params {K} (n : nat) (t : Z) (nqr : K) (s tm1 : Z) (nqr_to_t : K) : sqrt_params K :=
  {| sq_s := s; sq_t := limbs_of n t; sq_tm1 := limbs_of n tm1; sq_nqr := nqr; sq_nqr_to_t := nqr_to_t |}.
