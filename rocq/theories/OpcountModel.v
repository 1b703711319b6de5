(** Model of the operation counters kept when PROFILE_OP_COUNTS is defined.

    Every field class has five static counters and every group class two, all
    long long.  Here they are a state threaded through the operations; they are
    plain integers (2^63 operations are out of reach).  The values computed
    are those of the other model files: this file follows only where each
    function touches the counters and which functions it calls.  Not modelled:
    concurrent updates of the counters (data races). *)
From Coq Require Import ZArith List Bool.
From Verif Require Import Result FieldOps BigintModel AlgorithmsModel BinaryModel ExtModel GroupOps WnafModel CurveModel
  Bn128Model ProfilingModel.
Import ListNotations.
Open Scope Z_scope.

(** * Fields *)
Record counts := mkCounts { add_cnt : Z; sub_cnt : Z; mul_cnt : Z; sqr_cnt : Z; inv_cnt : Z }.
Definition counts0 : counts := mkCounts 0 0 0 0 0.
Definition plus_counts (c d : counts) : counts :=
  mkCounts (add_cnt c + add_cnt d) (sub_cnt c + sub_cnt d) (mul_cnt c + mul_cnt d)
    (sqr_cnt c + sqr_cnt d) (inv_cnt c + inv_cnt d).
Definition counted (T : Type) : Type := counts -> T * counts.
Definition cret {T} (x : T) : counted T := fun c => (x, c).
Definition cbind {T U} (m : counted T) (f : T -> counted U) : counted U :=
  fun c => let '(x, c') := m c in f x c'.
(** The counters change by [d]. *)
Definition bump (d : counts) : counted unit := fun c => (tt, plus_counts c d).
Declare Scope counted_scope.
Delimit Scope counted_scope with counted.
Notation "x <- m ;; k" := (cbind m (fun x => k))
  (at level 61, m at next level, right associativity) : counted_scope.
Notation "m ;;; k" := (cbind m (fun _ => k)) (at level 61, right associativity) : counted_scope.
Open Scope counted_scope.

(** The counted operations of a class. *)
Record opclass (T : Type) := mkOpclass {
  c_addeq : T -> T -> counted T;   (* operator+= : the new value of the left side *)
  c_subeq : T -> T -> counted T;
  c_muleq : T -> T -> counted T;
  c_add : T -> T -> counted T;     (* binary operators *)
  c_sub : T -> T -> counted T;
  c_mul : T -> T -> counted T;
  c_neg : T -> counted T;          (* unary operator- *)
  c_square : T -> counted T;       (* in place *)
  c_squared : T -> counted T;
  c_invert : T -> counted T;       (* in place *)
  c_inverse : T -> counted T }.
Arguments mkOpclass {T}.
Arguments c_addeq {T}. Arguments c_subeq {T}. Arguments c_muleq {T}. Arguments c_add {T}. Arguments c_sub {T}.
Arguments c_mul {T}. Arguments c_neg {T}. Arguments c_square {T}. Arguments c_squared {T}. Arguments c_invert {T}.
Arguments c_inverse {T}.

(** ** Prime fields, fp.tcc.  [add] ... [inv] are the values; [inv] is applied
    to nonzero elements.  [asm] is USE_ASM, [n] the number of limbs. *)
Section Prime.
Context {T : Type} (add sub mul : T -> T -> T) (neg inv : T -> T) (asm : bool) (n : Z).
(** 323-436 *)
Definition fp_addeq (x y : T) : counted T := bump (mkCounts 1 0 0 0 0) ;;; cret (add x y).
(** 438-529 *)
Definition fp_subeq (x y : T) : counted T := bump (mkCounts 0 1 0 0 0) ;;; cret (sub x y).
(** 531-541 *)
Definition fp_muleq (x y : T) : counted T := bump (mkCounts 0 0 1 0 0) ;;; cret (mul x y).
(** 560-579: a copy, then the assignment operator. *)
Definition fp_plus (x y : T) : counted T := fp_addeq x y.
Definition fp_minus (x y : T) : counted T := fp_subeq x y.
Definition fp_times (x y : T) : counted T := fp_muleq x y.
(** 594-613 *)
Definition fp_negate (x : T) : counted T := bump (mkCounts 0 1 0 0 0) ;;; cret (neg x).
(** 616-661: "zero out the upcoming mul", then with USE_ASM and n = 3 the
    Comba squaring, otherwise [r *= r]. *)
Definition fp_squared (x : T) : counted T :=
  bump (mkCounts 0 0 (-1) 1 0) ;;;
  if asm && (n =? 3) then cret (mul x x) else fp_muleq x x.
(** 663-668 *)
Definition fp_square (x : T) : counted T := fp_squared x.
(** 670-711 *)
Definition fp_invert (x : T) : counted T := bump (mkCounts 0 0 0 0 1) ;;; cret (inv x).
(** 713-718 *)
Definition fp_inverse (x : T) : counted T := fp_invert x.
Definition fp_class : opclass T :=
  mkOpclass fp_addeq fp_subeq fp_muleq fp_plus fp_minus fp_times fp_negate fp_square fp_squared fp_invert fp_inverse.
End Prime.

(** ** Binary fields, gf32.cpp ... gf256.cpp (line numbers of gf64.cpp) *)
Section Binary.
Context {T : Type} (add mul : T -> T -> T) (zero : T) (g : gf_name).
(** 43-59 *)
Definition gf_addeq (x y : T) : counted T := bump (mkCounts 1 0 0 0 0) ;;; cret (add x y).
Definition gf_subeq (x y : T) : counted T := bump (mkCounts 0 1 0 0 0) ;;; cret (add x y).
(** 62-110 *)
Definition gf_muleq (x y : T) : counted T := bump (mkCounts 0 0 1 0 0) ;;; cret (mul x y).
(** 134-155 *)
Definition gf_plus (x y : T) : counted T := gf_addeq x y.
Definition gf_minus (x y : T) : counted T := gf_subeq x y.
Definition gf_times (x y : T) : counted T := gf_muleq x y.
(** 146-150: not counted. *)
Definition gf_negate (x : T) : counted T := cret x.
(** 118-126; squared 163-168. *)
Definition gf_square (x : T) : counted T := bump (mkCounts 0 0 (-1) 1 0) ;;; gf_muleq x x.
Definition gf_squared_c (x : T) : counted T := gf_square x.
(** Runs of [square()]. *)
Fixpoint gf_squares (k : nat) (x : T) : counted T :=
  match k with O => cret x | S k' => y <- gf_square x ;; gf_squares k' y end.

(** The loops of BinaryModel.inv_loop, inv_192 and inv_64 with counters. *)
Fixpoint gf_inv_loop (cnt i : nat) (a result prev : T) : counted (T * T) :=
  match cnt with
  | O => cret (result, prev)
  | S c =>
      b <- gf_squares (2 ^ i) a ;;
      a' <- gf_muleq a b ;;
      result' <- match i with O => cret b | S _ => gf_muleq result b end ;;
      gf_inv_loop c (S i) a' result' result
  end.
Definition gf_inv_pow2 (imax : nat) (el : T) : counted T :=
  rp <- gf_inv_loop (S imax) 0 el zero zero ;; cret (fst rp).
Definition gf_inv_192 (el : T) : counted T :=
  rp <- gf_inv_loop 7 0 el zero zero ;;
  result <- gf_squares 64 (fst rp) ;;
  prev_result <- gf_square (snd rp) ;;
  rp' <- gf_times result prev_result ;;
  e2 <- gf_squared_c el ;;
  gf_times rp' e2.
Definition gf_inv_64 (el : T) : counted T :=
  t1 <- gf_times el el ;;
  t2 <- gf_times t1 el ;;
  t0 <- gf_times t2 t2 ;;
  t0 <- gf_squares 1 t0 ;;
  t1 <- gf_muleq t1 t0 ;;
  t2 <- gf_muleq t2 t0 ;;
  t0 <- gf_times t2 t2 ;;
  t0 <- gf_squares 3 t0 ;;
  t1 <- gf_muleq t1 t0 ;;
  t2 <- gf_muleq t2 t0 ;;
  t0 <- gf_times t2 t2 ;;
  t0 <- gf_squares 7 t0 ;;
  t1 <- gf_muleq t1 t0 ;;
  t2 <- gf_muleq t2 t0 ;;
  t0 <- gf_times t2 t2 ;;
  t0 <- gf_squares 15 t0 ;;
  t1 <- gf_muleq t1 t0 ;;
  t0 <- gf_muleq t0 t2 ;;
  t0 <- gf_squares 32 t0 ;;
  gf_muleq t0 t1.
(** The corrections written at the head of each inverse(): gf32.cpp:166-170,
    gf64.cpp:186-190, gf128.cpp:205-209, gf192.cpp:247-251, gf256.cpp:328-332. *)
Definition gf_inverse_corrections : counts :=
  match g with
  | G32 => mkCounts 0 0 (-9) (-31) 1
  | G64 => mkCounts 0 0 (-15) (-58) 1
  | G128 => mkCounts 0 0 (-13) (-127) 1
  | G192 => mkCounts 0 0 (-15) (-193) 1
  | G256 => mkCounts 0 0 (-15) (-255) 1
  end.
(** inverse() of a nonzero element. *)
Definition gf_inverse_c (el : T) : counted T :=
  bump gf_inverse_corrections ;;;
  match g with
  | G32 => gf_inv_pow2 4 el
  | G64 => gf_inv_64 el
  | G128 => gf_inv_pow2 6 el
  | G192 => gf_inv_192 el
  | G256 => gf_inv_pow2 7 el
  end.
(** 128-132 *)
Definition gf_invert (el : T) : counted T := gf_inverse_c el.
Definition gf_class_ops : opclass T :=
  mkOpclass gf_addeq gf_subeq gf_muleq gf_plus gf_minus gf_times gf_negate gf_square gf_squared_c gf_invert gf_inverse_c.
End Binary.

(** ** Extension fields: the counters of the class itself.  fp2.tcc:57-229 (as
    are fp3, fp4, fp6_2over3, fp6_3over2 and fp12_2over3over2): the binary
    operators, squared() and inverse() count once; the assignment operators
    are [*this = *this op other]; unary minus is not counted. *)
Section Extension.
Context {T : Type} (add sub mul : T -> T -> T) (neg sqr inv : T -> T).
(** 57-76 *)
Definition ext_plus (x y : T) : counted T := bump (mkCounts 1 0 0 0 0) ;;; cret (add x y).
Definition ext_minus (x y : T) : counted T := bump (mkCounts 0 1 0 0 0) ;;; cret (sub x y).
(** 89-104 *)
Definition ext_times (x y : T) : counted T := bump (mkCounts 0 0 1 0 0) ;;; cret (mul x y).
(** 126-145 *)
Definition ext_addeq (x y : T) : counted T := ext_plus x y.
Definition ext_subeq (x y : T) : counted T := ext_minus x y.
Definition ext_muleq (x y : T) : counted T := ext_times x y.
(** 106-111 *)
Definition ext_negate (x : T) : counted T := cret (neg x).
(** 163-203: squared() is squared_complex(), which counts. *)
Definition ext_squared (x : T) : counted T := bump (mkCounts 0 0 0 1 0) ;;; cret (sqr x).
Definition ext_square (x : T) : counted T := ext_squared x.
(** 204-229 *)
Definition ext_inverse (x : T) : counted T := bump (mkCounts 0 0 0 0 1) ;;; cret (inv x).
Definition ext_invert (x : T) : counted T := ext_inverse x.
Definition ext_class : opclass T :=
  mkOpclass ext_addeq ext_subeq ext_muleq ext_plus ext_minus ext_times ext_negate ext_square ext_squared
    ext_invert ext_inverse.
End Extension.

(** ** The counters of the base field during operations of Fp2, fp2.tcc.
    Operands are evaluated left to right; the counts do not depend on it. *)
Section Fp2.
Context {T : Type} (O : opclass T) (nr : T).
(** 57-76 *)
Definition fp2_plus (x y : T * T) : counted (T * T) :=
  c0 <- c_add O (fst x) (fst y) ;; c1 <- c_add O (snd x) (snd y) ;; cret (c0, c1).
Definition fp2_minus (x y : T * T) : counted (T * T) :=
  c0 <- c_sub O (fst x) (fst y) ;; c1 <- c_sub O (snd x) (snd y) ;; cret (c0, c1).
(** 78-87 *)
Definition fp2_scale (s : T) (x : T * T) : counted (T * T) :=
  c0 <- c_mul O s (fst x) ;; c1 <- c_mul O s (snd x) ;; cret (c0, c1).
(** 89-104 *)
Definition fp2_times (x y : T * T) : counted (T * T) :=
  let '(a, b) := x in let '(A, B) := y in
  aA <- c_mul O a A ;;
  bB <- c_mul O b B ;;
  nb <- c_mul O nr bB ;;
  c0 <- c_add O aA nb ;;
  s <- c_add O a b ;;
  t <- c_add O A B ;;
  u <- c_mul O s t ;;
  u <- c_sub O u aA ;;
  c1 <- c_sub O u bB ;;
  cret (c0, c1).
(** 106-111 *)
Definition fp2_negate (x : T * T) : counted (T * T) :=
  c0 <- c_neg O (fst x) ;; c1 <- c_neg O (snd x) ;; cret (c0, c1).
(** 176-189 *)
Definition fp2_squared_karatsuba (x : T * T) : counted (T * T) :=
  let '(a, b) := x in
  asq <- c_squared O a ;;
  bsq <- c_squared O b ;;
  nb <- c_mul O nr bsq ;;
  c0 <- c_add O asq nb ;;
  s <- c_add O a b ;;
  u <- c_squared O s ;;
  u <- c_sub O u asq ;;
  c1 <- c_sub O u bsq ;;
  cret (c0, c1).
(** 163-167, 191-202 *)
Definition fp2_squared (x : T * T) : counted (T * T) :=
  let '(a, b) := x in
  ab <- c_mul O a b ;;
  s <- c_add O a b ;;
  nb <- c_mul O nr b ;;
  t <- c_add O a nb ;;
  u <- c_mul O s t ;;
  u <- c_sub O u ab ;;
  nab <- c_mul O nr ab ;;
  c0 <- c_sub O u nab ;;
  c1 <- c_add O ab ab ;;
  cret (c0, c1).
(** 204-222 *)
Definition fp2_inverse (x : T * T) : counted (T * T) :=
  let '(a, b) := x in
  t0 <- c_squared O a ;;
  t1 <- c_squared O b ;;
  nt1 <- c_mul O nr t1 ;;
  t2 <- c_sub O t0 nt1 ;;
  t3 <- c_inverse O t2 ;;
  c0 <- c_mul O a t3 ;;
  bt <- c_mul O b t3 ;;
  c1 <- c_neg O bt ;;
  cret (c0, c1).
End Fp2.

(** ** tests/test_all_fields.cpp:260-289, test_op_profiling, from the second
    random element on; [x2] is the later random_element_non_zero. *)
Definition op_profiling_test {T} (O : opclass T) (one x y x2 : T) : counted T :=
  x <- c_addeq O x y ;;
  y <- c_add O x one ;;
  t <- c_add O x y ;;
  x <- c_muleq O x t ;;
  t <- c_mul O x y ;;
  i <- c_inverse O one ;;
  t <- c_add O t i ;;
  u <- c_mul O x one ;;
  y <- c_sub O t u ;;
  y <- c_square O y ;;
  q <- c_squared O y ;;
  x <- c_subeq O x q ;;
  x <- c_invert O x2 ;;
  x <- c_sub O x one ;;
  q <- c_squared O x ;;
  t <- c_mul O x q ;;
  c_muleq O x t.

(** * Groups *)
Record gcounts := mkGcounts { gadd_cnt : Z; gdbl_cnt : Z }.
Definition tick_add (g : gcounts) : gcounts := mkGcounts (gadd_cnt g + 1) (gdbl_cnt g).
Definition tick_dbl (g : gcounts) : gcounts := mkGcounts (gadd_cnt g) (gdbl_cnt g + 1).

Section Groups.
Context {K : Type} (F : Fops K).
Local Infix "*" := (omul F).
Local Notation sqr := (osqr F).
Local Notation "x == y" := (oeqb F x y) (at level 70).

(** dbl() of every class counts first (alt_bn128_g1.cpp:285-289,
    mnt4_g1.cpp:322-326, edwards_g1.cpp:239-243, bn128_g1.cpp:326-330). *)
Definition dbl_count (g : gcounts) : gcounts := tick_dbl g.

(** operator+ of alt_bn128 (alt_bn128_g1.cpp:140-185, alt_bn128_g2.cpp:151-197)
    with [counts_add], of bls12_381 (bls12_381_g1.cpp:131-185,
    bls12_381_g2.cpp:140-183) without: those have no add_cnt++.  add() calls
    operator+. *)
Definition jac_add_count (counts_add : bool) (p q : pt K) (g : gcounts) : gcounts :=
  let '(X1, Y1, Z1) := p in let '(X2, Y2, Z2) := q in
  if jac_is_zero F p then g
  else if jac_is_zero F q then g
  else
    let Z1Z1 := sqr Z1 in
    let Z2Z2 := sqr Z2 in
    let U1 := X1 * Z2Z2 in
    let U2 := X2 * Z1Z1 in
    let Z1_cubed := Z1 * Z1Z1 in
    let Z2_cubed := Z2 * Z2Z2 in
    let S1 := Y1 * Z2_cubed in
    let S2 := Y2 * Z1_cubed in
    if (U1 == U2) && (S1 == S2) then dbl_count g
    else if counts_add then tick_add g else g.
(** mixed_add: alt_bn128_g1.cpp:218-267, alt_bn128_g2.cpp:229-277,
    bls12_381_g1.cpp:205-254, bls12_381_g2.cpp:215-264. *)
Definition jac_mixed_count (p q : pt K) (g : gcounts) : gcounts :=
  let '(X1, Y1, Z1) := p in let '(X2, Y2, _) := q in
  if jac_is_zero F p then g
  else if jac_is_zero F q then g
  else
    let Z1Z1 := sqr Z1 in
    let U1 := X1 in
    let U2 := X2 * Z1Z1 in
    let Z1_cubed := Z1 * Z1Z1 in
    let S1 := Y1 in
    let S2 := Y2 * Z1_cubed in
    if (U1 == U2) && (S1 == S2) then dbl_count g else tick_add g.
(** bn128_g1.cpp:188-237, bn128_g2.cpp:188-237. *)
Definition bn_add_member_count (g : gcounts) : gcounts := tick_add g.
Definition bn_add_count (p q : pt K) (g : gcounts) : gcounts :=
  if bn_is_zero F p then g
  else if bn_is_zero F q then g
  else if bn_eqb F p q then dbl_count g
  else bn_add_member_count g.
(** bn128_g1.cpp:239-289, bn128_g2.cpp:239-289. *)
Definition bn_mixed_count (p q : pt K) (g : gcounts) : gcounts :=
  let '(X1, Y1, Z1) := p in let '(X2, Y2, _) := q in
  if bn_is_zero F p then g
  else if bn_is_zero F q then g
  else
    let Z1Z1 := sqr Z1 in
    let U2 := X2 * Z1Z1 in
    let Z1_cubed := Z1 * Z1Z1 in
    let S2 := Y2 * Z1_cubed in
    if (X1 == U2) && (Y1 == S2) then dbl_count g else tick_add g.
(** operator+ of mnt4 and mnt6 (mnt4_g1.cpp:141-214, mnt4_g2.cpp:157-230 and the
    mnt6 files): both formulas are written out in it, with no counter. *)
Definition prj_add_count (p q : pt K) (g : gcounts) : gcounts := g.
(** add(): mnt4_g1.cpp:227-251. *)
Definition prj_add_member_count (p q : pt K) (g : gcounts) : gcounts :=
  if prj_is_zero F p then g
  else if prj_is_zero F q then g
  else if prj_eqb F p q then dbl_count g
  else tick_add g.
(** mixed_add: mnt4_g1.cpp:272-307. *)
Definition prj_mixed_count (p q : pt K) (g : gcounts) : gcounts :=
  let g := tick_add g in
  let '(X1, Y1, Z1) := p in let '(X2, Y2, _) := q in
  if prj_is_zero F p then g
  else if prj_is_zero F q then g
  else
    let X2Z1 := Z1 * X2 in
    let Y2Z1 := Z1 * Y2 in
    if (X1 == X2Z1) && (Y1 == Y2Z1) then dbl_count g else g.
(** edwards_g1.cpp:153-200, edwards_g2.cpp:175-222: add() counts, operator+
    calls it, for equal points too. *)
Definition edw_add_member_count (g : gcounts) : gcounts := tick_add g.
Definition edw_add_count (p q : pt K) (g : gcounts) : gcounts :=
  if edw_is_zero F p then g
  else if edw_is_zero F q then g
  else edw_add_member_count g.
(** mixed_add: edwards_g1.cpp:202-237, edwards_g2.cpp:224-259. *)
Definition edw_mixed_count (p q : pt K) (g : gcounts) : gcounts := tick_add g.
End Groups.

(** curve_utils.tcc:14-34 [scalar_mul] with the counters; [cnt] is what operator+
    does to them. *)
Section ScalarMul.
Context {T : Type} (O : gops T) (cnt : T -> T -> gcounts -> gcounts).
Fixpoint scalar_mul_count_loop (i : nat) (scalar : list Z) (base : T) (found_one : bool) (result : T) (g : gcounts) :
    T * gcounts :=
  match i with
  | 0%nat => (result, g)
  | S j =>
      let '(r, g) := if found_one then (g_dbl O result, dbl_count g) else (result, g) in
      if bigint_test_bit scalar (Z.of_nat j)
      then scalar_mul_count_loop j scalar base true (g_add O r base) (cnt r base g)
      else scalar_mul_count_loop j scalar base found_one r g
  end.
Definition scalar_mul_count (base : T) (scalar : list Z) (g : gcounts) : T * gcounts :=
  scalar_mul_count_loop (64 * length scalar) scalar base false (g_zero O) g.
End ScalarMul.

(** * Profiling blocks: op_counts and cumulative_op_counts of one data point,
    profiling.cpp:71-72, 242-248, 250-330.  The data points are kept apart by
    the second half of the key.  Each call carries the value of the counter at
    the time.  The block names and the clocks are in ProfilingModel; here the
    calls are those that come through. *)
Record opprof := mkOpprof { op_counts : name -> Z; cumulative_op_counts : name -> Z }.
Inductive op_event := OpEnter (n : name) (v : Z) | OpLeave (n : name) (v : Z).
Section Blocks.
Variable C : prof_cfg.
Open Scope result_scope.
(** 250-270: nothing when inhibit_profiling_counters; the early return of
    inhibit_profiling_info comes before op_profiling_enter. *)
Definition op_enter (n : name) (v : Z) (s : opprof) : result opprof :=
  if inhibit_counters C then Ok s
  else if inhibit_info C then Ok s
  else Ok (mkOpprof (update (op_counts s) n v) (cumulative_op_counts s)).
(** 287-310 *)
Definition op_leave (n : name) (v : Z) (s : opprof) : result opprof :=
  if inhibit_counters C then Ok s
  else
    (d <- ll (v - op_counts s n) ;;
     cum <- ll (cumulative_op_counts s n + d) ;;
     Ok (mkOpprof (op_counts s) (update (cumulative_op_counts s) n cum)))%result.
Definition op_step (s : opprof) (e : op_event) : result opprof :=
  match e with OpEnter n v => op_enter n v s | OpLeave n v => op_leave n v s end.
Fixpoint op_run (h : list op_event) (s : opprof) : result opprof :=
  match h with [] => Ok s | e :: h' => (s' <- op_step s e ;; op_run h' s')%result end.
End Blocks.
