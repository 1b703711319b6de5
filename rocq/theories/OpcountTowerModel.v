(** Model of what the operations of the extension fields cost in operations of
    the prime field, when PROFILE_OP_COUNTS is defined: the counters here are
    those of the prime field class at the bottom of the tower, and every
    function calls the functions of the class below.  The values are those of
    ExtModel.  C++ leaves the order of evaluation of the arguments open; the
    counters do not depend on it.  inverse() of zero ends in an assertion. *)
From Coq Require Import ZArith List Bool.
From Verif Require Import Result FieldOps ExtModel OpcountModel.
Import ListNotations.
Open Scope Z_scope.
Open Scope counted_scope.

(** The operations of one class, run on the counters of the prime field. *)
Record towerclass (T : Type) := mkTowerclass {
  t_add : T -> T -> counted T;
  t_sub : T -> T -> counted T;
  t_mul : T -> T -> counted T;
  t_neg : T -> counted T;
  t_sqr : T -> counted T;
  t_inv : T -> counted (result T) }.
Arguments mkTowerclass {T}.
Arguments t_add {T}. Arguments t_sub {T}. Arguments t_mul {T}. Arguments t_neg {T}. Arguments t_sqr {T}. Arguments t_inv {T}.

(** Continue with the value, or keep the failure. *)
Definition on_ok {T U} (m : counted (result T)) (k : T -> counted (result U)) : counted (result U) :=
  r <- m ;;
  match r with
  | Ok x => k x
  | AssertFail => cret AssertFail
  | Throw => cret Throw
  | UB => cret UB
  | StreamFail => cret StreamFail
  | OutOfFuel => cret OutOfFuel
  end.

(** Fp2, fp2.tcc:57-222; Fp4, fp4.tcc:70-245; Fp6_2over3, fp6_2over3.tcc:65-232;
    Fp12, fp12_2over3over2.tcc:63-254.  [mnr] is mul_by_non_residue. *)
Section QuadTower.
Context {T : Type} (O : towerclass T) (mnr : T -> counted T).
Definition quad_tower_add (x y : T * T) : counted (T * T) :=
  let '(a, b) := x in let '(a', b') := y in
  c0 <- t_add O a a' ;; c1 <- t_add O b b' ;; cret (c0, c1).
Definition quad_tower_sub (x y : T * T) : counted (T * T) :=
  let '(a, b) := x in let '(a', b') := y in
  c0 <- t_sub O a a' ;; c1 <- t_sub O b b' ;; cret (c0, c1).
Definition quad_tower_neg (x : T * T) : counted (T * T) :=
  let '(a, b) := x in c0 <- t_neg O a ;; c1 <- t_neg O b ;; cret (c0, c1).
(** operator*, Karatsuba *)
Definition quad_tower_mul (x y : T * T) : counted (T * T) :=
  let '(a, b) := x in let '(A, B) := y in
  aA <- t_mul O a A ;;
  bB <- t_mul O b B ;;
  beta_bB <- mnr bB ;;
  c0 <- t_add O aA beta_bB ;;
  s <- t_add O a b ;;
  t <- t_add O A B ;;
  u <- t_mul O s t ;;
  u <- t_sub O u aA ;;
  c1 <- t_sub O u bB ;;
  cret (c0, c1).
(** squared(), the complex method *)
Definition quad_tower_sqr (x : T * T) : counted (T * T) :=
  let '(a, b) := x in
  ab <- t_mul O a b ;;
  s <- t_add O a b ;;
  nb <- mnr b ;;
  t <- t_add O a nb ;;
  u <- t_mul O s t ;;
  u <- t_sub O u ab ;;
  nab <- mnr ab ;;
  c0 <- t_sub O u nab ;;
  c1 <- t_add O ab ab ;;
  cret (c0, c1).
Definition quad_tower_inv (x : T * T) : counted (result (T * T)) :=
  let '(a, b) := x in
  t0 <- t_sqr O a ;;
  t1 <- t_sqr O b ;;
  nt1 <- mnr t1 ;;
  t2 <- t_sub O t0 nt1 ;;
  on_ok (t_inv O t2) (fun t3 =>
    c0 <- t_mul O a t3 ;;
    bt <- t_mul O b t3 ;;
    c1 <- t_neg O bt ;;
    cret (Ok (c0, c1))).
Definition quad_tower : towerclass (T * T) :=
  mkTowerclass quad_tower_add quad_tower_sub quad_tower_mul quad_tower_neg quad_tower_sqr quad_tower_inv.
End QuadTower.

(** Fp3, fp3.tcc:60-219; Fp6_3over2, fp6_3over2.tcc:65-234. *)
Section CubicTower.
Context {T : Type} (O : towerclass T) (mnr : T -> counted T).
Definition cubic_tower_add (x y : T * T * T) : counted (T * T * T) :=
  let '(a, b, c) := x in let '(a', b', c') := y in
  c0 <- t_add O a a' ;; c1 <- t_add O b b' ;; c2 <- t_add O c c' ;; cret (c0, c1, c2).
Definition cubic_tower_sub (x y : T * T * T) : counted (T * T * T) :=
  let '(a, b, c) := x in let '(a', b', c') := y in
  c0 <- t_sub O a a' ;; c1 <- t_sub O b b' ;; c2 <- t_sub O c c' ;; cret (c0, c1, c2).
Definition cubic_tower_neg (x : T * T * T) : counted (T * T * T) :=
  let '(a, b, c) := x in c0 <- t_neg O a ;; c1 <- t_neg O b ;; c2 <- t_neg O c ;; cret (c0, c1, c2).
(** operator*, Karatsuba *)
Definition cubic_tower_mul (x y : T * T * T) : counted (T * T * T) :=
  let '(a, b, c) := x in let '(A, B, C) := y in
  aA <- t_mul O a A ;;
  bB <- t_mul O b B ;;
  cC <- t_mul O c C ;;
  s <- t_add O b c ;;
  t <- t_add O B C ;;
  u <- t_mul O s t ;;
  u <- t_sub O u bB ;;
  u <- t_sub O u cC ;;
  u <- mnr u ;;
  c0 <- t_add O aA u ;;
  s <- t_add O a b ;;
  t <- t_add O A B ;;
  v <- t_mul O s t ;;
  v <- t_sub O v aA ;;
  v <- t_sub O v bB ;;
  n <- mnr cC ;;
  c1 <- t_add O v n ;;
  s <- t_add O a c ;;
  t <- t_add O A C ;;
  w <- t_mul O s t ;;
  w <- t_sub O w aA ;;
  w <- t_add O w bB ;;
  c2 <- t_sub O w cC ;;
  cret (c0, c1, c2).
(** squared(), CH-SQR2 *)
Definition cubic_tower_sqr (x : T * T * T) : counted (T * T * T) :=
  let '(a, b, c) := x in
  s0 <- t_sqr O a ;;
  ab <- t_mul O a b ;;
  s1 <- t_add O ab ab ;;
  d <- t_sub O a b ;;
  d <- t_add O d c ;;
  s2 <- t_sqr O d ;;
  bc <- t_mul O b c ;;
  s3 <- t_add O bc bc ;;
  s4 <- t_sqr O c ;;
  n3 <- mnr s3 ;;
  c0 <- t_add O s0 n3 ;;
  n4 <- mnr s4 ;;
  c1 <- t_add O s1 n4 ;;
  e <- t_add O s1 s2 ;;
  e <- t_add O e s3 ;;
  e <- t_sub O e s0 ;;
  c2 <- t_sub O e s4 ;;
  cret (c0, c1, c2).
Definition cubic_tower_inv (x : T * T * T) : counted (result (T * T * T)) :=
  let '(a, b, c) := x in
  t0 <- t_sqr O a ;;
  t1 <- t_sqr O b ;;
  t2 <- t_sqr O c ;;
  t3 <- t_mul O a b ;;
  t4 <- t_mul O a c ;;
  t5 <- t_mul O b c ;;
  n5 <- mnr t5 ;;
  c0 <- t_sub O t0 n5 ;;
  n2 <- mnr t2 ;;
  c1 <- t_sub O n2 t3 ;;
  c2 <- t_sub O t1 t4 ;;
  ac <- t_mul O a c0 ;;
  cc <- t_mul O c c1 ;;
  bc <- t_mul O b c2 ;;
  s <- t_add O cc bc ;;
  n <- mnr s ;;
  s <- t_add O ac n ;;
  on_ok (t_inv O s) (fun t6 =>
    r0 <- t_mul O t6 c0 ;;
    r1 <- t_mul O t6 c1 ;;
    r2 <- t_mul O t6 c2 ;;
    cret (Ok (r0, r1, r2))).
Definition cubic_tower : towerclass (T * T * T) :=
  mkTowerclass cubic_tower_add cubic_tower_sub cubic_tower_mul cubic_tower_neg cubic_tower_sqr cubic_tower_inv.
End CubicTower.

(** mul_by_non_residue of Fp4, fp4.tcc:22-26: one product. *)
Definition fp4_tower_mnr {T} (O : towerclass T) (nr : T) (x : T * T) : counted (T * T) :=
  let '(a, b) := x in c0 <- t_mul O nr b ;; cret (c0, a).
(** fp6_2over3.tcc:17-21, fp12_2over3over2.tcc:17-21: one product. *)
Definition rot_tower_mnr {T} (O : towerclass T) (nr : T) (x : T * T * T) : counted (T * T * T) :=
  let '(a, b, c) := x in c0 <- t_mul O nr c ;; cret (c0, a, b).

(** The prime field; [asm] is USE_ASM, [n] the number of limbs. *)
Definition prime_tower {T} (F : Fops T) (asm : bool) (n : Z) : towerclass T :=
  let O := fp_class (oadd F) (osub F) (omul F) (oopp F)
    (fun x => match oinv F x with Ok y => y | _ => x end) asm n in
  mkTowerclass (c_add O) (c_sub O) (c_mul O) (c_neg O) (c_squared O)
    (fun x => i <- c_inverse O x ;; cret (match oinv F x with Ok _ => Ok i | e => e end)).
(** The six classes over it. *)
Section Classes.
Context {T : Type} (O : towerclass T).
Definition fp2_tower (nr2 : T) : towerclass (T * T) := quad_tower O (t_mul O nr2).
Definition fp3_tower (nr3 : T) : towerclass (T * T * T) := cubic_tower O (t_mul O nr3).
Definition fp4_tower (nr2 nr4 : T) := quad_tower (fp2_tower nr2) (fp4_tower_mnr O nr4).
Definition fp6_2over3_tower (nr3 nr6 : T) := quad_tower (fp3_tower nr3) (rot_tower_mnr O nr6).
Definition fp6_3over2_tower (nr2 : T) (nr6 : T * T) := cubic_tower (fp2_tower nr2) (t_mul (fp2_tower nr2) nr6).
Definition fp12_tower (nr2 : T) (nr6 nr12 : T * T) :=
  quad_tower (fp6_3over2_tower nr2 nr6) (rot_tower_mnr (fp2_tower nr2) nr12).
End Classes.
