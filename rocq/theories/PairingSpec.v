(** How many doublings and additions a Miller loop over v performs, and what it
    means for a loop to use all of its precomputed coefficients. *)
From Coq Require Import ZArith List.
From Verif Require Import Result FieldOps.
Open Scope Z_scope.
Open Scope result_scope.

(** Number of one bits. *)
Fixpoint pos_ones (p : positive) : nat :=
  match p with xH => 1 | xO p => pos_ones p | xI p => S (pos_ones p) end.
Definition ones (v : Z) : nat := match v with Zpos p => pos_ones p | _ => 0%nat end.

(** The top bit of v is skipped; every other bit gives a doubling, every other
    one bit also an addition. *)
Definition dbl_count (v : Z) : nat := Z.to_nat (Z.log2 v).
Definition add_count (v : Z) : nat := (ones v - 1)%nat.

(** The loop ends having read exactly n coefficients.  With a negative loop
    count it may instead fail the assertion in inverse(). *)
Definition consumes {T} (neg : bool) (n : nat) (r : result (T * nat)) : Prop :=
  (exists f, r = Ok (f, n)) \/ (neg = true /\ r = AssertFail).
(** The same with two lists of coefficients. *)
Definition consumes2 {T} (neg : bool) (n m : nat) (r : result (T * nat * nat)) : Prop :=
  (exists f, r = Ok (f, n, m)) \/ (neg = true /\ r = AssertFail).

(** Product of two outcomes, failing if either fails. *)
Definition product {T} (F : Fops T) (r1 r2 : result T) : result T := f1 <- r1 ;; f2 <- r2 ;; Ok (omul F f1 f2).
Definition product_idx {T} (F : Fops T) (r1 r2 : result (T * nat)) : result (T * nat) :=
  ' (f1, _) <- r1 ;; ' (f2, i) <- r2 ;; Ok (omul F f1 f2, i).
Definition product_idx2 {T} (F : Fops T) (r1 r2 : result (T * nat * nat)) : result (T * nat * nat) :=
  ' (f1, _, _) <- r1 ;; ' (f2, i, j) <- r2 ;; Ok (omul F f1 f2, i, j).

(** The reduced pairing is one unless the Miller value is zero (or an inverse of
    zero or another assertion stopped the computation before), and then an
    assertion fails. *)
Definition one_or_fail {T} (F : Fops T) (pairing reduced : result T) : Prop :=
  (exists f, pairing = Ok f /\ f <> o0 F /\ reduced = Ok (o1 F)) \/
  ((pairing = Ok (o0 F) \/ pairing = AssertFail) /\ reduced = AssertFail).
