(** Specification of the quotient rings F[u]/(u^k - nr): elements are their k
    coefficients, lowest first. *)
From Coq Require Import List Bool Arith.
From Verif Require Import Algebra FieldOps.
Import ListNotations.

Section Quotient.
Context {K : Type} (F : Fops K).

(** Coefficient i of the product of two polynomials: the sum over j = 0..n-1 of
    x_j * y_(i-j). *)
Fixpoint conv (xs ys : list K) (i : nat) (n : nat) : K :=
  match n with
  | O => o0 F
  | S j => oadd F (conv xs ys i j) (omul F (nth j xs (o0 F)) (nth (i - j) ys (o0 F)))
  end.
Definition poly_mul_coeff (xs ys : list K) (i : nat) : K := conv xs ys i (S i).

(** u^(i+k) = nr * u^i: products of two elements have degree at most 2k-2. *)
Definition quot_mul (k : nat) (nr : K) (xs ys : list K) : list K :=
  map (fun i => oadd F (poly_mul_coeff xs ys i) (omul F nr (poly_mul_coeff xs ys (i + k)))) (seq 0 k).
End Quotient.

(** The two element shapes as coefficient lists. *)
Definition coeffs2 {K} (x : K * K) : list K := let '(a, b) := x in [a; b].
Definition coeffs3 {K} (x : K * K * K) : list K := let '(a, b, c) := x in [a; b; c].

(** A correct Frobenius coefficient table: entry i is nr^((q^i - 1) / d)^j. *)
Definition frob_table {K} (F : Fops K) (q d j len : nat) (nr : K) (tbl : list K) : Prop :=
  length tbl = len /\
  forall i, i < len -> nth i tbl (o0 F) = fpow F nr (j * ((q ^ i - 1) / d)).

(** nr is not an r-th power in a field of Q elements (Euler's criterion). *)
Definition nonresidue {K} (F : Fops K) (Q r : nat) (nr : K) : Prop :=
  nr <> o0 F /\ fpow F nr ((Q - 1) / r) <> o1 F.

(** The subgroups the cyclotomic formulas are meant for: elements whose order
    divides Phi_4(q), Phi_6(q), Phi_12(q). *)
Definition cyclotomic4 {K} (F : Fops K) (q : nat) (x : K) : Prop := fpow F x (q ^ 2 + 1) = o1 F.
Definition cyclotomic6 {K} (F : Fops K) (q : nat) (x : K) : Prop := fpow F x (q ^ 2 - q + 1) = o1 F.
Definition cyclotomic12 {K} (F : Fops K) (q : nat) (x : K) : Prop := fpow F x (q ^ 4 - q ^ 2 + 1) = o1 F.
