(** Miller's algorithm as found in textbooks, over an arbitrary field and without
    reference to any coordinate system, tower or sparse product: the functions
    f_n,Q with divisor n(Q) - (nQ) - (n-1)(O), evaluated at an affine point. *)
From Coq Require Import ZArith List Bool.
From Verif Require Import Result Algebra FieldOps CurveSpec.

Section Miller.
Context {T : Type} (F : Fops T) (a : T).
Local Notation "0" := (o0 F).
Local Notation "1" := (o1 F).
Local Notation "x + y" := (oadd F x y).
Local Notation "x - y" := (osub F x y).
Local Notation "x * y" := (omul F x y).
Local Notation "- x" := (oopp F x).
Local Notation add := (sw_add F a).

(** Slope of the line through two points, the tangent if they are equal. *)
Definition slope (x1 y1 x2 y2 : T) : T :=
  if oeqb F x1 x2 then tdiv F (x1 * x1 + x1 * x1 + x1 * x1 + a) (y1 + y1) else tdiv F (y2 - y1) (x2 - x1).

(** The line through A and B at (xP, yP). *)
Definition line_at (A B : apt T) (xP yP : T) : T :=
  match A, B with
  | Aff x1 y1, Aff x2 y2 =>
      if oeqb F x1 x2 && oeqb F y1 (- y2) then xP - x1
      else yP - y1 - slope x1 y1 x2 y2 * (xP - x1)
  | Aff x1 _, Inf | Inf, Aff x1 _ => xP - x1
  | Inf, Inf => 1
  end.
(** The vertical line through A at (xP, yP). *)
Definition vertical_at (A : apt T) (xP : T) : T := match A with Aff x _ => xP - x | Inf => 1 end.
(** Divisor (A) + (B) - (A + B) - (O). *)
Definition line_ratio (A B : apt T) (xP yP : T) : T := tdiv F (line_at A B xP yP) (vertical_at (add A B) xP).

(** n Q and f_n,Q (P), by doubling and adding over the bits of n. *)
Fixpoint mult (n : positive) (Q : apt T) : apt T :=
  match n with
  | xH => Q
  | xO n => let S := mult n Q in add S S
  | xI n => let S := mult n Q in add (add S S) Q
  end.
Fixpoint miller (n : positive) (Q : apt T) (xP yP : T) : T :=
  match n with
  | xH => 1
  | xO n => let f := miller n Q xP yP in let S := mult n Q in
      f * f * line_ratio S S xP yP
  | xI n => let f := miller n Q xP yP in let S := mult n Q in
      f * f * line_ratio S S xP yP * line_ratio (add S S) Q xP yP
  end.

(** The computation meets no vertical line and no zero of a denominator: no
    doubling of a point of order two, no addition of equal or opposite points,
    no intermediate point above or below P. *)
Definition regular_dbl (A : apt T) (xP : T) : Prop :=
  match A with Aff x y => y + y <> 0 /\ vertical_at (add A A) xP <> 0 | Inf => False end.
Definition regular_add (A B : apt T) (xP : T) : Prop :=
  match A, B with Aff x1 _, Aff x2 _ => x1 <> x2 /\ vertical_at (add A B) xP <> 0 | _, _ => False end.
Fixpoint regular (n : positive) (Q : apt T) (xP : T) : Prop :=
  match n with
  | xH => True
  | xO n => let S := mult n Q in regular n Q xP /\ regular_dbl S xP
  | xI n => let S := mult n Q in regular n Q xP /\ regular_dbl S xP /\ regular_add (add S S) Q xP
  end.

(** Negative multiples: f_-n,Q = 1 / (f_n,Q v_nQ). *)
Definition mult_signed (neg : bool) (n : positive) (Q : apt T) : apt T :=
  if neg then sw_opp F (mult n Q) else mult n Q.
Definition miller_signed (neg : bool) (n : positive) (Q : apt T) (xP yP : T) : T :=
  if neg then tinv F (miller n Q xP yP * vertical_at (mult n Q) xP) else miller n Q xP yP.
Definition regular_signed (neg : bool) (n : positive) (Q : apt T) (xP : T) : Prop :=
  regular n Q xP /\ (neg = true -> vertical_at (mult n Q) xP <> 0).

(** The q-power Frobenius. *)
Definition frob_pt (q : nat) (A : apt T) : apt T :=
  match A with Inf => Inf | Aff x y => Aff (fpow F x q) (fpow F y q) end.

(** The optimal ate pairing of a Barreto-Naehrig curve before the final
    exponentiation (Vercauteren): f_t,Q(P) times the two lines through tQ and
    piQ, and tQ + piQ and -pi^2 Q. *)
Definition optimal_ate (q : nat) (neg : bool) (n : positive) (Q : apt T) (xP yP : T) : T :=
  let S := mult_signed neg n Q in
  let Q1 := frob_pt q Q in
  let Q2 := sw_opp F (frob_pt q (frob_pt q Q)) in
  miller_signed neg n Q xP yP * line_ratio S Q1 xP yP * line_ratio (add S Q1) Q2 xP yP.
Definition regular_optimal (q : nat) (neg : bool) (n : positive) (Q : apt T) (xP : T) : Prop :=
  let S := mult_signed neg n Q in
  let Q1 := frob_pt q Q in
  let Q2 := sw_opp F (frob_pt q (frob_pt q Q)) in
  regular_signed neg n Q xP /\ regular_add S Q1 xP /\ regular_add (add S Q1) Q2 xP.

(** Points of y^2 = x^3 + a x + b whose order divides r. *)
Definition torsion (b : T) (r : Z) (A : apt T) : Prop := sw_on F a b A /\ mult (Z.to_pos r) A = Inf.
(** The q-power Frobenius acts on the point as multiplication by q. *)
Definition frob_eigen (q : nat) (A : apt T) : Prop := frob_pt q A = mult (Z.to_pos (Z.of_nat q)) A.
End Miller.

(** The map from a twist to the curve: [emb] embeds the twist's field, and
    (x, y) on the twist is (x u^2, y u^3) on the curve. *)
Definition psi {E T : Type} (F : Fops T) (emb : E -> T) (u : T) (A : apt E) : apt T :=
  match A with Inf => Inf | Aff x y => Aff (omul F (emb x) (omul F u u)) (omul F (emb y) (omul F (omul F u u) u)) end.

(** Fp12 as Fp2[v,w]/(v^3 - xi, w^2 - v): the embedding of Fp2, and w. *)
Definition emb12 {E : Type} (G : Fops E) (x : E) : (E * E * E) * (E * E * E) := ((x, o0 G, o0 G), (o0 G, o0 G, o0 G)).
Definition w12 {E : Type} (G : Fops E) : (E * E * E) * (E * E * E) := ((o0 G, o0 G, o0 G), (o1 G, o0 G, o0 G)).
