(** Specification of the curve groups: affine points, the curve equations and
    the addition laws, stated over an arbitrary field without reference to the
    coordinate systems the code uses. *)
From Coq Require Import ZArith List Bool.
From Verif Require Import Result Algebra FieldOps.
Import ListNotations.

(** Affine points with a point at infinity. *)
Inductive apt (K : Type) : Type := Inf | Aff (x y : K).
Arguments Inf {K}. Arguments Aff {K}.

Section Weierstrass.
Context {K : Type} (F : Fops K) (a b : K).
Local Notation "x + y" := (oadd F x y).
Local Notation "x - y" := (osub F x y).
Local Notation "x * y" := (omul F x y).
Local Notation "- x" := (oopp F x).

(** y^2 = x^3 + a x + b. *)
Definition sw_on (P : apt K) : Prop :=
  match P with Inf => True | Aff x y => y * y = x * x * x + a * x + b end.
Definition sw_onb (P : apt K) : bool :=
  match P with Inf => true | Aff x y => oeqb F (y * y) (x * x * x + a * x + b) end.

(** The curve has no singular point: 4 a^3 + 27 b^2 is not zero. *)
Definition sw_disc : K := fnmul F (a * a * a) 4 + fnmul F (b * b) 27.

Definition sw_opp (P : apt K) : apt K :=
  match P with Inf => Inf | Aff x y => Aff x (- y) end.

(** Chord-and-tangent addition. *)
Definition sw_add (P Q : apt K) : apt K :=
  match P, Q with
  | Inf, _ => Q
  | _, Inf => P
  | Aff x1 y1, Aff x2 y2 =>
    if oeqb F x1 x2 && oeqb F y1 (- y2) then Inf
    else
      let l := if oeqb F x1 x2 then tdiv F (x1 * x1 + x1 * x1 + x1 * x1 + a) (y1 + y1)
               else tdiv F (y2 - y1) (x2 - x1) in
      let x3 := l * l - x1 - x2 in
      Aff x3 (l * (x1 - x3) - y1)
  end.

(** The points of the curve, as a type. *)
Definition sw_pt : Type := { P : apt K | sw_onb P = true }.
End Weierstrass.

(** Twisted Edwards curves a x^2 + y^2 = 1 + d x^2 y^2. *)
Section Edwards.
Context {K : Type} (F : Fops K) (a d : K).
Local Notation "x + y" := (oadd F x y).
Local Notation "x - y" := (osub F x y).
Local Notation "x * y" := (omul F x y).
Local Notation "- x" := (oopp F x).

Definition te_on (P : K * K) : Prop :=
  let '(x, y) := P in a * (x * x) + y * y = o1 F + d * ((x * x) * (y * y)).
Definition te_zero : K * K := (o0 F, o1 F).
Definition te_opp (P : K * K) : K * K := let '(x, y) := P in (- x, y).
Definition te_add (P Q : K * K) : K * K :=
  let '(x1, y1) := P in let '(x2, y2) := Q in
  let t := d * ((x1 * x2) * (y1 * y2)) in
  (tdiv F (x1 * y2 + y1 * x2) (o1 F + t), tdiv F (y1 * y2 - a * (x1 * x2)) (o1 F - t)).
End Edwards.

(** What the coordinate triples denote. *)
Section Denote.
Context {K : Type} (F : Fops K).
Local Notation "x + y" := (oadd F x y).
Local Notation "x * y" := (omul F x y).

(** Jacobian: (X/Z^2, Y/Z^3), or infinity when Z = 0. *)
Definition jac_den (p : K * K * K) : apt K :=
  let '(X, Y, Z) := p in
  if oeqb F Z (o0 F) then Inf else Aff (tdiv F X (Z * Z)) (tdiv F Y (Z * Z * Z)).
(** Points of y^2 = x^3 + b. *)
Definition jac_ok (b : K) (p : K * K * K) : Prop := sw_on F (o0 F) b (jac_den p).

(** Homogeneous: (X/Z, Y/Z), or infinity when Z = 0. *)
Definition prj_den (p : K * K * K) : apt K :=
  let '(X, Y, Z) := p in
  if oeqb F Z (o0 F) then Inf else Aff (tdiv F X Z) (tdiv F Y Z).
(** Points of y^2 = x^3 + a x + b; the only point at infinity of the projective
    curve has X = Z = 0. *)
Definition prj_ok (a b : K) (p : K * K * K) : Prop :=
  sw_on F a b (prj_den p) /\ (let '(X, _, Z) := p in Z = o0 F -> X = o0 F).

(** Inverted Edwards: (Z/X, Z/Y), the neutral element being Y = Z = 0. *)
Definition edw_den (p : K * K * K) : K * K :=
  let '(X, Y, Z) := p in
  if oeqb F Y (o0 F) && oeqb F Z (o0 F) then te_zero F else (tdiv F Z X, tdiv F Z Y).
(** Either the neutral element, or all coordinates are non-zero and the point
    is on a x^2 + y^2 = 1 + d x^2 y^2. *)
Definition edw_ok (a d : K) (p : K * K * K) : Prop :=
  let '(X, Y, Z) := p in
  (X <> o0 F /\ Y = o0 F /\ Z = o0 F) \/
  (X <> o0 F /\ Y <> o0 F /\ Z <> o0 F /\ te_on F a d (edw_den p)).
End Denote.
