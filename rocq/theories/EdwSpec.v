(** Groups and pairings on twisted Edwards curves: multiples, points of order r,
    the twist, and what it means for a pairing given as a program to be
    bilinear. *)
From Coq Require Import ZArith.
From Verif Require Import Result FieldOps CurveSpec.

Section Te.
Context {K : Type} (F : Fops K) (a d : K).
(** n P by doubling and adding over the bits of n. *)
Fixpoint te_mult (n : positive) (P : K * K) : K * K :=
  match n with
  | xH => P
  | xO n => let S := te_mult n P in te_add F a d S S
  | xI n => let S := te_mult n P in te_add F a d (te_add F a d S S) P
  end.
(** Points whose order divides r. *)
Definition te_torsion (r : Z) (P : K * K) : Prop := te_on F a d P /\ te_mult (Z.to_pos r) P = te_zero F.
End Te.

(** The same where d is a square and a is not: (x, y) -> (x, 1/y) maps the
    curve to the one with a and d exchanged, where the addition law has no
    exceptions. *)
Definition te_torsion_dual {K} (F : Fops K) (a d : K) (r : Z) (P : K * K) : Prop :=
  let '(x, y) := P in y <> o0 F /\ te_torsion F d a r (x, tinv F y).

(** The map from the twist to the curve, over the big field: [emb] embeds the
    twist's field, w is the square root of the twist. *)
Definition te_untwist {E T} (FT : Fops T) (emb : E -> T) (w : T) (P : E * E) : T * T :=
  let '(x, y) := P in (omul FT w (emb x), emb y).
Definition te_frob {T} (FT : Fops T) (q : nat) (P : T * T) : T * T :=
  let '(x, y) := P in (fpow FT x q, fpow FT y q).
(** The q-power Frobenius acts on the point as multiplication by q. *)
Definition te_eigen {E T} (G : Fops E) (a d : E) (FT : Fops T) (emb : E -> T) (w : T) (q : nat) (P : E * E) : Prop :=
  te_frob FT q (te_untwist FT emb w P) = te_untwist FT emb w (te_mult G a d (Z.to_pos (Z.of_nat q)) P).

Section Statement.
Context {K L T A1 A2 : Type} (F : Fops K) (a d : K) (G : Fops L) (a' d' : L) (FT : Fops T) (r : Z).
(** [ok]: the coordinates are those of a point; [S]: the group. *)
Variables (ok1 : A1 -> Prop) (ok2 : A2 -> Prop) (S1 : K * K -> Prop) (S2 : L * L -> Prop) (den1 : A1 -> K * K) (den2 : A2 -> L * L).
Variable pairing : A1 -> A2 -> result T.
Notation pt1 P := (ok1 P /\ den1 P <> te_zero F).
Notation pt2 Q := (ok2 Q /\ den2 Q <> te_zero G).
Notation G1 P := (pt1 P /\ S1 (den1 P)).
Notation G2 Q := (pt2 Q /\ S2 (den2 Q)).
Record te_bilinear : Prop := {
  (** pairing(m P, n Q) = pairing(P, Q)^(m n), an r-th root of unity. *)
  tbl_mult : forall P Q P' Q' m n, G1 P -> G2 Q -> pt1 P' -> pt2 Q' ->
    den1 P' = te_mult F a d m (den1 P) -> den2 Q' = te_mult G a' d' n (den2 Q) ->
    exists v, pairing P Q = Ok v /\ fpow FT v (Z.to_nat r) = o1 FT /\ pairing P' Q' = Ok (fpow FT v (Pos.to_nat (m * n)));
  (** pairing(P1 + P2, Q) = pairing(P1, Q) pairing(P2, Q), one if P1 + P2 = O. *)
  tbl_add_P : forall P1 P2 Q, G1 P1 -> G1 P2 -> G2 Q -> exists v1 v2, pairing P1 Q = Ok v1 /\ pairing P2 Q = Ok v2 /\
    (forall P3, pt1 P3 -> den1 P3 = te_add F a d (den1 P1) (den1 P2) -> pairing P3 Q = Ok (omul FT v1 v2)) /\
    (te_add F a d (den1 P1) (den1 P2) = te_zero F -> omul FT v1 v2 = o1 FT);
  tbl_add_Q : forall P Q1 Q2, G1 P -> G2 Q1 -> G2 Q2 -> exists v1 v2, pairing P Q1 = Ok v1 /\ pairing P Q2 = Ok v2 /\
    (forall Q3, pt2 Q3 -> den2 Q3 = te_add G a' d' (den2 Q1) (den2 Q2) -> pairing P Q3 = Ok (omul FT v1 v2)) /\
    (te_add G a' d' (den2 Q1) (den2 Q2) = te_zero G -> omul FT v1 v2 = o1 FT)
}.
End Statement.
