(** What a final exponentiation has to compute. *)
From Coq Require Import ZArith.
From Verif Require Import Result FieldOps.
Open Scope Z_scope.

(** In a field with N non-zero elements: fails on zero, and otherwise raises to
    c N / r for a fixed c coprime to r, so the results have order dividing r. *)
Definition final_exp_ok {T} (F : Fops T) (N r : Z) (fe : T -> result T) : Prop :=
  fe (o0 F) = AssertFail /\ (r | N) /\
  exists c, 0 <= c /\ Z.gcd c r = 1 /\
    forall f, f <> o0 F -> exists y, fe f = Ok y /\
      y = fpow F f (Z.to_nat (c * (N / r))) /\ fpow F y (Z.to_nat r) = o1 F.
