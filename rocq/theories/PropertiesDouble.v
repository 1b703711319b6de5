(** C59: [Double] (libff/common/double.cpp). *)
From Coq Require Import ZArith Bool Floats.SpecFloat.
From Verif Require Import Result DoubleModel DoubleProofs.
Open Scope Z_scope.

(** [gaussian x a b]: x is the complex integer a + b i with |a|, |b| < 2^53. *)
Theorem C59_exact x y a b c d : gaussian x a b -> gaussian y c d ->
  (small (a + c) -> small (b + d) -> gaussian (D_add x y) (a + c) (b + d)) /\
  (small (a - c) -> small (b - d) -> gaussian (D_sub x y) (a - c) (b - d)) /\
  (small (a * c) -> small (b * d) -> small (a * d) -> small (b * c) -> small (a * c - b * d) -> small (a * d + b * c) ->
     gaussian (D_mul x y) (a * c - b * d) (a * d + b * c)) /\
  (small (a * a) -> small (b * b) -> small (a * b) -> small (a * a - b * b) -> small (a * b + b * a) ->
     gaussian (D_squared x) (a * a - b * b) (a * b + b * a)) /\
  gaussian (D_opp x) (- a) (- b).
Proof. exact (double_exact x y a b c d). Qed.
Print Assumptions C59_exact.
(** Beyond the bound a sum of integers can be rounded: 2^53 - 1 plus 2 is 2^53. *)
Theorem C59_bound : exists x y, gaussian x (2 ^ 53 - 1) 0 /\ gaussian y 2 0 /\ has_value (re (D_add x y)) (2 ^ 53).
Proof. exact double_inexact. Qed.
Print Assumptions C59_bound.
Theorem C59_compare x y a b c d : gaussian x a b -> gaussian y c d ->
  D_ltb x y = (a <? c) /\ D_gtb x y = (c <? a) /\
  (small (a - c) -> small (b - d) -> (D_eqb x y = true <-> a = c /\ b = d) /\ D_neqb x y = negb (D_eqb x y)).
Proof. exact (double_compare x y a b c d). Qed.
Print Assumptions C59_compare.
(** Conversion to an integer; undefined behaviour for negative numbers. *)
Theorem C59_convert x a b : gaussian x a b ->
  (0 <= a -> D_as_ulong x = Ok a /\ D_as_bigint x = Ok (cons a nil)) /\ (a < 0 -> D_as_ulong x = UB /\ D_as_bigint x = UB).
Proof. exact (double_convert x a b). Qed.
Print Assumptions C59_convert.
Theorem C59_constants : gaussian D_default 0 0 /\ gaussian D_zero 0 0 /\ gaussian D_one 1 0 /\
  gaussian D_geometric_generator 2 0 /\ gaussian D_arithmetic_generator 1 0 /\ gaussian D_multiplicative_generator 2 0.
Proof. exact double_constants. Qed.
Print Assumptions C59_constants.
(** [r] is what std::rand() returned. *)
Theorem C59_random r : 0 <= r -> gaussian (D_random_element r) (r mod 1001) 0.
Proof. exact (double_random r). Qed.
Print Assumptions C59_random.
(** Commutativity for all operands, infinities and NaN included. *)
Theorem C59_commutative x y : D_add x y = D_add y x /\ D_mul x y = D_mul y x.
Proof. exact (conj (D_add_comm x y) (D_mul_comm x y)). Qed.
Print Assumptions C59_commutative.
(** == is reflexive on finite numbers and symmetric on all. *)
Theorem C59_equality x y : (finite (re x) -> finite (im x) -> D_eqb x x = true) /\ D_eqb x y = D_eqb y x.
Proof. exact (conj (D_eqb_refl x) (D_eqb_sym x y)). Qed.
Print Assumptions C59_equality.
(** == is not an equivalence: it is not transitive on finite numbers, and an
    infinity differs from itself. *)
Theorem C59_equality_refuted : (exists x y z, D_eqb x y = true /\ D_eqb y z = true /\ D_eqb x z = false) /\
  exists x, D_eqb x x = false.
Proof. exact (conj D_eqb_not_transitive D_eqb_not_reflexive). Qed.
Print Assumptions C59_equality_refuted.
(** Equal numbers can be ordered and convert to different integers: as_ulong
    truncates, so its call of round() has no effect. *)
Theorem C59_convert_refuted : exists x y, D_eqb x y = true /\ D_ltb x y = true /\ D_as_ulong x = Ok 2 /\ D_as_ulong y = Ok 3.
Proof. exact D_as_ulong_truncates. Qed.
Print Assumptions C59_convert_refuted.
Example C59_example : exists x y, gaussian x 3 4 /\ gaussian y 5 (-2) /\ D_mul x y = mkDouble (of_int 23) (of_int 14).
Proof.
  exists (mkDouble (of_int 3) (of_int 4)), (mkDouble (of_int 5) (of_int (-2))).
  repeat split; vm_compute; reflexivity.
Qed.
