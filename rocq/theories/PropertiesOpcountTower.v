(** Property theorems about what the operations of the extension fields cost
    in operations of the prime field: C66.

    [costs F O ca cs cm cn cq ci] says: operator+ of the class [O] returns the
    value of [F] and adds the vector [ca] to the counters of the prime field;
    [cs] is for operator-, [cm] operator*, [cn] unary minus, [cq] squared().
    inverse() has the outcome of [F] and, when it returns, adds [ci].  A vector
    [mkCounts a s m q i] is [a] additions, [s] subtractions (and negations),
    [m] multiplications, [q] squarings and [i] inversions. *)
From Coq Require Import ZArith List Bool.
From Verif Require Import Result FieldOps ExtModel OpcountModel OpcountTowerModel OpcountTowerProofs.
Import ListNotations.
Open Scope Z_scope.

(** Fp2_model. *)
Theorem C66_fp2 : forall T (F : Fops T), ring_ok F -> forall (asm : bool) (n : Z) (nr2 : T), asm && (n =? 3) = false ->
  costs (fp2_ops F nr2) (fp2_tower (prime_tower F asm n) nr2)
  (mkCounts 2 0 0 0 0) (mkCounts 0 2 0 0 0) (mkCounts 3 2 4 0 0) (mkCounts 0 2 0 0 0)
  (mkCounts 3 2 4 0 0) (mkCounts 0 2 3 2 1).
Proof. exact (fun T F R asm n nr2 => fp2_costs_plain F R asm n nr2). Qed.
Print Assumptions C66_fp2.

(** Fp3_model. *)
Theorem C66_fp3 : forall T (F : Fops T), ring_ok F -> forall (asm : bool) (n : Z) (nr3 : T), asm && (n =? 3) = false ->
  costs (fp3_ops F nr3) (fp3_tower (prime_tower F asm n) nr3)
  (mkCounts 3 0 0 0 0) (mkCounts 0 3 0 0 0) (mkCounts 9 6 8 0 0) (mkCounts 0 3 0 0 0)
  (mkCounts 7 3 4 3 0) (mkCounts 2 3 12 3 1).
Proof. exact (fun T F R asm n nr3 => fp3_costs_plain F R asm n nr3). Qed.
Print Assumptions C66_fp3.

(** Fp4_model. *)
Theorem C66_fp4 : forall T (F : Fops T), ring_ok F -> forall (asm : bool) (n : Z) (nr2 nr4 : T), asm && (n =? 3) = false ->
  costs (fp4_ops F nr2 nr4) (fp4_tower (prime_tower F asm n) nr2 nr4)
  (mkCounts 4 0 0 0 0) (mkCounts 0 4 0 0 0) (mkCounts 15 10 13 0 0) (mkCounts 0 4 0 0 0)
  (mkCounts 12 8 10 0 0) (mkCounts 12 14 20 2 1).
Proof. exact (fun T F R asm n nr2 nr4 => fp4_costs_plain F R asm n nr2 nr4). Qed.
Print Assumptions C66_fp4.

(** Fp6_2over3_model. *)
Theorem C66_fp6_2over3 : forall T (F : Fops T), ring_ok F -> forall (asm : bool) (n : Z) (nr3 nr6 : T), asm && (n =? 3) = false ->
  costs (fp6_2over3_ops F nr3 nr6) (fp6_2over3_tower (prime_tower F asm n) nr3 nr6)
  (mkCounts 6 0 0 0 0) (mkCounts 0 6 0 0 0) (mkCounts 36 24 25 0 0) (mkCounts 0 6 0 0 0)
  (mkCounts 27 18 18 0 0) (mkCounts 34 27 37 9 1).
Proof. exact (fun T F R asm n nr3 nr6 => fp6_2over3_costs_plain F R asm n nr3 nr6). Qed.
Print Assumptions C66_fp6_2over3.

(** Fp6_3over2_model. *)
Theorem C66_fp6_3over2 : forall T (F : Fops T), ring_ok F -> forall (asm : bool) (n : Z) (nr2 : T) (nr6 : T * T), asm && (n =? 3) = false ->
  costs (fp6_3over2_ops F nr2 nr6) (fp6_3over2_tower (prime_tower F asm n) nr2 nr6)
  (mkCounts 6 0 0 0 0) (mkCounts 0 6 0 0 0) (mkCounts 42 28 32 0 0) (mkCounts 0 6 0 0 0)
  (mkCounts 35 20 28 0 0) (mkCounts 49 38 63 2 1).
Proof. exact (fun T F R asm n nr2 nr6 => fp6_3over2_costs_plain F R asm n nr2 nr6). Qed.
Print Assumptions C66_fp6_3over2.

(** Fp12_2over3over2_model. *)
Theorem C66_fp12 : forall T (F : Fops T), ring_ok F -> forall (asm : bool) (n : Z) (nr2 : T) (nr6 nr12 : T * T), asm && (n =? 3) = false ->
  costs (fp12_ops F nr2 nr6 nr12) (fp12_tower (prime_tower F asm n) nr2 nr6 nr12)
  (mkCounts 12 0 0 0 0) (mkCounts 0 12 0 0 0) (mkCounts 147 98 100 0 0) (mkCounts 0 12 0 0 0)
  (mkCounts 108 72 72 0 0) (mkCounts 206 148 187 2 1).
Proof. exact (fun T F R asm n nr2 nr6 nr12 => fp12_costs_plain F R asm n nr2 nr6 nr12). Qed.
Print Assumptions C66_fp12.

(** The fields of edwards have three limbs.  With USE_ASM the multiplications
    that squared() of the prime field takes back are never made (C62), so an
    inversion and a squaring of the extension fields show too few. *)
Theorem C66_fp3_asm_refuted : forall T (F : Fops T), ring_ok F -> forall (nr3 : T),
  costs (fp3_ops F nr3) (fp3_tower (prime_tower F true 3) nr3)
  (mkCounts 3 0 0 0 0) (mkCounts 0 3 0 0 0) (mkCounts 9 6 8 0 0) (mkCounts 0 3 0 0 0)
  (mkCounts 7 3 1 3 0) (mkCounts 2 3 9 3 1).
Proof. exact (fun T F R nr3 => fp3_costs_asm F R nr3). Qed.
Print Assumptions C66_fp3_asm_refuted.

Theorem C66_fp6_2over3_asm_refuted : forall T (F : Fops T), ring_ok F -> forall (nr3 nr6 : T),
  costs (fp6_2over3_ops F nr3 nr6) (fp6_2over3_tower (prime_tower F true 3) nr3 nr6)
  (mkCounts 6 0 0 0 0) (mkCounts 0 6 0 0 0) (mkCounts 36 24 25 0 0) (mkCounts 0 6 0 0 0)
  (mkCounts 27 18 18 0 0) (mkCounts 34 27 28 9 1).
Proof. exact (fun T F R nr3 nr6 => fp6_2over3_costs_asm F R nr3 nr6). Qed.
Print Assumptions C66_fp6_2over3_asm_refuted.

(** Over Z/7 with 3 as a non residue: a product and an inverse in Fp2, an
    inverse in Fp3 (three limbs, USE_ASM), and the inverse of zero. *)
Example C66_example :
  t_mul (fp2_tower (prime_tower z7 false 4) 3) (1, 2) (3, 4) (mkCounts 0 0 0 0 0) = ((6, 3), mkCounts 3 2 4 0 0) /\
  t_inv (fp2_tower (prime_tower z7 false 4) 3) (1, 2) (mkCounts 0 0 0 0 0) = (Ok (5, 4), mkCounts 0 2 3 2 1) /\
  snd (t_inv (fp3_tower (prime_tower z7 true 3) 2) (1, 2, 3) (mkCounts 0 0 0 0 0)) = mkCounts 2 3 9 3 1 /\
  fst (t_inv (fp2_tower (prime_tower z7 false 4) 3) (0, 0) (mkCounts 0 0 0 0 0)) = AssertFail.
Proof. exact tower_example. Qed.
