(** mnt4_pp.cpp:43-78 and mnt6_pp.cpp:43-87: quotients of affine Miller loops.

    The other members of the *_pp classes only forward to the functions modelled
    in PairingModel.v and FinalExpModel.v.  The operands of [*] are evaluated from
    left to right here; C++ leaves the order open, which matters only for which
    of two failing calls fails. *)
From Coq Require Import ZArith List.
From Verif Require Import Result Limbs FieldOps BigintModel ExtModel CurveModel PairingModel ParamsModel Hom TowerModel TowerSpec PairingShipped.
Import ListNotations.
Open Scope Z_scope.
Open Scope result_scope.

Section Quotient.
Context {A B T : Type} (FK : Fops T) (uinv : T -> T) (loop : A -> B -> result T).
(** affine_ate_e_over_e_miller_loop: mnt4_pp.cpp:60-66, mnt6_pp.cpp:69-75 *)
Definition e_over_e (p1 : A) (q1 : B) (p2 : A) (q2 : B) : result T :=
  f1 <- loop p1 q1 ;; f2 <- loop p2 q2 ;; Ok (omul FK f1 (uinv f2)).
(** affine_ate_e_times_e_over_e_miller_loop: mnt4_pp.cpp:68-77, mnt6_pp.cpp:77-86 *)
Definition e_times_e_over_e (p1 : A) (q1 : B) (p2 : A) (q2 : B) (p3 : A) (q3 : B) : result T :=
  f1 <- loop p1 q1 ;; f2 <- loop p2 q2 ;; f3 <- loop p3 q3 ;; Ok (omul FK (omul FK f1 f2) (uinv f3)).
End Quotient.

(** With the constants set by the init functions: affine_ate_precompute_G1, _G2,
    affine_ate_miller_loop (mnt4_pp.cpp:43-58, mnt6_pp.cpp:43-59) and the quotients. *)
Section Four.
Context {K : Type} (F : Fops K) (e : Z -> K) (D : four_consts).
Let n := cn (ft_Fq D).
Let F2 := fp2_ops F (e (ft_nr2 D)).
Let F4 := fp4_ops F (e (ft_nr2 D)) (e (ft_nr4 D)).
Definition fo_affine_G1 := affine_precompute_G1 F F2 (quad_scale (omul F)) (o0 F, o1 F).
Definition fo_affine_G2 := affine_precompute_G2 F2 (o0 F, o1 F) (fo_twist_a F e D) (limbs_of n (ft_loop D)).
Definition fo_affine_loop p q := miller_value (affine_miller_loop_idx F F2 (quad_scale (omul F)) F4 (limbs_of n (ft_loop D))
  (fp4_mul_by_023 F (e (ft_nr2 D)) (e (ft_nr4 D))) p q).
Definition fo_e_over_e := e_over_e F4 (quad_unitary_inverse F2) fo_affine_loop.
Definition fo_e_times_e_over_e := e_times_e_over_e F4 (quad_unitary_inverse F2) fo_affine_loop.
End Four.
Section Six.
Context {K : Type} (F : Fops K) (e : Z -> K) (D : six_consts).
Let n := cn (st_Fq D).
Let F3 := fp3_ops F (e (st_nr3 D)).
Let F6 := fp6_2over3_ops F (e (st_nr3 D)) (e (st_nr6 D)).
Definition si_affine_G1 := affine_precompute_G1 F F3 (cubic_scale (omul F)) (o0 F, o1 F, o0 F).
Definition si_affine_G2 := affine_precompute_G2 F3 (o0 F, o1 F, o0 F) (si_twist_a F e D) (limbs_of n (st_loop D)).
Definition si_affine_loop p q := miller_value (affine_miller_loop_idx F F3 (cubic_scale (omul F)) F6 (limbs_of n (st_loop D))
  (fp6_mul_by_2345 F (e (st_nr3 D)) (e (st_nr6 D))) p q).
Definition si_e_over_e := e_over_e F6 (quad_unitary_inverse F3) si_affine_loop.
Definition si_e_times_e_over_e := e_times_e_over_e F6 (quad_unitary_inverse F3) si_affine_loop.
End Six.
