(** C60: products and quotients of pairings (mnt4_pp.cpp, mnt6_pp.cpp). *)
From Coq Require Import ZArith List.
From Verif Require Import Result FieldOps CurveSpec CurveModel ParamsModel ParamsProofs Hom TowerModel TowerSpec TowerShipped FinalExpSpec PairingShipped FpModel FpInst
  BilinearQuad MntShipped MntGen MntAffine QuotientModel QuotientProofs.
Open Scope Z_scope.

(** Every final exponentiation of C41 turns products of Miller values into
    products of pairings. *)
Theorem C60_product {T} (F : Fops T) (FK : field_ok F) N r fe : final_exp_ok F N r fe ->
  forall x y a b, fe x = Ok a -> fe y = Ok b -> fe (omul F x y) = Ok (omul F a b).
Proof. exact (final_mul F FK N r fe). Qed.
Print Assumptions C60_product.
(** [quotient_ok], [quotient3_ok] (QuotientProofs.v): whenever the affine reduced
    pairings of the given points are v, v' (and v''), the quotient of their Miller
    loops has a final exponentiation w with w v' = v (w v'' = v v').  No
    hypothesis on the points. *)
Theorem C60_mnt4 CO : let D := mnt4_tower in fo_quotients (cF (ft_Fq D) CO) (ce (ft_Fq D) CO) D.
Proof. exact (mnt4_quotients CO). Qed.
Print Assumptions C60_mnt4.
Theorem C60_mnt6 CO : let D := mnt6_tower in si_quotients (cF (st_Fq D) CO) (ce (st_Fq D) CO) D.
Proof. exact (mnt6_quotients CO). Qed.
Print Assumptions C60_mnt6.
(** [group_quotient]: on points of order r everything is defined, the result is
    the quotient of the (projective) reduced pairings, and it is 1 exactly if they
    are equal. *)
Theorem C60_mnt4_groups CO : let D := mnt4_tower in fo_group_quotient (cF (ft_Fq D) CO) (ce (ft_Fq D) CO) D.
Proof. exact (mnt4_group_quotient CO). Qed.
Print Assumptions C60_mnt4_groups.
(** For mnt6 the affine pairing is the inverse of the projective one (C50), so the
    quotient is e(P', Q') / e(P, Q). *)
Theorem C60_mnt6_groups CO : let D := mnt6_tower in si_group_quotient (cF (st_Fq D) CO) (ce (st_Fq D) CO) D.
Proof. exact (mnt6_group_quotient CO). Qed.
Print Assumptions C60_mnt6_groups.
Example C60_example CO : let D := mnt4_tower in let F := cF (ft_Fq D) CO in let e := ce (ft_Fq D) CO in
  fo_G1 F e D (fo_gen1 e D) /\ fo_G2 F e D (fo_gen2 e D).
Proof. exact (mnt4_generators CO). Qed.
