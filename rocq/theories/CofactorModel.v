(** Model of mul_by_cofactor. *)
From Coq Require Import ZArith List Bool.
From Verif Require Import Limbs FpModel GroupOps WnafModel ParamsModel TowerModel.
Import ListNotations.
Open Scope Z_scope.

(** h_limbs from h_bitcount, e.g. bls12_381_g1.hpp:32-33 *)
Definition h_limbs (bitcount : Z) : nat := Z.to_nat ((bitcount + 64 - 1) / 64).
(** alt_bn128_g1.cpp:320-324, bn128_g1.cpp:340-344, mnt4_g1.cpp:352-356,
    mnt6_g1.cpp:352-356: the cofactor is 1. *)
Definition mul_by_cofactor_one {T} (p : T) : T := p.
(** alt_bn128_g2.cpp:337-340, bls12_381_g1.cpp:309-312, bls12_381_g2.cpp:323-326,
    bn128_g2.cpp:340-343, mnt4_g2.cpp:375-378, mnt6_g2.cpp:381-384: h * (this). *)
Definition mul_by_cofactor {T} (O : gops T) (bitcount h : Z) (p : T) : T := scalar_mul O p (limbs_of (h_limbs bitcount) h).

(** A group: size of the field, order r, h_bitcount and h. *)
Record cofactor := mkCofactor { co_field : Z; co_r : Z; co_bits : Z; co_h : Z }.
(** mnt6_init.cpp:73,141; TowerModel has the others. *)
Definition mnt6_h1 : Z := 1.
Definition mnt6_h2 : Z := 226502022472576270196498690498308461791828762732602586162207535351960270082712694977333372361549082214519252261735048131889018501404377856786623430385820659037970876666767495659520.
Definition twelve_cofactors (D : twelve_consts) (bits1 bits2 : Z) : list cofactor :=
  [mkCofactor (fc_p (bt_Fq D)) (fc_p (bt_Fr D)) bits1 (bt_h1 D); mkCofactor (fc_p (bt_Fq D) ^ 2) (fc_p (bt_Fr D)) bits2 (bt_h2 D)].
(** h_bitcount: alt_bn128_g1.hpp:37, alt_bn128_g2.hpp:38, bls12_381_g1.hpp:32,
    bls12_381_g2.hpp:32, mnt4_g1.hpp:44, mnt4_g2.hpp:46, mnt6_g1.hpp:44,
    mnt6_g2.hpp:46; bn128_g1.hpp:41 and bn128_g2.hpp:42 are as for alt_bn128. *)
Definition shipped_cofactors : list cofactor :=
  twelve_cofactors alt_bn128_tower 1 256 ++ twelve_cofactors bls12_381_tower 126 507 ++
  [mkCofactor (fc_p mnt4_Fq_C) (fc_p mnt4_Fr_C) 1 (ft_h1 mnt4_tower); mkCofactor (fc_p mnt4_Fq_C ^ 2) (fc_p mnt4_Fr_C) 298 (ft_h2 mnt4_tower);
   mkCofactor (fc_p mnt6_Fq_C) (fc_p mnt6_Fr_C) 1 mnt6_h1; mkCofactor (fc_p mnt6_Fq_C ^ 3) (fc_p mnt6_Fr_C) 596 mnt6_h2].
