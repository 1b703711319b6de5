(** Model of size_in_bits of the groups. *)
From Coq Require Import ZArith List.
From Verif Require Import FpModel WordsModel.
Import ListNotations.
Open Scope Z_scope.

(** alt_bn128_g1.hpp:74, bls12_381_g1.hpp:72, mnt4_g1.hpp:82, mnt6_g1.hpp:82,
    edwards_g1.hpp:70, bn128_g1.hpp:78 *)
Definition g1_size_in_bits (P : fp_params) : Z := fp_ceil_size P + 1.
(** alt_bn128_g2.hpp:78, bls12_381_g2.hpp:76, mnt4_g2.hpp:87 (the size of Fp2) and
    bn128_g2.hpp:79 (twice that of Fp) *)
Definition g2_size_in_bits (P : fp_params) : Z := fp2_size (fp_ceil_size P) + 1.
(** mnt6_g2.hpp:87, edwards_g2.hpp:76 (the size of Fp3) *)
Definition g2_cubic_size_in_bits (P : fp_params) : Z := fp3_size (fp_ceil_size P) + 1.
(** utils.tcc:16-20 *)
Definition curve_size_in_bits {T} (size_in_bits : Z) (v : list T) : Z := Z.of_nat (length v) * size_in_bits.
