(** The pairings with the constants set by the init functions. *)
From Coq Require Import ZArith List Bool.
From Verif Require Import Result Limbs FieldOps FpModel FpInst ParamsModel ParamsProofs ExtModel CurveModel Hom TowerModel TowerSpec FinalExpModel PairingModel.
Import ListNotations.
Open Scope Z_scope.

Section Twelve.
Context {K : Type} (F : Fops K) (e : Z -> K) (D : twelve_consts).
Let n := cn (bt_Fq D).
Definition tw_alt_pairing :=
  alt_pairing F (e (bt_nr2 D)) (map2 e (bt_nr6 D)) (map2 e (bt_nr12 D)) (map e (bt_c2 D))
    (map2 e (bt_twist D)) (tw_twist_b F e D) (map2 e (bt_qX D)) (map2 e (bt_qY D)) (limbs_of n (bt_loop D)) (bt_loop_neg D).
Definition tw_alt_reduced_pairing :=
  alt_reduced_pairing F (e (bt_nr2 D)) (map2 e (bt_nr6 D)) (map2 e (bt_nr12 D))
    (map e (bt_c2 D)) (map (map2 e) (bt_c61 D)) (map (map2 e) (bt_c62 D)) (map (map2 e) (bt_c12 D))
    (map2 e (bt_twist D)) (tw_twist_b F e D) (map2 e (bt_qX D)) (map2 e (bt_qY D)) (limbs_of n (bt_loop D)) (bt_loop_neg D)
    (limbs_of n (bt_z D)) (bt_z_neg D).
Definition tw_bls_pairing :=
  bls_pairing F (e (bt_nr2 D)) (map2 e (bt_nr6 D)) (map2 e (bt_nr12 D))
    (map2 e (bt_twist D)) (tw_twist_b F e D) (limbs_of n (bt_loop D)) (bt_loop_neg D).
Definition tw_bls_reduced_pairing :=
  bls_reduced_pairing F (e (bt_nr2 D)) (map2 e (bt_nr6 D)) (map2 e (bt_nr12 D))
    (map e (bt_c2 D)) (map (map2 e) (bt_c61 D)) (map (map2 e) (bt_c62 D)) (map (map2 e) (bt_c12 D))
    (map2 e (bt_twist D)) (tw_twist_b F e D) (limbs_of n (bt_loop D)) (bt_loop_neg D) (limbs_of n (bt_z D)) (bt_z_neg D).
End Twelve.

Section Four.
Context {K : Type} (F : Fops K) (e : Z -> K) (D : four_consts).
Let n := cn (ft_Fq D).
Definition fo_pairing :=
  mnt4_pairing F (e (ft_nr2 D)) (e (ft_nr4 D)) (fo_twist_a F e D) (limbs_of n (ft_loop D)) (ft_loop_neg D).
Definition fo_reduced_pairing :=
  mnt4_reduced_pairing F (e (ft_nr2 D)) (e (ft_nr4 D)) (map e (ft_c2 D)) (map e (ft_c4 D)) (fo_twist_a F e D)
    (limbs_of n (ft_loop D)) (ft_loop_neg D) (limbs_of n (ft_w1 D)) (limbs_of n (ft_w0 D)) (ft_w0_neg D).
Definition fo_affine_reduced_pairing :=
  mnt4_affine_reduced_pairing F (e (ft_nr2 D)) (e (ft_nr4 D)) (map e (ft_c2 D)) (map e (ft_c4 D)) (fo_twist_a F e D)
    (limbs_of n (ft_loop D)) (limbs_of n (ft_w1 D)) (limbs_of n (ft_w0 D)) (ft_w0_neg D).
End Four.

Section Six.
Context {K : Type} (F : Fops K) (e : Z -> K) (D : six_consts).
Let n := cn (st_Fq D).
Definition si_mnt6_pairing :=
  mnt6_pairing F (e (st_nr3 D)) (e (st_nr6 D)) (si_twist_a F e D) (limbs_of n (st_loop D)) (st_loop_neg D).
Definition si_mnt6_reduced_pairing :=
  mnt6_reduced_pairing F (e (st_nr3 D)) (e (st_nr3 D)) (e (st_nr6 D)) (map e (st_c31 D)) (map e (st_c32 D)) (map e (st_c6 D))
    (si_twist_a F e D) (limbs_of n (st_loop D)) (st_loop_neg D) (limbs_of n (st_w1 D)) (limbs_of n (st_w0 D)) (st_w0_neg D).
Definition si_mnt6_affine_reduced_pairing :=
  mnt6_affine_reduced_pairing F (e (st_nr3 D)) (e (st_nr3 D)) (e (st_nr6 D)) (map e (st_c31 D)) (map e (st_c32 D)) (map e (st_c6 D))
    (si_twist_a F e D) (limbs_of n (st_loop D)) (limbs_of n (st_w1 D)) (limbs_of n (st_w0 D)) (st_w0_neg D).
Definition si_edwards_pairing :=
  edwards_pairing F (e (st_nr3 D)) (e (st_nr6 D)) (edwards_mul_by_a F (e (fst (st_ad D))) (e (st_nr3 D))) (limbs_of n (st_loop D)).
Definition si_edwards_reduced_pairing :=
  edwards_reduced_pairing F (e (st_nr3 D)) (e (st_nr3 D)) (e (st_nr6 D)) (map e (st_c31 D)) (map e (st_c32 D)) (map e (st_c6 D))
    (edwards_mul_by_a F (e (fst (st_ad D))) (e (st_nr3 D))) (limbs_of n (st_loop D))
    (limbs_of n (st_w1 D)) (limbs_of n (st_w0 D)) (st_w0_neg D).
(** The Tate pairing loops over edwards_modulus_r. *)
Definition si_tate_reduced_pairing :=
  edwards_tate_reduced_pairing F (e (st_nr3 D)) (e (st_nr3 D)) (e (st_nr6 D)) (map e (st_c31 D)) (map e (st_c32 D)) (map e (st_c6 D))
    (fp_modulus (fc_P (st_Fr D))) (limbs_of n (st_w1 D)) (limbs_of n (st_w0 D)) (st_w0_neg D).
End Six.
