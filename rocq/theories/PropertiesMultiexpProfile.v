(** Property theorems about multiexp_profile.cpp: C68. *)
From Coq Require Import ZArith List Bool.
From Verif Require Import Result Limbs LimbsProofs GroupOps WnafProofs MultiexpModel MultiexpProofs BosCosterProofs MultiexpExtra FpModel FpSpec FpField
  FieldOps CurveModel CurveSpec CurveProofs Bn128Model Bn128Shipped MultiexpProfileModel MultiexpProfileProofs.
Import ListNotations.

(** Any group and scalar type: for exponents up to 30 every line is printed, with
    the naive time up to [en], and neither message is written, whatever the
    random points and scalars are. *)
Theorem C68_csv : forall T G S (O : gops T) ok (den : T -> G) z add opp, gops_ok O ok den z add opp ->
  forall eqb, (forall a b, ok a -> ok b -> (eqb a b = true <-> den a = den b)) ->
  forall (as_bigint : S -> list Z) tbl make_heap nl mixed, (length tbl <= 29)%nat -> (1 <= nl)%nat -> make_heap_ok make_heap ->
  forall random_element sha512_rng, (forall i, ok (random_element i)) -> (forall i, sok as_bigint nl (sha512_rng i)) ->
  forall es ef en cmp, (ef <= 30)%nat ->
  print_performance_csv O eqb as_bigint tbl make_heap nl mixed random_element sha512_rng es ef en cmp =
    Ok (map (fun k => mkLine (es + k) (if (es + k <=? en)%nat then 3 else 2) false false) (seq 0 (ef + 1 - es))).
Proof. exact (fun T G S O ok den z add opp => csv_ok O ok den z add opp). Qed.
Print Assumptions C68_csv.

(** The calls in main, for the groups of bn128 and scalars in any prime field of
    the library. *)
Theorem C68_bn128 : forall K (F : Fops K), field_ok F -> forall b ec_add ec_dbl, oadd F (o1 F) (o1 F) <> o0 F ->
  sw_disc F (o0 F) b <> o0 F -> ecdouble_ok F b ec_dbl -> ecadd_ok F b ec_add ->
  forall P (OK : fp_ok P) tbl make_heap mixed random_element sha512_rng, (length tbl <= 29)%nat -> make_heap_ok make_heap ->
  (forall i, jac_ok F b (random_element i)) ->
  print_performance_csv (bn_gops F ec_add ec_dbl) (bn_eqb F) (fscalar P) tbl make_heap (fp_n P) mixed random_element sha512_rng 2 20 14 true =
    Ok (map (fun k => mkLine (2 + k) (if (2 + k <=? 14)%nat then 3 else 2) false false) (seq 0 19)).
Proof. exact (fun K F FK => bn128_csv_ok F FK). Qed.
Print Assumptions C68_bn128.

(** The integers as the group, and the message when operator== is broken. *)
Example C68_example :
  csv_row zgops Z.eqb (fun s : list Z => s) [11; 24; 60; 127]%Z (@rev _) 1 false (fun i => Z.of_nat i) (fun i => [i + 1]%Z) 1 true 0 1 =
    Ok (mkLine 1 3 false false) /\
  csv_row zgops (fun _ _ => false) (fun s : list Z => s) [11; 24; 60; 127]%Z (@rev _) 1 false (fun i => Z.of_nat i) (fun i => [i + 1]%Z) 0 true 0 1 =
    Ok (mkLine 1 2 true false).
Proof. exact csv_example. Qed.
