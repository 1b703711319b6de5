(** Property theorems about the operation counters of PROFILE_OP_COUNTS: C62
    to C65.

    [after c a s m q i] is [c] with [a] additions, [s] subtractions, [m]
    multiplications, [q] squarings and [i] inversions more.  [counts_once]
    says that each of the ten operations of a class returns its value and adds
    one to its own counter and nothing to the four others. *)
From Coq Require Import ZArith Znumtheory List Bool.
From Verif Require Import Result Limbs GroupOps WnafModel MultiexpExtra FieldOps AlgorithmsModel BinaryModel ExtModel CurveModel CurveSpec CurveGroup CurveProofs ExtInst ExtExtra CurveExtra Bn128Model
  ProfilingModel ProfilingProofs OpcountModel OpcountProofs.
Import ListNotations.
Open Scope Z_scope.

(** * C62: fields *)
(** Prime fields, except with USE_ASM and three limbs.  The negative adjustment
    of squared() is made up by the multiplication it calls. *)
Theorem C62_prime : forall T (add sub mul : T -> T -> T) (neg inv : T -> T) asm n, asm = false \/ n <> 3 ->
  counts_once add sub mul (fun x => mul x x) inv (fp_class add sub mul neg inv asm n) /\
  (forall x c, c_neg (fp_class add sub mul neg inv asm n) x c = (neg x, after c 0 1 0 0 0)).
Proof.
  exact (fun T add sub mul neg inv asm n H =>
    conj (fp_counts_once add sub mul neg inv asm n H) (fp_negate_count add sub mul neg inv asm n)).
Qed.
Print Assumptions C62_prime.
Example C62_prime_nonvacuous :
  c_squared (fp_class Z.add Z.sub Z.mul Z.opp Z.opp true 4) 5 (mkCounts 7 7 7 7 7) = (25, mkCounts 7 7 7 8 7).
Proof. reflexivity. Qed.

(** With USE_ASM and three limbs (the edwards fields) every squaring takes one off
    mul_cnt, and the repository's own test of the counters would see 2
    multiplications instead of 5. *)
Theorem C62_asm_three_limbs_refuted : forall T (add sub mul : T -> T -> T) (neg inv : T -> T),
  (forall x c, c_squared (fp_class add sub mul neg inv true 3) x c = (mul x x, after c 0 0 (-1) 1 0)) /\
  (forall one x y x2, snd (op_profiling_test (fp_class add sub mul neg inv true 3) one x y x2 counts0) = mkCounts 4 3 2 3 2).
Proof.
  exact (fun T add sub mul neg inv =>
    conj (fp_squared_asm3 add sub mul neg inv) (op_profiling_asm3 add sub mul neg inv)).
Qed.
Print Assumptions C62_asm_three_limbs_refuted.
Example C62_asm_three_limbs_refuted_nonvacuous :
  c_squared (fp_class Z.add Z.sub Z.mul Z.opp Z.opp true 3) 5 (mkCounts 7 7 7 7 7) = (25, mkCounts 7 7 6 8 7).
Proof. reflexivity. Qed.

(** Binary fields: the corrections at the head of every inverse() are exactly the
    multiplications and squarings of the chain that follows. *)
Theorem C62_binary : forall T (add mul : T -> T -> T) (zero : T) g,
  counts_once add add mul (fun x => mul x x) (inv_chain g mul zero) (gf_class_ops add mul zero g).
Proof. exact (fun T add mul zero => gf_counts_once add mul zero). Qed.
Print Assumptions C62_binary.
Example C62_binary_nonvacuous :
  snd (c_inverse (gf_class_ops Z.add Z.mul 0 G192) 1 (mkCounts 0 0 3 4 5)) = mkCounts 0 0 3 4 6.
Proof. reflexivity. Qed.

(** Extension fields count each operation once in their own counters. *)
Theorem C62_extension : forall T (add sub mul : T -> T -> T) (neg sqr inv : T -> T),
  counts_once add sub mul sqr inv (ext_class add sub mul neg sqr inv).
Proof. exact (fun T add sub mul neg sqr inv => ext_counts_once add sub mul neg sqr inv). Qed.
Print Assumptions C62_extension.
Example C62_extension_nonvacuous :
  snd (c_muleq (ext_class Z.add Z.sub Z.mul Z.opp Z.opp Z.opp) 2 3 counts0) = mkCounts 0 0 1 0 0.
Proof. reflexivity. Qed.

(** Unary minus of binary and extension fields is not counted; in a prime field it
    counts as a subtraction (C62_prime). *)
Theorem C62_negation :
  (forall T (add mul : T -> T -> T) zero g x c, c_neg (gf_class_ops add mul zero g) x c = (x, c)) /\
  (forall T (add sub mul : T -> T -> T) neg sqr inv x c, c_neg (ext_class add sub mul neg sqr inv) x c = (neg x, c)).
Proof. exact (conj (@gf_negate_count) (@ext_negate_count)). Qed.
Print Assumptions C62_negation.
Example C62_negation_nonvacuous :
  c_neg (ext_class Z.add Z.sub Z.mul Z.opp Z.opp Z.opp) 2 counts0 = (-2, counts0).
Proof. reflexivity. Qed.

(** The operations of Fp2 return the values of the field model and cost these
    numbers of base field operations; squared() costs as much as a
    multiplication. *)
Theorem C62_fp2_base : forall T (F : Fops T) inv (O : opclass T) nr,
  counts_once (oadd F) (osub F) (omul F) (osqr F) inv O ->
  (forall x c, c_neg O x c = (oopp F x, after c 0 1 0 0 0)) ->
  (forall x y c, fp2_plus O x y c = (quad_add F x y, after c 2 0 0 0 0)) /\
  (forall x y c, fp2_minus O x y c = (quad_sub F x y, after c 0 2 0 0 0)) /\
  (forall x c, fp2_negate O x c = (quad_opp F x, after c 0 2 0 0 0)) /\
  (forall s x c, fp2_scale O s x c = (quad_scale (omul F) s x, after c 0 0 2 0 0)) /\
  (forall x y c, fp2_times O nr x y c = (quad_mul F (omul F nr) x y, after c 3 2 4 0 0)) /\
  (forall x c, fp2_squared_karatsuba O nr x c = (quad_sqr_karatsuba F (omul F nr) x, after c 2 2 1 3 0)) /\
  (forall x c, fp2_squared O nr x c = (quad_sqr_complex F (omul F nr) x, after c 3 2 4 0 0)) /\
  (forall x c, (forall t, t <> o0 F -> oinv F t = Ok (inv t)) ->
     osub F (osqr F (fst x)) (omul F nr (osqr F (snd x))) <> o0 F ->
     Ok (fst (fp2_inverse O nr x c)) = quad_inv F (omul F nr) x /\ snd (fp2_inverse O nr x c) = after c 0 2 3 2 1).
Proof.
  exact (fun T F inv O nr H HN =>
    conj (fp2_plus_at F inv O H) (conj (fp2_minus_at F inv O H) (conj (fp2_negate_at F inv O H HN)
    (conj (fp2_scale_at F inv O H) (conj (fp2_times_at F inv O nr H) (conj (fp2_karatsuba_at F inv O nr H)
    (conj (fp2_squared_at F inv O nr H) (fp2_inverse_at F inv O nr H HN)))))))).
Qed.
Print Assumptions C62_fp2_base.
Example C62_fp2_base_nonvacuous :
  fp2_times (fp_class Z.add Z.sub Z.mul Z.opp Z.opp false 4) (-1) (1, 2) (3, 4) counts0 = ((-5, 10), mkCounts 3 2 4 0 0).
Proof. reflexivity. Qed.

(** The program of test_op_profiling (tests/test_all_fields.cpp) sees the numbers
    it expects in every class that counts once. *)
Theorem C62_profiling_test : forall T (add sub mul : T -> T -> T) (sqr inv : T -> T) (O : opclass T),
  counts_once add sub mul sqr inv O ->
  forall one x y x2, snd (op_profiling_test O one x y x2 counts0) = mkCounts 4 3 5 3 2.
Proof. exact (fun T add sub mul sqr inv O => op_profiling_exact add sub mul sqr inv O). Qed.
Print Assumptions C62_profiling_test.
Example C62_profiling_test_nonvacuous :
  op_profiling_test (gf_class_ops Z.add Z.mul 0 G64) 1 2 3 1 counts0 = (16, mkCounts 4 3 5 3 2).
Proof. reflexivity. Qed.

(** * C63: groups *)
(** alt_bn128 and bn128, operator+ and mixed_add: nothing for a neutral operand,
    one doubling for equal points, one addition for different points. *)
Theorem C63_jacobian : forall K (F : Fops K), field_ok F -> forall p q g,
  counted_addition (jac_den F p = Inf) (jac_den F q = Inf) (jac_den F p = jac_den F q) g (jac_add_count F true p q g) /\
  (jac_is_special F q = true ->
   counted_addition (jac_den F p = Inf) (jac_den F q = Inf) (jac_den F p = jac_den F q) g (jac_mixed_count F p q g)).
Proof. exact (fun K F FK p q g => conj (jac_add_counted F FK p q g) (jac_mixed_counted F FK p q g)). Qed.
Print Assumptions C63_jacobian.
Example C63_jacobian_nonvacuous :
  jac_add_count F13 true jp jq (mkGcounts 4 6) = mkGcounts 5 6 /\ jac_add_count F13 true jq jq (mkGcounts 4 6) = mkGcounts 4 7.
Proof. vm_compute. split; reflexivity. Qed.

Theorem C63_bn128 : forall K (F : Fops K), field_ok F -> forall p q g,
  counted_addition (jac_den F p = Inf) (jac_den F q = Inf) (jac_den F p = jac_den F q) g (bn_add_count F p q g) /\
  (bn_is_special F q = true ->
   counted_addition (jac_den F p = Inf) (jac_den F q = Inf) (jac_den F p = jac_den F q) g (bn_mixed_count F p q g)).
Proof. exact (fun K F FK p q g => conj (bn_add_counted F FK p q g) (bn_mixed_counted F FK p q g)). Qed.
Print Assumptions C63_bn128.
Example C63_bn128_nonvacuous :
  bn_add_count F13 jp jq (mkGcounts 4 6) = mkGcounts 5 6 /\ bn_add_count F13 jq jq (mkGcounts 4 6) = mkGcounts 4 7.
Proof. vm_compute. split; reflexivity. Qed.

(** bls12_381: operator+ counts doublings but no addition. *)
Theorem C63_bls12_381_refuted : forall K (F : Fops K), field_ok F -> forall p q g,
  (jac_den F p <> Inf -> jac_den F q <> Inf -> jac_den F p <> jac_den F q ->
   jac_add_count F false p q g = g /\
   ~ counted_addition (jac_den F p = Inf) (jac_den F q = Inf) (jac_den F p = jac_den F q) g (jac_add_count F false p q g)) /\
  (jac_den F p <> Inf -> jac_den F p = jac_den F q ->
   jac_add_count F false p q g = mkGcounts (gadd_cnt g) (gdbl_cnt g + 1)).
Proof.
  exact (fun K F FK p q g =>
    conj (fun NP NQ N => conj (jac_add_uncounted F FK p q g N) (jac_add_wrong F FK p q g NP NQ N))
         (jac_add_equal F FK false p q g)).
Qed.
Print Assumptions C63_bls12_381_refuted.
Example C63_bls12_381_refuted_nonvacuous :
  field_ok F13 /\ jac_den F13 jp <> Inf /\ jac_den F13 jq <> Inf /\ jac_den F13 jp <> jac_den F13 jq.
Proof. exact (conj F13_field toy_jac). Qed.

(** mnt4 and mnt6: the member function add() counts as it should. *)
Theorem C63_mnt_member : forall K (F : Fops K), field_ok F -> forall a b p q g, prj_ok F a b p -> prj_ok F a b q ->
  counted_addition (prj_den F p = Inf) (prj_den F q = Inf) (prj_den F p = prj_den F q) g (prj_add_member_count F p q g).
Proof. exact (fun K F FK a b p q g => prj_member_counted F FK a b p q g). Qed.
Print Assumptions C63_mnt_member.
Example C63_mnt_member_nonvacuous :
  prj_add_member_count F13 pp pq (mkGcounts 4 6) = mkGcounts 5 6 /\ prj_add_member_count F13 pq pq (mkGcounts 4 6) = mkGcounts 4 7.
Proof. vm_compute. split; reflexivity. Qed.

(** mnt4 and mnt6: operator+ never counts. *)
Theorem C63_mnt_refuted : forall K (F : Fops K) (p q : pt K) g, prj_den F p <> Inf -> prj_den F q <> Inf ->
  prj_add_count p q g = g /\
  ~ counted_addition (prj_den F p = Inf) (prj_den F q = Inf) (prj_den F p = prj_den F q) g (prj_add_count p q g).
Proof. exact (fun K F p q g NP NQ => conj eq_refl (prj_add_wrong F p q g NP NQ)). Qed.
Print Assumptions C63_mnt_refuted.
Example C63_mnt_refuted_nonvacuous : prj_den F13 pp <> Inf /\ prj_den F13 pq <> Inf.
Proof. exact (conj (proj1 toy_prj) (proj1 (proj2 toy_prj))). Qed.

(** mnt4 and mnt6: mixed_add counts an addition for neutral operands, and an
    addition and a doubling for equal points. *)
Theorem C63_mnt_mixed_refuted : forall K (F : Fops K), field_ok F -> forall a b p q g,
  prj_ok F a b p -> prj_ok F a b q -> prj_is_special F q = true ->
  (prj_den F p = Inf \/ prj_den F q = Inf -> prj_mixed_count F p q g = mkGcounts (gadd_cnt g + 1) (gdbl_cnt g)) /\
  (prj_den F p <> Inf -> prj_den F q <> Inf -> prj_den F p = prj_den F q ->
     prj_mixed_count F p q g = mkGcounts (gadd_cnt g + 1) (gdbl_cnt g + 1)) /\
  (prj_den F p <> Inf -> prj_den F q <> Inf -> prj_den F p <> prj_den F q ->
     prj_mixed_count F p q g = mkGcounts (gadd_cnt g + 1) (gdbl_cnt g)) /\
  (prj_den F p = Inf \/ prj_den F q = Inf \/ prj_den F p = prj_den F q ->
   ~ counted_addition (prj_den F p = Inf) (prj_den F q = Inf) (prj_den F p = prj_den F q) g (prj_mixed_count F p q g)).
Proof.
  exact (fun K F FK a b p q g OP OQ SP =>
    let M := prj_mixed_count_at F FK a b p q g OP OQ SP in
    conj (proj1 M) (conj (proj1 (proj2 M)) (conj (proj2 (proj2 M)) (prj_mixed_wrong F FK a b p q g OP OQ SP)))).
Qed.
Print Assumptions C63_mnt_mixed_refuted.
Example C63_mnt_mixed_refuted_nonvacuous :
  prj_mixed_count F13 pp (prj_zero F13) (mkGcounts 4 6) = mkGcounts 5 6.
Proof. vm_compute. reflexivity. Qed.

(** edwards: operator+ counts one addition (also for equal points) unless an
    operand is neutral. *)
Theorem C63_edwards : forall K (F : Fops K), field_ok F -> forall a d p q g, edw_ok F a d p -> edw_ok F a d q ->
  counted_addition (edw_den F p = te_zero F) (edw_den F q = te_zero F) False g (edw_add_count F p q g).
Proof. exact (fun K F FK a d p q g => edw_add_counted F FK a d p q g). Qed.
Print Assumptions C63_edwards.
Example C63_edwards_nonvacuous :
  edw_add_count F13 ep eq13 (mkGcounts 4 6) = mkGcounts 5 6 /\ edw_add_count F13 ep (edw_zero F13) (mkGcounts 4 6) = mkGcounts 4 6.
Proof. vm_compute. split; reflexivity. Qed.

(** edwards: mixed_add counts neutral operands. *)
Theorem C63_edwards_mixed_refuted : forall K (F : Fops K) p q g, edw_den F p = te_zero F \/ edw_den F q = te_zero F ->
  ~ counted_addition (edw_den F p = te_zero F) (edw_den F q = te_zero F) False g (edw_mixed_count p q g).
Proof. exact (fun K F p q g => edw_mixed_wrong F p q g). Qed.
Print Assumptions C63_edwards_mixed_refuted.
Example C63_edwards_mixed_refuted_nonvacuous : te_z (edw_den F13 (edw_zero F13)) = te_z (te_zero F13).
Proof. vm_compute. reflexivity. Qed.

(** * C64: profiling blocks *)
(** For well nested calls without a block inside one of its own name, the
    accumulated count of every name grows by the operations done inside its
    blocks ([total]; the readings in the forest are those of the counter). *)
Theorem C64_counts : forall C T f s, inhibit_counters C = false -> inhibit_info C = false -> 0 <= T < 2 ^ 63 ->
  within T f -> no_self_nesting f -> (forall n, Z.abs (cumulative_op_counts s n) + blocks f * T < 2 ^ 63) ->
  exists s', op_run C (op_history f) s = Ok s' /\
    forall n, cumulative_op_counts s' n = cumulative_op_counts s n + total n f.
Proof. exact op_blocks_exact. Qed.
Print Assumptions C64_counts.
Example C64_counts_nonvacuous :
  within 103 three_ops /\ no_self_nesting three_ops /\ total [102] three_ops = 3.
Proof. cbn. repeat split; reflexivity || discriminate. Qed.

Theorem C64_inhibited : forall C h s, inhibit_counters C = true -> op_run C h s = Ok s.
Proof. exact op_blocks_inhibited. Qed.
Print Assumptions C64_inhibited.
Example C64_inhibited_nonvacuous : op_run {| inhibit_info := false; inhibit_counters := true; multicore := false |}
  (op_history three_ops) opprof0 = Ok opprof0.
Proof. reflexivity. Qed.

(** With inhibit_profiling_info the counter at entry is not stored: every block is
    measured from the value last stored for its name ([ends]), so a block of three
    operations entered at 100 adds 103. *)
Theorem C64_quiet : forall C, inhibit_counters C = false -> inhibit_info C = true -> forall f s s',
  op_run C (op_history f) s = Ok s' -> op_counts s' = op_counts s /\
  forall n, cumulative_op_counts s' n = cumulative_op_counts s n + ends n (op_counts s n) f.
Proof. exact op_blocks_info. Qed.
Print Assumptions C64_quiet.
Example C64_quiet_nonvacuous : ends [102] 0 three_ops = 103.
Proof. reflexivity. Qed.
Theorem C64_quiet_refuted : exists f s', within 103 f /\ no_self_nesting f /\
  op_run cfg_quiet (op_history f) opprof0 = Ok s' /\ exists n, cumulative_op_counts s' n <> total n f.
Proof. exact op_blocks_info_wrong. Qed.
Print Assumptions C64_quiet_refuted.

(** A block inside one of its own name. *)
Theorem C64_recursive_refuted : exists f s', within 30 f /\
  op_run cfg0 (op_history f) opprof0 = Ok s' /\ exists n, cumulative_op_counts s' n <> total n f.
Proof. exact op_blocks_recursive_wrong. Qed.
Print Assumptions C64_recursive_refuted.

(** * C65: scalar multiplication *)
(** scalar_mul of a point of prime order r by a scalar 0 < k < r makes log2 k counted
    doublings, and [d] times one less than the number of ones of k counted
    additions, where [d] is what operator+ counts for different points. *)
Theorem C65_scalar_mul : forall T G (O : gops T) ok (dn : T -> G) z add opp cnt d r k base g,
  gops_ok O ok dn z add opp ->
  (forall a b g, ok a -> ok b -> (dn a = z -> cnt a b g = g) /\
    (dn a <> z -> dn b <> z -> dn a <> dn b -> cnt a b g = mkGcounts (gadd_cnt g + d) (gdbl_cnt g))) ->
  limbs k -> ok base -> prime r -> gmul z add opp r (dn base) = z -> dn base <> z -> 0 < val k < r ->
  scalar_mul_count O cnt base k g = (scalar_mul O base k,
    mkGcounts (gadd_cnt g + d * (ones (64 * length k) (val k) - 1)) (gdbl_cnt g + Z.log2 (val k))).
Proof. exact (fun T G O ok dn z add opp cnt d r k base g => scalar_mul_counts_order O ok dn z add opp cnt d r k base g). Qed.
Print Assumptions C65_scalar_mul.
Example C65_scalar_mul_nonvacuous :
  scalar_mul_count zgops (fun a b g => if a =? 0 then g else tick_add g) 1 [13] (mkGcounts 4 6) = (13, mkGcounts 6 9) /\
  ones 64 13 = 3 /\ Z.log2 13 = 3.
Proof. vm_compute. repeat split; reflexivity. Qed.

(** alt_bn128. *)
Theorem C65_jacobian : forall K (F : Fops K) (FK : field_ok F) b, oadd F (o1 F) (o1 F) <> o0 F ->
  sw_disc F (o0 F) b <> o0 F -> forall r k base g, limbs k -> jac_ok F b base -> prime r ->
  gmul (sp_zero F (o0 F) b) (sp_add F (o0 F) b) (sp_opp F (o0 F) b) r (jac_dent F b base) = sp_zero F (o0 F) b ->
  jac_den F base <> Inf -> 0 < val k < r ->
  scalar_mul_count (jac_gops F) (jac_add_count F true) base k g = (scalar_mul (jac_gops F) base k,
    mkGcounts (gadd_cnt g + (ones (64 * length k) (val k) - 1)) (gdbl_cnt g + Z.log2 (val k))).
Proof. exact (fun K F FK b H2 HD r k base g => jac_scalar_mul_counts F FK b H2 HD r k base g true). Qed.
Print Assumptions C65_jacobian.
Example C65_jacobian_nonvacuous : (* (0, 1) has order 3 on y^2 = x^3 + 1 over F_13 *)
  snd (scalar_mul_count (jac_gops F13) (jac_add_count F13 true) jp [2] (mkGcounts 4 6)) = mkGcounts 4 7 /\
  apt_z (jac_den F13 (scalar_mul (jac_gops F13) jp [3])) = None.
Proof. vm_compute. split; reflexivity. Qed.

(** bls12_381 counts the doublings only, whatever the scalar. *)
Theorem C65_bls12_381_refuted : forall K (F : Fops K) (FK : field_ok F) b, oadd F (o1 F) (o1 F) <> o0 F ->
  sw_disc F (o0 F) b <> o0 F -> forall r k base g, limbs k -> jac_ok F b base -> prime r ->
  gmul (sp_zero F (o0 F) b) (sp_add F (o0 F) b) (sp_opp F (o0 F) b) r (jac_dent F b base) = sp_zero F (o0 F) b ->
  jac_den F base <> Inf -> 0 < val k < r ->
  scalar_mul_count (jac_gops F) (jac_add_count F false) base k g = (scalar_mul (jac_gops F) base k,
    mkGcounts (gadd_cnt g + 0) (gdbl_cnt g + Z.log2 (val k))).
Proof. exact (fun K F FK b H2 HD r k base g => jac_scalar_mul_counts F FK b H2 HD r k base g false). Qed.
Print Assumptions C65_bls12_381_refuted.

Theorem C65_bn128 : forall K (F : Fops K) (FK : field_ok F) b, oadd F (o1 F) (o1 F) <> o0 F ->
  sw_disc F (o0 F) b <> o0 F -> forall ec_add ec_dbl,
  (forall p, jac_ok F b p -> jac_den F (ec_dbl p) = sw_add F (o0 F) (jac_den F p) (jac_den F p)) ->
  (forall p q, jac_ok F b p -> jac_ok F b q -> jac_den F p <> Inf -> jac_den F q <> Inf ->
     jac_den F p <> jac_den F q -> jac_den F (ec_add p q) = sw_add F (o0 F) (jac_den F p) (jac_den F q)) ->
  forall r k base g, limbs k -> jac_ok F b base -> prime r ->
  gmul (sp_zero F (o0 F) b) (sp_add F (o0 F) b) (sp_opp F (o0 F) b) r (jac_dent F b base) = sp_zero F (o0 F) b ->
  jac_den F base <> Inf -> 0 < val k < r ->
  scalar_mul_count (bn_gops F ec_add ec_dbl) (bn_add_count F) base k g = (scalar_mul (bn_gops F ec_add ec_dbl) base k,
    mkGcounts (gadd_cnt g + (ones (64 * length k) (val k) - 1)) (gdbl_cnt g + Z.log2 (val k))).
Proof. exact (fun K F FK b H2 HD ea ed DB AD r k base g => bn_scalar_mul_counts F FK b H2 HD ea ed DB AD r k base g). Qed.
Print Assumptions C65_bn128.

(** mnt4 and mnt6 count the doublings only as well. *)
Theorem C65_mnt_refuted : forall K (F : Fops K) (FK : field_ok F) a b mul_a, (forall x, mul_a x = omul F a x) ->
  oadd F (o1 F) (o1 F) <> o0 F -> sw_disc F a b <> o0 F -> forall r k base g, limbs k -> prj_ok F a b base -> prime r ->
  gmul (sp_zero F a b) (sp_add F a b) (sp_opp F a b) r (prj_dent F a b base) = sp_zero F a b ->
  prj_den F base <> Inf -> 0 < val k < r ->
  scalar_mul_count (prj_gops F mul_a) prj_add_count base k g = (scalar_mul (prj_gops F mul_a) base k,
    mkGcounts (gadd_cnt g) (gdbl_cnt g + Z.log2 (val k))).
Proof. exact (fun K F FK a b mul_a MA H2 HD r k base g => prj_scalar_mul_counts F FK a b mul_a MA H2 HD r k base g). Qed.
Print Assumptions C65_mnt_refuted.

(** edwards, in any group of points on which the formulas are right (C36). *)
Theorem C65_edwards : forall K G (F : Fops K) (FK : field_ok F) a d O ok (dn : pt K -> G) z add opp r k base g,
  gops_ok O ok dn z add opp -> (forall p, ok p -> edw_ok F a d p) ->
  (forall p, ok p -> dn p = z <-> edw_den F p = te_zero F) ->
  limbs k -> ok base -> prime r -> gmul z add opp r (dn base) = z -> edw_den F base <> te_zero F -> 0 < val k < r ->
  scalar_mul_count O (edw_add_count F) base k g = (scalar_mul O base k,
    mkGcounts (gadd_cnt g + (ones (64 * length k) (val k) - 1)) (gdbl_cnt g + Z.log2 (val k))).
Proof. exact (fun K G F FK a d O ok dn z add opp r k base g => edw_scalar_mul_counts F FK a d O ok dn z add opp r k base g). Qed.
Print Assumptions C65_edwards.
