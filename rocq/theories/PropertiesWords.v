(** Property theorems about word vectors, sizes, coset shifts and random points:
    C56, C57 and C58.

    [wd_to] and [wd_from] are [to_words] and [from_words] of a field class;
    [all2], [all3] say that all coordinates have a property. *)
From Coq Require Import ZArith Znumtheory List Bool.
From Verif Require Import Result Limbs BigintModel BigintProofs FpModel FpSpec FpField FpIoProofs FpInst Examples Algebra FieldOps AlgorithmsModel AlgorithmsField GroupOps MultiexpExtra
  ParamsModel ParamsProofs ParamsAll ExtModel CurveSpec CurveModel MillerSpec Hom TowerModel TowerSpec TowerShipped GenProofs PairingModel PairingShipped ExtInst
  EdwSpec EdwShipped EdwGen MntShipped MntGen CurveEdwards WordsModel WordsProofs WordsShipped WordsMnt
  Bn128Model Bn128Shipped.
Import ListNotations.
Open Scope Z_scope.

(** ** C56: words of extension-field elements *)
Theorem C56_round_trip P mont : fp_ok P -> fp_num_bits P = bit_length (val (fp_modulus P)) -> nth (fp_n P - 1) (fp_modulus P) 0 <> 0 ->
  words_ok (fp2_words P mont) (2 * fp_n P) (all2 (canon P)) (all2 (has_limbs P)) /\
  words_ok (fp3_words P mont) (3 * fp_n P) (all3 (canon P)) (all3 (has_limbs P)) /\
  words_ok (fp4_words P mont) (2 * (2 * fp_n P)) (all2 (all2 (canon P))) (all2 (all2 (has_limbs P))) /\
  words_ok (fp6_2over3_words P mont) (2 * (3 * fp_n P)) (all2 (all3 (canon P))) (all2 (all3 (has_limbs P))) /\
  words_ok (fp6_3over2_words P mont) (3 * (2 * fp_n P)) (all3 (all2 (canon P))) (all3 (all2 (has_limbs P))) /\
  words_ok (fp12_words P mont) (2 * (3 * (2 * fp_n P))) (all2 (all3 (all2 (canon P)))) (all2 (all3 (all2 (has_limbs P)))).
Proof. intros OK NB T. exact (ext_words_ok P OK NB T mont). Qed.
Print Assumptions C56_round_trip.

(** The Boolean, for any words: [chunk n i ws] is the i-th block of n words.
    [words_flag V n d good sh]: [from_words] returns, and its Boolean is true
    exactly if all d blocks are [good]; [fp_good P true] says that the value
    of the block, cut to num_bits bits, is below the modulus. *)
Theorem C56_flags P mont : fp_ok P -> fp_num_bits P = bit_length (val (fp_modulus P)) -> nth (fp_n P - 1) (fp_modulus P) 0 <> 0 ->
  let n := fp_n P in let good := fp_good P mont in
  words_flag (fp2_words P mont) n 2 good (all2 (has_limbs P)) /\
  words_flag (fp3_words P mont) n 3 good (all3 (has_limbs P)) /\
  words_flag (fp4_words P mont) n 4 good (all2 (all2 (has_limbs P))) /\
  words_flag (fp6_2over3_words P mont) n 6 good (all2 (all3 (has_limbs P))) /\
  words_flag (fp6_3over2_words P mont) n 6 good (all3 (all2 (has_limbs P))) /\
  words_flag (fp12_words P mont) n 12 good (all2 (all3 (all2 (has_limbs P)))).
Proof. intros OK NB T. exact (ext_words_flags P OK NB T mont). Qed.
Print Assumptions C56_flags.
(** The values under MONTGOMERY_OUTPUT; a rejected c0 leaves c1 unassigned. *)
Theorem C56_flag P old w0 w1 : fp_ok P -> fp_num_bits P = bit_length (val (fp_modulus P)) -> nth (fp_n P - 1) (fp_modulus P) 0 <> 0 ->
  limbs w0 -> limbs w1 -> length w0 = fp_n P -> length w1 = fp_n P -> all2 (has_limbs P) old ->
  let m w := val w mod 2 ^ fp_num_bits P in
  exists c0 c1, val c0 = m w0 /\ val c1 = m w1 /\
  wd_from (fp2_words P true) old (w0 ++ w1) =
    Ok ((c0, if m w0 <? val (fp_modulus P) then c1 else snd old), (m w0 <? val (fp_modulus P)) && (m w1 <? val (fp_modulus P))).
Proof. intros OK NB T. exact (fp2_from_words_mont P OK NB T old w0 w1). Qed.
Print Assumptions C56_flag.

(** "Only the right-most ceil_size_in_bits() bits are used; other bits are 0":
    true of prime fields, false of Fp2. *)
Theorem C56_layout_prime P mont a w : fp_ok P -> fp_num_bits P = bit_length (val (fp_modulus P)) -> canon P a ->
  fp_to_words P mont a = Ok w -> val w < 2 ^ fp_ceil_size P.
Proof. exact (fp_words_low P mont a w). Qed.
Print Assumptions C56_layout_prime.
Theorem C56_layout_refuted : exists P x w, fp_ok P /\ fp_num_bits P = bit_length (val (fp_modulus P)) /\ all2 (canon P) x /\
  wd_to (fp2_words P true) x = Ok w /\ 2 ^ fp2_size (fp_ceil_size P) <= val w /\
  exists w' y, length w' = length w /\ val w' mod 2 ^ fp2_size (fp_ceil_size P) = val w mod 2 ^ fp2_size (fp_ceil_size P) /\
    wd_from (fp2_words P true) x w' = Ok (y, true) /\ y <> x.
Proof. exact fp2_layout_refuted. Qed.
Print Assumptions C56_layout_refuted.

Example C56_example : wd_to (fp3_words toy true) ([1], [2], [3]) = Ok [1; 2; 3] /\
  wd_from (fp3_words toy true) ([0], [0], [0]) [1; 2; 3] = Ok (([1], [2], [3]), true) /\
  wd_from (fp3_words toy true) ([0], [0], [0]) [1; 65537; 3] = Ok (([1], [65537], [0]), false).
Proof. vm_compute. auto. Qed.

(** ** C57: sizes, words and the coset shift *)
Theorem C57_sizes P k : fp_ok P -> fp_num_bits P = bit_length (val (fp_modulus P)) -> 0 <= k ->
  2 ^ (k * fp_floor_size P) <= val (fp_modulus P) ^ k <= 2 ^ (k * fp_ceil_size P).
Proof. intros OK NB. exact (sizes P OK NB k). Qed.
Print Assumptions C57_sizes.
Theorem C57_degrees b : fp2_size b = fp2_extension_degree * b /\ fp3_size b = fp3_extension_degree * b /\
  fp4_size b = fp4_extension_degree * b /\ fp6_2over3_size b = fp6_extension_degree * b /\
  fp6_3over2_size b = fp6_extension_degree * b /\ fp12_size b = fp12_extension_degree * b.
Proof. exact (degrees b). Qed.
Print Assumptions C57_degrees.
Theorem C57_log_of_field_size P : fp_ok P -> fp_num_bits P = bit_length (val (fp_modulus P)) ->
  2 ^ soundness_log_of_field_size P <= val (fp_modulus P) < 2 ^ log_of_field_size P /\
  log_of_field_size P = soundness_log_of_field_size P + 1.
Proof. exact (log_sizes P). Qed.
Print Assumptions C57_log_of_field_size.
Theorem C57_get_word P a word : fp_ok P -> canon P a ->
  get_word_of_field_elem P a word =
  if (word <? fp_n P)%nat then Ok ((den P a / 2 ^ (64 * Z.of_nat word)) mod 2 ^ 64) else UB.
Proof. intros OK. exact (get_word_spec P OK a word). Qed.
Print Assumptions C57_get_word.

(** The coset g^2 H of a subgroup H of order 2^k, k <= s, does not meet H. *)
Theorem C57_coset_shift C (CO : field_consts_ok C) k x : let F := fp_ops (fc_P C) (fco_ok C CO) (fco_inv C CO) in
  fc_t C <> 1 -> 0 <= k <= fc_s C -> fpow F x (Z.to_nat (2 ^ k)) = o1 F ->
  fpow F (omul F (coset_shift (osqr F) (fofZ (fc_P C) (fco_ok C CO) (fc_gen C))) x) (Z.to_nat (2 ^ k)) <> o1 F.
Proof. exact (coset_shift_outside C CO k x). Qed.
Print Assumptions C57_coset_shift.
Theorem C57_coset_shift_shipped C (CO : field_consts_ok C) k x : In C shipped_fields ->
  let F := fp_ops (fc_P C) (fco_ok C CO) (fco_inv C CO) in
  0 <= k <= fc_s C -> fpow F x (Z.to_nat (2 ^ k)) = o1 F ->
  fpow F (omul F (coset_shift (osqr F) (fofZ (fc_P C) (fco_ok C CO) (fc_gen C))) x) (Z.to_nat (2 ^ k)) <> o1 F.
Proof. intros H. exact (coset_shift_outside C CO k x (shipped_t C H)). Qed.
Print Assumptions C57_coset_shift_shipped.
(** The shift is the square of the generator. *)
Theorem C57_coset_shift_value C (CO : field_consts_ok C) g : let F := fp_ops (fc_P C) (fco_ok C CO) (fco_inv C CO) in
  toZ (fc_P C) (coset_shift (osqr F) g) = (toZ (fc_P C) g * toZ (fc_P C) g) mod fc_p C.
Proof. exact (coset_shift_value C CO g). Qed.
Print Assumptions C57_coset_shift_value.
(** The hypothesis on t is needed. *)
Theorem C57_coset_shift_tight : let F := fp_ops (fc_P toy_C) (fco_ok _ toy_C_ok) (fco_inv _ toy_C_ok) in
  fpow F (coset_shift (osqr F) (fofZ (fc_P toy_C) (fco_ok _ toy_C_ok) (fc_gen toy_C))) (Z.to_nat (2 ^ 16)) = o1 F.
Proof. exact coset_shift_toy. Qed.
Print Assumptions C57_coset_shift_tight.

Example C57_example : fp12_size (fp_ceil_size toy2) = 1212 /\ get_word_of_field_elem toy2 [5; 0] 2 = UB.
Proof. vm_compute. auto. Qed.

(** ** C58: random points.  [src] is the source of random words, [fuel] bounds
    the number of blocks of random words drawn. *)
Theorem C58_random_point {T G} (O : gops T) ok (dn : T -> G) z add opp Pr one fuel src p : gops_ok O ok dn z add opp ->
  fp_ok Pr -> fp_num_bits Pr = bit_length (val (fp_modulus Pr)) -> nth (fp_n Pr - 1) (fp_modulus Pr) 0 <> 0 -> ok one ->
  curve_random_element O Pr one fuel src = Ok p ->
  ok p /\ exists k, 0 <= k < val (fp_modulus Pr) /\ dn p = gmul z add opp k (dn one).
Proof. intros GO OK NB TOP Ho. exact (random_point O ok dn z add opp GO Pr OK NB TOP one Ho fuel src p). Qed.
Print Assumptions C58_random_point.
(** The scalar is the integer value of the random element of the scalar field. *)
Theorem C58_exact {T G} (O : gops T) ok (dn : T -> G) z add opp Pr one fuel src : gops_ok O ok dn z add opp ->
  fp_ok Pr -> fp_num_bits Pr = bit_length (val (fp_modulus Pr)) -> nth (fp_n Pr - 1) (fp_modulus Pr) 0 <> 0 -> ok one ->
  match fp_random_element Pr fuel src with
  | Ok a => exists p, curve_random_element O Pr one fuel src = Ok p /\ ok p /\ dn p = gmul z add opp (den Pr a) (dn one)
  | e => curve_random_element O Pr one fuel src = bind e (fun _ => OutOfFuel)
  end.
Proof. intros GO OK NB TOP Ho. exact (random_point_exact O ok dn z add opp GO Pr OK NB TOP one Ho fuel src). Qed.
Print Assumptions C58_exact.
Theorem C58_ends {T} (O : gops T) Pr one fuel src k : 
  fp_ok Pr -> fp_num_bits Pr = bit_length (val (fp_modulus Pr)) -> nth (fp_n Pr - 1) (fp_modulus Pr) 0 <> 0 ->
  (k < fuel)%nat -> attempt_val Pr src k < val (fp_modulus Pr) -> exists p, curve_random_element O Pr one fuel src = Ok p.
Proof. intros OK NB TOP. exact (random_point_ends O Pr OK NB TOP one fuel src k). Qed.
Print Assumptions C58_ends.
Theorem C58_onto {T G} (O : gops T) ok (dn : T -> G) z add opp Pr one k : gops_ok O ok dn z add opp ->
  fp_ok Pr -> fp_num_bits Pr = bit_length (val (fp_modulus Pr)) -> nth (fp_n Pr - 1) (fp_modulus Pr) 0 <> 0 -> ok one ->
  0 <= k < val (fp_modulus Pr) ->
  exists src p, curve_random_element O Pr one 1 src = Ok p /\ dn p = gmul z add opp k (dn one).
Proof. intros GO OK NB TOP Ho. exact (random_point_onto O ok dn z add opp GO Pr OK NB TOP one Ho k). Qed.
Print Assumptions C58_onto.
(** With a generator of prime order r the point has order r, or is the neutral
    element exactly when the scalar is 0. *)
Theorem C58_order {T G} (O : gops T) ok (dn : T -> G) z add opp Pr one p : gops_ok O ok dn z add opp ->
  fp_ok Pr -> fp_num_bits Pr = bit_length (val (fp_modulus Pr)) -> nth (fp_n Pr - 1) (fp_modulus Pr) 0 <> 0 -> ok one ->
  prime (val (fp_modulus Pr)) -> gmul z add opp (val (fp_modulus Pr)) (dn one) = z -> dn one <> z ->
  (exists fuel src, curve_random_element O Pr one fuel src = Ok p) ->
  gmul z add opp (val (fp_modulus Pr)) (dn p) = z /\
  exists k, 0 <= k < val (fp_modulus Pr) /\ dn p = gmul z add opp k (dn one) /\ (dn p = z <-> k = 0).
Proof. intros GO OK NB TOP Ho. exact (random_point_order O ok dn z add opp GO Pr OK NB TOP one Ho p). Qed.
Print Assumptions C58_order.
(** The shipped groups: the random points are exactly the multiples of the
    generator by 0, ..., r - 1.  [times F a k A] is A + ... + A in textbook affine
    addition, the point at infinity for k = 0. *)
Theorem C58_shipped D CO : In D shipped_twelve ->
  let F := cF (bt_Fq D) CO in let e := ce (bt_Fq D) CO in let F2 := twF2 F e D in
  random_multiples (jac_gops F) (bt_Fr D) (e (fst (bt_G1 D)), e (snd (bt_G1 D)), o1 F) (jac_den F) (times F (o0 F)) (gen1 e D) /\
  random_multiples (jac_gops F2) (bt_Fr D) (map2 e (fst (bt_G2 D)), map2 e (snd (bt_G2 D)), o1 F2) (jac_den F2) (times F2 (o0 F2)) (gen2 e D).
Proof. exact (twelve_random D CO). Qed.
Print Assumptions C58_shipped.
(** bn128, for every ECDouble and ECAdd of ate-pairing that meet the two
    requirements of C34_bn128. *)
Theorem C58_bn128 CO ea1 ed1 ea2 ed2 : let D := bn128_tower in let F := cF (bt_Fq D) CO in let e := ce (bt_Fq D) CO in let F2 := twF2 F e D in
  ecdouble_ok F (tw_b e D) ed1 -> ecadd_ok F (tw_b e D) ea1 -> ecdouble_ok F2 (tw_twist_b F e D) ed2 -> ecadd_ok F2 (tw_twist_b F e D) ea2 ->
  random_multiples (bn_gops F ea1 ed1) bn128_Fr_C (e (fst (bt_G1 D)), e (snd (bt_G1 D)), o1 F) (jac_den F) (times F (o0 F)) (gen1 e D) /\
  random_multiples (bn_gops F2 ea2 ed2) bn128_Fr_C (map2 e (fst (bt_G2 D)), map2 e (snd (bt_G2 D)), o1 F2) (jac_den F2) (times F2 (o0 F2)) (gen2 e D).
Proof. exact (bn128_random CO ea1 ed1 ea2 ed2). Qed.
Print Assumptions C58_bn128.
Example C58_bn128_hypotheses_met CO : let D := bn128_tower in let F := cF (bt_Fq D) CO in let e := ce (bt_Fq D) CO in let F2 := twF2 F e D in
  ecdouble_ok F (tw_b e D) (jac_dbl F) /\ ecadd_ok F (tw_b e D) (jac_add F) /\ ecdouble_ok F2 (tw_twist_b F e D) (jac_dbl F2) /\ ecadd_ok F2 (tw_twist_b F e D) (jac_add F2).
Proof. exact (bn128_hyps_met CO). Qed.
Theorem C58_mnt4 CO : let D := mnt4_tower in let F := cF (ft_Fq D) CO in let e := ce (ft_Fq D) CO in let F2 := foF2 F e D in
  random_multiples (prj_gops F (omul F (e (ft_a D)))) (ft_Fr D) (e (fst (ft_G1 D)), e (snd (ft_G1 D)), o1 F) (prj_den F) (times F (e (ft_a D))) (fo_gen1 e D) /\
  random_multiples (prj_gops F2 (mnt4_mul_by_a F (e (ft_a D)) (e (ft_nr2 D)))) (ft_Fr D) (map2 e (fst (ft_G2 D)), map2 e (snd (ft_G2 D)), o1 F2)
    (prj_den F2) (times F2 (fo_twist_a F e D)) (fo_gen2 e D).
Proof. exact (mnt4_random CO). Qed.
Print Assumptions C58_mnt4.
Theorem C58_mnt6 CO : let D := mnt6_tower in let F := cF (st_Fq D) CO in let e := ce (st_Fq D) CO in let F3 := siF3 F e D in
  let a := e (fst (st_ad D)) in
  random_multiples (prj_gops F (omul F a)) (st_Fr D) (e (fst (st_G1 D)), e (snd (st_G1 D)), o1 F) (prj_den F) (times F a) (si_gen1 e D) /\
  random_multiples (prj_gops F3 (mnt6_mul_by_a F a (e (st_nr3 D)))) (st_Fr D) (map3 e (fst (st_G2 D)), map3 e (snd (st_G2 D)), o1 F3)
    (prj_den F3) (times F3 (si_twist_a F e D)) (si_gen2 e D).
Proof. exact (mnt6_random CO). Qed.
Print Assumptions C58_mnt6.
(** [te_times] is the same with the Edwards addition law. *)
Theorem C58_edwards CO : let D := edwards_tower in let F := cF (st_Fq D) CO in let e := ce (st_Fq D) CO in let F3 := siF3 F e D in let d := e (snd (st_ad D)) in
  random_multiples (edw_g1_gops F (fun x => x) (omul F d)) (st_Fr D) (edw_inverted F (si_edw_gen1 e D)) (edw_den F) (te_times F (o1 F) d) (si_edw_gen1 e D) /\
  random_multiples (edw_gops F3 (edwards_mul_by_a F (o1 F) (e (st_nr3 D))) (edwards_mul_by_d F d (e (st_nr3 D)))) (st_Fr D)
    (edw_inverted F3 (si_edw_gen2 e D)) (edw_den F3) (te_times F3 (si_tw_a F e D) (si_tw_d F e D)) (si_edw_gen2 e D).
Proof. exact (edwards_random CO). Qed.
Print Assumptions C58_edwards.
Example C58_example : gops_ok zgops (fun _ => True) (fun x => x) 0 Z.add Z.opp /\
  exists p, curve_random_element zgops toy 1 3 (fun i => if (i <? 2)%nat then 2 ^ 32 - 1 else Z.of_nat i) = Ok p /\ 0 < p.
Proof. split; [exact zgops_ok|]. eexists. split; [vm_compute|]; reflexivity. Qed.
