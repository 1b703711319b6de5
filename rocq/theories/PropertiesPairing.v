(** Property theorems about the pairings.  F is any ring or field given by
    [Fops]; [lc] is the limbs of the loop count.  [consumes neg n r] says that r
    is the final state of a loop that read exactly n coefficients (or, for a
    negative loop count, that inverse() was called on zero).  Reading past the
    end of the coefficients would be UB in the model. *)
From Coq Require Import ZArith List Lia.
From Verif Require Import Result Limbs LimbsProofs Algebra NumTheory FieldOps ExtModel ExtSpec ExtProofs ExtInst ZmInst ExtExtra Hom
  ParamsModel ParamsProofs TowerModel TowerSpec TowerShipped TowerSqrt CurveModel FinalExpModel PairingModel PairingSpec PairingProofs PairingExtra
  PairingShipped NeutralShipped CurveSpec MillerSpec MillerShipped MntShipped MntGen EdwSpec EdwShipped EdwGen NeutralExact.
Import ListNotations.
Open Scope Z_scope.

(** ** C40: double_miller_loop and the use of the coefficients *)
Theorem C40_alt_bn128 {K} (F : Fops K) nr2 nr6 twist twist_b t2 qX qY lc neg : ring_ok F -> field_ok (fp12_ops F nr2 nr6 nr6) -> limbs lc ->
  let n := (dbl_count (val lc) + add_count (val lc) + 2)%nat in let mul_by := fp12_mul_by_024 (fp2_ops F nr2) nr6 in
  (forall Q cs, alt_precompute_G2 F nr2 twist twist_b lc neg t2 qX qY Q = Ok cs -> length cs = n) /\
  (forall P cs, length cs = n -> consumes neg n (alt_miller_loop_idx F nr2 nr6 nr6 lc neg mul_by P cs)) /\
  (forall P1 cs P2 ds, length cs = n -> length ds = n ->
     consumes neg n (alt_double_miller_loop_idx F nr2 nr6 nr6 lc neg mul_by P1 cs P2 ds) /\
     alt_double_miller_loop F nr2 nr6 nr6 lc neg P1 cs P2 ds =
     product (fp12_ops F nr2 nr6 nr6) (alt_miller_loop F nr2 nr6 nr6 lc neg P1 cs) (alt_miller_loop F nr2 nr6 nr6 lc neg P2 ds)).
Proof. exact (alt_c40 F nr2 nr6 twist twist_b t2 qX qY lc neg). Qed.
Print Assumptions C40_alt_bn128.

Theorem C40_bls12_381 {K} (F : Fops K) nr2 nr6 twist twist_b lc neg : ring_ok F -> field_ok (fp12_ops F nr2 nr6 nr6) -> limbs lc ->
  let n := (dbl_count (val lc) + add_count (val lc))%nat in let mul_by := fp12_mul_by_045 (fp2_ops F nr2) nr6 in
  (forall Q cs, bls_precompute_G2 F nr2 twist twist_b lc Q = Ok cs -> length cs = n) /\
  (forall P cs, length cs = n -> consumes neg n (bls_miller_loop_idx F nr2 nr6 nr6 lc neg mul_by P cs)) /\
  (forall P1 cs P2 ds, length cs = n -> length ds = n ->
     consumes neg n (bls_double_miller_loop_idx F nr2 nr6 nr6 lc neg mul_by P1 cs P2 ds) /\
     bls_double_miller_loop F nr2 nr6 nr6 lc neg P1 cs P2 ds =
     product (fp12_ops F nr2 nr6 nr6) (bls_miller_loop F nr2 nr6 nr6 lc neg P1 cs) (bls_miller_loop F nr2 nr6 nr6 lc neg P2 ds)).
Proof. exact (bls_c40 F nr2 nr6 twist twist_b lc neg). Qed.
Print Assumptions C40_bls12_381.

Theorem C40_mnt {K L} (F : Fops K) (FE : Fops L) (scale : K -> L -> L) (emb : K -> L) F2 twist twist_a lc (neg : bool) : field_ok F2 -> limbs lc ->
  let n := dbl_count (val lc) in let m := (add_count (val lc) + if neg then 1 else 0)%nat in
  let fits (q : @mnt_G2_precomp L) := length (dbl_coeffs q) = n /\ length (add_coeffs q) = m in
  (forall Q q, mnt_precompute_G2 F FE scale twist twist_a lc neg Q = Ok q -> fits q) /\
  (forall P q, fits q -> consumes2 neg n m (mnt_miller_loop_idx FE emb F2 lc neg P q)) /\
  (forall P1 q1 P2 q2, fits q1 -> fits q2 ->
     consumes2 neg n m (mnt_double_miller_loop_idx FE emb F2 lc neg P1 q1 P2 q2) /\
     mnt_double_miller_loop FE emb F2 lc neg P1 q1 P2 q2 =
     product F2 (mnt_miller_loop FE emb F2 lc neg P1 q1) (mnt_miller_loop FE emb F2 lc neg P2 q2)).
Proof. exact (mnt_c40 F FE scale emb F2 twist twist_a lc neg). Qed.
Print Assumptions C40_mnt.

Theorem C40_edwards {K L} (FE : Fops L) (scale : K -> L -> L) FK mul_a lc : ring_ok FK -> limbs lc ->
  let n := (dbl_count (val lc) + add_count (val lc))%nat in
  (forall Q cs, edw_precompute_G2 FE mul_a lc Q = Ok cs -> length cs = n) /\
  (forall P cs, length cs = n -> consumes false n (edw_miller_loop_idx FE scale FK lc P cs)) /\
  (forall P1 cs P2 ds, length cs = n -> length ds = n ->
     consumes false n (edw_double_miller_loop_idx FE scale FK lc P1 cs P2 ds) /\
     edw_double_miller_loop FE scale FK lc P1 cs P2 ds =
     product FK (edw_miller_loop FE scale FK lc P1 cs) (edw_miller_loop FE scale FK lc P2 ds)).
Proof. exact (edw_c40 FE scale FK mul_a lc). Qed.
Print Assumptions C40_edwards.

Theorem C40_edwards_tate {K L} (F : Fops K) (FE : Fops L) (scale : K -> L -> L) FK (emb : K -> L) r : ring_ok FK -> limbs r ->
  let n := (dbl_count (val r) + add_count (val r))%nat in
  (forall P cs, tate_precompute_G1 F r P = Ok cs -> length cs = n) /\
  (forall Q cs, length cs = n -> consumes false n (tate_miller_loop_idx FE scale FK r emb cs Q)).
Proof. exact (tate_c40 F FE scale FK emb r). Qed.
Print Assumptions C40_edwards_tate.

Theorem C40_mnt4_affine {K} (F : Fops K) (R : ring_ok F) nr2 nr4 twist_a lc P p Q q :
  let FE := fp2_ops F nr2 in let twist := (o0 F, o1 F) in
  affine_precompute_G1 F FE (quad_scale (omul F)) twist P = Ok p ->
  affine_precompute_G2 FE twist twist_a lc Q = Ok q ->
  consumes false (length (snd q)) (affine_miller_loop_idx F FE (quad_scale (omul F)) (fp4_ops F nr2 nr4) lc (fp4_mul_by_023 F nr2 nr4) p q).
Proof. exact (affine4_c40 F R nr2 nr4 twist_a lc P p Q q). Qed.
Print Assumptions C40_mnt4_affine.

Theorem C40_mnt6_affine {K} (F : Fops K) (R : ring_ok F) nr twist_a lc P p Q q :
  let FE := fp3_ops F nr in let twist := (o0 F, o1 F, o0 F) in
  affine_precompute_G1 F FE (cubic_scale (omul F)) twist P = Ok p ->
  affine_precompute_G2 FE twist twist_a lc Q = Ok q ->
  consumes false (length (snd q)) (affine_miller_loop_idx F FE (cubic_scale (omul F)) (fp6_2over3_ops F nr nr) lc (fp6_mul_by_2345 F nr nr) p q).
Proof. exact (affine6_c40 F R nr twist_a lc P p Q q). Qed.
Print Assumptions C40_mnt6_affine.

(** The shipped towers satisfy the hypotheses, and the shipped loop counts give
    these numbers of coefficients. *)
Example C40_shipped D CO : In D shipped_twelve -> let F := cF (bt_Fq D) CO in let e := ce (bt_Fq D) CO in
  field_ok (fp12_ops F (e (bt_nr2 D)) (map2 e (bt_nr6 D)) (map2 e (bt_nr12 D))).
Proof. intros H F e. exact (bf_field _ _ _ (proj2 (proj2 (shipped_twelve_fields D CO H)))). Qed.
Example C40_counts :
  (dbl_count (bt_loop alt_bn128_tower), add_count (bt_loop alt_bn128_tower)) = (64%nat, 36%nat) /\
  (dbl_count (bt_loop bls12_381_tower), add_count (bt_loop bls12_381_tower)) = (63%nat, 5%nat) /\
  (dbl_count (ft_loop mnt4_tower), add_count (ft_loop mnt4_tower)) = (148%nat, 70%nat).
Proof. vm_compute. split; [|split]; reflexivity. Qed.
(** Small instances of the precomputations. *)
Example C40_example :
  size (alt_precompute_G2 F13 (f13 2) xi xi [22] false t2_13 (o1 F169) (o1 F169) q2) = Some 8%nat /\
  size (bls_precompute_G2 F13 (f13 2) xi xi [22] q2) = Some 6%nat /\
  size2 (mnt_precompute_G2 F13 F169 (quad_scale (omul F13)) (f13 0, f13 1) (f13 0, f13 1) [22] true q2) = Some (4%nat, 3%nat) /\
  size (edw_precompute_G2 F3 (fun x => x) [22] q3) = Some 6%nat /\
  size (tate_precompute_G1 F13 [22] (f13 2, f13 3, f13 1)) = Some 6%nat.
Proof. exact (conj alt_size (conj bls_size (conj (mnt4_size true) (conj edw_size tate_size)))). Qed.

(** ** C42: neutral elements as inputs
    All for the shipped constants.  [one_or_fail F pairing reduced] says that the
    reduced pairing is one if the Miller value [pairing] is not zero, and that
    an assertion fails otherwise.  The Miller value is not zero for the points of
    G2. *)
Theorem C42_alt_bn128_left_partial CO P Q : let D := alt_bn128_tower in let F := cF (bt_Fq D) CO in let e := ce (bt_Fq D) CO in
  jac_is_zero F P = true ->
  one_or_fail (twF12 F e D) (tw_alt_pairing F e D P Q) (tw_alt_reduced_pairing F e D P Q).
Proof. exact (alt_shipped_left CO P Q). Qed.
Print Assumptions C42_alt_bn128_left_partial.

Theorem C42_alt_bn128_left CO P Q : let D := alt_bn128_tower in let F := cF (bt_Fq D) CO in let e := ce (bt_Fq D) CO in
  jac_is_zero F P = true -> tw_G2 F e D (jac_den (twF2 F e D) Q) -> tw_alt_reduced_pairing F e D P Q = Ok (o1 (twF12 F e D)).
Proof. exact (alt_bn128_left_one CO P Q). Qed.
Print Assumptions C42_alt_bn128_left.

(** With Q = O the assertion Q1.Z == one in precompute_G2 fails. *)
Theorem C42_alt_bn128_refuted CO : let D := alt_bn128_tower in let F := cF (bt_Fq D) CO in let e := ce (bt_Fq D) CO in
  exists Q, jac_is_zero (twF2 F e D) Q = true /\ forall P, tw_alt_reduced_pairing F e D P Q = AssertFail.
Proof. exact (alt_refuted CO). Qed.
Print Assumptions C42_alt_bn128_refuted.
Theorem C42_alt_bn128_right CO P Q : let D := alt_bn128_tower in let F := cF (bt_Fq D) CO in let e := ce (bt_Fq D) CO in
  jac_is_zero (twF2 F e D) Q = true -> tw_alt_reduced_pairing F e D P Q = AssertFail.
Proof. exact (alt_shipped_right CO P Q). Qed.
Print Assumptions C42_alt_bn128_right.

Theorem C42_bls12_381_partial CO P Q : let D := bls12_381_tower in let F := cF (bt_Fq D) CO in let e := ce (bt_Fq D) CO in
  jac_is_zero F P = true \/ jac_is_zero (twF2 F e D) Q = true ->
  one_or_fail (twF12 F e D) (tw_bls_pairing F e D P Q) (tw_bls_reduced_pairing F e D P Q).
Proof. exact (bls_shipped CO P Q). Qed.
Print Assumptions C42_bls12_381_partial.

Theorem C42_bls12_381_left CO P Q : let D := bls12_381_tower in let F := cF (bt_Fq D) CO in let e := ce (bt_Fq D) CO in
  jac_is_zero F P = true -> tw_G2 F e D (jac_den (twF2 F e D) Q) -> tw_bls_reduced_pairing F e D P Q = Ok (o1 (twF12 F e D)).
Proof. exact (bls12_381_left_one CO P Q). Qed.
Print Assumptions C42_bls12_381_left.

(** With Q = O the running point becomes (0, 0, 0), so the Miller value is zero. *)
Theorem C42_bls12_381_refuted CO : let D := bls12_381_tower in let F := cF (bt_Fq D) CO in let e := ce (bt_Fq D) CO in
  exists Q, jac_is_zero (twF2 F e D) Q = true /\ forall P, tw_bls_reduced_pairing F e D P Q = AssertFail.
Proof. exact (bls_refuted CO). Qed.
Print Assumptions C42_bls12_381_refuted.
Theorem C42_bls12_381_right CO P Q : let D := bls12_381_tower in let F := cF (bt_Fq D) CO in let e := ce (bt_Fq D) CO in
  jac_is_zero (twF2 F e D) Q = true -> tw_bls_reduced_pairing F e D P Q = AssertFail.
Proof. exact (bls_shipped_right CO P Q). Qed.
Print Assumptions C42_bls12_381_right.

Theorem C42_mnt6_right_partial CO P Q : let D := mnt6_tower in let F := cF (st_Fq D) CO in let e := ce (st_Fq D) CO in
  prj_is_zero (siF3 F e D) Q = true ->
  one_or_fail (siF6 F e D) (si_mnt6_pairing F e D P Q) (si_mnt6_reduced_pairing F e D P Q).
Proof. exact (mnt6_shipped_right CO P Q). Qed.
Print Assumptions C42_mnt6_right_partial.

(** Q = O: the value is one at all points with non-zero coordinates.  (0, sqrt b) is
    a point of G1; there an assertion fails. *)
Theorem C42_mnt6_right CO P Q x y : let D := mnt6_tower in let F := cF (st_Fq D) CO in let e := ce (st_Fq D) CO in
  prj_is_zero (siF3 F e D) Q = true -> prj_den F P = Aff x y -> x <> o0 F -> y <> o0 F ->
  si_mnt6_reduced_pairing F e D P Q = Ok (o1 (siF6 F e D)).
Proof. exact (mnt6_right_one CO P Q x y). Qed.
Print Assumptions C42_mnt6_right.

Theorem C42_mnt6_right_refuted CO : let D := mnt6_tower in let F := cF (st_Fq D) CO in let e := ce (st_Fq D) CO in
  exists P, prj_den F P <> Inf /\ si_G1 F e D (prj_den F P) /\
  forall Q, prj_is_zero (siF3 F e D) Q = true -> si_mnt6_reduced_pairing F e D P Q = AssertFail.
Proof. exact (mnt6_right_refuted CO). Qed.
Print Assumptions C42_mnt6_right_refuted.

(** P = O: the value at the generator of G2 is not one. *)
Theorem C42_mnt6_left_refuted CO : let D := mnt6_tower in let F := cF (st_Fq D) CO in let e := ce (st_Fq D) CO in
  exists P Q f, prj_is_zero F P = true /\ prj_den (siF3 F e D) Q <> Inf /\ si_G2 F e D (prj_den (siF3 F e D) Q) /\
    si_mnt6_reduced_pairing F e D P Q = Ok f /\ f <> o1 (siF6 F e D).
Proof. exact (mnt6_not_one CO). Qed.
Print Assumptions C42_mnt6_left_refuted.

(** mnt4: neither e(O, G2 generator) nor e(G1 generator, O) is one. *)
Theorem C42_mnt4_refuted CO : let D := mnt4_tower in let F := cF (ft_Fq D) CO in let e := ce (ft_Fq D) CO in
  (exists P Q f, prj_is_zero F P = true /\ prj_den (foF2 F e D) Q <> Inf /\ fo_G2 F e D (prj_den (foF2 F e D) Q) /\
    fo_reduced_pairing F e D P Q = Ok f /\ f <> o1 (foF4 F e D)) /\
  (exists P Q f, prj_is_zero (foF2 F e D) Q = true /\ prj_den F P <> Inf /\ fo_G1 F e D (prj_den F P) /\
    fo_reduced_pairing F e D P Q = Ok f /\ f <> o1 (foF4 F e D)).
Proof. exact (mnt4_not_one CO). Qed.
Print Assumptions C42_mnt4_refuted.

Theorem C42_mnt6_refuted CO : let D := mnt6_tower in let F := cF (st_Fq D) CO in let e := ce (st_Fq D) CO in
  exists P Q, prj_is_zero F P = true /\ prj_is_zero (siF3 F e D) Q = true /\ si_mnt6_reduced_pairing F e D P Q = AssertFail.
Proof. exact (mnt6_refuted CO). Qed.
Print Assumptions C42_mnt6_refuted.

Theorem C42_edwards_left_partial CO P Q : let D := edwards_tower in let F := cF (st_Fq D) CO in let e := ce (st_Fq D) CO in
  edw_is_zero F P = true ->
  one_or_fail (siF6 F e D) (si_edwards_pairing F e D P Q) (si_edwards_reduced_pairing F e D P Q).
Proof. exact (edwards_shipped_left CO P Q). Qed.
Print Assumptions C42_edwards_left_partial.

Theorem C42_edwards_left CO P Q : let D := edwards_tower in let F := cF (st_Fq D) CO in let e := ce (st_Fq D) CO in
  edw_is_zero F P = true -> edw_ok (siF3 F e D) (si_tw_a F e D) (si_tw_d F e D) Q ->
  edw_den (siF3 F e D) Q <> te_zero (siF3 F e D) -> si_edw_G2 F e D (edw_den (siF3 F e D) Q) ->
  si_edwards_reduced_pairing F e D P Q = Ok (o1 (siF6 F e D)).
Proof. exact (edwards_left_one CO P Q). Qed.
Print Assumptions C42_edwards_left.

Theorem C42_edwards_refuted CO : let D := edwards_tower in let F := cF (st_Fq D) CO in let e := ce (st_Fq D) CO in
  exists Q, edw_is_zero (siF3 F e D) Q = true /\ forall P, si_edwards_reduced_pairing F e D P Q = AssertFail.
Proof. exact (edwards_refuted CO). Qed.
Print Assumptions C42_edwards_refuted.

Theorem C42_edwards_tate_refuted CO : let D := edwards_tower in let F := cF (st_Fq D) CO in let e := ce (st_Fq D) CO in
  exists P, edw_is_zero F P = true /\ forall Q, si_tate_reduced_pairing F e D P Q = AssertFail.
Proof. exact (tate_refuted CO). Qed.
Print Assumptions C42_edwards_tate_refuted.

Theorem C42_edwards_right CO P Q : let D := edwards_tower in let F := cF (st_Fq D) CO in let e := ce (st_Fq D) CO in
  edw_is_zero (siF3 F e D) Q = true -> si_edwards_reduced_pairing F e D P Q = AssertFail.
Proof. exact (edwards_shipped_right CO P Q). Qed.
Print Assumptions C42_edwards_right.

Theorem C42_edwards_tate_left CO P Q : let D := edwards_tower in let F := cF (st_Fq D) CO in let e := ce (st_Fq D) CO in
  edw_is_zero F P = true -> si_tate_reduced_pairing F e D P Q = AssertFail.
Proof. exact (tate_shipped_left CO P Q). Qed.
Print Assumptions C42_edwards_tate_left.

Theorem C42_edwards_tate_right CO P Q : let D := edwards_tower in let F := cF (st_Fq D) CO in let e := ce (st_Fq D) CO in
  edw_is_zero (siF3 F e D) Q = true -> si_tate_reduced_pairing F e D P Q = AssertFail.
Proof. exact (tate_shipped_right CO P Q). Qed.
Print Assumptions C42_edwards_tate_right.

(** Small towers with loops that do reach the end and give one. *)
Example C42_example :
  is_one T12 (bls_reduced_pairing F13 (f13 2) xi xi t2_13 t61_13 t62_13 t12_13 xi xi [22] true [3] true (jac_zero F13) q2) = true /\
  is_one T12 (bls_reduced_pairing F13 (f13 2) xi xi t2_13 t61_13 t62_13 t12_13 xi xi [5] true [3] true p1 (jac_zero F169)) = true.
Proof. exact bls_neutral_runs. Qed.
Example C42_alt_example :
  is_one T12 (alt_reduced_pairing F13 (f13 2) xi xi t2_13 t61_13 t62_13 t12_13 xi xi (o1 F169) (o1 F169) [22] false [3] true (jac_zero F13) q2) = true.
Proof. exact alt_neutral_runs. Qed.
Example C42_edwards_example :
  is_one T6 (edwards_reduced_pairing F13 (f13 2) (f13 2) (f13 2) t31_13 t32_13 t6_13 (edwards_mul_by_a F13 (f13 1) (f13 2)) [22] [1] [3] true
    (edw_zero F13) q3) = true.
Proof. exact edwards_neutral_runs. Qed.
Example C42_mnt6_example :
  is_one T6 (mnt6_reduced_pairing F13 (f13 2) (f13 2) (f13 2) t31_13 t32_13 t6_13 (f13 0, f13 0, f13 11) [22] true [1] [3] true p1 (prj_zero F3)) = true.
Proof. exact mnt6_neutral_runs. Qed.
