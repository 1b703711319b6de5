(** The assembly programs compute the same limbs as the portable code. *)
From Coq Require Import ZArith List Bool Lia.
From Verif Require Import Result Limbs LimbsProofs FpModel FpSpec FpProofs FpAsmModel FpAsmProofs FpAsm3Proofs.
Import ListNotations.
Open Scope Z_scope.
Open Scope result_scope.


Lemma mul4_ok same a b m t s (Q : state -> Prop) :
  holds same a b m t s -> limbs a -> limbs b -> limbs m ->
  length a = 4%nat -> length b = 4%nat -> length m = 4%nat -> length t = 5%nat ->
  is_limb (regs s inv) -> (regs s inv * nth 0 m 0 + 1) mod B = 0 -> 0 < val m ->
  2 * val m <= B * B * B * B -> val a * val b < val m * (B * B * B * B) ->
  (forall s' r U, length r = 4%nat -> limbs r -> val r < val m ->
     firstn 4 (mem s' Scratch) = r -> B * B * B * B * val r = val a * val b + U * val m -> Q s') ->
  wp (ptrs same 0) mul4_prog s Q.
Proof.
  intros Hs La Lb Lm Ea Eb Em Et Li Hi Pm H2p Hab HQ.
  change mul4_prog with
   ((MONT_PRECOMPUTE ++ MONT_FIRSTITER 1 ++ MONT_FIRSTITER 2 ++ MONT_FIRSTITER 3 ++ MONT_FINALIZE 3) ++
    (MONT_ITERFIRST 1 ++ MONT_ITERITER 1 1 ++ MONT_ITERITER 1 2 ++ MONT_ITERITER 1 3 ++ MONT_FINALIZE 3) ++
    (MONT_ITERFIRST 2 ++ MONT_ITERITER 2 1 ++ MONT_ITERITER 2 2 ++ MONT_ITERITER 2 3 ++ MONT_FINALIZE 3) ++
    (MONT_ITERFIRST 3 ++ MONT_ITERITER 3 1 ++ MONT_ITERITER 3 2 ++ MONT_ITERITER 3 3 ++ MONT_FINALIZE 3) ++
    (MONT_CMP 3 ++ MONT_CMP 2 ++ MONT_CMP 1 ++ MONT_CMP 0 ++
     [Lab Lsubtract] ++ MONT_FIRSTSUB ++ MONT_NEXTSUB 1 ++ MONT_NEXTSUB 2 ++ MONT_NEXTSUB 3 ++ [Lab Ldone])).
  destruct a as [|a0 [|a1 [|a2 [|a3 [|]]]]]; try discriminate.
  assert (La' : limbs [a0; a1; a2; a3]) by assumption.
  splits.
  apply wp_app; [reflexivity|]. eapply (firstrow4 same [a0; a1; a2; a3] b m t a0); try assumption; try reflexivity.
  intros s0 t0 U0 H0' L0 E0 I0 LU0 V0.
  apply wp_app; [reflexivity|]. eapply (row4 same 1 [a0; a1; a2; a3] b m t0 a1); try assumption; try reflexivity; try (rewrite I0; assumption).
  intros s1 t1 U1 H1' L1 E1 I1 LU1 V1.
  apply wp_app; [reflexivity|]. eapply (row4 same 2 [a0; a1; a2; a3] b m t1 a2); try assumption; try reflexivity; try (rewrite I1, I0; assumption).
  intros s2 t2 U2 H2' L2 E2 I2 LU2 V2.
  apply wp_app; [reflexivity|]. eapply (row4 same 3 [a0; a1; a2; a3] b m t2 a3); try assumption; try reflexivity; try (rewrite I2, I1, I0; assumption).
  intros s3 t3 U3 H3' L3 E3 I3 LU3 V3.
  set (U := U0 + B * U1 + B * B * U2 + B * B * B * U3).
  set (a := [a0; a1; a2; a3]) in *.
  assert (BU : 0 <= U <= B * B * B * B - 1).
  { unfold U. clear - LU0 LU1 LU2 LU3. unfold is_limb in *. unfold B in *. lia. }
  assert (V : B * B * B * B * val t3 = val a * val b + U * val m).
  { unfold U, a. cbn [val]. clear - V0 V1 V2 V3. revert V0 V1 V2 V3.
    generalize (val m) (val b) (val t0) (val t1) (val t2) (val t3). clear.
    intros vm vb w0 w1 w2 w3 V0 V1 V2 V3.
    unfold B in *. lia. }
  assert (Um : U * val m <= (B * B * B * B - 1) * val m) by (apply Z.mul_le_mono_nonneg_r; lia).
  assert (Bt : 0 <= val t3 < 2 * val m).
  { split; [apply val_nonneg; assumption|].
    clear - V Um Hab Pm. revert V Um Hab. generalize (U * val m) (val a * val b). unfold B in *. lia. }
  destruct t3 as [|x0 [|x1 [|x2 [|x3 [|x4 [|]]]]]]; try discriminate.
  assert (Hz : x4 = 0).
  { clear - Bt H2p L3. splits. cbn [val] in *. unfold is_limb in *. unfold B in *. lia. }
  subst x4.
  assert (Lx : limbs [x0; x1; x2; x3]).
  { clear - L3. splits. repeat apply Forall_cons; try apply Forall_nil; assumption. }
  assert (Vx : val ([x0; x1; x2; x3] ++ [0]) = val [x0; x1; x2; x3]).
  { cbn [app val]. ring. }
  set (x := [x0; x1; x2; x3]) in *.
  change [x0; x1; x2; x3; 0] with (x ++ [0]) in *. rewrite Vx in *.
  eapply (cond_sub4_ok same a b m x); try assumption; try reflexivity.
  intros s' r Mr Lr Er Vr.
  assert (Fr : firstn 4 (mem s' Scratch) = r).
  { rewrite Mr. rewrite <- Er. rewrite firstn_app, firstn_all, Nat.sub_diag, app_nil_r. reflexivity. }
  destruct (Z.leb_spec (val m) (val x)).
  - apply (HQ s' r (U - B * B * B * B)); auto; [lia|]. rewrite Vr, Z.mul_sub_distr_l, V. ring.
  - apply (HQ s' r U); auto; [lia|]. rewrite Vr. exact V.
Qed.

Lemma mul5_ok same a b m t s (Q : state -> Prop) :
  holds same a b m t s -> limbs a -> limbs b -> limbs m ->
  length a = 5%nat -> length b = 5%nat -> length m = 5%nat -> length t = 6%nat ->
  is_limb (regs s inv) -> (regs s inv * nth 0 m 0 + 1) mod B = 0 -> 0 < val m ->
  2 * val m <= B * B * B * B * B -> val a * val b < val m * (B * B * B * B * B) ->
  (forall s' r U, length r = 5%nat -> limbs r -> val r < val m ->
     firstn 5 (mem s' Scratch) = r -> B * B * B * B * B * val r = val a * val b + U * val m -> Q s') ->
  wp (ptrs same 0) mul5_prog s Q.
Proof.
  intros Hs La Lb Lm Ea Eb Em Et Li Hi Pm H2p Hab HQ.
  change mul5_prog with
   ((MONT_PRECOMPUTE ++ MONT_FIRSTITER 1 ++ MONT_FIRSTITER 2 ++ MONT_FIRSTITER 3 ++ MONT_FIRSTITER 4 ++ MONT_FINALIZE 4) ++
    (MONT_ITERFIRST 1 ++ MONT_ITERITER 1 1 ++ MONT_ITERITER 1 2 ++ MONT_ITERITER 1 3 ++ MONT_ITERITER 1 4 ++ MONT_FINALIZE 4) ++
    (MONT_ITERFIRST 2 ++ MONT_ITERITER 2 1 ++ MONT_ITERITER 2 2 ++ MONT_ITERITER 2 3 ++ MONT_ITERITER 2 4 ++ MONT_FINALIZE 4) ++
    (MONT_ITERFIRST 3 ++ MONT_ITERITER 3 1 ++ MONT_ITERITER 3 2 ++ MONT_ITERITER 3 3 ++ MONT_ITERITER 3 4 ++ MONT_FINALIZE 4) ++
    (MONT_ITERFIRST 4 ++ MONT_ITERITER 4 1 ++ MONT_ITERITER 4 2 ++ MONT_ITERITER 4 3 ++ MONT_ITERITER 4 4 ++ MONT_FINALIZE 4) ++
    (MONT_CMP 4 ++ MONT_CMP 3 ++ MONT_CMP 2 ++ MONT_CMP 1 ++ MONT_CMP 0 ++
     [Lab Lsubtract] ++ MONT_FIRSTSUB ++ MONT_NEXTSUB 1 ++ MONT_NEXTSUB 2 ++ MONT_NEXTSUB 3 ++ MONT_NEXTSUB 4 ++ [Lab Ldone])).
  destruct a as [|a0 [|a1 [|a2 [|a3 [|a4 [|]]]]]]; try discriminate.
  assert (La' : limbs [a0; a1; a2; a3; a4]) by assumption.
  splits.
  apply wp_app; [reflexivity|]. eapply (firstrow5 same [a0; a1; a2; a3; a4] b m t a0); try assumption; try reflexivity.
  intros s0 t0 U0 H0' L0 E0 I0 LU0 V0.
  apply wp_app; [reflexivity|]. eapply (row5 same 1 [a0; a1; a2; a3; a4] b m t0 a1); try assumption; try reflexivity; try (rewrite I0; assumption).
  intros s1 t1 U1 H1' L1 E1 I1 LU1 V1.
  apply wp_app; [reflexivity|]. eapply (row5 same 2 [a0; a1; a2; a3; a4] b m t1 a2); try assumption; try reflexivity; try (rewrite I1, I0; assumption).
  intros s2 t2 U2 H2' L2 E2 I2 LU2 V2.
  apply wp_app; [reflexivity|]. eapply (row5 same 3 [a0; a1; a2; a3; a4] b m t2 a3); try assumption; try reflexivity; try (rewrite I2, I1, I0; assumption).
  intros s3 t3 U3 H3' L3 E3 I3 LU3 V3.
  apply wp_app; [reflexivity|]. eapply (row5 same 4 [a0; a1; a2; a3; a4] b m t3 a4); try assumption; try reflexivity; try (rewrite I3, I2, I1, I0; assumption).
  intros s4 t4 U4 H4' L4 E4 I4 LU4 V4.
  set (U := U0 + B * U1 + B * B * U2 + B * B * B * U3 + B * B * B * B * U4).
  set (a := [a0; a1; a2; a3; a4]) in *.
  assert (BU : 0 <= U <= B * B * B * B * B - 1).
  { unfold U. clear - LU0 LU1 LU2 LU3 LU4. unfold is_limb in *. unfold B in *. lia. }
  assert (V : B * B * B * B * B * val t4 = val a * val b + U * val m).
  { unfold U, a. cbn [val]. clear - V0 V1 V2 V3 V4. revert V0 V1 V2 V3 V4.
    generalize (val m) (val b) (val t0) (val t1) (val t2) (val t3) (val t4). clear.
    intros vm vb w0 w1 w2 w3 w4 V0 V1 V2 V3 V4.
    unfold B in *. lia. }
  assert (Um : U * val m <= (B * B * B * B * B - 1) * val m) by (apply Z.mul_le_mono_nonneg_r; lia).
  assert (Bt : 0 <= val t4 < 2 * val m).
  { split; [apply val_nonneg; assumption|].
    clear - V Um Hab Pm. revert V Um Hab. generalize (U * val m) (val a * val b). unfold B in *. lia. }
  destruct t4 as [|x0 [|x1 [|x2 [|x3 [|x4 [|x5 [|]]]]]]]; try discriminate.
  assert (Hz : x5 = 0).
  { clear - Bt H2p L4. splits. cbn [val] in *. unfold is_limb in *. unfold B in *. lia. }
  subst x5.
  assert (Lx : limbs [x0; x1; x2; x3; x4]).
  { clear - L4. splits. repeat apply Forall_cons; try apply Forall_nil; assumption. }
  assert (Vx : val ([x0; x1; x2; x3; x4] ++ [0]) = val [x0; x1; x2; x3; x4]).
  { cbn [app val]. ring. }
  set (x := [x0; x1; x2; x3; x4]) in *.
  change [x0; x1; x2; x3; x4; 0] with (x ++ [0]) in *. rewrite Vx in *.
  eapply (cond_sub5_ok same a b m x); try assumption; try reflexivity.
  intros s' r Mr Lr Er Vr.
  assert (Fr : firstn 5 (mem s' Scratch) = r).
  { rewrite Mr. rewrite <- Er. rewrite firstn_app, firstn_all, Nat.sub_diag, app_nil_r. reflexivity. }
  destruct (Z.leb_spec (val m) (val x)).
  - apply (HQ s' r (U - B * B * B * B * B)); auto; [lia|]. rewrite Vr, Z.mul_sub_distr_l, V. ring.
  - apply (HQ s' r U); auto; [lia|]. rewrite Vr. exact V.
Qed.

(** Size of the scratch array: [res[2n]] or [tmp[n+1]], fp.tcc:32,60,104,625. *)
Definition scratch_ok (n : nat) (scratch : list Z) : Prop :=
  length scratch = (if (n =? 3)%nat then 6 else S n)%nat.

Section Top.
Variable P : fp_params.
Hypothesis OK : fp_ok P.
Variables (junk : reg -> Z) (scratch : list Z) (cf zf : option bool) (same : bool).
Hypothesis HS : scratch_ok (fp_n P) scratch.
Local Notation md := (fp_modulus P).
Local Notation st := (start P junk scratch cf zf).
(** the second operand actually read *)
Definition opnd (a b : list Z) : list Z := if same then a else b.

Lemma st_holds a b : holds same a (opnd a b) md scratch (st a b).
Proof. unfold holds, start, opnd; cbn [mem]. destruct same; cbn [barr]; auto. Qed.
Lemma st_inv a b : is_limb (regs (st a b) inv) /\ (regs (st a b) inv * nth 0 md 0 + 1) mod B = 0.
Proof.
  unfold start; cbn [regs]. split; [apply Z.mod_pos_bound; reflexivity|].
  pose proof (ok_inv P OK) as H. pose proof (ok_n P OK) as Hn. pose proof (ok_len P OK) as Hl.
  destruct md as [|m0 l]; [cbn in Hl; lia|]. cbn [nth val] in *.
  rewrite <- H.
  rewrite <- (Z.add_mod_idemp_l (fp_inv P * _) 1), <- (Z.add_mod_idemp_l (fp_inv P mod B * m0) 1) by discriminate.
  rewrite Z.mul_mod_idemp_l by discriminate.
  replace (fp_inv P * (m0 + B * val l)) with (fp_inv P * m0 + (fp_inv P * val l) * B) by ring.
  rewrite Z_mod_plus_full. reflexivity.
Qed.

Lemma mont_unique a b r U :
  limbs a -> limbs b -> length a = fp_n P -> length b = fp_n P -> val a * val b < val md * Bn (fp_n P) ->
  length r = fp_n P -> limbs r -> val r < val md -> Bn (fp_n P) * val r = val a * val b + U * val md ->
  mul_reduce P a b = Ok r.
Proof.
  intros La Lb Ea Eb Hab Er Lr Br V.
  destruct (mul_reduce_spec P OK a b La Lb Ea Eb Hab) as (r' & E & C & V').
  rewrite E. f_equal. assert (Cr : canon P r) by (split; [|split]; auto).
  apply (canon_inj P); auto. pose proof (canon_lt P r Cr). pose proof (canon_lt P r' C).
  rewrite <- (Z.mod_small (val r') (val md)), <- (Z.mod_small (val r) (val md)) by lia.
  apply (cancel_R P OK). rewrite V'.
  rewrite (Z.mul_comm (val r)), V, Z_mod_plus_full. reflexivity.
Qed.

Lemma Bn3 : Bn 3 = B * B * B. Proof. reflexivity. Qed.
Lemma Bn4 : Bn 4 = B * B * B * B. Proof. reflexivity. Qed.
Lemma Bn5 : Bn 5 = B * B * B * B * B. Proof. reflexivity. Qed.

Theorem asm_mul_reduce_eq a b :
  limbs a -> limbs (opnd a b) -> length a = fp_n P -> length (opnd a b) = fp_n P ->
  val a * val (opnd a b) < val md * Bn (fp_n P) ->
  asm_mul_reduce P junk scratch cf zf same a b = mul_reduce P a (opnd a b).
Proof.
  intros La Lb Ea Eb Hab.
  pose proof (ok_len P OK) as Em. pose proof (ok_limbs P OK) as Lm.
  pose proof (ok_gt1 P OK) as G1. pose proof (ok_half P OK) as H2.
  destruct (st_inv a b) as [Li Hi]. pose proof (st_holds a b) as Hs.
  pose proof (fun r U => mont_unique a (opnd a b) r U La Lb Ea Eb Hab) as Un.
  unfold asm_mul_reduce. unfold scratch_ok in HS.
  destruct (fp_n P) as [|[|[|[|[|[|n]]]]]] eqn:En; try reflexivity; cbn [Nat.eqb] in HS.
  - rewrite Bn3 in *.
    destruct (mul3_ok same a (opnd a b) md scratch (st a b)
      (fun s => mul_reduce P a (opnd a b) = Ok (skipn 3 (mem s Scratch)))
      COMBA_3_BY_3_MUL (val a * val (opnd a b))) as (s1 & s2 & s3 & E1 & E2 & E3 & E4); try assumption.
    + intros Q' HQ. eapply comba_mul_ok; eassumption.
    + intros s' r U Er Lr Br <- V. eapply Un; eassumption.
    + rewrite E1. cbn [bind]. rewrite E2. cbn [bind]. rewrite E3. cbn [bind]. auto.
  - rewrite Bn4 in *.
    destruct (mul4_ok same a (opnd a b) md scratch (st a b)
      (fun s => mul_reduce P a (opnd a b) = Ok (firstn 4 (mem s Scratch)))) as (s1 & E1 & E2); try assumption; try lia.
    + intros s' r U Er Lr Br <- V. eapply Un; eassumption.
    + rewrite E1. cbn [bind]. auto.
  - rewrite Bn5 in *.
    destruct (mul5_ok same a (opnd a b) md scratch (st a b)
      (fun s => mul_reduce P a (opnd a b) = Ok (firstn 5 (mem s Scratch)))) as (s1 & E1 & E2); try assumption; try lia.
    + intros s' r U Er Lr Br <- V. eapply Un; eassumption.
    + rewrite E1. cbn [bind]. auto.
Qed.

Theorem asm_add_eq a b : canon P a -> canon P (opnd a b) ->
  asm_add P junk scratch cf zf same a b = fp_add P a (opnd a b).
Proof. clear HS.
  intros Ca Cb. pose proof (ok_len P OK) as Em. pose proof (ok_limbs P OK) as Lm.
  pose proof (st_holds a b) as Hs.
  assert (Un : forall r, length r = fp_n P -> limbs r ->
    val r = (if val md <=? val a + val (opnd a b) then val a + val (opnd a b) - val md else val a + val (opnd a b)) ->
    fp_add P a (opnd a b) = Ok r).
  { intros r Er Lr Vr. destruct (fp_add_spec P OK a (opnd a b) Ca Cb) as (r' & E & C & D). rewrite E. f_equal.
    pose proof (canon_lt P a Ca). pose proof (canon_lt P _ Cb).
    assert (Cr : canon P r).
    { split; [auto|split; auto]. destruct (Z.leb_spec (val md) (val a + val (opnd a b))); lia. }
    apply (den_inj P OK); auto. rewrite D. symmetry.
    apply (den_add_generic P OK a (opnd a b) r
      (if val md <=? val a + val (opnd a b) then -1 else 0)); auto.
    destruct (Z.leb_spec (val md) (val a + val (opnd a b))); lia. }
  destruct Ca as (Ea & La & Va). destruct Cb as (Eb & Lb & Vb).
  unfold asm_add. destruct (fp_n P) as [|[|[|[|[|[|n]]]]]] eqn:En; try reflexivity.
  - destruct (add3_ok same a (opnd a b) md scratch (st a b)
      (fun s => fp_add P a (opnd a b) = Ok (mem s ThisData))) as (s1 & E1 & E2); try assumption.
    + intros s' r <- Lr Er Vr. eapply Un; eassumption.
    + rewrite E1. cbn [bind]. auto.
  - destruct (add4_ok same a (opnd a b) md scratch (st a b)
      (fun s => fp_add P a (opnd a b) = Ok (mem s ThisData))) as (s1 & E1 & E2); try assumption.
    + intros s' r <- Lr Er Vr. eapply Un; eassumption.
    + rewrite E1. cbn [bind]. auto.
  - destruct (add5_ok same a (opnd a b) md scratch (st a b)
      (fun s => fp_add P a (opnd a b) = Ok (mem s ThisData))) as (s1 & E1 & E2); try assumption.
    + intros s' r <- Lr Er Vr. eapply Un; eassumption.
    + rewrite E1. cbn [bind]. auto.
Qed.

Theorem asm_sub_eq a b : canon P a -> canon P (opnd a b) ->
  asm_sub P junk scratch cf zf same a b = fp_sub P a (opnd a b).
Proof. clear HS.
  intros Ca Cb. pose proof (ok_len P OK) as Em. pose proof (ok_limbs P OK) as Lm.
  pose proof (st_holds a b) as Hs.
  assert (Un : forall r, length r = fp_n P -> limbs r ->
    val r = (if val (opnd a b) <=? val a then val a - val (opnd a b) else val a - val (opnd a b) + val md) ->
    fp_sub P a (opnd a b) = Ok r).
  { intros r Er Lr Vr. destruct (fp_sub_spec P OK a (opnd a b) Ca Cb) as (r' & E & C & D). rewrite E. f_equal.
    pose proof (canon_lt P a Ca). pose proof (canon_lt P _ Cb).
    assert (Cr : canon P r).
    { split; [auto|split; auto]. destruct (Z.leb_spec (val (opnd a b)) (val a)); lia. }
    apply (den_inj P OK); auto. rewrite D. symmetry.
    apply (den_sub_generic P OK a (opnd a b) r (if val (opnd a b) <=? val a then 0 else 1)); auto.
    destruct (Z.leb_spec (val (opnd a b)) (val a)); lia. }
  destruct Ca as (Ea & La & Va). destruct Cb as (Eb & Lb & Vb).
  unfold asm_sub. destruct (fp_n P) as [|[|[|[|[|[|n]]]]]] eqn:En; try reflexivity.
  - destruct (sub3_ok same a (opnd a b) md scratch (st a b)
      (fun s => fp_sub P a (opnd a b) = Ok (mem s ThisData))) as (s1 & E1 & E2); try assumption.
    + intros s' r <- Lr Er Vr. eapply Un; eassumption.
    + rewrite E1. cbn [bind]. auto.
  - destruct (sub4_ok same a (opnd a b) md scratch (st a b)
      (fun s => fp_sub P a (opnd a b) = Ok (mem s ThisData))) as (s1 & E1 & E2); try assumption.
    + intros s' r <- Lr Er Vr. eapply Un; eassumption.
    + rewrite E1. cbn [bind]. auto.
  - destruct (sub5_ok same a (opnd a b) md scratch (st a b)
      (fun s => fp_sub P a (opnd a b) = Ok (mem s ThisData))) as (s1 & E1 & E2); try assumption.
    + intros s' r <- Lr Er Vr. eapply Un; eassumption.
    + rewrite E1. cbn [bind]. auto.
Qed.
End Top.

Theorem asm_squared_eq P (OK : fp_ok P) junk scratch cf zf a :
  scratch_ok (fp_n P) scratch -> canon P a ->
  asm_squared P junk scratch cf zf a = fp_squared P a.
Proof.
  intros HS Ca. pose proof (canon_len P a Ca) as Ea. pose proof (canon_limbs P a Ca) as La.
  assert (Hab : val a * val a < val (fp_modulus P) * Bn (fp_n P)) by (apply (lt_pR P OK); auto).
  pose proof (asm_mul_reduce_eq P OK junk scratch cf zf true HS a a La La Ea Ea Hab) as Eq.
  unfold asm_squared, fp_squared, fp_mul.
  destruct (fp_n P) as [|[|[|[|n]]]] eqn:En; try exact Eq.
  clear Eq. set (md := fp_modulus P) in *.
  pose proof (ok_len P OK) as Em. pose proof (ok_limbs P OK) as Lm.
  pose proof (ok_half P OK) as H2. fold md in Em, Lm, H2. rewrite En in *.
  destruct (st_inv P OK junk scratch cf zf a a) as [Li Hi]. fold md in Hi.
  pose proof (st_holds P junk scratch cf zf true a a) as Hs. fold md in Hs. cbn [opnd] in Hs.
  rewrite Bn3 in *. unfold scratch_ok in HS. cbn [Nat.eqb] in HS.
  destruct (mul3_ok true a a md scratch (start P junk scratch cf zf a a)
      (fun s => mul_reduce P a a = Ok (skipn 3 (mem s Scratch)))
      COMBA_3_BY_3_SQR (val a * val a)) as (s1 & s2 & s3 & E1 & E2 & E3 & E4); try assumption.
  - intros Q' HQ. eapply comba_sqr_ok; eassumption.
  - intros s' r U Er Lr Br <- V. eapply (mont_unique P OK); rewrite ?En, ?Bn3; eassumption.
  - rewrite E1. cbn [bind]. rewrite E2. cbn [bind]. rewrite E3. cbn [bind]. auto.
Qed.

(** Sample runs, for the examples beside the property theorems: (p-1) + (p-1),
    0 - (p-1), (p-1) * (p-2) and (p-2)^2. *)
Definition C04_run (P : fp_params) (scratch : list Z) :=
  let p := val (fp_modulus P) in
  let x := limbs_of (fp_n P) (p - 1) in let y := limbs_of (fp_n P) (p - 2) in
  let z := limbs_of (fp_n P) 0 in
  let junk (_ : reg) := 77 in
  (asm_add P junk scratch None None true x x, asm_sub P junk scratch None None false z x,
   asm_mul_reduce P junk scratch None None false x y, asm_squared P junk scratch None None y).
Definition C04_expect (P : fp_params) :=
  let p := val (fp_modulus P) in
  let x := limbs_of (fp_n P) (p - 1) in let y := limbs_of (fp_n P) (p - 2) in
  (@Ok (list Z) y, @Ok (list Z) (limbs_of (fp_n P) 1), mul_reduce P x y, mul_reduce P y y).
