(** The three-limb programs of FpAsmModel.v: Comba product, square and Montgomery reduction. *)
From Coq Require Import ZArith List Bool Lia.
From Verif Require Import Result Limbs LimbsProofs FpModel FpAsmModel FpAsmProofs.
Import ListNotations.
Open Scope Z_scope.

(** ** Three limbs: Comba product and reduction *)
Lemma limb_bound3 a : limbs a -> length a = 3%nat -> 0 <= val a <= B * B * B - 1.
Proof.
  intros L E. destruct a as [|a0 [|a1 [|a2 [|]]]]; try discriminate. splits. cbn [val].
  unfold is_limb in *. unfold B in *. lia.
Qed.
Lemma prod_bound3 a b : limbs a -> limbs b -> length a = 3%nat -> length b = 3%nat ->
  val a * val b <= (B * B * B - 1) * (B * B * B - 1).
Proof.
  intros La Lb Ea Eb. pose proof (limb_bound3 a La Ea). pose proof (limb_bound3 b Lb Eb).
  apply Z.mul_le_mono_nonneg; lia.
Qed.
Lemma b2z_zero c : Z.b2z c <= 0 -> c = false.
Proof. destruct c; cbn; auto; lia. Qed.
(** carries that cannot occur: high product limb plus a carry, and counters of carries *)
Ltac nocarries :=
  repeat match goal with
  | E : ?r + B * Z.b2z ?c = 0 + ?hi + Z.b2z ?d, H : 0 <= ?hi <= B - 2, L : is_limb ?r |- _ =>
    let K := fresh in assert (K : c = false) by (apply b2z_zero; clear - E H L; arith); subst c; cbn [Z.b2z] in E
  | E : ?r + B * Z.b2z ?c = 0 + 0 + Z.b2z ?d, L : is_limb ?r |- _ =>
    let K := fresh in assert (K : c = false) by (apply b2z_zero; clear - E L; arith); subst c; cbn [Z.b2z] in E;
    let K := fresh "Sm" in assert (K : 0 <= r <= 1) by (clear - E L; arith)
  | E : ?r + B * Z.b2z ?c = ?x + 0 + Z.b2z ?d, L : is_limb ?r, H : 0 <= ?x <= Zpos ?k |- _ =>
    let K := fresh in assert (K : c = false) by (apply b2z_zero; clear - E L H; arith); subst c; cbn [Z.b2z] in E;
    let k' := eval compute in (Zpos k + 1) in
    let K := fresh "Sm" in assert (K : 0 <= r <= k') by (clear - E L H; arith)
  end.
(** solve the equations for the limbs and carries and compare polynomials *)
Ltac solve_eqs :=
  repeat match goal with H : is_limb _ |- _ => clear H | H : 0 <= _ <= _ |- _ => clear H end;
  repeat match goal with E : ?r + B * ?c = ?X |- _ => is_var r; apply Z.add_move_r in E; subst r end;
  clear; generalize B; intros; ring.
Ltac nonneg := repeat match goal with E : _ = _ |- _ => clear E | E : _ <= _ |- _ => clear E end; unfold is_limb in *; unfold B in *; lia.
Lemma six_limbs x v c : 0 <= x -> v <= (B * B * B - 1) * (B * B * B - 1) ->
  x + B * B * B * B * B * B * Z.b2z c = v -> x = v.
Proof. intros Hx Hv E. destruct c; cbn [Z.b2z] in E; unfold B in *; lia. Qed.
Ltac top_limb Hpb :=
  lazymatch goal with |- _ + B * (_ + B * (_ + B * (_ + B * (_ + B * (?r + B * 0))))) = _ =>
    match goal with E : r + B * Z.b2z ?c = _ |- _ =>
      apply (six_limbs _ _ c); [nonneg|exact Hpb|]; clear Hpb; solve_eqs end end.
Lemma comba_mul_ok same a b m t s (Q : state -> Prop) :
  holds same a b m t s -> limbs a -> limbs b -> length a = 3%nat -> length b = 3%nat -> length t = 6%nat ->
  (forall s' t', holds same a b m t' s' -> limbs t' -> length t' = 6%nat ->
     regs s' inv = regs s inv -> val t' = val a * val b -> Q s') ->
  wp (ptrs same 0) COMBA_3_BY_3_MUL s Q.
Proof.
  destruct s as [R Mm c z]. unfold holds. cbn [mem].
  intros (Ha & Hb & Hm & Ht) La Lb Ea Eb Et HQ. pose proof (prod_bound3 a b La Lb Ea Eb) as Hpb.
  destruct a as [|a0 [|a1 [|a2 [|]]]]; try discriminate.
  destruct b as [|b0 [|b1 [|b2 [|]]]]; try discriminate.
  destruct t as [|t0 [|t1 [|t2 [|t3 [|t4 [|t5 [|]]]]]]]; try discriminate.
  splits. unfold COMBA_3_BY_3_MUL. cbn [app].
  destruct same; cbn [barr] in Hb; [rewrite Ha in Hb; injection Hb as <- <- <-|].
  all: repeat st2.
  all: eapply HQ; [memt|repeat apply Forall_cons; try apply Forall_nil; eassumption|reflexivity|reflexivity|].
  all: clear HQ Ha Hm Ht; try clear Hb; cbn [val] in *.
  all: nocarries.
  all: top_limb Hpb.
Qed.
Lemma comba_sqr_ok same a b m t s (Q : state -> Prop) :
  holds same a b m t s -> limbs a -> length a = 3%nat -> length t = 6%nat ->
  (forall s' t', holds same a b m t' s' -> limbs t' -> length t' = 6%nat ->
     regs s' inv = regs s inv -> val t' = val a * val a -> Q s') ->
  wp (ptrs same 0) COMBA_3_BY_3_SQR s Q.
Proof.
  destruct s as [R Mm c z]. unfold holds. cbn [mem].
  intros (Ha & Hb & Hm & Ht) La Ea Et HQ. pose proof (prod_bound3 a a La La Ea Ea) as Hpb.
  destruct a as [|a0 [|a1 [|a2 [|]]]]; try discriminate.
  destruct t as [|t0 [|t1 [|t2 [|t3 [|t4 [|t5 [|]]]]]]]; try discriminate.
  splits. unfold COMBA_3_BY_3_SQR. cbn [app].
  repeat st2.
  eapply HQ; [destruct same; cbn [barr] in *; [rewrite Ha in Hb; subst b|]; memt|repeat apply Forall_cons; try apply Forall_nil; eassumption|reflexivity|reflexivity|].
  clear HQ Ha Hm Ht Hb; cbn [val] in *. nocarries.
  top_limb Hpb.
Qed.

Lemma reduce0_ok same a b m t s (Q : state -> Prop) :
  holds same a b m t s -> limbs m -> limbs t -> length m = 3%nat -> length t = 6%nat ->
  is_limb (regs s inv) -> (regs s inv * nth 0 m 0 + 1) mod B = 0 ->
  (forall s' t' U c, holds same a b m t' s' -> limbs t' -> length t' = 6%nat ->
     regs s' inv = regs s inv -> is_limb U -> firstn 0 t' = firstn 0 t -> nth 0 t' 0 = 0 -> 0 <= c ->
     val t' + B * B * B * B * B * B * c = val t + (U * val m) -> Q s') ->
  wp (ptrs same 0) (REDUCE_ROUND 0 ++ [ addq tmp3 (Mem tmp 2); adcq tmp1 (Mem tmp 3); adcq (Imm 0) (Mem tmp 4); adcq (Imm 0) (Mem tmp 5) ]) s Q.
Proof.
  destruct s as [R Mm c z]. unfold holds. cbn [mem regs].
  intros (Ha & Hb & Hm & Ht) Lm Lt Em Et Li Hi HQ.
  destruct m as [|m0 [|m1 [|m2 [|]]]]; try discriminate.
  destruct t as [|t0 [|t1 [|t2 [|t3 [|t4 [|t5 [|]]]]]]]; try discriminate.
  splits. cbn [nth] in Hi. unfold REDUCE_ROUND. cbn [app Nat.add].
  repeat st2.
  assert (Hz : r = 0).
  { match goal with E : r + B * ?c = _ |- _ => apply (mont_low (R inv) m0 t0 lo r hi0 c lo0 hi); try assumption end;
    [rewrite (Z.mul_comm lo m0); assumption|lia]. }
  eapply (HQ _ _ lo); [destruct same; cbn [barr] in *; [rewrite Ha in Hb; subst b|]; memt|
    repeat apply Forall_cons; try apply Forall_nil; eassumption|reflexivity|reflexivity|assumption|reflexivity|exact Hz|..].
  - apply (b2z_range cf12).
  - clear HQ Hz E; cbn [val]; nocarries. solve_eqs.
Qed.
Lemma reduce1_ok same a b m t s (Q : state -> Prop) :
  holds same a b m t s -> limbs m -> limbs t -> length m = 3%nat -> length t = 6%nat ->
  is_limb (regs s inv) -> (regs s inv * nth 0 m 0 + 1) mod B = 0 ->
  (forall s' t' U c, holds same a b m t' s' -> limbs t' -> length t' = 6%nat ->
     regs s' inv = regs s inv -> is_limb U -> firstn 1 t' = firstn 1 t -> nth 1 t' 0 = 0 -> 0 <= c ->
     val t' + B * B * B * B * B * B * c = val t + B * (U * val m) -> Q s') ->
  wp (ptrs same 0) (REDUCE_ROUND 1 ++ [ addq tmp3 (Mem tmp 3); adcq tmp1 (Mem tmp 4); adcq (Imm 0) (Mem tmp 5) ]) s Q.
Proof.
  destruct s as [R Mm c z]. unfold holds. cbn [mem regs].
  intros (Ha & Hb & Hm & Ht) Lm Lt Em Et Li Hi HQ.
  destruct m as [|m0 [|m1 [|m2 [|]]]]; try discriminate.
  destruct t as [|t0 [|t1 [|t2 [|t3 [|t4 [|t5 [|]]]]]]]; try discriminate.
  splits. cbn [nth] in Hi. unfold REDUCE_ROUND. cbn [app Nat.add].
  repeat st2.
  assert (Hz : r = 0).
  { match goal with E : r + B * ?c = _ |- _ => apply (mont_low (R inv) m0 t1 lo r hi0 c lo0 hi); try assumption end;
    [rewrite (Z.mul_comm lo m0); assumption|lia]. }
  eapply (HQ _ _ lo); [destruct same; cbn [barr] in *; [rewrite Ha in Hb; subst b|]; memt|
    repeat apply Forall_cons; try apply Forall_nil; eassumption|reflexivity|reflexivity|assumption|reflexivity|exact Hz|..].
  - apply (b2z_range cf11).
  - clear HQ Hz E; cbn [val]; nocarries. solve_eqs.
Qed.
Lemma reduce2_ok same a b m t s (Q : state -> Prop) :
  holds same a b m t s -> limbs m -> limbs t -> length m = 3%nat -> length t = 6%nat ->
  is_limb (regs s inv) -> (regs s inv * nth 0 m 0 + 1) mod B = 0 ->
  (forall s' t' U c, holds same a b m t' s' -> limbs t' -> length t' = 6%nat ->
     regs s' inv = regs s inv -> is_limb U -> firstn 2 t' = firstn 2 t -> nth 2 t' 0 = 0 -> 0 <= c ->
     val t' + B * B * B * B * B * B * c = val t + B * B * (U * val m) -> Q s') ->
  wp (ptrs same 0) (REDUCE_ROUND 2 ++ [ addq tmp3 (Mem tmp 4); adcq tmp1 (Mem tmp 5) ]) s Q.
Proof.
  destruct s as [R Mm c z]. unfold holds. cbn [mem regs].
  intros (Ha & Hb & Hm & Ht) Lm Lt Em Et Li Hi HQ.
  destruct m as [|m0 [|m1 [|m2 [|]]]]; try discriminate.
  destruct t as [|t0 [|t1 [|t2 [|t3 [|t4 [|t5 [|]]]]]]]; try discriminate.
  splits. cbn [nth] in Hi. unfold REDUCE_ROUND. cbn [app Nat.add].
  repeat st2.
  assert (Hz : r = 0).
  { match goal with E : r + B * ?c = _ |- _ => apply (mont_low (R inv) m0 t2 lo r hi0 c lo0 hi); try assumption end;
    [rewrite (Z.mul_comm lo m0); assumption|lia]. }
  eapply (HQ _ _ lo); [destruct same; cbn [barr] in *; [rewrite Ha in Hb; subst b|]; memt|
    repeat apply Forall_cons; try apply Forall_nil; eassumption|reflexivity|reflexivity|assumption|reflexivity|exact Hz|..].
  - apply (b2z_range cf10).
  - clear HQ Hz E; cbn [val]; nocarries. solve_eqs.
Qed.

Lemma reduce_ok same a b m t s (Q : state -> Prop) :
  holds same a b m t s -> limbs m -> limbs t -> length m = 3%nat -> length t = 6%nat ->
  is_limb (regs s inv) -> (regs s inv * nth 0 m 0 + 1) mod B = 0 ->
  2 * val m <= B * B * B -> val t < val m * (B * B * B) ->
  (forall s' p0 p1 p2 x U, holds same a b m (p0 :: p1 :: p2 :: x) s' -> limbs x -> length x = 3%nat ->
     val x < 2 * val m -> B * B * B * val x = val t + U * val m -> Q s') ->
  wp (ptrs same 0) REDUCE_6_LIMB_PRODUCT s Q.
Proof.
  intros Hs Lm Lt Em Et Li Hi H2p Ht HQ.
  change REDUCE_6_LIMB_PRODUCT with
   ((REDUCE_ROUND 0 ++ [ addq tmp3 (Mem tmp 2); adcq tmp1 (Mem tmp 3); adcq (Imm 0) (Mem tmp 4); adcq (Imm 0) (Mem tmp 5) ]) ++
    (REDUCE_ROUND 1 ++ [ addq tmp3 (Mem tmp 3); adcq tmp1 (Mem tmp 4); adcq (Imm 0) (Mem tmp 5) ]) ++
    (REDUCE_ROUND 2 ++ [ addq tmp3 (Mem tmp 4); adcq tmp1 (Mem tmp 5) ])).
  apply wp_app; [reflexivity|]. eapply (reduce0_ok same a b m t); try assumption.
  intros s1 t1 U0 k0 H1 L1 E1 I1 LU0 _ Z0 K0 V0.
  apply wp_app; [reflexivity|]. eapply (reduce1_ok same a b m t1); try assumption; try (rewrite I1; assumption).
  intros s2 t2 U1 k1 H2 L2 E2 I2 LU1 F1 Z1 K1 V1.
  eapply (reduce2_ok same a b m t2); try assumption; try (rewrite I2, I1; assumption).
  intros s3 t3 U2 k2 H3 L3 E3 I3 LU2 F2 Z2 K2 V2.
  destruct t1 as [|p0 [|p1 [|p2 [|p3 [|p4 [|p5 [|]]]]]]]; try discriminate.
  destruct t2 as [|q0 [|q1 [|q2 [|q3 [|q4 [|q5 [|]]]]]]]; try discriminate.
  destruct t3 as [|w0 [|w1 [|w2 [|w3 [|w4 [|w5 [|]]]]]]]; try discriminate.
  cbn [firstn nth] in *. injection F1 as ->. injection F2 as -> ->. subst p0 q1 w2.
  pose proof (limb_bound3 m Lm Em) as Bm.
  assert (Lx : limbs [w3; w4; w5]).
  { clear - L3. splits. repeat apply Forall_cons; try apply Forall_nil; assumption. }
  pose proof (limb_bound3 [w3; w4; w5] Lx eq_refl) as Bx.
  set (U := U0 + B * U1 + B * B * U2).
  assert (BU : 0 <= U <= B * B * B - 1).
  { unfold U. clear - LU0 LU1 LU2. unfold is_limb in *. unfold B in *. lia. }
  assert (V : B * B * B * val [w3; w4; w5] + B * B * B * B * B * B * (k0 + k1 + k2) = val t + U * val m).
  { unfold U. clear - V0 V1 V2. cbn [val] in *. revert V0 V1 V2. generalize (val m) (val t). generalize B.
    intros b v w V0 V1 V2. lia. }
  assert (Um : U * val m <= (B * B * B - 1) * val m) by (apply Z.mul_le_mono_nonneg_r; lia).
  assert (Kz : k0 + k1 + k2 = 0).
  { clear - V Um Bx Bm H2p Ht K0 K1 K2. revert V Um. generalize (U * val m). unfold B in *. lia. }
  rewrite Kz in V.
  apply (HQ s3 0 0 0 [w3; w4; w5] U); auto.
  - clear - V Um Bx Bm H2p Ht. revert V Um. generalize (U * val m). unfold B in *. lia.
  - lia.
Qed.

Lemma mul3_ok same a b m t s (Q : state -> Prop) (p1 : list instr) (v : Z) :
  holds same a b m t s -> limbs m -> length m = 3%nat -> length t = 6%nat ->
  is_limb (regs s inv) -> (regs s inv * nth 0 m 0 + 1) mod B = 0 ->
  2 * val m <= B * B * B -> v < val m * (B * B * B) ->
  (forall Q' : state -> Prop, (forall s' t', holds same a b m t' s' -> limbs t' -> length t' = 6%nat ->
     regs s' inv = regs s inv -> val t' = v -> Q' s') -> wp (ptrs same 0) p1 s Q') ->
  (forall s' r U, length r = 3%nat -> limbs r -> val r < val m ->
     skipn 3 (mem s' Scratch) = r -> B * B * B * val r = v + U * val m -> Q s') ->
  exists s1 s2 s3, run (ptrs same 0) p1 None s = Ok s1 /\
    run (ptrs same 0) REDUCE_6_LIMB_PRODUCT None s1 = Ok s2 /\
    run (ptrs same 3) cond_sub3_prog None s2 = Ok s3 /\ Q s3.
Proof.
  intros Hs Lm Em Et Li Hi H2p Hv Hp1 HQ.
  destruct (Hp1 (fun s1 => exists s2 s3, run (ptrs same 0) REDUCE_6_LIMB_PRODUCT None s1 = Ok s2 /\
    run (ptrs same 3) cond_sub3_prog None s2 = Ok s3 /\ Q s3)) as (s1 & E1 & s2 & s3 & H).
  2: { exists s1, s2, s3. auto. }
  intros s1 t1 H1 L1 E1 I1 V1.
  edestruct (reduce_ok same a b m t1 s1 (fun s2 => exists s3, run (ptrs same 3) cond_sub3_prog None s2 = Ok s3 /\ Q s3))
    as (s2 & E2 & s3 & H); try assumption; try (rewrite I1; assumption).
  { rewrite V1. assumption. }
  2: { exists s2, s3. auto. }
  intros s2 p0 p1' p2 x U H2 Lx Ex Bx Vx.
  edestruct (cond_sub3_ok same a b m p0 p1' p2 x s2 Q) as (s3 & E3 & H); try assumption.
  2: { exists s3. auto. }
  intros s3 r M3 Lr Er Vr. rewrite V1 in Vx.
  destruct (Z.leb_spec (val m) (val x)).
  - apply (HQ s3 r (U - B * B * B)); auto; [lia|rewrite M3; reflexivity|].
    rewrite Vr. lia.
  - apply (HQ s3 r U); auto; [lia|rewrite M3; reflexivity|]. rewrite Vr. lia.
Qed.
