(** mul_by_cofactor and the shipped cofactors. *)
From Coq Require Import ZArith List Bool Lia Znumtheory.
From Verif Require Import Limbs LimbsProofs GroupOps GroupProofs WnafModel WnafProofs ParamsModel TowerModel CofactorModel.
Import ListNotations.
Open Scope Z_scope.

Section Group.
Context {T G : Type} (O : gops T) (ok : T -> Prop) (den : T -> G) (z : G) (add : G -> G -> G) (opp : G -> G).
Hypothesis GO : gops_ok O ok den z add opp.
Local Notation mul := (gmul z add opp).
Lemma mul_by_cofactor_spec bits h p : 0 <= h < Bn (h_limbs bits) -> ok p ->
  ok (mul_by_cofactor O bits h p) /\ den (mul_by_cofactor O bits h p) = mul h (den p).
Proof.
  intros H Hp. unfold mul_by_cofactor.
  destruct (scalar_mul_spec O ok den z add opp GO p (limbs_of (h_limbs bits) h) (limbs_of_limbs _ _) Hp) as [A B].
  split; [exact A|]. now rewrite B, val_limbs_of_small.
Qed.
(** Into the subgroup, if h r is a multiple of the order of the point. *)
Lemma cofactor_into bits h r p : 0 <= h < Bn (h_limbs bits) -> ok p -> mul (h * r) (den p) = z ->
  mul r (den (mul_by_cofactor O bits h p)) = z.
Proof.
  intros H Hp E. destruct (mul_by_cofactor_spec bits h p H Hp) as [_ ->].
  pose proof (go_group _ _ _ _ _ _ GO) as AG. now rewrite <- (gmul_mul z add opp AG), Z.mul_comm.
Qed.
(** No two points of the subgroup have the same image. *)
Lemma cofactor_inj bits h r p q : 0 <= h < Bn (h_limbs bits) -> ok p -> ok q -> Z.gcd h r = 1 ->
  mul r (den p) = z -> mul r (den q) = z -> den (mul_by_cofactor O bits h p) = den (mul_by_cofactor O bits h q) -> den p = den q.
Proof.
  intros H Hp Hq Gc Rp Rq E. destruct (mul_by_cofactor_spec bits h p H Hp) as [_ Ep]. destruct (mul_by_cofactor_spec bits h q H Hq) as [_ Eq].
  rewrite Ep, Eq in E. pose proof (go_group _ _ _ _ _ _ GO) as AG.
  destruct (Zis_gcd_bezout h r 1) as [u v B]; [rewrite <- Gc; apply Zgcd_is_gcd|].
  assert (X : forall x, mul r x = z -> x = mul u (mul h x)).
  { intros x Rx. rewrite <- (gmul_1 z add opp AG x) at 1. rewrite <- B, (gmul_add z add opp AG), !(gmul_mul z add opp AG), Rx, (gmul_zero z add opp AG).
    apply (ag_0_r _ _ _ AG). }
  rewrite (X _ Rp), (X _ Rq). now rewrite E.
Qed.
Lemma cofactor_one p : den (mul_by_cofactor_one p) = mul 1 (den p).
Proof. symmetry. apply (gmul_1 z add opp (go_group _ _ _ _ _ _ GO)). Qed.
End Group.

(** h fits in its limbs and in h_bitcount, is prime to r, and h r differs from the
    size of the field plus one by at most twice the square root of the size. *)
Definition cofactor_good (c : cofactor) : Prop :=
  0 < co_h c < Bn (h_limbs (co_bits c)) /\ co_h c < 2 ^ co_bits c /\ Z.gcd (co_h c) (co_r c) = 1 /\
  (co_h c * co_r c - co_field c - 1) ^ 2 <= 4 * co_field c.
Definition cofactor_goodb (c : cofactor) : bool :=
  (0 <? co_h c) && (co_h c <? Bn (h_limbs (co_bits c))) && (co_h c <? 2 ^ co_bits c) && (Z.gcd (co_h c) (co_r c) =? 1) &&
  ((co_h c * co_r c - co_field c - 1) ^ 2 <=? 4 * co_field c).
Lemma shipped_cofactors_good c : In c shipped_cofactors -> cofactor_good c.
Proof.
  intros I. assert (A : forallb cofactor_goodb shipped_cofactors = true) by (vm_compute; reflexivity).
  rewrite forallb_forall in A. specialize (A c I). unfold cofactor_goodb in A.
  rewrite !andb_true_iff, !Z.ltb_lt, Z.eqb_eq, Z.leb_le in A. unfold cofactor_good. tauto.
Qed.

(** The cofactors of the twists from the trace t of the curve: the quadratic twist over
    Fq2 and Fq3 has trace - t2 and - t3, where t2 = t^2 - 2q and t3 = t^3 - 3qt; the
    sextic twist over Fq2 has trace c with (2c - t2)^2 = 3 (4 q^2 - t2^2). *)
Definition sextic_trace (D : twelve_consts) : Prop :=
  let q := fc_p (bt_Fq D) in let r := fc_p (bt_Fr D) in let t := q + 1 - bt_h1 D * r in let t2 := t ^ 2 - 2 * q in
  let c := q ^ 2 + 1 - bt_h2 D * r in (2 * c - t2) ^ 2 = 3 * (4 * q ^ 2 - t2 ^ 2).
Lemma twist_traces :
  sextic_trace alt_bn128_tower /\ sextic_trace bls12_381_tower /\
  (let q := fc_p mnt4_Fq_C in let r := fc_p mnt4_Fr_C in let t := q + 1 - ft_h1 mnt4_tower * r in
   ft_h2 mnt4_tower * r = q ^ 2 + 1 + (t ^ 2 - 2 * q)) /\
  (let q := fc_p mnt6_Fq_C in let r := fc_p mnt6_Fr_C in let t := q + 1 - mnt6_h1 * r in
   mnt6_h2 * r = q ^ 3 + 1 + (t ^ 3 - 3 * q * t)).
Proof. vm_compute. repeat split. Qed.
(** Hasse's interval holds one multiple of r, so h of G1 is exact. *)
Lemma g1_unique c h : In c [nth 0 shipped_cofactors (mkCofactor 0 0 0 0); nth 2 shipped_cofactors (mkCofactor 0 0 0 0);
    nth 4 shipped_cofactors (mkCofactor 0 0 0 0); nth 6 shipped_cofactors (mkCofactor 0 0 0 0)] ->
  (h * co_r c - co_field c - 1) ^ 2 <= 4 * co_field c -> h = co_h c.
Proof.
  intros I H.
  assert (A : (co_h c * co_r c - co_field c - 1) ^ 2 <= 4 * co_field c /\ 16 * co_field c < co_r c ^ 2 /\ 0 < co_r c /\ 0 < co_field c).
  { cbn [In] in I. destruct I as [<-|[<-|[<-|[<-|[]]]]]; vm_compute; repeat split; discriminate. }
  destruct A as (A & R & P1 & P2).
  set (u := co_h c * co_r c - co_field c - 1) in *. set (v := h * co_r c - co_field c - 1) in *.
  assert (E : v - u = (h - co_h c) * co_r c) by (unfold u, v; ring).
  assert (B : (v - u) ^ 2 <= 16 * co_field c) by nia.
  rewrite E in B. destruct (Z.eq_dec (h - co_h c) 0) as [|N]; [lia|]. exfalso.
  assert (1 <= (h - co_h c) ^ 2) by nia. nia.
Qed.
