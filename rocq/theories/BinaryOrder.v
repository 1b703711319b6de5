(** Facts about the shipped binary fields: every configuration of operator*=
    gives a field; order of the multiplicative generator; words and streams. *)
From Coq Require Import NArith ZArith List Bool Lia Ring Arith Znumtheory.
From Verif Require Import Result Limbs LimbsProofs BigintModel AlgorithmsModel AlgorithmsProofs Algebra NumTheory Certs
  FieldOps Gf2Poly BinaryModel BinaryProofs BinaryField BinaryInst BinaryCerts.
Import ListNotations.
Open Scope N_scope.

(** * The configurations *)
Theorem cfg_spec asm kara g : prod_spec (gf_of g) (gf_mul_cfg asm kara g).
Proof.
  pose proof (gf_mul_spec (gf_of g) (class_W1 g) (class_n1 g) (class_m g)) as P.
  destruct asm; [|exact P]. destruct g; cbn [gf_mul_cfg].
  - exact P.
  - exact gf64_asm_spec.
  - exact gf128_asm_spec.
  - exact gf192_asm_spec.
  - destruct kara; [exact gf256_karatsuba_spec|exact gf256_naive_spec].
Qed.
Theorem cfg_same asm kara g a b : gok (gf_of g) a -> gok (gf_of g) b ->
  gf_mul_cfg asm kara g a b = gf_mul (gf_of g) a b.
Proof.
  apply (prod_spec_unique (gf_of g) (class_W1 g) (class_n1 g) (class_m g)); [apply cfg_spec|].
  exact (gf_mul_spec (gf_of g) (class_W1 g) (class_n1 g) (class_m g)).
Qed.

Definition cert_of (g : gf_name) : list N :=
  match g with G32 => cert32 | G64 => cert64 | G128 => cert128 | G192 => cert192 | G256 => cert256 end.
Lemma cert_ok g : check_cols (gk (gf_of g)) (gmod (gf_of g)) (cert_of g) (N.to_nat (gk (gf_of g))) 1 = true.
Proof. destruct g; vm_compute; reflexivity. Qed.
Lemma frob_ok g : (rsq_iter (gk (gf_of g)) (gmod (gf_of g)) (N.to_nat (gk (gf_of g))) 2 =? 2) = true.
Proof. destruct g; vm_compute; reflexivity. Qed.
Lemma class_idem g z : z < 2 ^ gk (gf_of g) -> pcong (gpoly (gf_of g)) (pmul z z) z -> z = 0 \/ z = 1.
Proof.
  apply (idempotents (gk (gf_of g)) (gmod (gf_of g)) (cert_of g)); [|apply cert_ok].
  apply gmod_k; auto using class_W1, class_n1, class_m.
Qed.
Lemma class_frob g : pcong (gpoly (gf_of g)) (sq_iter (N.to_nat (gk (gf_of g))) 2) 2.
Proof.
  pose proof (frob_ok g) as H. apply N.eqb_eq in H.
  eapply pcong_trans; [apply pcong_sym, (rsq_iter_cong (gk (gf_of g)) (gmod (gf_of g)))|].
  rewrite H. apply pcong_refl.
Qed.

Section Cfg.
Variables (asm kara : bool) (g : gf_name).
Notation G := (gf_of g).
Notation mul := (gf_mul_cfg asm kara g).
Definition cfg_ops : Fops (GF G) := gf_ops g mul (cfg_spec asm kara g).
Theorem cfg_field : field_ok cfg_ops.
Proof. exact (gf_field g mul (cfg_spec asm kara g) (class_frob g) (class_idem g)). Qed.
Theorem cfg_inverse a : gok G a -> a <> gf_zero G ->
  exists b, gf_inverse mul g a = Ok b /\ gok G b /\ mul a b = gf_one G.
Proof. exact (gf_inverse_spec g mul (cfg_spec asm kara g) (class_frob g) (class_idem g) a). Qed.
Theorem cfg_inverse_zero : gf_inverse mul g (gf_zero G) = AssertFail.
Proof. exact (gf_inverse_zero g mul (cfg_spec asm kara g) (class_frob g) (class_idem g)). Qed.
Theorem cfg_sqrt a : gok G a -> gok G (gf_sqrt mul g a) /\ mul (gf_sqrt mul g a) (gf_sqrt mul g a) = a.
Proof. exact (gf_sqrt_spec g mul (cfg_spec asm kara g) (class_frob g) (class_idem g) a). Qed.
Theorem cfg_sqrt_unique a b : gok G a -> gok G b -> mul b b = a -> b = gf_sqrt mul g a.
Proof. exact (gf_sqrt_unique g mul (cfg_spec asm kara g) (class_frob g) (class_idem g) a b). Qed.
End Cfg.
Theorem class_irreducible g a b : pmul a b = gpoly (gf_of g) -> a = 1 \/ b = 1.
Proof. exact (gf_irreducible g _ (cfg_spec false false g) (class_frob g) (class_idem g) a b). Qed.

(** * Order of an element *)
Section Order.
Context {T : Type} (one : T) (mul : T -> T -> T).
Hypothesis M : monoid_laws one mul.
Local Open Scope Z_scope.
Notation pw := (zpow one mul).
Lemma zpow_gcd x a b : 0 <= a -> 0 < b -> pw x a = one -> pw x b = one -> pw x (Z.gcd a b) = one.
Proof.
  intros Ha Hb Ea Eb.
  (* u a = gcd + w b with u, w >= 0 *)
  destruct (Z.gcd_bezout a b _ eq_refl) as (u0 & v0 & Bz).
  set (t := Z.abs u0 + Z.abs v0 + 1).
  set (u := u0 + t * b). set (w := t * a - v0).
  assert (Ht : 0 <= t) by (unfold t; lia).
  assert (Hu : 0 <= u) by (unfold u, t; nia).
  assert (E : u * a = Z.gcd a b + w * b) by (unfold u, w; nia).
  assert (Hw : 0 <= w \/ a = 0) by (unfold w, t; nia).
  pose proof (Z.gcd_nonneg a b).
  destruct Hw as [Hw| ->].
  - assert (P1 : pw x (u * a) = one).
    { rewrite Z.mul_comm, (zpow_mul one mul M) by lia. rewrite Ea. now apply zpow_one. }
    assert (P2 : pw x (w * b) = one).
    { rewrite Z.mul_comm, (zpow_mul one mul M) by lia. rewrite Eb. now apply zpow_one. }
    rewrite E, (zpow_add one mul M), P2, (ml_1_r _ _ M) in P1 by nia. exact P1.
  - rewrite Z.gcd_0_l, Z.abs_eq by lia. exact Eb.
Qed.
Lemma prime_in_list p fs : prime p -> Forall prime fs -> (p | zprod fs) -> In p fs.
Proof.
  intros Pp. induction 1 as [|q fs Hq F IH]; cbn [zprod fold_right]; intros D.
  - destruct Pp as [P1 _]. apply Z.divide_pos_le in D; lia.
  - apply prime_mult in D as [D|D]; auto.
    + left. symmetry. now apply prime_div_prime.
    + right. auto.
Qed.
Theorem order_spec x n fs : 0 < n -> n = zprod fs -> Forall prime fs -> pw x n = one ->
  (forall p, In p fs -> pw x (n / p) <> one) ->
  forall e, 0 <= e -> pw x e = one <-> (n | e).
Proof.
  intros Hn En F Hx Hp e He. split.
  - intros Hxe. pose proof (zpow_gcd x e n He Hn Hxe Hx) as Hd.
    pose proof (Z.gcd_divide_l e n) as D1. pose proof (Z.gcd_divide_r e n) as D2.
    pose proof (Z.gcd_nonneg e n). set (d := Z.gcd e n) in *.
    destruct D2 as [c Ec].
    assert (0 < d) by (destruct (Z.eq_dec d 0) as [Z0|]; [rewrite Z0 in Ec; lia|lia]).
    clearbody d. assert (0 < c) by (apply (Z.mul_pos_cancel_r c d); lia).
    destruct (Z.eq_dec c 1) as [->|C1]. { now replace n with d by lia. }
    exfalso. destruct (has_prime_divisor c) as (p & Pp & [c' Dp]); [lia|].
    assert (1 < p) by (destruct Pp; lia). assert (0 < c') by nia.
    apply (Hp p).
    + apply prime_in_list; auto. rewrite <- En, Ec, Dp. exists (c' * d). ring.
    + replace (n / p) with (d * c').
      * rewrite (zpow_mul one mul M) by lia. rewrite Hd. now apply zpow_one.
      * symmetry. rewrite Ec, Dp. replace (c' * p * d) with (d * c' * p) by ring. apply Z.div_mul. lia.
  - intros [c Ec]. subst e. assert (0 <= c) by nia. rewrite Z.mul_comm, (zpow_mul one mul M) by lia.
    rewrite Hx. now apply zpow_one.
Qed.
End Order.

(** * The generator *)
Section Gen.
Variables (asm kara : bool) (g : gf_name).
Notation G := (gf_of g).
Notation k := (gk G).
Notation mul := (gf_mul_cfg asm kara g).
Notation F := (cfg_ops asm kara g).
Notation ep := (zpow (o1 F) (omul F)).
Lemma gen_ok : gok G (gf_multiplicative_generator G) /\ gval (gW G) (gf_multiplicative_generator G) = 2.
Proof. apply of_low_spec; auto using class_W1, class_n1, class_m. destruct g; reflexivity. Qed.
Definition gen : GF G := mkGF (gf_multiplicative_generator G) (proj1 gen_ok).
Lemma vl_gen : vl g gen = 2. Proof. exact (proj2 gen_ok). Qed.

Lemma apow_spec x a e : vl g x = a -> pcong (gpoly G) (vl g (ep x (Zpos e))) (apow k (gmod G) a e).
Proof.
  intros V. pose proof (rk_monoid F (fk_ring F (cfg_field asm kara g))) as M. induction e; cbn [apow].
  - rewrite Pos2Z.inj_xI. replace (2 * Z.pos e + 1)%Z with (Z.pos e + Z.pos e + 1)%Z by lia.
    rewrite !(zpow_add _ _ M), (zpow_1 _ _ M) by lia.
    eapply pcong_trans; [apply vl_mul|]. eapply pcong_trans; [apply pcong_mul; [apply vl_mul|apply pcong_refl]|].
    apply pcong_sym. eapply pcong_trans; [apply red_cong|]. rewrite V. apply pcong_mul; [|apply pcong_refl].
    eapply pcong_trans; [apply rsq_cong|]. apply pcong_mul; now apply pcong_sym.
  - rewrite Pos2Z.inj_xO. replace (2 * Z.pos e)%Z with (Z.pos e + Z.pos e)%Z by lia.
    rewrite !(zpow_add _ _ M) by lia.
    eapply pcong_trans; [apply vl_mul|]. apply pcong_sym. eapply pcong_trans; [apply rsq_cong|].
    apply pcong_mul; now apply pcong_sym.
  - rewrite (zpow_1 _ _ M), V. apply pcong_refl.
Qed.
(** Deciding x^e = 1. *)
Definition is_one (a : N) (e : positive) : option bool :=
  let r := apow k (gmod G) a e in if r <? 2 ^ k then Some (r =? 1) else None.
Lemma is_one_spec x a e b : vl g x = a -> is_one a e = Some b -> (ep x (Zpos e) = o1 F <-> b = true).
Proof.
  intros V H. unfold is_one in H. cbv zeta in H. pose proof (apow_spec x a e V) as C.
  set (r := apow k (gmod G) a e) in *. destruct (N.ltb_spec r (2 ^ k)) as [L|]; [|discriminate]. injection H as <-.
  rewrite N.eqb_eq. split; intros E.
  - rewrite E in C. change (vl g (o1 F)) with (vl g (eone g)) in C. rewrite vl_one in C.
    symmetry. apply (pcong_unique (gpoly G) k); auto.
    + apply gpoly_ge; auto using class_W1, class_n1, class_m.
    + rewrite <- (vl_one g). apply vl_lt.
  - apply (vl_cong g). eapply pcong_trans; [exact C|]. rewrite E. apply pcong_eq. symmetry. apply (vl_one g).
Qed.
(** The code's operator^ is this power. *)
Lemma pow_code x e : limbs e -> gf_pow_bigint mul g (rep x) e = rep (ep x (val e)).
Proof.
  intros L. rewrite <- (rep_power g mul (cfg_spec asm kara g)). f_equal.
  pose proof (rk_monoid F (fk_ring F (cfg_field asm kara g))) as M.
  exact (power_bigint_spec (o1 F) (omul F) M x e L).
Qed.
End Gen.

(** Prime factorisation of 2^k - 1. *)
Definition fermat_certs : list cert := ([
  (Small 3);
  (Small 5);
  (Small 17);
  (Small 257);
  (Small 65537);
  (Small 641);
  (Pock 6700417 3 [((Small 17449), 1)]);
  (Small 274177);
  (Pock 67280421310721 3 [((Small 373), 1); ((Small 47), 1); ((Small 5), 1); ((Small 2), 8)]);
  (Pock 59649589127497217 3 [((Pock 116503103764643 2 [((Pock 18533742247 2 [((Pock 1896229 2 [((Small 52673), 1)]), 1)]), 1)]), 1)]);
  (Pock 5704689200685129054721 3 [((Pock 733803839347 2 [((Pock 55515497 2 [((Pock 6939437 2 [((Small 139), 1); ((Small 7), 1); ((Small 2), 2)]), 1)]), 1)]), 1)])])%Z.
Definition factors (g : gf_name) : list cert :=
  match g with
  | G32 => firstn 5 fermat_certs
  | G64 => firstn 7 fermat_certs
  | G128 => firstn 9 fermat_certs
  | G192 => []
  | G256 => fermat_certs
  end.
Definition gen_check (g : gf_name) : bool :=
  let n := (2 ^ Z.of_N (gk (gf_of g)) - 1)%Z in
  let fs := map cert_num (factors g) in
  Z.eqb (zprod fs) n &&
  (match is_one g 2 (Z.to_pos n) with Some b => b | None => false end) &&
  forallb (fun p => match is_one g 2 (Z.to_pos (n / p)) with Some b => negb b | None => false end) fs.
Lemma gen_check_ok g : g <> G192 -> gen_check g = true.
Proof. destruct g; intros H; try contradiction; vm_compute; reflexivity. Qed.
Lemma factors_prime g : Forall prime (map cert_num (factors g)).
Proof.
  assert (A : Forall prime (map cert_num fermat_certs)).
  { assert (H : forallb check fermat_certs = true) by (vm_compute; reflexivity).
    apply Forall_forall. intros p Hp. apply in_map_iff in Hp as (c & <- & Hc).
    rewrite forallb_forall in H. apply (check_prime c); auto. }
  assert (B : forall n, Forall prime (map cert_num (firstn n fermat_certs))).
  { intros n. rewrite Forall_forall in *. intros p Hp. apply A. rewrite <- (firstn_skipn n fermat_certs), map_app.
    apply in_or_app. now left. }
  destruct g; cbn [factors]; auto. constructor.
Qed.

Theorem generator_order asm kara g e : g <> G192 -> limbs e ->
  gf_pow_bigint (gf_mul_cfg asm kara g) g (gf_multiplicative_generator (gf_of g)) e = gf_one (gf_of g) <->
  (2 ^ Z.of_N (gk (gf_of g)) - 1 | val e)%Z.
Proof.
  intros Ng L. change (gf_multiplicative_generator (gf_of g)) with (rep (gen g)).
  rewrite (pow_code asm kara g) by auto. pose proof (gen_check_ok g Ng) as H. unfold gen_check in H.
  apply andb_true_iff in H as [H H3]. apply andb_true_iff in H as [H1 H2]. apply Z.eqb_eq in H1.
  set (n := (2 ^ Z.of_N (gk (gf_of g)) - 1)%Z) in *. set (F := cfg_ops asm kara g).
  assert (Hn : (0 < n)%Z) by (unfold n; destruct g; reflexivity).
  pose proof (rk_monoid F (fk_ring F (cfg_field asm kara g))) as M.
  transitivity (zpow (o1 F) (omul F) (gen g) (val e) = o1 F).
  { split; [intros H; now apply rep_inj|now intros ->]. }
  apply (order_spec (o1 F) (omul F) M (gen g) n (map cert_num (factors g))); auto.
  - apply factors_prime.
  - destruct (is_one g 2 (Z.to_pos n)) as [b|] eqn:E; [|discriminate]. subst b.
    pose proof (proj2 (is_one_spec asm kara g (gen g) 2 (Z.to_pos n) true (vl_gen g) E) eq_refl) as Q.
    now rewrite Z2Pos.id in Q by auto.
  - intros p Hp. rewrite forallb_forall in H3. specialize (H3 p Hp).
    assert (Pp : prime p) by (pose proof (factors_prime g) as FP; rewrite Forall_forall in FP; auto).
    assert (Hp1 : (1 < p)%Z) by (destruct Pp; lia).
    assert (Dp : (p | n)%Z).
    { rewrite <- H1. clear -Hp. induction (map cert_num (factors g)) as [|q l IH]; [contradiction|].
      cbn [zprod fold_right]. destruct Hp as [->|Hp]; [apply Z.divide_factor_l|].
      apply Z.divide_mul_r. auto. }
    assert (Hq : (0 < n / p)%Z).
    { destruct Dp as [c Ec]. rewrite Ec, Z.div_mul by lia. nia. }
    destruct (is_one g 2 (Z.to_pos (n / p))) as [b|] eqn:E; [|discriminate]. apply negb_true_iff in H3. subst b.
    intros K. pose proof (is_one_spec asm kara g (gen g) 2 (Z.to_pos (n / p)) false (vl_gen g) E) as Q.
    rewrite Z2Pos.id in Q by auto. apply Q in K. discriminate.
  - now apply val_nonneg.
Qed.

(** gf192: x has order (2^192-1)/2169. *)
Definition gf192_gen_order : Z := ((2 ^ 192 - 1) / 2169)%Z.
Theorem gf192_gen_small asm kara :
  gf_pow_bigint (gf_mul_cfg asm kara G192) G192 (gf_multiplicative_generator gf192) (limbs_of 3 gf192_gen_order)
  = gf_one gf192.
Proof.
  change (gf_multiplicative_generator gf192) with (rep (gen G192)). change gf192 with (gf_of G192).
  rewrite (pow_code asm kara G192) by apply limbs_of_limbs.
  assert (V : val (limbs_of 3 gf192_gen_order) = Zpos (Z.to_pos gf192_gen_order)) by (vm_compute; reflexivity).
  rewrite V. assert (E : is_one G192 2 (Z.to_pos gf192_gen_order) = Some true) by (vm_compute; reflexivity).
  pose proof (proj2 (is_one_spec asm kara G192 (gen G192) 2 _ true (vl_gen G192) E) eq_refl) as Q. rewrite Q. reflexivity.
Qed.
(** The element x^2 + x + 1 is not a power of the generator. *)
Theorem gf192_gen_misses asm kara e : limbs e ->
  gf_pow_bigint (gf_mul_cfg asm kara G192) G192 (gf_multiplicative_generator gf192) e <> [7; 0; 0].
Proof.
  intros L H. set (F := cfg_ops asm kara G192).
  pose proof (rk_monoid F (fk_ring F (cfg_field asm kara G192))) as M.
  change (gf_multiplicative_generator gf192) with (rep (gen G192)) in H.
  rewrite (pow_code asm kara G192) in H by auto.
  assert (O7 : gok (gf_of G192) [7; 0; 0]) by (apply gokb_spec; reflexivity).
  set (y := mkGF [7; 0; 0] O7 : GF (gf_of G192)).
  assert (Ey : zpow (o1 F) (omul F) (gen G192) (val e) = y) by now apply rep_inj.
  set (q := Z.to_pos ((2 ^ 192 - 1) / 3)).
  assert (Vy : vl G192 y = 7) by reflexivity.
  assert (E7 : is_one G192 7 q = Some false) by (vm_compute; reflexivity).
  assert (E2 : is_one G192 2 q = Some true) by (vm_compute; reflexivity).
  pose proof (is_one_spec asm kara G192 y 7 q false Vy E7) as Q7.
  pose proof (proj2 (is_one_spec asm kara G192 (gen G192) 2 q true (vl_gen G192) E2) eq_refl) as Q2.
  enough (zpow (o1 F) (omul F) y (Zpos q) = o1 F) as K by (apply Q7 in K; discriminate).
  rewrite <- Ey, <- (zpow_mul _ _ M), Z.mul_comm, (zpow_mul _ _ M) by (try apply val_nonneg; auto; lia).
  fold F in Q2. rewrite Q2. now apply zpow_one.
Qed.
Theorem gf192_not_generator asm kara :
  (exists e, limbs e /\ (0 < val e < 2 ^ 192 - 1)%Z /\
    gf_pow_bigint (gf_mul_cfg asm kara G192) G192 (gf_multiplicative_generator gf192) e = gf_one gf192) /\
  (exists a, gok gf192 a /\ a <> gf_zero gf192 /\ forall e, limbs e ->
    gf_pow_bigint (gf_mul_cfg asm kara G192) G192 (gf_multiplicative_generator gf192) e <> a).
Proof.
  split.
  - exists (limbs_of 3 gf192_gen_order). split; [apply limbs_of_limbs|]. split; [|apply gf192_gen_small].
    split; vm_compute; reflexivity.
  - exists [7; 0; 0]. split; [apply gokb_spec; reflexivity|]. split; [discriminate|]. apply gf192_gen_misses.
Qed.

(** * Statements of the properties that unfold the specification *)
Theorem cfg_mul_explicit asm kara g a b : gok (gf_of g) a -> gok (gf_of g) b ->
  gok (gf_of g) (gf_mul_cfg asm kara g a b) /\
  exists c, pmul (gval (gW (gf_of g)) a) (gval (gW (gf_of g)) b) =
            N.lxor (gval (gW (gf_of g)) (gf_mul_cfg asm kara g a b)) (pmul c (gpoly (gf_of g))).
Proof.
  intros Ha Hb. destruct (cfg_spec asm kara g a b Ha Hb) as [O [_ [c E]]]. split; auto. exists c.
  unfold gpoly. rewrite <- E. now rewrite N.lxor_comm, N.lxor_assoc, N.lxor_nilpotent, N.lxor_0_r.
Qed.
Theorem class_add g a b : gok (gf_of g) a -> gok (gf_of g) b ->
  gok (gf_of g) (gf_add a b) /\ gf_sub a b = gf_add a b /\
  gval (gW (gf_of g)) (gf_add a b) = N.lxor (gval (gW (gf_of g)) a) (gval (gW (gf_of g)) b).
Proof. intros Ha Hb. destruct (xor_ok (gf_of g) a b Ha Hb). repeat split; auto; apply H. Qed.
Theorem class_representation g : (forall a b, gok (gf_of g) a -> gok (gf_of g) b ->
    gval (gW (gf_of g)) a = gval (gW (gf_of g)) b -> a = b) /\
  (forall v, v < 2 ^ gk (gf_of g) <-> exists a, gok (gf_of g) a /\ gval (gW (gf_of g)) a = v).
Proof.
  split; [apply gok_inj|]. intros v. split.
  - intros Hv. destruct (gsplit_spec (gW (gf_of g)) (gn (gf_of g)) v Hv) as (L & Wd & V).
    exists (gsplit (gW (gf_of g)) (gn (gf_of g)) v). split; [split|]; auto.
  - intros (a & Ha & <-). now apply gval_k.
Qed.
Theorem cfg_ops_code asm kara g (x y : GF (gf_of g)) : let F := cfg_ops asm kara g in
  rep (o0 F) = gf_zero (gf_of g) /\ rep (o1 F) = gf_one (gf_of g) /\
  rep (oadd F x y) = gf_add (rep x) (rep y) /\ rep (osub F x y) = gf_sub (rep x) (rep y) /\
  rep (omul F x y) = gf_mul_cfg asm kara g (rep x) (rep y) /\ rep (oopp F x) = gf_neg_of g (rep x) /\
  rep (osqr F x) = gf_squared (gf_mul_cfg asm kara g) (rep x) /\
  rmap rep (oinv F x) = gf_inverse (gf_mul_cfg asm kara g) g (rep x) /\
  oeqb F x y = gf_eqb (rep x) (rep y).
Proof.
  intros F. do 7 (split; [reflexivity|]). split; [|reflexivity].
  exact (rep_einv g _ (cfg_spec asm kara g) x).
Qed.
Theorem class_char2 g a : gok (gf_of g) a -> gf_add a a = gf_zero (gf_of g) /\ gf_neg_of g a = a.
Proof.
  intros Ha. split; [|destruct g; auto; destruct a as [|? [|? [|? ?]]]; reflexivity]. exact (f_equal rep (gf_char2 g (mkGF a Ha))).
Qed.
