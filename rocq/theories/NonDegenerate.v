(** The pairing of the shipped generators is not one (C49): the pairing code is
    run on the Montgomery copy of the field. *)
From Coq Require Import ZArith List Bool Lia Znumtheory.
From Verif Require Import Result Algebra FieldOps FpSpec FpModel FpInst ParamsModel ParamsProofs ExtModel ExtProofs ExtFrob ExtInst CurveSpec CurveModel Hom Mod63 MontRing HomMont HomPairing TowerModel TowerSpec TowerShipped
  FinalExpProofs PairingModel PairingShipped MillerSpec MillerTwelve MillerShipped GenProofs GenShipped BilinearShipped ParamsA ParamsB ParamsC ParamsD.
Import ListNotations.
Open Scope Z_scope.

Definition is_ok_ne1 {T} (F : Fops T) (r : result T) : bool :=
  match r with Ok x => negb (oeqb F x (o1 F)) | _ => false end.
(** [pairing] on the copy, at the generators. *)
Definition pair_check (D : twelve_consts)
  (pairing : forall K, Fops K -> (Z -> K) -> twelve_consts -> K * K * K -> (K * K) * (K * K) * (K * K) ->
    result ((K * K) * (K * K) * (K * K) * ((K * K) * (K * K) * (K * K)))) : bool :=
  let C := mk_rctx (fc_p (bt_Fq D)) in
  let n := cn (bt_Fq D) in
  let G := r_ops C in
  let P := (mont_e C n (fst (bt_G1 D)), mont_e C n (snd (bt_G1 D)), o1 G) in
  let Q := (map2 (mont_e C n) (fst (bt_G2 D)), map2 (mont_e C n) (snd (bt_G2 D)), (o1 G, o0 G)) in
  is_ok_ne1 (twF12 G (mont_e C n) D) (pairing _ G (mont_e C n) D P Q).
Lemma alt_bn128_pair_check : pair_check alt_bn128_tower (@tw_alt_reduced_pairing) = true. Proof. vm_compute. reflexivity. Qed.
Lemma bls12_381_pair_check : pair_check bls12_381_tower (@tw_bls_reduced_pairing) = true. Proof. vm_compute. reflexivity. Qed.

Lemma pow_order {T} (F : Fops T) (R : ring_ok F) v r : prime r -> v <> o1 F -> fpow F v (Z.to_nat r) = o1 F ->
  forall n, fpow F v n = o1 F <-> (r | Z.of_nat n).
Proof.
  intros Pr N1 Er n. pose proof (rk_monoid F R) as M. assert (R2 : 2 <= r) by now apply prime_ge_2.
  assert (P1 : forall k, fpow F v (Z.to_nat r * k) = o1 F) by (intros k; rewrite (npow_mul _ _ M), Er; apply (npow_one _ _ M)).
  split.
  - intros En. destruct (Zdivide_dec r (Z.of_nat n)) as [DV|ND]; [exact DV|]. exfalso. apply N1.
    assert (RP : rel_prime r (Z.of_nat n)) by now apply prime_rel_prime.
    destruct (rel_prime_bezout _ _ RP) as [a b E].
    pose (b' := b mod r). pose (a' := (b' * Z.of_nat n - 1) / r).
    assert (B0 : 0 <= b' < r) by (apply Z.mod_pos_bound; lia).
    assert (E2 : (b' * Z.of_nat n - 1) mod r = 0).
    { unfold b'. rewrite Zminus_mod, Zmult_mod_idemp_l, <- Zminus_mod. replace (b * Z.of_nat n - 1) with ((- a) * r) by lia. apply Z_mod_mult. }
    assert (E3 : b' * Z.of_nat n = 1 + a' * r) by (unfold a'; pose proof (Z_div_mod_eq_full (b' * Z.of_nat n - 1) r); lia).
    assert (A0 : 0 <= a').
    { destruct (Z_lt_le_dec a' 0) as [L|]; [|assumption]. exfalso. assert (b' * Z.of_nat n < 0) by nia. nia. }
    transitivity (fpow F v (n * Z.to_nat b')).
    + replace (n * Z.to_nat b')%nat with (1 + Z.to_nat r * Z.to_nat a')%nat.
      * rewrite (npow_add _ _ M), P1, (npow_1 _ _ M). symmetry. apply (ml_1_r _ _ M).
      * apply Nat2Z.inj. rewrite Nat2Z.inj_add, !Nat2Z.inj_mul, !Z2Nat.id by lia. change (Z.of_nat 1) with 1. lia.
    + rewrite (npow_mul _ _ M), En. apply (npow_one _ _ M).
  - intros [k E]. assert (0 <= k) by nia. replace n with (Z.to_nat r * Z.to_nat k)%nat; [apply P1|].
    apply Nat2Z.inj. rewrite Nat2Z.inj_mul, !Z2Nat.id by lia. lia.
Qed.

(** There is v of order r with pairing(a G1, b G2) = v^(a b) for 1 <= a, b < r; so
    no such pairing is one. *)
Definition pair_nondegenerate {K} (F : Fops K) (e : Z -> K) (D : twelve_consts)
    (pairing : K * K * K -> (K * K) * (K * K) * (K * K) -> result ((K * K) * (K * K) * (K * K) * ((K * K) * (K * K) * (K * K)))) : Prop :=
  let F2 := twF2 F e D in let F12 := twF12 F e D in let r := fc_p (bt_Fr D) in
  exists v, (forall n, fpow F12 v n = o1 F12 <-> (r | Z.of_nat n)) /\
  forall a b P Q, Z.pos a < r -> Z.pos b < r ->
  jac_den F P = mult F (o0 F) a (gen1 e D) -> jac_den F2 Q = mult F2 (o0 F2) b (gen2 e D) ->
  pairing P Q = Ok (fpow F12 v (Pos.to_nat (a * b))) /\ pairing P Q <> Ok (o1 F12).
Lemma nondegenerate_of D CO (pairing : forall K, Fops K -> (Z -> K) -> twelve_consts -> K * K * K -> (K * K) * (K * K) * (K * K) ->
    result ((K * K) * (K * K) * (K * K) * ((K * K) * (K * K) * (K * K)))) :
  In D shipped_twelve -> prime (fc_p (bt_Fr D)) -> pair_check D pairing = true ->
  (forall (A B : Type) (F : Fops A) (G : Fops B) (h : A -> B), homi F G h -> forall e eG, (forall z, eG z = h (e z)) ->
    forall P Q, pairing B G eG D (map3 h P) (map3 (map2 h) Q) = rmap (map2 (map3 (map2 h))) (pairing A F e D P Q)) ->
  let F := cF (bt_Fq D) CO in let e := ce (bt_Fq D) CO in
  pair_generators F e D (pairing _ F e D) -> pair_nondegenerate F e D (pairing _ F e D).
Proof.
  intros HI Pr Ck Hm F e (v & Ev & Er & Hv). pose proof (shipped_twelve_ok D CO HI) as T. pose proof (to_nr12 F e D T) as A8.
  assert (R12 : ring_ok (twF12 F e D)).
  { unfold twF12. rewrite A8. exact (fp12_ring F (fk_ring F (pb_field F _ (base_prime (bt_Fq D) CO))) _ _). }
  pose proof (base_mont (bt_Fq D) CO (shipped_rctx D HI)) as HM. pose proof (base_mont_e (bt_Fq D) CO (shipped_rctx D HI)) as He.
  set (h := mont (fc_P (bt_Fq D))) in *. set (C := mk_rctx (fc_p (bt_Fq D))) in *. 
  assert (N1 : v <> o1 (twF12 F e D)).
  { intros ->. unfold pair_check in Ck. fold C in Ck. cbv zeta in Ck.
    assert (EP : (mont_e C (cn (bt_Fq D)) (fst (bt_G1 D)), mont_e C (cn (bt_Fq D)) (snd (bt_G1 D)), o1 (r_ops C)) =
      map3 h (e (fst (bt_G1 D)), e (snd (bt_G1 D)), o1 F)).
    { unfold map3. cbn [fst snd]. rewrite !He. f_equal. symmetry. exact (hi_1 HM). }
    assert (EQ : (map2 (mont_e C (cn (bt_Fq D))) (fst (bt_G2 D)), map2 (mont_e C (cn (bt_Fq D))) (snd (bt_G2 D)), (o1 (r_ops C), o0 (r_ops C))) =
      map3 (map2 h) (map2 e (fst (bt_G2 D)), map2 e (snd (bt_G2 D)), o1 (twF2 F e D))).
    { unfold map3. cbn [fst snd]. rewrite !(e_map2 e _ He). f_equal. symmetry. exact (hi_1 (homi_fp2 HM (e (bt_nr2 D)))). }
    rewrite EP, EQ, (Hm _ _ F (r_ops C) h HM e _ He) in Ck.
    match type of Ck with context [rmap ?f ?r] => change r with (pairing _ F e D (e (fst (bt_G1 D)), e (snd (bt_G1 D)), o1 F) (map2 e (fst (bt_G2 D)), map2 e (snd (bt_G2 D)), o1 (twF2 F e D))) in Ck end.
    rewrite Ev in Ck. cbn [rmap bind is_ok_ne1] in Ck.
    pose proof (homi_fp12 HM (e (bt_nr2 D)) (map2 e (bt_nr6 D)) (map2 e (bt_nr12 D))) as H12.
    unfold twF12 in Ck at 1 3. rewrite He, !(e_map2 e _ He) in Ck. change (ce (bt_Fq D) CO (bt_nr2 D)) with (e (bt_nr2 D)) in Ck.
    change (fp12_ops (cF (bt_Fq D) CO) (e (bt_nr2 D)) (map2 e (bt_nr6 D)) (map2 e (bt_nr12 D))) with (twF12 F e D) in H12.
    rewrite <- (hi_1 H12), (hi_eqb _ _ _ H12), (rk_eqb_refl _ R12) in Ck. discriminate. }
  pose proof (pow_order (twF12 F e D) R12 v _ Pr N1 Er) as Ord.
  exists v. split; [exact Ord|]. intros a b P Q Ha Hb HP HQ. pose proof (Hv a b P Q Ha Hb HP HQ) as E. split; [exact E|].
  change (cF (bt_Fq D) CO) with F in E. change (ce (bt_Fq D) CO) with e in E.
  rewrite E. intros X. assert (X' : fpow (twF12 F e D) v (Pos.to_nat (a * b)) = o1 (twF12 F e D)) by congruence.
  apply Ord in X'. rewrite positive_nat_Z, Pos2Z.inj_mul in X'. apply prime_mult in X'; [|exact Pr].
  destruct X' as [X'|X']; apply Z.divide_pos_le in X'; lia.
Qed.
Theorem alt_bn128_nondegenerate CO : let D := alt_bn128_tower in let F := cF (bt_Fq D) CO in let e := ce (bt_Fq D) CO in
  pair_nondegenerate F e D (tw_alt_reduced_pairing F e D).
Proof.
  exact (nondegenerate_of alt_bn128_tower CO (@tw_alt_reduced_pairing) (or_introl eq_refl) (oki_prime _ (fco_inv _ alt_bn128_Fr_ok)) alt_bn128_pair_check
    (fun A B F G h H e eG He => tw_alt_map H e eG He alt_bn128_tower) (alt_bn128_generators CO)).
Qed.
Theorem bls12_381_nondegenerate CO : let D := bls12_381_tower in let F := cF (bt_Fq D) CO in let e := ce (bt_Fq D) CO in
  pair_nondegenerate F e D (tw_bls_reduced_pairing F e D).
Proof.
  exact (nondegenerate_of bls12_381_tower CO (@tw_bls_reduced_pairing) (or_intror (or_introl eq_refl)) (oki_prime _ (fco_inv _ bls12_381_Fr_ok)) bls12_381_pair_check
    (fun A B F G h H e eG He => tw_bls_map H e eG He bls12_381_tower) (bls12_381_generators CO)).
Qed.
