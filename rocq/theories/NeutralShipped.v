(** Neutral inputs to the shipped pairings (C42). *)
From Coq Require Import ZArith List Bool Lia.
From Verif Require Import Result Limbs LimbsProofs Algebra FieldOps FpModel FpSpec FpInst ParamsModel ParamsProofs ExtModel ExtSpec ExtFrob ExtProofs CurveModel Hom
  TowerModel TowerSpec TowerProofs TowerShipped FinalExpModel FinalExpProofs PairingModel PairingSpec PairingShipped NeutralProofs.
Import ListNotations.
Open Scope Z_scope.

Section Twelve.
Context {K : Type} (F : Fops K) (e : Z -> K) (D : twelve_consts).
Let n := cn (bt_Fq D).
Let q := cq (bt_Fq D).
Hypothesis PB : prime_base F q.
Hypothesis T : twelve_ok F e D.
Lemma tw_alt_left P Q : jac_is_zero F P = true ->
  one_or_fail (twF12 F e D) (tw_alt_pairing F e D P Q) (tw_alt_reduced_pairing F e D P Q).
Proof.
  intros HP. destruct T as [[m Em] A2 A3 A4 A5 A6 A7 A8 A9 _ _ _ _ _ _ _ _ _ _]. change (twq D) with q in *.
  unfold tw_alt_pairing, tw_alt_reduced_pairing, twF12. rewrite A8.
  exact (alt_left F q PB _ m Em A2 _ A4 A5 _ _ _ _ A3 A6 A7 A9 _ _ (limbs_of_limbs _ _) _ _ _ _ _ _ (limbs_of_limbs _ _) P Q HP).
Qed.
Lemma tw_alt_right P Q : jac_is_zero (twF2 F e D) Q = true -> tw_alt_reduced_pairing F e D P Q = AssertFail.
Proof.
  intros HQ. destruct T as [[m Em] A2 A3 A4 A5 A6 A7 A8 A9 _ _ _ _ _ _ _ _ _ _]. change (twq D) with q in *.
  unfold tw_alt_reduced_pairing. rewrite A8.
  exact (alt_right F q PB _ m Em A2 _ _ _ _ _ _ _ _ _ _ _ _ _ (limbs_of_limbs _ _) P Q HQ).
Qed.
Lemma tw_bls_neutral P Q : jac_is_zero F P = true \/ jac_is_zero (twF2 F e D) Q = true ->
  one_or_fail (twF12 F e D) (tw_bls_pairing F e D P Q) (tw_bls_reduced_pairing F e D P Q).
Proof.
  intros HP. destruct T as [[m Em] A2 A3 A4 A5 A6 A7 A8 A9 _ _ _ _ _ _ _ _ _ _]. change (twq D) with q in *.
  unfold tw_bls_pairing, tw_bls_reduced_pairing, twF12. rewrite A8. destruct HP as [HP|HP].
  - exact (bls_left F q PB _ m Em A2 _ A4 A5 _ _ _ _ A3 A6 A7 A9 _ _ (limbs_of_limbs _ _) _ _ _ _ (limbs_of_limbs _ _) P Q HP).
  - exact (bls_right F q PB _ m Em A2 _ A4 A5 _ _ _ _ A3 A6 A7 A9 _ _ (limbs_of_limbs _ _) _ _ _ _ (limbs_of_limbs _ _) P Q HP).
Qed.
Lemma tw_bls_right P Q : (2 <= add_count (val (limbs_of n (bt_loop D)) / 2))%nat ->
  jac_is_zero (twF2 F e D) Q = true -> tw_bls_reduced_pairing F e D P Q = AssertFail.
Proof.
  intros Hc HQ. destruct T as [[m Em] A2 A3 A4 A5 A6 A7 A8 A9 _ _ _ _ _ _ _ _ _ _]. change (twq D) with q in *.
  unfold tw_bls_reduced_pairing. rewrite A8.
  exact (bls_right_fail F q PB _ m Em A2 _ A4 A5 _ _ _ _ A3 A6 A7 A9 _ _ _ _ _ _ (limbs_of_limbs _ _) P Q HQ Hc).
Qed.
End Twelve.

Section Six.
Context {K : Type} (F : Fops K) (e : Z -> K) (D : six_consts).
Let n := cn (st_Fq D).
Let q := cq (st_Fq D).
Hypothesis PB : prime_base F q.
Hypothesis T : six_ok F e D.
Lemma si_mnt6_right P Q : small_check n (st_w1 D) = true -> small_check n (st_w0 D) = true -> prj_is_zero (siF3 F e D) Q = true ->
  one_or_fail (siF6 F e D) (si_mnt6_pairing F e D P Q) (si_mnt6_reduced_pairing F e D P Q).
Proof.
  intros H1 H0 HQ. destruct (small_check_ok n _ H1) as [V1 W1]. destruct (small_check_ok n _ H0) as [V0 W0].
  destruct T as [[m Em] A2 A3 A4 A5 A6 A7 _ _ _ _]. change (siq D) with q in *.
  unfold si_mnt6_pairing, si_mnt6_reduced_pairing, siF6. rewrite A4.
  exact (mnt6_right F q PB _ m Em A2 A3 _ _ _ A5 A6 A7 _ _ _ W1 W0 _ _ _ (limbs_of_limbs _ _) P Q HQ).
Qed.
Lemma si_mnt6_both P Q : st_loop_neg D = true -> prj_is_zero F P = true -> prj_is_zero (siF3 F e D) Q = true ->
  si_mnt6_reduced_pairing F e D P Q = AssertFail.
Proof.
  intros Hn HP HQ. destruct T as [[m Em] A2 A3 A4 A5 A6 A7 _ _ _ _]. change (siq D) with q in *.
  unfold si_mnt6_reduced_pairing. rewrite A4, Hn.
  exact (mnt6_both F q PB _ m Em A2 A3 _ _ _ _ _ _ _ _ (limbs_of_limbs _ _) P Q HP HQ).
Qed.
Lemma si_edwards_left P Q : small_check n (st_w1 D) = true -> small_check n (st_w0 D) = true -> edw_is_zero F P = true ->
  one_or_fail (siF6 F e D) (si_edwards_pairing F e D P Q) (si_edwards_reduced_pairing F e D P Q).
Proof.
  intros H1 H0 HP. destruct (small_check_ok n _ H1) as [V1 W1]. destruct (small_check_ok n _ H0) as [V0 W0].
  destruct T as [[m Em] A2 A3 A4 A5 A6 A7 _ _ _ _]. change (siq D) with q in *.
  unfold si_edwards_pairing, si_edwards_reduced_pairing, siF6. rewrite A4.
  exact (edw_left F q PB _ m Em A2 A3 _ _ _ A5 A6 A7 _ _ _ W1 W0 _ _ (limbs_of_limbs _ _) P Q HP).
Qed.
Lemma si_edwards_right P Q : (0 < add_count (val (limbs_of n (st_loop D))))%nat -> edw_is_zero (siF3 F e D) Q = true ->
  si_edwards_reduced_pairing F e D P Q = AssertFail.
Proof.
  intros Hc HQ. destruct T as [[m Em] A2 A3 A4 A5 A6 A7 _ _ _ _]. change (siq D) with q in *.
  unfold si_edwards_reduced_pairing. rewrite A4.
  refine (edw_right F q PB _ m Em A2 A3 _ _ _ _ _ _ _ _ _ (limbs_of_limbs _ _) P Q HQ Hc).
  cbn [edwards_mul_by_a fp3_ops o0]. pose proof (fk_ring F (pb_field F q PB)) as RF.
  change ((omul F (omul F (e (fst (st_ad D))) (e (st_nr3 D))) (o0 F), o0 F, o0 F) = (o0 F, o0 F, o0 F)).
  now rewrite (rk_mul_comm F RF), (rk_mul_0_l F RF).
Qed.
Lemma si_tate_left P Q : limbs (fp_modulus (fc_P (st_Fr D))) -> (0 < add_count (val (fp_modulus (fc_P (st_Fr D)))))%nat ->
  edw_is_zero F P = true -> si_tate_reduced_pairing F e D P Q = AssertFail.
Proof.
  intros Hl Hc HP. destruct T as [[m Em] A2 A3 A4 A5 A6 A7 _ _ _ _]. change (siq D) with q in *.
  unfold si_tate_reduced_pairing. rewrite A4.
  exact (tate_left_zero F q PB _ m Em A2 A3 _ _ _ _ _ _ _ Hl P Q HP Hc).
Qed.
End Six.

Lemma bls_adds : (2 <= add_count (val (limbs_of (cn (bt_Fq bls12_381_tower)) (bt_loop bls12_381_tower)) / 2))%nat.
Proof. apply Nat.leb_le. vm_compute. reflexivity. Qed.
Lemma edwards_adds : (0 < add_count (val (limbs_of (cn (st_Fq edwards_tower)) (st_loop edwards_tower))))%nat.
Proof. apply Nat.ltb_lt. vm_compute. reflexivity. Qed.
Lemma tate_adds : (0 < add_count (val (fp_modulus (fc_P (st_Fr edwards_tower)))))%nat.
Proof. apply Nat.ltb_lt. vm_compute. reflexivity. Qed.
Lemma tate_limbs : limbs (fp_modulus (fc_P (st_Fr edwards_tower))).
Proof. apply limbs_of_limbs. Qed.
Lemma mnt6_small : small_check (cn (st_Fq mnt6_tower)) (st_w1 mnt6_tower) = true /\ small_check (cn (st_Fq mnt6_tower)) (st_w0 mnt6_tower) = true.
Proof. split; vm_compute; reflexivity. Qed.
Lemma edwards_small : small_check (cn (st_Fq edwards_tower)) (st_w1 edwards_tower) = true /\ small_check (cn (st_Fq edwards_tower)) (st_w0 edwards_tower) = true.
Proof. split; vm_compute; reflexivity. Qed.

Lemma eqb_same {K} (F : Fops K) x : ring_ok F -> oeqb F x x = true.
Proof. intros R. now apply (rk_eqb F R). Qed.
Section Shipped.
Let A := alt_bn128_tower. Let B := bls12_381_tower. Let S := mnt6_tower. Let E := edwards_tower.
Lemma alt_shipped_left CO P Q : let F := cF (bt_Fq A) CO in let e := ce (bt_Fq A) CO in jac_is_zero F P = true ->
  one_or_fail (twF12 F e A) (tw_alt_pairing F e A P Q) (tw_alt_reduced_pairing F e A P Q).
Proof. intros F e. exact (tw_alt_left F e A (base_prime _ CO) (shipped_twelve_ok A CO (or_introl eq_refl)) P Q). Qed.
Lemma alt_shipped_right CO P Q : let F := cF (bt_Fq A) CO in let e := ce (bt_Fq A) CO in jac_is_zero (twF2 F e A) Q = true ->
  tw_alt_reduced_pairing F e A P Q = AssertFail.
Proof. intros F e. exact (tw_alt_right F e A (base_prime _ CO) (shipped_twelve_ok A CO (or_introl eq_refl)) P Q). Qed.
Lemma bls_shipped CO P Q : let F := cF (bt_Fq B) CO in let e := ce (bt_Fq B) CO in
  jac_is_zero F P = true \/ jac_is_zero (twF2 F e B) Q = true ->
  one_or_fail (twF12 F e B) (tw_bls_pairing F e B P Q) (tw_bls_reduced_pairing F e B P Q).
Proof. intros F e. exact (tw_bls_neutral F e B (base_prime _ CO) (shipped_twelve_ok B CO (or_intror (or_introl eq_refl))) P Q). Qed.
Lemma bls_shipped_right CO P Q : let F := cF (bt_Fq B) CO in let e := ce (bt_Fq B) CO in
  jac_is_zero (twF2 F e B) Q = true -> tw_bls_reduced_pairing F e B P Q = AssertFail.
Proof. intros F e. exact (tw_bls_right F e B (base_prime _ CO) (shipped_twelve_ok B CO (or_intror (or_introl eq_refl))) P Q bls_adds). Qed.
Lemma mnt6_shipped_right CO P Q : let F := cF (st_Fq S) CO in let e := ce (st_Fq S) CO in prj_is_zero (siF3 F e S) Q = true ->
  one_or_fail (siF6 F e S) (si_mnt6_pairing F e S P Q) (si_mnt6_reduced_pairing F e S P Q).
Proof.
  intros F e. exact (si_mnt6_right F e S (base_prime _ CO) (shipped_six_ok S CO (or_introl eq_refl)) P Q (proj1 mnt6_small) (proj2 mnt6_small)).
Qed.
Lemma mnt6_shipped_both CO P Q : let F := cF (st_Fq S) CO in let e := ce (st_Fq S) CO in
  prj_is_zero F P = true -> prj_is_zero (siF3 F e S) Q = true -> si_mnt6_reduced_pairing F e S P Q = AssertFail.
Proof. intros F e. exact (si_mnt6_both F e S (base_prime _ CO) (shipped_six_ok S CO (or_introl eq_refl)) P Q eq_refl). Qed.
Lemma edwards_shipped_left CO P Q : let F := cF (st_Fq E) CO in let e := ce (st_Fq E) CO in edw_is_zero F P = true ->
  one_or_fail (siF6 F e E) (si_edwards_pairing F e E P Q) (si_edwards_reduced_pairing F e E P Q).
Proof.
  intros F e. exact (si_edwards_left F e E (base_prime _ CO) (shipped_six_ok E CO (or_intror (or_introl eq_refl))) P Q
    (proj1 edwards_small) (proj2 edwards_small)).
Qed.
Lemma edwards_shipped_right CO P Q : let F := cF (st_Fq E) CO in let e := ce (st_Fq E) CO in edw_is_zero (siF3 F e E) Q = true ->
  si_edwards_reduced_pairing F e E P Q = AssertFail.
Proof. intros F e. exact (si_edwards_right F e E (base_prime _ CO) (shipped_six_ok E CO (or_intror (or_introl eq_refl))) P Q edwards_adds). Qed.
Lemma tate_shipped_left CO P Q : let F := cF (st_Fq E) CO in let e := ce (st_Fq E) CO in edw_is_zero F P = true ->
  si_tate_reduced_pairing F e E P Q = AssertFail.
Proof.
  intros F e. exact (si_tate_left F e E (base_prime _ CO) (shipped_six_ok E CO (or_intror (or_introl eq_refl))) P Q tate_limbs tate_adds).
Qed.
Lemma alt_refuted CO : let F := cF (bt_Fq A) CO in let e := ce (bt_Fq A) CO in
  exists Q, jac_is_zero (twF2 F e A) Q = true /\ forall P, tw_alt_reduced_pairing F e A P Q = AssertFail.
Proof.
  intros F e. exists (jac_zero (twF2 F e A)).
  assert (HZ : jac_is_zero (twF2 F e A) (jac_zero (twF2 F e A)) = true).
  { apply eqb_same. apply fp2_ring. exact (fk_ring F (pb_field F _ (base_prime _ CO))). }
  split; [exact HZ|]. intros P. exact (alt_shipped_right CO P _ HZ).
Qed.
Lemma bls_refuted CO : let F := cF (bt_Fq B) CO in let e := ce (bt_Fq B) CO in
  exists Q, jac_is_zero (twF2 F e B) Q = true /\ forall P, tw_bls_reduced_pairing F e B P Q = AssertFail.
Proof.
  intros F e. exists (jac_zero (twF2 F e B)).
  assert (HZ : jac_is_zero (twF2 F e B) (jac_zero (twF2 F e B)) = true).
  { apply eqb_same. apply fp2_ring. exact (fk_ring F (pb_field F _ (base_prime _ CO))). }
  split; [exact HZ|]. intros P. exact (bls_shipped_right CO P _ HZ).
Qed.
Lemma mnt6_refuted CO : let F := cF (st_Fq S) CO in let e := ce (st_Fq S) CO in
  exists P Q, prj_is_zero F P = true /\ prj_is_zero (siF3 F e S) Q = true /\ si_mnt6_reduced_pairing F e S P Q = AssertFail.
Proof.
  intros F e. exists (prj_zero F), (prj_zero (siF3 F e S)).
  assert (RF := fk_ring F (pb_field F _ (base_prime _ CO))).
  assert (HP : prj_is_zero F (prj_zero F) = true). { apply andb_true_iff. split; now apply eqb_same. }
  assert (HQ : prj_is_zero (siF3 F e S) (prj_zero (siF3 F e S)) = true).
  { apply andb_true_iff. split; apply eqb_same; now apply fp3_ring. }
  split; [exact HP|]. split; [exact HQ|]. exact (mnt6_shipped_both CO _ _ HP HQ).
Qed.
Lemma edw_zero_is_zero {K} (F : Fops K) : ring_ok F -> edw_is_zero F (edw_zero F) = true.
Proof.
  intros R. apply andb_true_iff. split; apply (rk_eqb F R); [reflexivity|]. apply (rk_mul_0_l F R).
Qed.
Lemma edwards_refuted CO : let F := cF (st_Fq E) CO in let e := ce (st_Fq E) CO in
  exists Q, edw_is_zero (siF3 F e E) Q = true /\ forall P, si_edwards_reduced_pairing F e E P Q = AssertFail.
Proof.
  intros F e. exists (edw_zero (siF3 F e E)).
  assert (HQ : edw_is_zero (siF3 F e E) (edw_zero (siF3 F e E)) = true).
  { apply edw_zero_is_zero. apply fp3_ring. exact (fk_ring F (pb_field F _ (base_prime _ CO))). }
  split; [exact HQ|]. intros P. exact (edwards_shipped_right CO P _ HQ).
Qed.
Lemma tate_refuted CO : let F := cF (st_Fq E) CO in let e := ce (st_Fq E) CO in
  exists P, edw_is_zero F P = true /\ forall Q, si_tate_reduced_pairing F e E P Q = AssertFail.
Proof.
  intros F e. exists (edw_zero F).
  assert (HP : edw_is_zero F (edw_zero F) = true).
  { apply edw_zero_is_zero. exact (fk_ring F (pb_field F _ (base_prime _ CO))). }
  split; [exact HP|]. intros Q. exact (tate_shipped_left CO _ Q HP).
Qed.
End Shipped.
