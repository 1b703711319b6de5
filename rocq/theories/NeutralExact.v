(** Neutral inputs to the shipped pairings (C42): the exact values for edwards and
    mnt6, and the values of mnt4 and mnt6 that are not one. *)
From Coq Require Import ZArith List Bool Lia Znumtheory.
From Verif Require Import Mul63 FpField.
From Verif Require Import Result Limbs LimbsProofs BigintModel Algebra FieldOps FpSpec FpModel FpInst ParamsModel ParamsProofs ParamsA ParamsB ParamsC ParamsD ExtModel ExtProofs ExtFrob ExtInst CurveSpec CurveModel CurveProofs CurveEdwards AlgorithmsField Hom Mod63 MontRing HomMont HomPairing
  TowerModel TowerSpec TowerShipped TowerSqrt FinalExpModel FinalExpProofs PairingModel PairingSpec PairingProofs PairingShipped NeutralProofs NeutralShipped MillerSpec GenShipped NonDegenerate MillerProofs MillerRegular BilinearTwelve MillerQuad BilinearQuad MntShipped MntGen MntNonDeg
  EdwSpec EdwSw EdwPairing EdwGroup EdwBilinear EdwShipped EdwGen.
Import ListNotations.
Open Scope Z_scope.

Lemma one_or_fail_one {T} (F : Fops T) p r f : one_or_fail F p r -> p = Ok f -> f <> o0 F -> r = Ok (o1 F).
Proof. intros [(g & _ & _ & E)|[[E|E] _]] Ep N; [exact E|congruence|congruence]. Qed.

(** ** edwards *)
Section EdwLeft.
Context {K : Type} (F : Fops K) (e : Z -> K) (D : six_consts).
Let r := fc_p (st_Fr D).
Notation G := (siF3 F e D).
Notation d := (e (snd (st_ad D))).
Hypothesis PB : prime_base F (cq (st_Fq D)).
Hypothesis C2 : char_not_2 F.
Hypothesis NSd : forall s, omul F s s <> d.
Hypothesis Rp : 0 < r.
Hypothesis Ro : Z.odd r = true.
(** The generator of G1 is a point of G1 that is not zero. *)
Lemma edw_gen1_point : si_edw_G1 F e D (si_edw_gen1 e D) -> si_edw_pair_check F e D = true ->
  exists P', edw_ok F (o1 F) d P' /\ edw_den F P' <> te_zero F /\ te_torsion F (o1 F) d r (edw_den F P').
Proof.
  intros G1 P. unfold si_edw_pair_check in P. rewrite !andb_true_iff, !negb_true_iff in P. destruct P as [[P1 _] _].
  assert (FK : field_ok F) by exact (pb_field F _ PB).
  assert (X1 : fst (si_edw_gen1 e D) <> o0 F) by exact (proj1 (rk_eqb_neq F (fk_ring F FK) _ _) P1).
  pose proof (edw_good1 F e D PB C2 NSd Rp Ro) as GD1. pose proof (tg_on _ _ _ _ GD1 _ G1) as O1.
  destruct (tg_xy _ _ _ _ GD1 _ G1) as [E|[_ Y1]]; [exfalso; apply X1; rewrite E; reflexivity|].
  exists (edw_inverted F (si_edw_gen1 e D)).
  destruct (edw_inverted_ok F FK (o1 F) d _ _ X1 Y1 O1) as [K1 D1].
  split; [exact K1|]. change (edw_den F (edw_inverted F (si_edw_gen1 e D)) = si_edw_gen1 e D) in D1. rewrite D1. split; [|exact G1].
  intros X. apply X1. rewrite X. reflexivity.
Qed.
End EdwLeft.
Section Edwards.
Variable CO : field_consts_ok (st_Fq edwards_tower).
Let D := edwards_tower.
Let F := cF (st_Fq D) CO.
Let e := ce (st_Fq D) CO.
Let PB := base_prime (st_Fq D) CO.
Let C2 := base_char2 (st_Fq D) CO.
Let IN : In D shipped_six. Proof. unfold shipped_six. cbn. tauto. Qed.
Let OK : six_ok F e D := shipped_six_ok D CO IN.
Let Pr := oki_prime _ (fco_inv _ edwards_Fr_ok).
Let EC := edw_check_ok F e (toZ (fc_P (st_Fq D))) D edwards_t PB (base_hom _ CO) edwards_edw_check.
Let NU := mnt_check_numbers F _ _ _ _ _ _ _ _ PB edwards_mnt_check Pr (bf_order _ _ _ (six_3 F e D PB C2 OK)).
Let FE := six_final_shipped D CO IN.
Let PC : si_edw_pair_check F e D = true := copy_check_ok (st_Fq D) CO (@si_edw_pair_check) D (fun A B F G h H R e eG He => si_edw_pair_check_map H e eG He D) edwards_pair_check.
Theorem edwards_left_one P Q : edw_is_zero F P = true -> edw_ok (siF3 F e D) (si_tw_a F e D) (si_tw_d F e D) Q ->
  edw_den (siF3 F e D) Q <> te_zero (siF3 F e D) -> si_edw_G2 F e D (edw_den (siF3 F e D) Q) ->
  si_edwards_reduced_pairing F e D P Q = Ok (o1 (siF6 F e D)).
Proof.
  intros HP OQ NQ GQ. destruct EC as (A1 & N3 & Nd & Nad & NS & Ht & Rp & Ro).
  destruct (edw_gen1_point F e D PB C2 NS Rp Ro (proj1 (edwards_generators CO)) PC) as (P' & O1 & N1 & T1).
  destruct (six_edw_left F e D PB C2 OK A1 N3 Nd Nad NS (e edwards_t) Ht Rp Ro NU FE P P' Q HP O1 N1 T1 OQ NQ (proj1 GQ)) as (f & Ef & Nf).
  exact (one_or_fail_one _ _ _ f (edwards_shipped_left CO P Q HP) Ef Nf).
Qed.
End Edwards.
Lemma si_tate_right {K} (F : Fops K) e D : prime_base F (cq (st_Fq D)) -> six_ok F e D -> limbs (fp_modulus (fc_P (st_Fr D))) ->
  forall P Q, edw_is_zero (siF3 F e D) Q = true -> si_tate_reduced_pairing F e D P Q = AssertFail.
Proof.
  intros PB T Hl P Q HQ. destruct T as [[m Em] A2 A3 A4 A5 A6 A7 _ _ _ _].
  unfold si_tate_reduced_pairing. rewrite A4. exact (tate_right_zero F _ PB _ m Em A3 _ _ _ _ _ _ _ Hl P Q HQ).
Qed.
Lemma tate_shipped_right CO P Q : let D := edwards_tower in let F := cF (st_Fq D) CO in let e := ce (st_Fq D) CO in
  edw_is_zero (siF3 F e D) Q = true -> si_tate_reduced_pairing F e D P Q = AssertFail.
Proof. exact (si_tate_right _ _ edwards_tower (base_prime _ CO) (shipped_six_ok edwards_tower CO (or_intror (or_introl eq_refl))) tate_limbs P Q). Qed.

(** ** mnt6 with Q = O *)
Definition lines_check {L} (G : Fops L) (c : result (mnt_G2_precomp (L := L))) : bool :=
  match c with
  | Ok c => oeqb G (QX_over_twist c) (o0 G) && forallb (fun d => negb (oeqb G (c_H d) (o0 G))) (dbl_coeffs c) &&
      forallb (fun d => negb (oeqb G (c_RZ d) (o0 G)) || negb (oeqb G (c_L1 d) (o0 G))) (add_coeffs c)
  | _ => false
  end.
Lemma forallb_map' {A B} (h : A -> B) f g l : (forall x, f (h x) = g x) -> forallb f (map h l) = forallb g l.
Proof. intros E. induction l as [|x l IH]; cbn; [reflexivity|]. now rewrite E, IH. Qed.
Lemma lines_check_map {L M} {FE : Fops L} {GE : Fops M} {hE} (HE : homi FE GE hE) c c' : c' = rmap (mapQ (hE := hE)) c -> lines_check GE c' = lines_check FE c.
Proof.
  intros ->. destruct c as [c| | | | |]; try reflexivity. unfold rmap, mapQ. cbn [bind lines_check QX_over_twist dbl_coeffs add_coeffs].
  rewrite (hi_eqb0 HE). f_equal; [f_equal|].
  - apply forallb_map'. intros d. cbn [mapD c_H]. now rewrite (hi_eqb0 HE).
  - apply forallb_map'. intros d. cbn [mapA c_RZ c_L1]. now rewrite !(hi_eqb0 HE).
Qed.
Definition si_lines {K} (F : Fops K) (e : Z -> K) (D : six_consts) :=
  mnt_precompute_G2 F (siF3 F e D) (cubic_scale (omul F)) (o0 F, o1 F, o0 F) (si_twist_a F e D) (limbs_of (cn (st_Fq D)) (st_loop D)) (st_loop_neg D) (prj_zero (siF3 F e D)).
Definition si_lines_check {K} (F : Fops K) (e : Z -> K) (D : six_consts) : bool := lines_check (siF3 F e D) (si_lines F e D).
Lemma si_lines_check_map {A B} {F : Fops A} {G : Fops B} {h : A -> B} (H : homi F G h) e eG (He : forall z, eG z = h (e z)) D :
  si_lines_check G eG D = si_lines_check F e D.
Proof.
  unfold si_lines_check, si_lines, siF3, si_twist_a, mnt6_twist_a. rewrite !He. apply (lines_check_map (homi_fp3 H (e (st_nr3 D)))).
  rewrite <- (mpre2_map H (homi_fp3 H (e (st_nr3 D))) _ _ _ _ _ _ (scale3 H)). f_equal.
  - unfold map3. cbn [fst snd]. now push H.
  - unfold map3. cbn [fst snd]. now push H.
  - unfold prj_zero. change (map3 (map3 h) (o0 (fp3_ops F (e (st_nr3 D))), o1 (fp3_ops F (e (st_nr3 D))), o0 (fp3_ops F (e (st_nr3 D)))))
      with (map3 h (o0 (fp3_ops F (e (st_nr3 D)))), map3 h (o1 (fp3_ops F (e (st_nr3 D)))), map3 h (o0 (fp3_ops F (e (st_nr3 D))))).
    now rewrite (hi_0 (homi_fp3 H (e (st_nr3 D)))), (hi_1 (homi_fp3 H (e (st_nr3 D)))).
Qed.
Lemma mnt6_lines_check : copy_check (st_Fq mnt6_tower) (@si_lines_check) mnt6_tower = true. Proof. vm_compute. reflexivity. Qed.
Section Mnt6.
Context {K : Type} (F : Fops K) (e : Z -> K) (D : six_consts).
Let q := cq (st_Fq D).
Hypothesis PB : prime_base F q.
Hypothesis C2 : char_not_2 F.
Hypothesis T : six_ok F e D.
Lemma si_lines_ok : si_lines_check F e D = true -> exists c, si_lines F e D = Ok c /\ lines_ne F (e (st_nr3 D)) c.
Proof.
  unfold si_lines_check, lines_check. destruct (si_lines F e D) as [c| | | | |]; try discriminate. intros Ck. exists c. split; [reflexivity|].
  pose proof (fk_ring _ (bf_field _ _ _ (six_3 F e D PB C2 T))) as R. rewrite !andb_true_iff in Ck. destruct Ck as [[C0 C1] C3].
  split; [exact (proj1 (rk_eqb _ R _ _) C0)|]. rewrite forallb_forall in C1, C3. split; apply Forall_forall.
  - intros d Hd. apply C1 in Hd. rewrite negb_true_iff in Hd. exact (proj1 (rk_eqb_neq _ R _ _) Hd).
  - intros d Hd. apply C3 in Hd. rewrite orb_true_iff, !negb_true_iff in Hd.
    destruct Hd as [Hd|Hd]; [left|right]; exact (proj1 (rk_eqb_neq _ R _ _) Hd).
Qed.
Lemma si_mnt6_right_ne P Q x y : si_lines_check F e D = true -> prj_is_zero (siF3 F e D) Q = true -> prj_den F P = Aff x y -> x <> o0 F -> y <> o0 F ->
  exists f, si_mnt6_pairing F e D P Q = Ok f /\ f <> o0 (siF6 F e D).
Proof.
  intros Ck HQ HP Nx Ny. destruct (si_lines_ok Ck) as (c & Ec & Lc). pose proof (prj_to_affine_at F (pb_field F q PB) P x y HP) as EP.
  destruct T as [[m Em] A2 A3 A4 A5 A6 A7 _ _ _ _]. unfold si_lines, si_twist_a in Ec. unfold si_mnt6_pairing, siF6. rewrite A4.
  exact (mnt6_right_ne F q PB _ m Em A2 A3 _ _ _ (limbs_of_limbs _ _) P Q c x y _ HQ Ec Lc EP Nx Ny).
Qed.
Lemma si_mnt6_vertical P Q y : st_loop_neg D = true -> prj_den F P = Aff (o0 F) y -> prj_is_zero (siF3 F e D) Q = true ->
  si_mnt6_reduced_pairing F e D P Q = AssertFail.
Proof.
  intros Hn HP HQ. pose proof (prj_to_affine_at F (pb_field F q PB) P _ y HP) as EP.
  destruct T as [[m Em] A2 A3 A4 A5 A6 A7 _ _ _ _]. unfold si_mnt6_reduced_pairing. rewrite A4, Hn.
  exact (mnt6_vertical F q PB _ m Em A2 A3 _ _ _ _ _ _ _ _ (limbs_of_limbs _ _) P Q _ _ EP HQ).
Qed.
End Mnt6.
Theorem mnt6_right_one CO P Q x y : let D := mnt6_tower in let F := cF (st_Fq D) CO in let e := ce (st_Fq D) CO in
  prj_is_zero (siF3 F e D) Q = true -> prj_den F P = Aff x y -> x <> o0 F -> y <> o0 F ->
  si_mnt6_reduced_pairing F e D P Q = Ok (o1 (siF6 F e D)).
Proof.
  intros D F e HQ HP Nx Ny.
  destruct (si_mnt6_right_ne F e D (base_prime _ CO) (base_char2 _ CO) (shipped_six_ok D CO (or_introl eq_refl)) P Q x y
    (copy_check_ok (st_Fq D) CO (@si_lines_check) D (fun A B F G h H R e eG He => si_lines_check_map H e eG He D) mnt6_lines_check) HQ HP Nx Ny) as (f & Ef & Nf).
  exact (one_or_fail_one _ _ _ f (mnt6_shipped_right CO P Q HQ) Ef Nf).
Qed.
Theorem mnt6_right_vertical CO P Q y : let D := mnt6_tower in let F := cF (st_Fq D) CO in let e := ce (st_Fq D) CO in
  prj_is_zero (siF3 F e D) Q = true -> prj_den F P = Aff (o0 F) y -> si_mnt6_reduced_pairing F e D P Q = AssertFail.
Proof.
  intros D F e HQ HP. exact (si_mnt6_vertical F e D (base_prime _ CO) (shipped_six_ok D CO (or_introl eq_refl)) P Q y eq_refl HP HQ).
Qed.

(** ** Values that are not one *)
Definition fo_neutral_check {K} (F : Fops K) (e : Z -> K) (D : four_consts) : bool :=
  is_ok_ne1 (foF4 F e D) (fo_reduced_pairing F e D (prj_zero F) (map2 e (fst (ft_G2 D)), map2 e (snd (ft_G2 D)), o1 (foF2 F e D))) &&
  is_ok_ne1 (foF4 F e D) (fo_reduced_pairing F e D (e (fst (ft_G1 D)), e (snd (ft_G1 D)), o1 F) (prj_zero (foF2 F e D))).
Definition si_neutral_check {K} (F : Fops K) (e : Z -> K) (D : six_consts) : bool :=
  is_ok_ne1 (siF6 F e D) (si_mnt6_reduced_pairing F e D (prj_zero F) (map3 e (fst (st_G2 D)), map3 e (snd (st_G2 D)), o1 (siF3 F e D))).
Section NeutralMap.
Context {A B : Type} {F : Fops A} {G : Fops B} {h : A -> B} (H : homi F G h) (e : Z -> A) (eG : Z -> B).
Hypothesis He : forall z, eG z = h (e z).
Lemma prj_zero_map : prj_zero G = map3 h (prj_zero F).
Proof. unfold prj_zero, map3. cbn [fst snd]. now push H. Qed.
Lemma fo_neutral_check_map D : fo_neutral_check G eG D = fo_neutral_check F e D.
Proof.
  unfold fo_neutral_check, fo_reduced_pairing, foF4, foF2, fo_twist_a, mnt4_twist_a. rewrite !He.
  f_equal; apply (is_ok_ne1_map (homi_fp4 H _ _)); rewrite <- (mnt4_pairing_map H), ?(e_list e eG He), ?(e_map2 e eG He); f_equal.
  - unfold map2. cbn [fst snd]. now push H.
  - apply prj_zero_map.
  - unfold map3. cbn [fst snd]. now rewrite (hi_1 (homi_fp2 H _)).
  - unfold map2. cbn [fst snd]. now push H.
  - unfold map3. cbn [fst snd]. now push H.
  - unfold prj_zero, map3. cbn [fst snd]. now rewrite (hi_1 (homi_fp2 H _)), (hi_0 (homi_fp2 H _)).
Qed.
Lemma si_neutral_check_map D : si_neutral_check G eG D = si_neutral_check F e D.
Proof.
  unfold si_neutral_check, si_mnt6_reduced_pairing, siF6, siF3, si_twist_a, mnt6_twist_a. rewrite !He. apply (is_ok_ne1_map (homi_fp6_2over3 H _ _)).
  rewrite <- (mnt6_pairing_map H). rewrite !(e_list e eG He), !(e_map3 e eG He). f_equal.
  - unfold map3. cbn [fst snd]. now push H.
  - apply prj_zero_map.
  - apply (f_equal2 pair); [reflexivity|]. symmetry. exact (hi_1 (homi_fp3 H (e (st_nr3 D)))).
Qed.
End NeutralMap.
Lemma mnt4_neutral_check : copy_check (ft_Fq mnt4_tower) (@fo_neutral_check) mnt4_tower = true. Proof. vm_compute. reflexivity. Qed.
Lemma mnt6_neutral_check : copy_check (st_Fq mnt6_tower) (@si_neutral_check) mnt6_tower = true. Proof. vm_compute. reflexivity. Qed.
Lemma is_ok_ne1_ok {T} (F : Fops T) (R : ring_ok F) r : is_ok_ne1 F r = true -> exists f, r = Ok f /\ f <> o1 F.
Proof. destruct r as [f| | | | |]; try discriminate. cbn. rewrite negb_true_iff. intros E. exists f. split; [reflexivity|]. now apply (rk_eqb_neq F R). Qed.
Section NotOne4.
Context {K : Type} (F : Fops K) (e : Z -> K) (D : four_consts).
Lemma fo_not_one : prime_base F (cq (ft_Fq D)) -> char_not_2 F -> four_ok F e D -> fo_G1 F e D (fo_gen1 e D) /\ fo_G2 F e D (fo_gen2 e D) -> fo_neutral_check F e D = true ->
  (exists P Q f, prj_is_zero F P = true /\ prj_den (foF2 F e D) Q <> Inf /\ fo_G2 F e D (prj_den (foF2 F e D) Q) /\
    fo_reduced_pairing F e D P Q = Ok f /\ f <> o1 (foF4 F e D)) /\
  (exists P Q f, prj_is_zero (foF2 F e D) Q = true /\ prj_den F P <> Inf /\ fo_G1 F e D (prj_den F P) /\
    fo_reduced_pairing F e D P Q = Ok f /\ f <> o1 (foF4 F e D)).
Proof.
  intros PB C2 T [H1 H2] Ck. unfold fo_neutral_check in Ck. apply andb_true_iff in Ck. destruct Ck as [Ca Cb].
  pose proof (pb_field F _ PB) as FK. pose proof (bf_field _ _ _ (four_2 F e D PB C2 T)) as GK.
  assert (TK : field_ok (foF4 F e D)) by (pose proof (four_4 F e D PB C2 T) as B; apply B).
  destruct (is_ok_ne1_ok _ (fk_ring _ TK) _ Ca) as (f & Ef & Nf). destruct (is_ok_ne1_ok _ (fk_ring _ TK) _ Cb) as (g & Eg & Ng). split.
  - eexists _, _, f. split; [|split; [|split; [|split; [exact Ef|exact Nf]]]].
    + unfold prj_is_zero, prj_zero. now rewrite (rk_eqb_refl F (fk_ring F FK)).
    + rewrite (prj_den_aff _ GK). discriminate.
    + rewrite (prj_den_aff _ GK). exact H2.
  - eexists _, _, g. split; [|split; [|split; [|split; [exact Eg|exact Ng]]]].
    + unfold prj_is_zero, prj_zero. now rewrite (rk_eqb_refl _ (fk_ring _ GK)).
    + rewrite (prj_den_aff _ FK). discriminate.
    + rewrite (prj_den_aff _ FK). exact H1.
Qed.
End NotOne4.
Section NotOne6.
Context {K : Type} (F : Fops K) (e : Z -> K) (D : six_consts).
Lemma si_not_one : prime_base F (cq (st_Fq D)) -> char_not_2 F -> six_ok F e D -> si_G2 F e D (si_gen2 e D) -> si_neutral_check F e D = true ->
  exists P Q f, prj_is_zero F P = true /\ prj_den (siF3 F e D) Q <> Inf /\ si_G2 F e D (prj_den (siF3 F e D) Q) /\
    si_mnt6_reduced_pairing F e D P Q = Ok f /\ f <> o1 (siF6 F e D).
Proof.
  intros PB C2 T H2 Ca. unfold si_neutral_check in Ca.
  pose proof (pb_field F _ PB) as FK. pose proof (bf_field _ _ _ (six_3 F e D PB C2 T)) as GK.
  assert (TK : field_ok (siF6 F e D)) by (pose proof (six_6 F e D PB C2 T) as B; apply B).
  destruct (is_ok_ne1_ok _ (fk_ring _ TK) _ Ca) as (f & Ef & Nf).
  eexists _, _, f. split; [|split; [|split; [|split; [exact Ef|exact Nf]]]].
  - unfold prj_is_zero, prj_zero. now rewrite (rk_eqb_refl F (fk_ring F FK)).
  - rewrite (prj_den_aff _ GK). discriminate.
  - rewrite (prj_den_aff _ GK). exact H2.
Qed.
End NotOne6.
Theorem mnt4_not_one CO : let D := mnt4_tower in let F := cF (ft_Fq D) CO in let e := ce (ft_Fq D) CO in
  (exists P Q f, prj_is_zero F P = true /\ prj_den (foF2 F e D) Q <> Inf /\ fo_G2 F e D (prj_den (foF2 F e D) Q) /\
    fo_reduced_pairing F e D P Q = Ok f /\ f <> o1 (foF4 F e D)) /\
  (exists P Q f, prj_is_zero (foF2 F e D) Q = true /\ prj_den F P <> Inf /\ fo_G1 F e D (prj_den F P) /\
    fo_reduced_pairing F e D P Q = Ok f /\ f <> o1 (foF4 F e D)).
Proof.
  exact (fo_not_one _ _ mnt4_tower (base_prime _ CO) (base_char2 _ CO) (shipped_four_ok mnt4_tower CO (or_introl eq_refl)) (mnt4_generators CO)
    (copy_check_ok (ft_Fq mnt4_tower) CO (@fo_neutral_check) mnt4_tower (fun A B F G h H R e eG He => fo_neutral_check_map H e eG He mnt4_tower) mnt4_neutral_check)).
Qed.
Theorem mnt6_not_one CO : let D := mnt6_tower in let F := cF (st_Fq D) CO in let e := ce (st_Fq D) CO in
  exists P Q f, prj_is_zero F P = true /\ prj_den (siF3 F e D) Q <> Inf /\ si_G2 F e D (prj_den (siF3 F e D) Q) /\
    si_mnt6_reduced_pairing F e D P Q = Ok f /\ f <> o1 (siF6 F e D).
Proof.
  exact (si_not_one _ _ mnt6_tower (base_prime _ CO) (base_char2 _ CO) (shipped_six_ok mnt6_tower CO (or_introl eq_refl)) (proj2 (mnt6_generators CO))
    (copy_check_ok (st_Fq mnt6_tower) CO (@si_neutral_check) mnt6_tower (fun A B F G h H R e eG He => si_neutral_check_map H e eG He mnt6_tower) mnt6_neutral_check)).
Qed.

(** (0, y0) is a point of order r on mnt6 G1. *)
Definition mnt6_y0 : Z := 367522240247646830781074590872149694574157892269219298314054573777111847536547609085368054.
Definition vert_check {K} (F : Fops K) (e : Z -> K) (D : six_consts) : bool :=
  prj_is_zero F (prjmul F (e (fst (st_ad D))) (o0 F) (e mnt6_y0) (fc_p (st_Fr D))) && oeqb F (omul F (e mnt6_y0) (e mnt6_y0)) (e (snd (st_ad D))).
Lemma vert_check_map {A B} {F : Fops A} {G : Fops B} {h : A -> B} (H : homi F G h) (R : ring_ok F) e eG (He : forall z, eG z = h (e z)) D :
  vert_check G eG D = vert_check F e D.
Proof. unfold vert_check. rewrite !He, <- (hi_0 H), (hom_prjmul H R), (hom_prj_is_zero H), <- (hi_mul H), (hi_eqb _ _ _ H). reflexivity. Qed.
Lemma mnt6_vert_check : copy_check (st_Fq mnt6_tower) (@vert_check) mnt6_tower = true. Proof. vm_compute. reflexivity. Qed.
Lemma vert_check_ok {K} (F : Fops K) e D : prime_base F (cq (st_Fq D)) -> char_not_2 F -> sw_disc F (e (fst (st_ad D))) (e (snd (st_ad D))) <> o0 F ->
  vert_check F e D = true -> si_G1 F e D (Aff (o0 F) (e mnt6_y0)).
Proof.
  intros PB C2 HD Ck. pose proof (pb_field F _ PB) as FK. pose proof (fk_ring F FK) as R. unfold vert_check in Ck. apply andb_true_iff in Ck. destruct Ck as [C1 C3].
  apply (rk_eqb F R) in C3.
  assert (O : sw_on F (e (fst (st_ad D))) (e (snd (st_ad D))) (Aff (o0 F) (e mnt6_y0))).
  { unfold sw_on. rewrite C3. rewrite !(rk_mul_0_l F R), (rk_mul_comm F R _ (o0 F)), (rk_mul_0_l F R). now rewrite !(ml_1_l _ _ (rk_add_monoid F R)). }
  destruct (prjmul_den F FK _ _ C2 HD _ _ (fc_p (st_Fr D)) O) as [K1 D1]. apply (prj_is_zero_spec F FK _ _ _ K1) in C1. rewrite D1 in C1.
  split; [exact O|exact C1].
Qed.
Theorem mnt6_right_refuted CO : let D := mnt6_tower in let F := cF (st_Fq D) CO in let e := ce (st_Fq D) CO in
  exists P, prj_den F P <> Inf /\ si_G1 F e D (prj_den F P) /\
  forall Q, prj_is_zero (siF3 F e D) Q = true -> si_mnt6_reduced_pairing F e D P Q = AssertFail.
Proof.
  intros D F e. exists (o0 F, e mnt6_y0, o1 F).
  pose proof (prj_den_aff F (pb_field F _ (base_prime _ CO)) (o0 F) (e mnt6_y0)) as E. rewrite E. split; [discriminate|]. split.
  - exact (vert_check_ok F e D (base_prime _ CO) (base_char2 _ CO)
      (mnt_check_disc F e (toZ (fc_P (st_Fq D))) _ _ _ _ _ _ _ (base_hom _ CO) mnt6_mnt_check)
      (copy_check_ok (st_Fq D) CO (@vert_check) D (fun A B F G h H R e eG He => vert_check_map H R e eG He D) mnt6_vert_check)).
  - intros Q HQ. exact (mnt6_right_vertical CO _ Q _ HQ E).
Qed.
