(** The shipped edwards Tate pairing: C49 and C51. *)
From Coq Require Import ZArith List Bool Lia Znumtheory Ring.
From Verif Require Import Mul63 FpField.
From Verif Require Import Result Algebra Limbs LimbsProofs FieldOps BigintModel FpModel FpSpec FpInst ParamsModel ParamsProofs ParamsA ParamsB ParamsC ParamsD ExtModel ExtSpec ExtFrob ExtProofs ExtInst
  CurveSpec CurveGroup CurveModel CurveProofs GroupOps CurveExtra CurveEdwards CurveEdwOps CurveEdwGroup Hom Mod63 MontRing HomMont HomPairing AlgorithmsField TowerModel TowerSpec TowerProofs TowerShipped TowerSqrt FinalExpSpec FinalExpModel FinalExpProofs
  PairingModel PairingSpec PairingProofs PairingShipped NeutralProofs MillerSpec MillerProofs MillerRegular MillerQuad Cochain BilinearQuad GenShipped NonDegenerate MntShipped MntGen MntNonDeg
  EdwSpec EdwSw EdwPairing EdwGroup EdwBilinear EdwShipped EdwGen EdwTate EdwTateValue.
Import ListNotations.
Open Scope Z_scope.

Section Six.
Context {K : Type} (F : Fops K) (e : Z -> K) (D : six_consts).
Let p := fc_p (st_Fq D).
Let r := fc_p (st_Fr D).
Notation G := (siF3 F e D).
Notation T := (quad_ops (siF3 F e D) (rot_mnr F (e (st_nr6 D)))).
Notation e1 := (cubic_emb F).
Notation d := (e (snd (st_ad D))).
Notation d' := (si_tw_d F e D).
Notation nu := (si_tw_a F e D).
Definition si_tate_textbook : Prop :=
  e (fst (st_ad D)) = o1 F /\
  edw_tate_is_textbook F G e1 nu (rot_mnr F (e (st_nr6 D))) d d' (p ^ 3) r (si_tate_reduced_pairing F e D).
Definition si_tate_bilinear : Prop :=
  e (fst (st_ad D)) = o1 F /\
  edw_tate_is_bilinear F G nu (rot_mnr F (e (st_nr6 D))) d d' r (si_tate_reduced_pairing F e D).
Hypothesis PB : prime_base F (cq (st_Fq D)).
Hypothesis C2 : char_not_2 F.
Hypothesis OK : six_ok F e D.
Hypothesis A1 : e (fst (st_ad D)) = o1 F.
Hypothesis N3F : oadd F (oadd F (o1 F) (o1 F)) (o1 F) <> o0 F.
Hypothesis NdF : d <> o0 F.
Hypothesis NadF : osub F (o1 F) d <> o0 F.
Hypothesis NSd : forall s, omul F s s <> d.
Variable t : K.
Hypothesis Ht : omul F (omul F t t) (e (st_nr3 D)) = d.
Hypothesis Rp : 0 < r.
Hypothesis Ro : Z.odd r = true.
Hypothesis Lr : limbs (fp_modulus (fc_P (st_Fr D))).
Hypothesis NU : quad_numbers G (cq (st_Fq D)) p (p ^ 3) r (limbs_of (cn (st_Fq D)) (st_loop D)) true (Z.to_pos (st_loop D)).
Hypothesis FE : final_exp_ok (siF6 F e D) (p ^ 6 - 1) r (si_final F e D).
Let FE' : final_exp_ok (siF6 F e D) (p ^ 3 * p ^ 3 - 1) r (si_final F e D).
Proof. replace (p ^ 3 * p ^ 3) with (p ^ 6) by ring. exact FE. Qed.
Lemma six_tate_pd P Q : si_tate_reduced_pairing F e D P Q = (f <- tate_raw F G e1 (cubic_scale (omul F)) (rot_mnr F (e (st_nr6 D)))
    (fp_modulus (fc_P (st_Fr D))) P Q ;; si_final F e D f).
Proof. reflexivity. Qed.
Lemma six_tate : si_tate_textbook /\ si_tate_bilinear.
Proof.
  pose proof (edw_tate_value F _ G e1 _ nu _ d d' p _ r _ _ (fp_modulus (fc_P (st_Fr D))) _ (edw_setup F e D PB C2 OK A1 N3F NdF NadF) NU (tw_d_eq F e D PB A1) N3F NdF NadF
    (edw_good1 F e D PB C2 NSd Rp Ro) (edw_good2 F e D PB C2 OK A1 N3F NdF NadF t Ht Rp Ro) (edw_order2 F e D PB C2 OK A1 N3F NdF NadF t Ht Rp Ro) Lr eq_refl _ FE' six_tate_pd) as [H1 H2].
  split; (split; [exact A1|assumption]).
Qed.
End Six.
Lemma edwards_tate_shipped CO : let D := edwards_tower in let F := cF (st_Fq D) CO in let e := ce (st_Fq D) CO in si_tate_textbook F e D /\ si_tate_bilinear F e D.
Proof.
  intros D F e. set (PB := base_prime (st_Fq D) CO). assert (HD : In D shipped_six) by (unfold shipped_six; cbn; tauto). pose proof (shipped_six_ok D CO HD) as OK.
  pose proof (oki_prime _ (fco_inv _ edwards_Fr_ok)) as Pr. pose proof (base_char2 (st_Fq D) CO) as C2.
  destruct (edw_check_ok F e (toZ (fc_P (st_Fq D))) D edwards_t PB (base_hom _ CO) edwards_edw_check) as (A1 & N3 & Nd & Nad & NS & Ht & Rp & Ro).
  apply (six_tate F e D PB C2 OK A1 N3 Nd Nad NS (e edwards_t) Ht Rp Ro).
  - apply (ok_limbs _ (fco_ok _ edwards_Fr_ok)).
  - exact (mnt_check_numbers F _ _ _ _ _ _ _ _ PB edwards_mnt_check Pr (bf_order _ _ _ (six_3 F e D PB C2 OK))).
  - exact (six_final_shipped D CO HD).
Qed.

(** ** The pairing of the generators *)
Section Maps.
Context {A B L M : Type} {F : Fops A} {G : Fops B} {h : A -> B} (H : homi F G h) {FE : Fops L} {GE : Fops M} {hE : L -> M} (HE : homi FE GE hE).
Context {FK : Fops (L * L)} {GK : Fops (M * M)} (HK : homi FK GK (map2 hE)).
Variables (sc : A -> L -> L) (sc' : B -> M -> M) (em : A -> L) (em' : B -> M) (mn : L -> L) (mn' : M -> M) (lc : bigint).
Hypothesis Esc : forall c x, sc' (h c) (hE x) = hE (sc c x).
Hypothesis Eem : forall c, em' (h c) = hE (em c).
Hypothesis Emn : forall x, mn' (hE x) = hE (mn x).
Lemma fdbl_map s : edw_fq_doubling_step G (map4 (hE := h) s) = let '(r, c) := edw_fq_doubling_step F s in (map4 (hE := h) r, map3 h c).
Proof.
  destruct s as [[[X Y] Z] T]. unfold edw_fq_doubling_step, map4, map3. cbv zeta. cbn [fst snd].
  repeat (pull H). reflexivity.
Qed.
Lemma fpre_body_map b Q s : edw_precompute_body G (fun x => x) (edw_fq_doubling_step G) (map4 (hE := h) Q) b (mapE (hE := h) s) =
  rmap (mapE (hE := h)) (edw_precompute_body F (fun x => x) (edw_fq_doubling_step F) Q b s).
Proof.
  destruct s as [R c]. unfold mapE at 1. unfold edw_precompute_body. rewrite fdbl_map.
  destruct (edw_fq_doubling_step F R) as [R1 c1]. cbv zeta. destruct b.
  - rewrite (eadd_map H (fun x => x) (fun x => x)) by reflexivity. destruct (edw_mixed_addition_step F (fun x => x) Q R1) as [R2 c2]. cbn. now rewrite !map_app.
  - cbn. now rewrite !map_app.
Qed.
Lemma tpre1_map P : tate_precompute_G1 G lc (map3 h P) = rmap (map (map3 h)) (tate_precompute_G1 F lc P).
Proof.
  unfold tate_precompute_G1. apply (bind_map' (map3 h)); [apply (edw_to_affine_map H)|]. intros [[X Y] Z]. unfold map3 at 1. cbn [fst snd]. cbv zeta.
  apply (bind_map' (mapE (hE := h))).
  - rewrite <- (bit_loop_map (mapE (hE := h)) lc _ _ (fun b s => fpre_body_map b (X, Y, Z, omul F X Y) s)). unfold mapE, map4. cbn [map]. now rewrite (hi_mul H).
  - intros [R c]. reflexivity.
Qed.
Lemma tpre2_map Q : tate_precompute_G2 GE mn' (map3 hE Q) = rmap (map2 hE) (tate_precompute_G2 FE mn Q).
Proof.
  unfold tate_precompute_G2. apply (bind_map' (map3 hE)); [apply (edw_to_affine_map HE)|]. intros [[X Y] Z]. unfold map3. cbn [fst snd].
  apply (bind_map' hE); [apply (hi_inv _ _ _ HE)|]. intros zi. rewrite Emn.
  apply (bind_map' hE); [apply (hi_inv _ _ _ HE)|]. intros i. cbn. unfold map2. cbn [fst snd]. now push HE.
Qed.
Lemma tg_map Q c : tate_g GE sc' em' (map2 hE Q) (map3 h c) = map2 hE (tate_g FE sc em Q c).
Proof. destruct Q as [y0 eta], c as [[x y] z]. unfold tate_g, map3, map2. cbn [fst snd]. rewrite !Esc, Eem. now push HE. Qed.
Lemma tloop_map Q l : miller_value (tate_miller_loop_idx GE sc' GK lc em' (map (map3 h) l) (map2 hE Q)) =
  rmap (map2 hE) (miller_value (tate_miller_loop_idx FE sc FK lc em l Q)).
Proof.
  unfold miller_value. apply (bind_map' (mapJ (hE := hE))).
  - unfold tate_miller_loop_idx.
    rewrite <- (bit_loop_map (mapJ (hE := hE)) lc _ _ (fun b s => ebody_map HK (map3 h) _ _ _ _ l b s (tg_map Q) (tg_map Q))). unfold mapJ at 1. now rewrite (hi_1 HK).
  - intros [f i]. reflexivity.
Qed.
End Maps.
Lemma tate_pairing_map {A B} {F : Fops A} {G : Fops B} {h : A -> B} (H : homi F G h) nr2 nr3 nr6 t31 t32 t6 rr w1 w0 ng P Q :
  edwards_tate_reduced_pairing G (h nr2) (h nr3) (h nr6) (map h t31) (map h t32) (map h t6) rr w1 w0 ng (map3 h P) (map3 (map3 h) Q) =
  rmap (map2 (map3 h)) (edwards_tate_reduced_pairing F nr2 nr3 nr6 t31 t32 t6 rr w1 w0 ng P Q).
Proof.
  unfold edwards_tate_reduced_pairing. apply (bind_map' (map2 (map3 h))); [|apply (six_final_map H)]. unfold edwards_tate_pairing. cbv zeta.
  apply (bind_map' (map (map3 h))); [apply (tpre1_map H)|]. intros p.
  apply (bind_map' (map2 (map3 h))).
  - apply (tpre2_map (homi_fp3 H nr3)). intros [[x y] z]. unfold rot_mnr, map3. cbn [fst snd]. now push H.
  - intros q. apply (tloop_map (homi_fp3 H nr3) (homi_fp6_2over3 H nr3 nr6)); [exact (scale3 H)|].
    intros c. unfold map3. cbn [fst snd]. now push H.
Qed.
Definition si_tate_pair_check {K} (F : Fops K) (e : Z -> K) (D : six_consts) : bool :=
  is_ok_ne1 (siF6 F e D) (si_tate_reduced_pairing F e D (edw_inverted F (si_edw_gen1 e D)) (edw_inverted (siF3 F e D) (si_edw_gen2 e D))).
Lemma si_tate_pair_check_map {A B : Type} {F : Fops A} {G : Fops B} {h : A -> B} (H : homi F G h) (e : Z -> A) (eG : Z -> B) : (forall z, eG z = h (e z)) ->
  forall D, si_tate_pair_check G eG D = si_tate_pair_check F e D.
Proof.
  intros He D. unfold si_tate_pair_check, si_tate_reduced_pairing, siF6, siF3, si_edw_gen1, si_edw_gen2, edw_inverted. rewrite !He. apply (is_ok_ne1_map (homi_fp6_2over3 H _ _)).
  rewrite <- (tate_pairing_map H). rewrite !(e_list e eG He), !(e_map3 e eG He). f_equal.
  - unfold map3. cbn [fst snd]. now push H.
  - apply (f_equal2 pair); [reflexivity|]. symmetry. exact (hi_mul (homi_fp3 H (e (st_nr3 D))) _ _).
Qed.
Lemma tate_pair_check : copy_check (st_Fq edwards_tower) (@si_tate_pair_check) edwards_tower = true. Proof. vm_compute. reflexivity. Qed.
Definition si_tate_nondegenerate {K} (F : Fops K) (e : Z -> K) (D : six_consts) : Prop :=
  te_nondegenerate F (o1 F) (e (snd (st_ad D))) (siF3 F e D) (si_tw_a F e D) (si_tw_d F e D) (siF6 F e D) (fc_p (st_Fr D))
    (si_edw_gen1 e D) (si_edw_gen2 e D) (si_tate_reduced_pairing F e D).
Section SixNonDeg.
Context {K : Type} (F : Fops K) (e : Z -> K) (D : six_consts).
Let r := fc_p (st_Fr D).
Notation d := (e (snd (st_ad D))).
Notation G := (siF3 F e D).
Notation T := (quad_ops (siF3 F e D) (rot_mnr F (e (st_nr6 D)))).
Notation d' := (si_tw_d F e D).
Notation nu := (si_tw_a F e D).
Hypothesis PB : prime_base F (cq (st_Fq D)).
Hypothesis C2 : char_not_2 F.
Hypothesis OK : six_ok F e D.
Hypothesis A1 : e (fst (st_ad D)) = o1 F.
Hypothesis N3F : oadd F (oadd F (o1 F) (o1 F)) (o1 F) <> o0 F.
Hypothesis NdF : d <> o0 F.
Hypothesis NadF : osub F (o1 F) d <> o0 F.
Hypothesis NSd : forall s, omul F s s <> d.
Variable t : K.
Hypothesis Ht : omul F (omul F t t) (e (st_nr3 D)) = d.
Hypothesis Rp : 0 < r.
Hypothesis Ro : Z.odd r = true.
Hypothesis Pr : prime r.
Lemma si_tate_nondegenerate_of : si_edw_G1 F e D (si_edw_gen1 e D) /\ si_edw_G2 F e D (si_edw_gen2 e D) -> si_edw_pair_check F e D = true ->
  si_tate_pair_check F e D = true -> si_tate_bilinear F e D -> si_tate_nondegenerate F e D.
Proof.
  intros [G1 [G2 _]] P PT [_ BL]. unfold si_edw_pair_check in P. rewrite !andb_true_iff, !negb_true_iff in P. destruct P as [[P1 P2] _].
  assert (FK : field_ok F) by exact (pb_field F _ PB). assert (GK : field_ok G) by exact (bf_field _ _ _ (six_3 F e D PB C2 OK)).
  assert (TK : field_ok (siF6 F e D)) by (pose proof (six_6 F e D PB C2 OK) as B; apply B).
  assert (X1 : fst (si_edw_gen1 e D) <> o0 F) by exact (proj1 (rk_eqb_neq F (fk_ring F FK) _ _) P1).
  assert (X2 : fst (si_edw_gen2 e D) <> o0 G) by exact (proj1 (rk_eqb_neq _ (fk_ring _ GK) _ _) P2).
  pose proof (edw_good1 F e D PB C2 NSd Rp Ro) as GD1.
  pose proof (edw_good2 F e D PB C2 OK A1 N3F NdF NadF _ Ht Rp Ro) as GD2.
  pose proof (tg_on _ _ _ _ GD1 _ G1) as O1. pose proof (tg_on _ _ _ _ GD2 _ G2) as O2.
  destruct (tg_xy _ _ _ _ GD1 _ G1) as [E|[_ Y1]]; [exfalso; apply X1; rewrite E; reflexivity|].
  destruct (tg_xy _ _ _ _ GD2 _ G2) as [E|[_ Y2]]; [exfalso; apply X2; rewrite E; reflexivity|].
  assert (H2G : oadd G (o1 G) (o1 G) <> o0 G) by (intros X; apply C2; now injection X).
  assert (NSa : forall s, omul G s s <> nu).
  { pose proof (edw_setup F e D PB C2 OK A1 N3F NdF NadF) as QS. intros s. exact (nu_nonsq G GK nu (rot_mnr F (e (st_nr6 D))) (qs_mnr _ _ _ _ _ _ _ _ _ _ _ QS) TK s). }
  unfold si_tate_nondegenerate.
  refine (te_nondegenerate_of F FK _ _ _ GK _ _ _ TK _ (si_edw_G1 F e D) (edw_G2t G nu d' r) _ _ _ _ _ Pr _ _ BL G1 G2 O1 O2 X1 Y1 X2 Y2 PT).
  - intros m A. exact (six_edw_order1 F e D PB C2 NSd Rp Pr m A).
  - intros m A. exact (te_order_dual_ne G GK nu d' H2G r Pr Rp Ro _ (edw_be F e D PB t Ht) (edw_be_ne F e D PB NdF t Ht) NSa A m).
Qed.
End SixNonDeg.
Section Shipped.
Variable CO : field_consts_ok (st_Fq edwards_tower).
Let D := edwards_tower.
Let F := cF (st_Fq D) CO.
Let e := ce (st_Fq D) CO.
Let PB := base_prime (st_Fq D) CO.
Let C2 := base_char2 (st_Fq D) CO.
Let IN : In D shipped_six. Proof. unfold shipped_six. cbn. tauto. Qed.
Let OK : six_ok F e D := shipped_six_ok D CO IN.
Let Pr := oki_prime _ (fco_inv _ edwards_Fr_ok).
Let EC := edw_check_ok F e (toZ (fc_P (st_Fq D))) D edwards_t PB (base_hom _ CO) edwards_edw_check.
Let PC : si_edw_pair_check F e D = true := copy_check_ok (st_Fq D) CO (@si_edw_pair_check) D (fun A B F G h H R e eG He => si_edw_pair_check_map H e eG He D) edwards_pair_check.
Let TC : si_tate_pair_check F e D = true := copy_check_ok (st_Fq D) CO (@si_tate_pair_check) D (fun A B F G h H R e eG He => si_tate_pair_check_map H e eG He D) tate_pair_check.
Theorem edwards_tate_nondegenerate : si_tate_nondegenerate F e D.
Proof.
  destruct EC as (A1 & N3 & Nd & Nad & NS & Ht & Rp & Ro).
  exact (si_tate_nondegenerate_of F e D PB C2 OK A1 N3 Nd Nad NS _ Ht Rp Ro Pr (edwards_generators CO) PC TC (proj2 (edwards_tate_shipped CO))).
Qed.
End Shipped.
