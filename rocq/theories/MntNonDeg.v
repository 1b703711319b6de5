(** The mnt4 and mnt6 pairings of the shipped generators are not one (C49): the
    pairing code is run on the Montgomery copy of the field. *)
From Coq Require Import ZArith List Bool Lia Znumtheory.
From Verif Require Import Mul63 FpField.
From Verif Require Import Result Limbs LimbsProofs BigintModel Algebra FieldOps FpSpec FpModel FpInst ParamsModel ParamsProofs ExtModel ExtProofs ExtFrob ExtInst CurveSpec CurveModel CurveProofs AlgorithmsField Hom Mod63 MontRing HomMont HomPairing
  TowerModel TowerSpec TowerShipped TowerSqrt FinalExpModel FinalExpProofs PairingModel PairingShipped MillerSpec GenShipped NonDegenerate MillerProofs MillerRegular BilinearTwelve MillerQuad BilinearQuad MntShipped MntGen ParamsA ParamsB ParamsC ParamsD.
Import ListNotations.
Open Scope Z_scope.

(** ** The Miller loop *)
Section Mnt.
Context {A B L M : Type} {F : Fops A} {G : Fops B} {h : A -> B} (H : homi F G h) {FE : Fops L} {GE : Fops M} {hE : L -> M} (HE : homi FE GE hE).
Context {FK : Fops (L * L)} {GK : Fops (M * M)} (HK : homi FK GK (map2 hE)).
Variables (sc : A -> L -> L) (sc' : B -> M -> M) (em : A -> L) (em' : B -> M) (twist ta : L) (lc : bigint) (neg : bool).
Hypothesis Esc : forall c x, sc' (h c) (hE x) = hE (sc c x).
Hypothesis Eem : forall c, em' (h c) = hE (em c).
Definition map4 (s : L * L * L * L) : M * M * M * M := let '(x, y, z, t) := s in (hE x, hE y, hE z, hE t).
Definition mapP (P : mnt_G1_precomp (K := A) (L := L)) : mnt_G1_precomp (K := B) (L := M) :=
  {| PX := h (PX P); PY := h (PY P); PX_twist := hE (PX_twist P); PY_twist := hE (PY_twist P) |}.
Definition mapD (d : mnt_dbl_coeffs (L := L)) : mnt_dbl_coeffs (L := M) := {| c_H := hE (c_H d); c_4C := hE (c_4C d); c_J := hE (c_J d); c_L := hE (c_L d) |}.
Definition mapA (d : mnt_add_coeffs (L := L)) : mnt_add_coeffs (L := M) := {| c_L1 := hE (c_L1 d); c_RZ := hE (c_RZ d) |}.
Definition mapQ (Q : mnt_G2_precomp (L := L)) : mnt_G2_precomp (L := M) :=
  {| QX := hE (QX Q); QY := hE (QY Q); QY2 := hE (QY2 Q); QX_over_twist := hE (QX_over_twist Q); QY_over_twist := hE (QY_over_twist Q);
     dbl_coeffs := map mapD (dbl_coeffs Q); add_coeffs := map mapA (add_coeffs Q) |}.
Lemma eight_map : Fq_eight G = h (Fq_eight F). Proof. unfold Fq_eight. now push H. Qed.
Lemma mdbl_map s : mnt_doubling_step G GE sc' (hE ta) (map4 s) = let '(r, d) := mnt_doubling_step F FE sc ta s in (map4 r, mapD d).
Proof.
  destruct s as [[[X Y] Z] T]. unfold mnt_doubling_step, map4, mapD. cbv zeta. cbn [c_H c_4C c_J c_L]. rewrite eight_map, <- (hi_opp H).
  repeat (pull HE; rewrite ?Esc). reflexivity.
Qed.
Lemma madd_map x y y2 s : mnt_mixed_addition_step GE (hE x) (hE y) (hE y2) (map4 s) =
  let '(r, d) := mnt_mixed_addition_step FE x y y2 s in (map4 r, mapA d).
Proof. destruct s as [[[X Y] Z] T]. unfold mnt_mixed_addition_step, map4, mapA. cbv zeta. cbn [c_L1 c_RZ]. pull HE. reflexivity. Qed.
Lemma mpre1_map P : mnt_precompute_G1 G sc' (hE twist) (map3 h P) = rmap mapP (mnt_precompute_G1 F sc twist P).
Proof.
  unfold mnt_precompute_G1. apply (bind_map' (map3 h)); [apply (prj_to_affine_map H)|]. intros [[X Y] Z]. unfold map3, mapP. cbn [fst snd].
  cbn. now rewrite !Esc.
Qed.
Definition mapS (s : L * L * L * L * list (mnt_dbl_coeffs (L := L)) * list (mnt_add_coeffs (L := L))) :=
  let '(r, d, a) := s in (map4 r, map mapD d, map mapA a).
Lemma mpre_body_map x y y2 b s : mnt_precompute_body G GE sc' (hE ta) (hE x) (hE y) (hE y2) b (mapS s) =
  rmap mapS (mnt_precompute_body F FE sc ta x y y2 b s).
Proof.
  destruct s as [[R d] a]. unfold mapS at 1. unfold mnt_precompute_body. rewrite mdbl_map.
  destruct (mnt_doubling_step F FE sc ta R) as [R1 d1]. cbv zeta. destruct b.
  - rewrite madd_map. destruct (mnt_mixed_addition_step FE x y y2 R1) as [R2 a2]. cbn. unfold mapS. now rewrite !map_app.
  - cbn. unfold mapS. now rewrite !map_app.
Qed.
Lemma mpre2_map Q : mnt_precompute_G2 G GE sc' (hE twist) (hE ta) lc neg (map3 hE Q) = rmap mapQ (mnt_precompute_G2 F FE sc twist ta lc neg Q).
Proof.
  unfold mnt_precompute_G2. apply (bind_map' (map3 hE)); [apply (prj_to_affine_map HE)|]. intros [[X Y] Z]. unfold map3. cbn [fst snd].
  apply (bind_map' hE); [apply (hi_inv _ _ _ HE)|]. intros ti. cbv zeta.
  apply (bind_map' mapS).
  { rewrite <- (bit_loop_map mapS lc _ _ (mpre_body_map X Y (osqr FE Y))). unfold mapS at 1. cbn [map4 map]. now rewrite (hi_1 HE), (hi_sqr HE). }
  intros [[R d] a]. unfold mapS. apply (bind_map' (map mapA)).
  - destruct neg; [|reflexivity]. destruct R as [[[RX RY] RZ] RT]. cbn [map4]. apply (bind_map' hE); [apply (hi_inv _ _ _ HE)|]. intros zi. cbv zeta.
    pull HE. rewrite (madd_map _ _ _ (RX, RY, RZ, RT)). destruct (mnt_mixed_addition_step FE _ _ _ _) as [R2 a2]. cbn. now rewrite map_app.
  - intros a'. cbn. unfold mapQ. cbn. pull HE. reflexivity.
Qed.
Lemma g_RR_map P d : mnt_g_RR GE (mapP P) (mapD d) = map2 hE (mnt_g_RR FE P d).
Proof. unfold mnt_g_RR, mapP, mapD, map2. cbn [fst snd c_H c_4C c_J c_L PX_twist PY_twist]. pull HE. reflexivity. Qed.
Lemma g_RQ_map P Q a : mnt_g_RQ GE em' (mapP P) (mapQ Q) (mapA a) = map2 hE (mnt_g_RQ FE em P Q a).
Proof.
  unfold mnt_g_RQ, mapP, mapQ, mapA, map2. cbv zeta. cbn [fst snd c_L1 c_RZ PX PY_twist QX_over_twist QY_over_twist]. rewrite Eem. pull HE. reflexivity.
Qed.
Definition mapI (s : L * L * nat * nat) : M * M * nat * nat := let '(f, i, j) := s in (map2 hE f, i, j).
Lemma mbody_map P Q b s : mnt_miller_body GE em' GK (mapP P) (mapQ Q) b (mapI s) = rmap mapI (mnt_miller_body FE em FK P Q b s).
Proof.
  destruct s as [[f i] j]. unfold mapI at 1. unfold mnt_miller_body. apply (bind_map' mapD); [apply at_idx_map|]. intros d. cbv zeta.
  rewrite g_RR_map, <- (hi_sqr HK), <- (hi_mul HK). destruct b; [|reflexivity].
  apply (bind_map' mapA); [apply at_idx_map|]. intros a. rewrite g_RQ_map, <- (hi_mul HK). reflexivity.
Qed.
Lemma mloop_map P Q : mnt_miller_loop GE em' GK lc neg (mapP P) (mapQ Q) = rmap (map2 hE) (mnt_miller_loop FE em FK lc neg P Q).
Proof.
  unfold mnt_miller_loop. apply (bind_map' mapI).
  - unfold mnt_miller_loop_idx. apply (bind_map' mapI).
    + rewrite <- (bit_loop_map mapI lc _ _ (mbody_map P Q)). unfold mapI at 1. now rewrite (hi_1 HK).
    + intros [[f i] j]. unfold mapI at 1. destruct neg; [|reflexivity].
      apply (bind_map' mapA); [apply at_idx_map|]. intros a. rewrite g_RQ_map, <- (hi_mul HK).
      apply (bind_map' (map2 hE)); [apply (hi_inv _ _ _ HK)|]. reflexivity.
  - intros [[f i] j]. reflexivity.
Qed.
End Mnt.

(** ** The final exponentiation *)
Section Chunks.
Context {T T' : Type} (g : T -> T') (mul : T -> T -> T) (mul' : T' -> T' -> T') (inv : T -> result T) (inv' : T' -> result T')
  (frob : Z -> T -> T) (frob' : Z -> T' -> T') (cexp : T -> list Z -> result T) (cexp' : T' -> list Z -> result T').
Hypothesis Em : forall x y, mul' (g x) (g y) = g (mul x y).
Hypothesis Ei : forall x, inv' (g x) = rmap g (inv x).
Hypothesis Ef : forall k x, frob' k (g x) = g (frob k x).
Hypothesis Ec : forall x e, cexp' (g x) e = rmap g (cexp x e).
Lemma chunked_map w1 w0 neg fc fc' : (forall x y, fc' (g x) (g y) = g (fc x y)) ->
  forall x, chunked_final_exponentiation mul' inv' frob' cexp' w1 w0 neg fc' (g x) = rmap g (chunked_final_exponentiation mul inv frob cexp w1 w0 neg fc x).
Proof.
  intros E x. unfold chunked_final_exponentiation. apply (bind_map' g); [apply Ei|]. intros y. cbv zeta. rewrite !E. unfold last_chunk. cbv zeta.
  rewrite Ef. apply (bind_map' g); [apply Ec|]. intros u. apply (bind_map' g); [destruct neg; apply Ec|]. intros v. rewrite Em. reflexivity.
Qed.
Lemma first4_map x y : first_chunk4 mul' frob' (g x) (g y) = g (first_chunk4 mul frob x y).
Proof. unfold first_chunk4. now rewrite Ef, Em. Qed.
Lemma first6_map x y : first_chunk6 mul' frob' (g x) (g y) = g (first_chunk6 mul frob x y).
Proof. unfold first_chunk6. cbv zeta. now rewrite !Ef, !Em, Ef, Em. Qed.
End Chunks.

Section Towers.
Context {A B : Type} {F : Fops A} {G : Fops B} {h : A -> B} (H : homi F G h) (e : Z -> A) (eG : Z -> B).
Hypothesis He : forall z, eG z = h (e z).
Variables nr2 nr3 nr4 nr6 : A.
Notation h2 := (map2 h).
Notation h3 := (map3 h).
Let H2 := homi_fp2 H nr2.
Let H3 := homi_fp3 H nr3.
Lemma homi_fp4 : homi (fp4_ops F nr2 nr4) (fp4_ops G (h nr2) (h nr4)) (map2 h2).
Proof. apply (homi_quad H2). intros [a b]. unfold map2, fp4_mnr. cbn [fst snd]. now push H. Qed.
Let H4 := homi_fp4.
Lemma homi_fp6_2over3 : homi (fp6_2over3_ops F nr3 nr6) (fp6_2over3_ops G (h nr3) (h nr6)) (map2 h3).
Proof. apply (homi_quad H3). intros [[a b] c]. unfold map3. cbn [fst snd rot_mnr]. now push H. Qed.
Let H6 := homi_fp6_2over3.
Lemma fp4_frob_map t2 t4 k x : fp4_frobenius G (map h t2) (map h t4) k (map2 h2 x) = map2 h2 (fp4_frobenius F t2 t4 k x).
Proof.
  destruct x as [a b]. change (map2 h2 (a, b)) with (h2 a, h2 b). unfold fp4_frobenius. rewrite <- (hi_0 H), coeff_map, !(fp2_frobenius_map H), (scale2 H). reflexivity.
Qed.
Lemma fp6_frob_map t31 t32 t6 k x : fp6_2over3_frobenius G (map h t31) (map h t32) (map h t6) k (map2 h3 x) = map2 h3 (fp6_2over3_frobenius F t31 t32 t6 k x).
Proof.
  destruct x as [a b]. change (map2 h3 (a, b)) with (h3 a, h3 b). unfold fp6_2over3_frobenius. rewrite <- (hi_0 H), coeff_map, !(fp3_frobenius_map H), (scale3 H). reflexivity.
Qed.
Lemma quad_uinv_map {L M} {FE : Fops L} {GE : Fops M} {hE} (HE : homi FE GE hE) x : quad_unitary_inverse GE (map2 hE x) = map2 hE (quad_unitary_inverse FE x).
Proof. destruct x as [a b]. unfold map2, quad_unitary_inverse. cbn [fst snd]. now rewrite (hi_opp HE). Qed.
Lemma fp4_csqr_map x : fp4_cyclotomic_squared G (h nr2) (h nr4) (map2 h2 x) = map2 h2 (fp4_cyclotomic_squared F nr2 nr4 x).
Proof.
  destruct x as [a b]. change (map2 h2 (a, b)) with (h2 a, h2 b). unfold fp4_cyclotomic_squared. cbv zeta. rewrite <- (hi_sqr H2).
  assert (Em : forall x, fp4_mnr G (h nr4) (h2 x) = h2 (fp4_mnr F nr4 x)) by (intros [u v]; unfold map2, fp4_mnr; cbn [fst snd]; now push H).
  rewrite Em. pull H2. reflexivity.
Qed.
Lemma fp6_csqr_map x : fp6_cyclotomic_squared G (h nr2) (h nr3) (map2 h3 x) = map2 h3 (fp6_cyclotomic_squared F nr2 nr3 x).
Proof.
  destruct x as [[[c00 c01] c02] [[c10 c11] c12]]. change (map2 h3 (c00, c01, c02, (c10, c11, c12))) with ((h c00, h c01, h c02), (h c10, h c11, h c12)).
  unfold fp6_cyclotomic_squared. cbv zeta. cbn [fst snd].
  change (h c00, h c11) with (h2 (c00, c11)). change (h c10, h c02) with (h2 (c10, c02)). change (h c01, h c12) with (h2 (c01, c12)).
  rewrite <- !(hi_sqr H2). destruct (osqr (fp2_ops F nr2) (c00, c11)) as [a1 a2], (osqr (fp2_ops F nr2) (c10, c02)) as [b1 b2], (osqr (fp2_ops F nr2) (c01, c12)) as [d1 d2].
  unfold map2, map3. cbn [fst snd]. pull H. reflexivity.
Qed.
Lemma fp4_cexp_map x l : fp4_cyclotomic_exp G (h nr2) (h nr4) (map2 h2 x) l = rmap (map2 h2) (fp4_cyclotomic_exp F nr2 nr4 x l).
Proof.
  unfold fp4_cyclotomic_exp. apply cyclotomic_exp_naf_map.
  - symmetry. exact (hi_1 H4).
  - intros a b. symmetry. exact (hi_mul H4 a b).
  - exact fp4_csqr_map.
  - exact (quad_uinv_map H2).
Qed.
Lemma fp6_cexp_map x l : fp6_cyclotomic_exp G (h nr2) (h nr3) (h nr6) (map2 h3 x) l = rmap (map2 h3) (fp6_cyclotomic_exp F nr2 nr3 nr6 x l).
Proof.
  unfold fp6_cyclotomic_exp. apply cyclotomic_exp_naf_map.
  - symmetry. exact (hi_1 H6).
  - intros a b. symmetry. exact (hi_mul H6 a b).
  - exact fp6_csqr_map.
  - exact (quad_uinv_map H3).
Qed.
Lemma mnt4_final_map t2 t4 w1 w0 ng x : mnt4_final_exponentiation G (h nr2) (h nr4) (map h t2) (map h t4) w1 w0 ng (map2 h2 x) =
  rmap (map2 h2) (mnt4_final_exponentiation F nr2 nr4 t2 t4 w1 w0 ng x).
Proof.
  assert (Em : forall x y, omul (fp4_ops G (h nr2) (h nr4)) (map2 h2 x) (map2 h2 y) = map2 h2 (omul (fp4_ops F nr2 nr4) x y)) by (intros; symmetry; exact (hi_mul H4 _ _)).
  unfold mnt4_final_exponentiation. apply chunked_map.
  - exact Em.
  - exact (hi_inv _ _ _ H4).
  - apply fp4_frob_map.
  - exact fp4_cexp_map.
  - apply first4_map; [exact Em|apply fp4_frob_map].
Qed.
Lemma six_final_map t31 t32 t6 w1 w0 ng x : six_final_exponentiation G (h nr2) (h nr3) (h nr6) (map h t31) (map h t32) (map h t6) w1 w0 ng (map2 h3 x) =
  rmap (map2 h3) (six_final_exponentiation F nr2 nr3 nr6 t31 t32 t6 w1 w0 ng x).
Proof.
  assert (Em : forall x y, omul (fp6_2over3_ops G (h nr3) (h nr6)) (map2 h3 x) (map2 h3 y) = map2 h3 (omul (fp6_2over3_ops F nr3 nr6) x y)) by (intros; symmetry; exact (hi_mul H6 _ _)).
  unfold six_final_exponentiation. apply chunked_map.
  - exact Em.
  - exact (hi_inv _ _ _ H6).
  - apply fp6_frob_map.
  - exact fp6_cexp_map.
  - apply first6_map; [exact Em|apply fp6_frob_map].
Qed.
Lemma mnt4_pairing_map t2 t4 ta lc neg w1 w0 ng P Q :
  mnt4_reduced_pairing G (h nr2) (h nr4) (map h t2) (map h t4) (h2 ta) lc neg w1 w0 ng (map3 h P) (map3 h2 Q) =
  rmap (map2 h2) (mnt4_reduced_pairing F nr2 nr4 t2 t4 ta lc neg w1 w0 ng P Q).
Proof.
  unfold mnt4_reduced_pairing. apply (bind_map' (map2 h2)); [|apply mnt4_final_map]. unfold mnt4_pairing. cbv zeta.
  assert (Et : (o0 G, o1 G) = h2 (o0 F, o1 F)) by (unfold map2; cbn [fst snd]; now push H). rewrite Et.
  apply (bind_map' (mapP (h := h) (hE := h2))); [apply (mpre1_map H _ _ _ (scale2 H))|]. intros p.
  apply (bind_map' (mapQ (hE := h2))); [apply (mpre2_map H H2 _ _ _ _ _ _ (scale2 H))|]. intros q.
  apply (mloop_map H2 H4). intros c. unfold map2. cbn [fst snd]. now push H.
Qed.
Lemma mnt6_pairing_map t31 t32 t6 ta lc neg w1 w0 ng P Q :
  mnt6_reduced_pairing G (h nr2) (h nr3) (h nr6) (map h t31) (map h t32) (map h t6) (h3 ta) lc neg w1 w0 ng (map3 h P) (map3 h3 Q) =
  rmap (map2 h3) (mnt6_reduced_pairing F nr2 nr3 nr6 t31 t32 t6 ta lc neg w1 w0 ng P Q).
Proof.
  unfold mnt6_reduced_pairing. apply (bind_map' (map2 h3)); [|apply six_final_map]. unfold mnt6_pairing. cbv zeta.
  assert (Et : (o0 G, o1 G, o0 G) = h3 (o0 F, o1 F, o0 F)) by (unfold map3; cbn [fst snd]; now push H). rewrite Et.
  apply (bind_map' (mapP (h := h) (hE := h3))); [apply (mpre1_map H _ _ _ (scale3 H))|]. intros p.
  apply (bind_map' (mapQ (hE := h3))); [apply (mpre2_map H H3 _ _ _ _ _ _ (scale3 H))|]. intros q.
  apply (mloop_map H3 H6). intros c. unfold map3. cbn [fst snd]. now push H.
Qed.
End Towers.

(** ** Non-degeneracy on a quadratic twist *)
(** There is v of order r with pairing(m G1, n G2) = v^(m n) for 1 <= m, n < r; so
    no such pairing is one. *)
Definition quad_nondegenerate {K L T} (F : Fops K) (a : K) (G : Fops L) (a' : L) (FT : Fops T) (r : Z) (g1 : apt K) (g2 : apt L)
    (pairing : K * K * K -> L * L * L -> result T) : Prop :=
  exists v, (forall n, fpow FT v n = o1 FT <-> (r | Z.of_nat n)) /\
  forall m n P Q, Z.pos m < r -> Z.pos n < r -> prj_den F P = mult F a m g1 -> prj_den G Q = mult G a' n g2 ->
  pairing P Q = Ok (fpow FT v (Pos.to_nat (m * n))) /\ pairing P Q <> Ok (o1 FT).
Lemma mult_ne_order {K} (F : Fops K) (FK : field_ok F) a b r A n : oadd F (o1 F) (o1 F) <> o0 F -> sw_disc F a b <> o0 F -> prime r -> 3 < r ->
  A <> Inf -> torsion F a b r A -> Z.pos n < r -> mult F a n A <> Inf.
Proof.
  intros H2 HD Pr R3 NI TA Hn. pose proof (proj1 TA) as O. apply (S1_z F FK a b H2 HD r R3 A O) in TA. rewrite (zmult_mult F FK a b H2 HD _ _ O).
  apply (zmult_ne F FK a b H2 HD r A Pr O NI TA). intros DV. apply Z.divide_pos_le in DV; lia.
Qed.
Section NonDeg.
Context {K L : Type} (F : Fops K) (q : nat) (G : Fops L) (e1 : K -> L) (scale : K -> L -> L) (nu : L) (mnr : L -> L) (a b : K) (a' b' : L) (r : Z).
Hypothesis QS : quad_setup F q G e1 scale nu mnr a b a' b'.
Variable pairing : K * K * K -> L * L * L -> result (L * L).
Notation T := (quad_ops G mnr).
Variables (x1 y1 : K) (x2 y2 : L).
Lemma quad_nondegenerate_of : prime r -> 3 < r ->
  quad_is_bilinear F q G e1 mnr a b a' b' r pairing -> quad_G1 F a b r (Aff x1 y1) -> quad_G2 q G e1 mnr a a' b' r (Aff x2 y2) ->
  is_ok_ne1 T (pairing (x1, y1, o1 F) (x2, y2, o1 G)) = true ->
  quad_nondegenerate F a G a' T r (Aff x1 y1) (Aff x2 y2) pairing.
Proof.
  intros Pr R3 BL H1 H2 Ck. pose proof QS as QS'. destruct QS' as [PB GK E0 E1 EA EM EO EI ES EN Nn TK Ea Eb C2 HD].
  pose proof (pb_field F q PB) as FK. pose proof (fk_ring T TK) as RT.
  pose proof (two_G F G e1 E0 E1 EA EI C2) as C2G. pose proof (disc_G F G GK e1 nu E0 EA EM EI Nn a b a' b' Ea Eb HD) as HDG.
  set (P0 := (x1, y1, o1 F)) in *. set (Q0 := (x2, y2, o1 G)) in *.
  assert (D1 : prj_den F P0 = Aff x1 y1) by apply (prj_den_aff F FK). assert (D2 : prj_den G Q0 = Aff x2 y2) by apply (prj_den_aff G GK).
  pose proof (pbl_mult _ _ _ _ _ _ _ _ _ _ _ BL) as PM.
  assert (G10 : prj_den F P0 <> Inf /\ quad_G1 F a b r (prj_den F P0)) by (rewrite D1; split; [discriminate|exact H1]).
  assert (G20 : prj_den G Q0 <> Inf /\ quad_G2 q G e1 mnr a a' b' r (prj_den G Q0)) by (rewrite D2; split; [discriminate|exact H2]).
  destruct (PM P0 Q0 P0 Q0 xH xH G10 G20 eq_refl (proj1 G10) eq_refl (proj1 G20)) as (v & V1 & V2 & _).
  assert (N1 : v <> o1 T).
  { intros ->. rewrite V1 in Ck. unfold is_ok_ne1 in Ck. rewrite (rk_eqb_refl T RT) in Ck. discriminate. }
  pose proof (pow_order T RT v r Pr N1 V2) as Ord. exists v. split; [exact Ord|]. intros m n P Q Hm Hn HP HQ.
  assert (E : pairing P Q = Ok (fpow T v (Pos.to_nat (m * n)))).
  { destruct (PM P0 Q0 P Q m n G10 G20) as (v' & V1' & _ & V3).
    - now rewrite D1.
    - rewrite HP. apply (mult_ne_order F FK a b r _ m C2 HD Pr R3); [discriminate|exact H1|exact Hm].
    - now rewrite D2.
    - rewrite HQ. apply (mult_ne_order G GK a' b' r _ n C2G HDG Pr R3); [discriminate|exact (proj1 H2)|exact Hn].
    - rewrite V1 in V1'. injection V1' as <-. exact V3. }
  split; [exact E|]. rewrite E. intros X. assert (X' : fpow T v (Pos.to_nat (m * n)) = o1 T) by congruence.
  apply Ord in X'. rewrite positive_nat_Z, Pos2Z.inj_mul in X'. apply prime_mult in X'; [|exact Pr].
  destruct X' as [X'|X']; apply Z.divide_pos_le in X'; lia.
Qed.
End NonDeg.

(** ** The pairings of the generators, on the copy *)
Definition fo_pair_check {K} (F : Fops K) (e : Z -> K) (D : four_consts) : bool :=
  is_ok_ne1 (foF4 F e D) (fo_reduced_pairing F e D (e (fst (ft_G1 D)), e (snd (ft_G1 D)), o1 F)
    (map2 e (fst (ft_G2 D)), map2 e (snd (ft_G2 D)), o1 (foF2 F e D))).
Definition si_pair_check {K} (F : Fops K) (e : Z -> K) (D : six_consts) : bool :=
  is_ok_ne1 (siF6 F e D) (si_mnt6_reduced_pairing F e D (e (fst (st_G1 D)), e (snd (st_G1 D)), o1 F)
    (map3 e (fst (st_G2 D)), map3 e (snd (st_G2 D)), o1 (siF3 F e D))).
Lemma is_ok_ne1_map {T T'} {F : Fops T} {G : Fops T'} {g} (H : homi F G g) r r' : r' = rmap g r -> is_ok_ne1 G r' = is_ok_ne1 F r.
Proof. intros ->. destruct r; cbn; try reflexivity. now rewrite <- (hi_1 H), (hi_eqb _ _ _ H). Qed.
Section PairMap.
Context {A B : Type} {F : Fops A} {G : Fops B} {h : A -> B} (H : homi F G h) (e : Z -> A) (eG : Z -> B).
Hypothesis He : forall z, eG z = h (e z).
Lemma fo_pair_check_map D : fo_pair_check G eG D = fo_pair_check F e D.
Proof.
  unfold fo_pair_check, fo_reduced_pairing, foF4, foF2, fo_twist_a, mnt4_twist_a. rewrite !He. apply (is_ok_ne1_map (homi_fp4 H _ _)).
  rewrite <- (mnt4_pairing_map H). rewrite !(e_list e eG He), !(e_map2 e eG He). f_equal.
  - unfold map2. cbn [fst snd]. now push H.
  - unfold map3. cbn [fst snd]. now push H.
  - unfold map3. cbn [fst snd]. now rewrite (hi_1 (homi_fp2 H _)).
Qed.
Lemma si_pair_check_map D : si_pair_check G eG D = si_pair_check F e D.
Proof.
  unfold si_pair_check, si_mnt6_reduced_pairing, siF6, siF3, si_twist_a, mnt6_twist_a. rewrite !He. apply (is_ok_ne1_map (homi_fp6_2over3 H _ _)).
  rewrite <- (mnt6_pairing_map H). rewrite !(e_list e eG He), !(e_map3 e eG He). f_equal.
  - unfold map3. cbn [fst snd]. now push H.
  - unfold map3. cbn [fst snd]. now push H.
  - apply (f_equal2 pair); [reflexivity|]. symmetry. exact (hi_1 (homi_fp3 H (e (st_nr3 D)))).
Qed.
End PairMap.
Lemma mnt4_pair_check : copy_check (ft_Fq mnt4_tower) (@fo_pair_check) mnt4_tower = true. Proof. vm_compute. reflexivity. Qed.
Lemma mnt6_pair_check : copy_check (st_Fq mnt6_tower) (@si_pair_check) mnt6_tower = true. Proof. vm_compute. reflexivity. Qed.
Definition fo_nondegenerate {K} (F : Fops K) (e : Z -> K) (D : four_consts) : Prop :=
  quad_nondegenerate F (e (ft_a D)) (foF2 F e D) (fo_twist_a F e D) (foF4 F e D) (fc_p (ft_Fr D)) (fo_gen1 e D) (fo_gen2 e D) (fo_reduced_pairing F e D).
Definition si_nondegenerate {K} (F : Fops K) (e : Z -> K) (D : six_consts) : Prop :=
  quad_nondegenerate F (e (fst (st_ad D))) (siF3 F e D) (si_twist_a F e D) (siF6 F e D) (fc_p (st_Fr D)) (si_gen1 e D) (si_gen2 e D) (si_mnt6_reduced_pairing F e D).
Section Gen4.
Context {K : Type} (F : Fops K) (e : Z -> K) (D : four_consts).
Lemma fo_nondegenerate_of : prime_base F (cq (ft_Fq D)) -> char_not_2 F -> four_ok F e D -> sw_disc F (e (ft_a D)) (e (ft_b D)) <> o0 F ->
  prime (fc_p (ft_Fr D)) -> 3 < fc_p (ft_Fr D) -> fo_bilinear F e D -> fo_G1 F e D (fo_gen1 e D) /\ fo_G2 F e D (fo_gen2 e D) -> fo_pair_check F e D = true ->
  fo_nondegenerate F e D.
Proof.
  intros PB C2 T HD Pr R3 BL [H1 H2] Ck.
  exact (quad_nondegenerate_of F _ _ _ _ _ _ _ _ _ _ _ (four_setup F e D PB C2 T HD) _ _ _ _ _ Pr R3 BL H1 H2 Ck).
Qed.
End Gen4.
Section Gen6.
Context {K : Type} (F : Fops K) (e : Z -> K) (D : six_consts).
Lemma si_nondegenerate_of : prime_base F (cq (st_Fq D)) -> char_not_2 F -> six_ok F e D -> sw_disc F (e (fst (st_ad D))) (e (snd (st_ad D))) <> o0 F ->
  prime (fc_p (st_Fr D)) -> 3 < fc_p (st_Fr D) -> si_bilinear F e D -> si_G1 F e D (si_gen1 e D) /\ si_G2 F e D (si_gen2 e D) -> si_pair_check F e D = true ->
  si_nondegenerate F e D.
Proof.
  intros PB C2 T HD Pr R3 BL [H1 H2] Ck.
  exact (quad_nondegenerate_of F _ _ _ _ _ _ _ _ _ _ _ (six_setup F e D PB C2 T HD) _ _ _ _ _ Pr R3 BL H1 H2 Ck).
Qed.
End Gen6.
Lemma mnt4_r3 : 3 < fc_p (ft_Fr mnt4_tower). Proof. vm_compute. reflexivity. Qed.
Lemma mnt6_r3 : 3 < fc_p (st_Fr mnt6_tower). Proof. vm_compute. reflexivity. Qed.
Theorem mnt4_nondegenerate CO : let D := mnt4_tower in fo_nondegenerate (cF (ft_Fq D) CO) (ce (ft_Fq D) CO) D.
Proof.
  exact (fo_nondegenerate_of _ _ mnt4_tower (base_prime _ CO) (base_char2 _ CO) (shipped_four_ok mnt4_tower CO (or_introl eq_refl))
    (mnt_check_disc _ _ (toZ (fc_P (ft_Fq mnt4_tower))) _ _ _ _ _ _ _ (base_hom _ CO) mnt4_mnt_check)
    (oki_prime _ (fco_inv _ mnt4_Fr_ok)) mnt4_r3 (proj2 (mnt4_shipped CO)) (mnt4_generators CO)
    (copy_check_ok (ft_Fq mnt4_tower) CO (@fo_pair_check) mnt4_tower (fun A B F G h H R e eG He => fo_pair_check_map H e eG He mnt4_tower) mnt4_pair_check)).
Qed.
Theorem mnt6_nondegenerate CO : let D := mnt6_tower in si_nondegenerate (cF (st_Fq D) CO) (ce (st_Fq D) CO) D.
Proof.
  exact (si_nondegenerate_of _ _ mnt6_tower (base_prime _ CO) (base_char2 _ CO) (shipped_six_ok mnt6_tower CO (or_introl eq_refl))
    (mnt_check_disc _ _ (toZ (fc_P (st_Fq mnt6_tower))) _ _ _ _ _ _ _ (base_hom _ CO) mnt6_mnt_check)
    (oki_prime _ (fco_inv _ mnt6_Fr_ok)) mnt6_r3 (proj2 (mnt6_shipped CO)) (mnt6_generators CO)
    (copy_check_ok (st_Fq mnt6_tower) CO (@si_pair_check) mnt6_tower (fun A B F G h H R e eG He => si_pair_check_map H e eG He mnt6_tower) mnt6_pair_check)).
Qed.
