(** The pairing code commutes with the maps of [HomMont]: running it on the copy
    of the field gives the image of its result. *)
From Coq Require Import ZArith List Bool Lia.
From Verif Require Import Result Limbs BigintModel FieldOps AlgorithmsModel WnafModel ExtModel CurveModel Hom HomMont TowerModel TowerSpec FinalExpModel PairingModel PairingShipped.
Import ListNotations.
Open Scope result_scope.

Lemma bind_map {A A' B B'} (g : A -> A') (f : B -> B') r k k' :
  (forall x, k' (g x) = rmap f (k x)) -> bind (rmap g r) k' = rmap f (bind r k).
Proof. intros E. destruct r; cbn; auto. Qed.
Lemma bind_map' {A A' B B'} (g : A -> A') (f : B -> B') r r' k k' :
  r' = rmap g r -> (forall x, k' (g x) = rmap f (k x)) -> bind r' k' = rmap f (bind r k).
Proof. intros ->. apply bind_map. Qed.
Lemma bit_loop_map {S S'} (g : S -> S') c body body' : (forall b s, body' b (g s) = rmap g (body b s)) ->
  forall n fo s, bit_loop c body' n fo (g s) = rmap g (bit_loop c body n fo s).
Proof.
  intros E. induction n as [|n IH]; intros fo s; cbn [bit_loop]; [reflexivity|].
  destruct (negb fo); [apply IH|]. apply (bind_map' g); auto.
Qed.
Lemma at_idx_map {A B} (g : A -> B) l i : at_idx (map g l) i = rmap g (at_idx l i).
Proof. unfold at_idx. rewrite nth_error_map. now destruct (nth_error l i). Qed.
Lemma assert_map {A B} (g : A -> B) b r r' : r' = rmap g r -> assert_then b r' = rmap g (assert_then b r).
Proof. intros ->. now destruct b. Qed.
Lemma coeff_map {A B} (g : A -> B) d l k m : coeff (g d) (map g l) k m = g (coeff d l k m).
Proof. unfold coeff. apply map_nth. Qed.

(** *** Exponentiation *)
Section Cyc.
Context {T T' : Type} (g : T -> T') (one : T) (mul : T -> T -> T) (csqr uinv : T -> T) (one' : T') (mul' : T' -> T' -> T') (csqr' uinv' : T' -> T').
Hypothesis E1 : one' = g one.
Hypothesis Em : forall x y, mul' (g x) (g y) = g (mul x y).
Hypothesis Es : forall x, csqr' (g x) = g (csqr x).
Hypothesis Eu : forall x, uinv' (g x) = g (uinv x).
Lemma cyc_naf_loop_map : forall ds x xi f r, cyc_naf_loop mul' csqr' ds (g x) (g xi) f (g r) = g (cyc_naf_loop mul csqr ds x xi f r).
Proof.
  induction ds as [|d ds IH]; intros x xi f r; cbn [cyc_naf_loop]; [reflexivity|].
  destruct f; rewrite ?Es, ?Em; destruct (d =? 0)%Z; try apply IH; destruct (0 <? d)%Z; apply IH.
Qed.
Lemma cyclotomic_exp_naf_map x e : cyclotomic_exp_naf one' mul' csqr' uinv' (g x) e = rmap g (cyclotomic_exp_naf one mul csqr uinv x e).
Proof.
  unfold cyclotomic_exp_naf. destruct (find_wnaf 1 e); cbn; try reflexivity. f_equal.
  rewrite E1, Eu. apply cyc_naf_loop_map.
Qed.
End Cyc.
(** One let at a time, so that shared values stay shared. *)
Ltac let_step g tac :=
  lazymatch goal with |- (let x := ?a in @?k x) = ?f (let y := ?b in @?l y) =>
    let E := fresh in assert (E : a = g b) by tac; change (k a = f (l b)); rewrite E; clear E;
    generalize b; intro; cbv beta
  end.
Lemma fold_map {S S' C} (g : S -> S') (f : S -> C -> S) (f' : S' -> C -> S') : (forall s c, f' (g s) c = g (f s c)) ->
  forall l s, fold_left f' l (g s) = g (fold_left f l s).
Proof. intros E. induction l as [|c l IH]; intros s; cbn [fold_left]; [reflexivity|]. rewrite E. apply IH. Qed.
Section PowerMap.
Context {T T' : Type} (g : T -> T') (one : T) (mul : T -> T -> T) (sqr : T -> T) (one' : T') (mul' : T' -> T' -> T') (sqr' : T' -> T').
Hypothesis E1 : one' = g one.
Hypothesis Em : forall x y, mul' (g x) (g y) = g (mul x y).
Hypothesis Es : forall x, sqr' (g x) = g (sqr x).
Let g2 (s : bool * T) : bool * T' := (fst s, g (snd s)).
Lemma power_loop_map bit x : forall i f r, power_loop mul' sqr' bit (g x) i f (g r) = g2 (power_loop mul sqr bit x i f r).
Proof.
  induction i as [|i IH]; intros f r; cbn [power_loop]; [reflexivity|]. 
  destruct f; rewrite ?Es, ?Em; destruct (bit _); apply IH.
Qed.
Lemma power_vec_step_map x s c : power_vec_step mul' sqr' (g x) (g2 s) c = g2 (power_vec_step mul sqr x s c).
Proof. destruct s as [f r]. exact (power_loop_map (ull_bit c) x 64 f r). Qed.
Lemma power_vector_map x e : power_vector one' mul' sqr' (g x) e = g (power_vector one mul sqr x e).
Proof. unfold power_vector. rewrite E1. exact (f_equal snd (fold_map g2 _ _ (power_vec_step_map x) e (false, one))). Qed.
End PowerMap.

(** The last chunks as chains over any operations. *)
Section Chain.
Context {T : Type} (mul : T -> T -> T) (csqr uinv ex : T -> T) (frob : Z -> T -> T).
Definition bn_chain (elt : T) : T :=
  let A := ex elt in
  let B := csqr A in
  let C := csqr B in
  let D := mul C B in
  let E := ex D in
  let F := csqr E in
  let G := ex F in
  let H := uinv D in
  let I := uinv G in
  let J := mul I E in
  let K := mul J H in
  let L := mul K B in
  let M := mul K E in
  let N := mul M elt in
  let O := frob 1 L in
  let P := mul O N in
  let Q := frob 2 K in
  let R := mul Q P in
  let S := uinv elt in
  let T := mul S L in
  let U := frob 3 T in
  let V := mul U R in
  V.
Definition bls_chain (elt : T) : T :=
  let A := uinv (csqr elt) in
  let B := ex elt in
  let C := csqr B in
  let D := mul A B in
  let E := ex D in
  let F := ex E in
  let G := ex F in
  let H := mul G C in
  let I := ex H in
  let J := uinv D in
  let K := mul J I in
  let L := mul elt K in
  let M := uinv elt in
  let N := mul E elt in
  let O := frob 3 N in
  let P := mul H M in
  let Q := frob 1 P in
  let R := mul B F in
  let S := frob 2 R in
  let T := mul S O in
  let U := mul T Q in
  mul U L.
End Chain.
Section ChainMap.
Context {T T' : Type} (g : T -> T') (mul : T -> T -> T) (csqr uinv ex : T -> T) (frob : Z -> T -> T)
  (mul' : T' -> T' -> T') (csqr' uinv' ex' : T' -> T') (frob' : Z -> T' -> T').
Hypothesis Em : forall x y, mul' (g x) (g y) = g (mul x y).
Hypothesis Es : forall x, csqr' (g x) = g (csqr x).
Hypothesis Eu : forall x, uinv' (g x) = g (uinv x).
Hypothesis Ee : forall x, ex' (g x) = g (ex x).
Hypothesis Ef : forall k x, frob' k (g x) = g (frob k x).
Lemma bn_chain_map x : bn_chain mul' csqr' uinv' ex' frob' (g x) = g (bn_chain mul csqr uinv ex frob x).
Proof.
  cbv beta delta [bn_chain]. repeat let_step g ltac:(first [apply Es|apply Eu|apply Ee|apply Ef|apply Em]). reflexivity.
Qed.
Lemma bls_chain_map x : bls_chain mul' csqr' uinv' ex' frob' (g x) = g (bls_chain mul csqr uinv ex frob x).
Proof.
  cbv beta delta [bls_chain]. let_step g ltac:(rewrite Es; apply Eu).
  repeat let_step g ltac:(first [apply Es|apply Eu|apply Ee|apply Ef|apply Em]). apply Em.
Qed.
End ChainMap.

(** *** Points *)
Section Points.
Context {A B : Type} {F : Fops A} {G : Fops B} {h : A -> B} (H : homi F G h).
Lemma jac_to_affine_map P : jac_to_affine G (map3 h P) = rmap (map3 h) (jac_to_affine F P).
Proof.
  destruct P as [[X Y] Z]. unfold map3, jac_to_affine, jac_is_zero. cbn [fst snd]. rewrite (hi_eqb0 H).
  destruct (oeqb F Z (o0 F)); cbn; [now push H|]. rewrite (hi_inv _ _ _ H). destruct (oinv F Z); cbn; [|reflexivity..]. now push H.
Qed.
Lemma prj_to_affine_map P : prj_to_affine G (map3 h P) = rmap (map3 h) (prj_to_affine F P).
Proof.
  destruct P as [[X Y] Z]. unfold map3, prj_to_affine, prj_is_zero. cbn [fst snd]. rewrite !(hi_eqb0 H).
  destruct (_ && _); cbn; [now push H|]. rewrite (hi_inv _ _ _ H). destruct (oinv F Z); cbn; [|reflexivity..]. now push H.
Qed.
Lemma edw_to_affine_map P : edw_to_affine G (map3 h P) = rmap (map3 h) (edw_to_affine F P).
Proof.
  destruct P as [[X Y] Z]. unfold map3, edw_to_affine, edw_is_zero. cbn [fst snd]. cbv zeta. pull H. rewrite !(hi_eqb _ _ _ H).
  destruct (_ && _); cbn; [now push H|]. rewrite (hi_inv _ _ _ H). destruct (oinv F _); cbn; [|reflexivity..]. now push H.
Qed.
End Points.

(** *** alt_bn128 and bls12_381 *)
Section Twelve.
Context {A B : Type} {F : Fops A} {G : Fops B} {h : A -> B} (H : homi F G h).
Variables (nr2 : A) (nr6 nr12 : A * A).
Notation F2 := (fp2_ops F nr2).
Notation F6 := (fp6_3over2_ops F nr2 nr6).
Notation F12 := (fp12_ops F nr2 nr6 nr12).
Notation G2 := (fp2_ops G (h nr2)).
Notation G6 := (fp6_3over2_ops G (h nr2) (map2 h nr6)).
Notation G12 := (fp12_ops G (h nr2) (map2 h nr6) (map2 h nr12)).
Notation h2 := (map2 h).
Notation h6 := (map3 (map2 h)).
Notation h12 := (map2 (map3 (map2 h))).
Lemma homi_fp2 : homi F2 G2 h2.
Proof. apply (homi_quad H). intros x. now push H. Qed.
Let H2 := homi_fp2.
Lemma homi_fp6 : homi F6 G6 h6.
Proof. apply (homi_cubic H2). intros x. now push H2. Qed.
Let H6 := homi_fp6.
Lemma homi_fp12 : homi F12 G12 h12.
Proof. apply (homi_quad H6). intros [[a b] c]. unfold map3. cbn [fst snd rot_mnr]. now rewrite (hi_mul H2). Qed.
Let H12 := homi_fp12.
Lemma scale2 c x : quad_scale (omul G) (h c) (h2 x) = h2 (quad_scale (omul F) c x).
Proof. destruct x as [a b]. unfold map2. cbn. now push H. Qed.
Lemma scale6 c (x : (A * A) * (A * A) * (A * A)) : cubic_scale (omul G2) (h2 c) (h6 x) = h6 (cubic_scale (omul F2) c x).
Proof. destruct x as [[a b] d]. unfold map3. cbn [fst snd cubic_scale]. now push H2. Qed.
Variables (t2 : list A) (t61 t62 t12 : list (A * A)).
Notation u2 := (map h t2).
Notation u61 := (map h2 t61).
Notation u62 := (map h2 t62).
Notation u12 := (map h2 t12).
Lemma fp2_frobenius_map k x : fp2_frobenius G u2 k (h2 x) = h2 (fp2_frobenius F t2 k x).
Proof. destruct x as [a b]. unfold map2, fp2_frobenius. cbn [fst snd]. pull H. rewrite coeff_map. now push H. Qed.
Lemma fp6_frobenius_map k x : fp6_3over2_frobenius G (h nr2) u2 u61 u62 k (h6 x) = h6 (fp6_3over2_frobenius F nr2 t2 t61 t62 k x).
Proof.
  destruct x as [[a b] c]. unfold map3, fp6_3over2_frobenius. cbn [fst snd]. rewrite <- (hi_0 H2), !coeff_map, !fp2_frobenius_map. now push H2.
Qed.
Lemma fp12_frobenius_map k x : fp12_frobenius G (h nr2) u2 u61 u62 u12 k (h12 x) = h12 (fp12_frobenius F nr2 t2 t61 t62 t12 k x).
Proof.
  destruct x as [a b]. change (h12 (a, b)) with (h6 a, h6 b). unfold fp12_frobenius. rewrite <- (hi_0 H2), !coeff_map, !fp6_frobenius_map, scale6.
  reflexivity.
Qed.
Lemma uinv_map x : quad_unitary_inverse G6 (h12 x) = h12 (quad_unitary_inverse F6 x).
Proof. destruct x as [a b]. change (h12 (a, b)) with (h6 a, h6 b). unfold quad_unitary_inverse. now rewrite <- (hi_opp H6). Qed.
Lemma csqr_map x : fp12_cyclotomic_squared G2 (h2 nr6) (h12 x) = h12 (fp12_cyclotomic_squared F2 nr6 x).
Proof.
  destruct x as [[[z0 z4] z3] [[z2 z1] z5]]. change (h12 (z0, z4, z3, (z2, z1, z5))) with (h2 z0, h2 z4, h2 z3, (h2 z2, h2 z1, h2 z5)).
  unfold fp12_cyclotomic_squared. cbv zeta. pull H2. reflexivity.
Qed.
Lemma mul_024_map x a b c : fp12_mul_by_024 G2 (h2 nr6) (h12 x) (h2 a) (h2 b) (h2 c) = h12 (fp12_mul_by_024 F2 nr6 x a b c).
Proof.
  destruct x as [[[z0 z4] z3] [[z2 z1] z5]]. change (h12 (z0, z4, z3, (z2, z1, z5))) with (h2 z0, h2 z4, h2 z3, (h2 z2, h2 z1, h2 z5)).
  unfold fp12_mul_by_024. cbv zeta. pull H2. reflexivity.
Qed.
Lemma mul_045_map x a b c : fp12_mul_by_045 G2 (h2 nr6) (h12 x) (h2 a) (h2 b) (h2 c) = h12 (fp12_mul_by_045 F2 nr6 x a b c).
Proof.
  destruct x as [[[z0 z4] z3] [[z2 z1] z5]]. change (h12 (z0, z4, z3, (z2, z1, z5))) with (h2 z0, h2 z4, h2 z3, (h2 z2, h2 z1, h2 z5)).
  unfold fp12_mul_by_045. cbv zeta. pull H2. reflexivity.
Qed.
Lemma cexp_map x e : fp12_cyclotomic_exp G (h nr2) (h2 nr6) (h2 nr12) (h12 x) e = h12 (fp12_cyclotomic_exp F nr2 nr6 nr12 x e).
Proof.
  unfold fp12_cyclotomic_exp, cyclotomic_exp_bits. apply power_vector_map.
  - symmetry. exact (hi_1 H12).
  - intros a b. symmetry. exact (hi_mul H12 a b).
  - exact csqr_map.
Qed.
Variables (z : list Z) (z_neg : bool).
Lemma first_chunk_map x : twelve_first_chunk G (h nr2) (h2 nr6) (h2 nr12) u2 u61 u62 u12 (h12 x) =
  rmap h12 (twelve_first_chunk F nr2 nr6 nr12 t2 t61 t62 t12 x).
Proof.
  unfold twelve_first_chunk. apply (bind_map' h12); [exact (hi_inv _ _ _ H12 x)|]. intros y. cbv zeta.
  rewrite uinv_map, <- (hi_mul H12), fp12_frobenius_map, <- (hi_mul H12). reflexivity.
Qed.
Lemma bn_exp_map x : bn_exp_by_neg_z G (h nr2) (h2 nr6) (h2 nr12) z z_neg (h12 x) = h12 (bn_exp_by_neg_z F nr2 nr6 nr12 z z_neg x).
Proof. unfold bn_exp_by_neg_z. cbv zeta. rewrite cexp_map. destruct (negb z_neg); [apply uinv_map|reflexivity]. Qed.
Lemma bls_exp_map x : bls_exp_by_z G (h nr2) (h2 nr6) (h2 nr12) z z_neg (h12 x) = h12 (bls_exp_by_z F nr2 nr6 nr12 z z_neg x).
Proof. unfold bls_exp_by_z. cbv zeta. rewrite cexp_map. destruct z_neg; [apply uinv_map|reflexivity]. Qed.
Lemma bn_final_map x : bn_final_exponentiation G (h nr2) (h2 nr6) (h2 nr12) u2 u61 u62 u12 z z_neg (h12 x) =
  rmap h12 (bn_final_exponentiation F nr2 nr6 nr12 t2 t61 t62 t12 z z_neg x).
Proof.
  unfold bn_final_exponentiation. apply (bind_map' h12); [apply first_chunk_map|]. intros y.
  change (rmap h12 (Ok (bn_last_chunk F nr2 nr6 nr12 t2 t61 t62 t12 z z_neg y))) with (Ok (h12 (bn_last_chunk F nr2 nr6 nr12 t2 t61 t62 t12 z z_neg y))).
  apply f_equal. apply (bn_chain_map h12);
    [intros; symmetry; apply (hi_mul H12)|exact csqr_map|exact uinv_map|exact bn_exp_map|exact fp12_frobenius_map].
Qed.
Lemma bls_final_map x : bls_final_exponentiation G (h nr2) (h2 nr6) (h2 nr12) u2 u61 u62 u12 z z_neg (h12 x) =
  rmap h12 (bls_final_exponentiation F nr2 nr6 nr12 t2 t61 t62 t12 z z_neg x).
Proof.
  unfold bls_final_exponentiation. apply (bind_map' h12); [apply first_chunk_map|]. intros y.
  change (rmap h12 (Ok (bls_last_chunk F nr2 nr6 nr12 t2 t61 t62 t12 z z_neg y))) with (Ok (h12 (bls_last_chunk F nr2 nr6 nr12 t2 t61 t62 t12 z z_neg y))).
  apply f_equal. apply (bls_chain_map h12);
    [intros; symmetry; apply (hi_mul H12)|exact csqr_map|exact uinv_map|exact bls_exp_map|exact fp12_frobenius_map].
Qed.
Variables (twist twist_b : A * A) (lc : bigint) (lneg : bool).
Notation h3 := (map3 (map2 h)).
Notation hs := (fun s : ((A * A) * (A * A) * (A * A)) * ((A * A) * (A * A) * (A * A)) => (h3 (fst s), h3 (snd s))).
Notation hR := (fun s : ((A * A) * (A * A) * (A * A)) * list ((A * A) * (A * A) * (A * A)) => (h3 (fst s), map h3 (snd s))).
Lemma precompute_G1_map P : bn_precompute_G1 G (map3 h P) = rmap h2 (bn_precompute_G1 F P).
Proof.
  unfold bn_precompute_G1. apply (bind_map' (map3 h)); [apply (jac_to_affine_map H)|]. intros [[X Y] Z]. reflexivity.
Qed.
Lemma dbl_step_map ti R : bn_doubling_step G (h nr2) (h2 twist_b) (h ti) (h3 R) = hs (bn_doubling_step F nr2 twist_b ti R).
Proof.
  destruct R as [[X Y] Z]. change (h3 (X, Y, Z)) with (h2 X, h2 Y, h2 Z). unfold bn_doubling_step. cbv zeta.
  repeat (pull H2; rewrite ?scale2). reflexivity.
Qed.
Lemma add_step_map Q R : bn_mixed_addition_step G (h nr2) (h3 Q) (h3 R) = hs (bn_mixed_addition_step F nr2 Q R).
Proof.
  destruct R as [[X Y] Z], Q as [[x2 y2] z2]. change (h3 (X, Y, Z)) with (h2 X, h2 Y, h2 Z). change (h3 (x2, y2, z2)) with (h2 x2, h2 y2, h2 z2).
  unfold bn_mixed_addition_step. cbv zeta. pull H2. reflexivity.
Qed.
Ltac lines l := destruct l as [[a b] c]; change (h3 (a, b, c)) with (h2 a, h2 b, h2 c); 
  unfold alt_dbl_line, bls_dbl_line, alt_add_line, bls_add_line; pull H2; reflexivity.
Lemma alt_dbl_line_map l : alt_dbl_line G (h nr2) (h2 twist) (h3 l) = h3 (alt_dbl_line F nr2 twist l). Proof. lines l. Qed.
Lemma bls_dbl_line_map l : bls_dbl_line G (h nr2) (h2 twist) (h3 l) = h3 (bls_dbl_line F nr2 twist l). Proof. lines l. Qed.
Lemma alt_add_line_map l : alt_add_line G (h nr2) (h2 twist) (h3 l) = h3 (alt_add_line F nr2 twist l). Proof. lines l. Qed.
Lemma bls_add_line_map l : bls_add_line G (h nr2) (h2 twist) (h3 l) = h3 (bls_add_line F nr2 twist l). Proof. lines l. Qed.
Lemma pre_body_map dl al dl' al' : (forall l, dl' (h3 l) = h3 (dl l)) -> (forall l, al' (h3 l) = h3 (al l)) -> forall ti Q b s,
  bn_precompute_body G (h nr2) (h2 twist_b) dl' al' (h ti) (h3 Q) b (hR s) = rmap hR (bn_precompute_body F nr2 twist_b dl al ti Q b s).
Proof.
  intros Ed Ea ti Q b [R cs]. cbn [fst snd]. unfold bn_precompute_body. rewrite dbl_step_map.
  destruct (bn_doubling_step F nr2 twist_b ti R) as [R1 l]. cbn [fst snd]. rewrite Ed.
  destruct b; cbn [rmap bind fst snd].
  - rewrite add_step_map. destruct (bn_mixed_addition_step F nr2 Q R1) as [R2 l2]. cbn [fst snd rmap bind]. rewrite Ea, !map_app. reflexivity.
  - now rewrite map_app.
Qed.
Lemma two_map : Fq_two G = h (Fq_two F). Proof. unfold Fq_two. now push H. Qed.
Lemma bls_precompute_map Q : bls_precompute_G2 G (h nr2) (h2 twist) (h2 twist_b) lc (h3 Q) = rmap (map h3) (bls_precompute_G2 F nr2 twist twist_b lc Q).
Proof.
  unfold bls_precompute_G2. apply (bind_map' h3); [apply (jac_to_affine_map H2)|]. intros [[X Y] Z].
  apply (bind_map' h); [rewrite two_map; apply (hi_inv _ _ _ H)|]. intros ti.
  apply (bind_map' hR); [|intros [R cs]; reflexivity].
  rewrite <- (bit_loop_map hR lc _ _ (pre_body_map _ _ _ _ bls_dbl_line_map bls_add_line_map ti (X, Y, Z))).
  cbn [fst snd map]. change (h3 (X, Y, o1 F2)) with (h2 X, h2 Y, h2 (o1 F2)). rewrite (hi_1 H2). reflexivity.
Qed.
Variables (qX qY : A * A).
Lemma mul_by_q_map Q : bn_mul_by_q G (h nr2) u2 (h2 qX) (h2 qY) (h3 Q) = h3 (bn_mul_by_q F nr2 t2 qX qY Q).
Proof.
  destruct Q as [[X Y] Z]. change (h3 (X, Y, Z)) with (h2 X, h2 Y, h2 Z). unfold bn_mul_by_q. rewrite !fp2_frobenius_map. pull H2. reflexivity.
Qed.
Lemma alt_precompute_map Q : alt_precompute_G2 G (h nr2) (h2 twist) (h2 twist_b) lc lneg u2 (h2 qX) (h2 qY) (h3 Q) =
  rmap (map h3) (alt_precompute_G2 F nr2 twist twist_b lc lneg t2 qX qY Q).
Proof.
  unfold alt_precompute_G2. apply (bind_map' h3); [apply (jac_to_affine_map H2)|]. intros [[X Y] Z].
  apply (bind_map' h); [rewrite two_map; apply (hi_inv _ _ _ H)|]. intros ti.
  apply (bind_map' hR).
  { rewrite <- (bit_loop_map hR lc _ _ (pre_body_map _ _ _ _ alt_dbl_line_map alt_add_line_map ti (X, Y, Z))).
    cbn [fst snd map]. change (h3 (X, Y, o1 F2)) with (h2 X, h2 Y, h2 (o1 F2)). rewrite (hi_1 H2). reflexivity. }
  intros [R cs]. cbn [fst snd]. cbv zeta. change (h2 X, h2 Y, h2 Z) with (h3 (X, Y, Z)). rewrite !mul_by_q_map.
  generalize (bn_mul_by_q F nr2 t2 qX qY (X, Y, Z)) as Q1. intros Q1.
  generalize (bn_mul_by_q F nr2 t2 qX qY Q1) as Q2. intros Q2. 
  rewrite <- !(hi_1 H2). change (snd (h3 Q1)) with (h2 (snd Q1)). change (snd (h3 Q2)) with (h2 (snd Q2)). rewrite !(hi_eqb _ _ _ H2).
  apply assert_map, assert_map. destruct R as [[RX RY] RZ], Q2 as [[Q2X Q2Y] Q2Z].
  change (h3 (RX, RY, RZ)) with (h2 RX, h2 RY, h2 RZ). change (h3 (Q2X, Q2Y, Q2Z)) with (h2 Q2X, h2 Q2Y, h2 Q2Z). cbv beta iota.
  rewrite <- !(hi_opp H2). change (h2 RX, h2 RY, h2 RZ) with (h3 (RX, RY, RZ)). change (h2 RX, h2 (oopp F2 RY), h2 RZ) with (h3 (RX, oopp F2 RY, RZ)).
  change (h2 Q2X, h2 (oopp F2 Q2Y), h2 Q2Z) with (h3 (Q2X, oopp F2 Q2Y, Q2Z)).
  replace (if lneg then h3 (RX, oopp F2 RY, RZ) else h3 (RX, RY, RZ)) with (h3 (if lneg then (RX, oopp F2 RY, RZ) else (RX, RY, RZ))) by now destruct lneg.
  rewrite add_step_map. destruct (bn_mixed_addition_step F nr2 Q1 _) as [R1 l1]. cbn [fst snd].
  rewrite add_step_map. destruct (bn_mixed_addition_step F nr2 _ R1) as [R2 l2]. cbn [fst snd].
  rewrite !alt_add_line_map. cbn [rmap bind]. rewrite !map_app. reflexivity.
Qed.
Section Miller.
Notation T12 K := (((K * K) * (K * K) * (K * K)) * ((K * K) * (K * K) * (K * K)))%type.
Variables (mb : T12 A -> A * A -> A * A -> A * A -> T12 A) (mb' : T12 B -> B * B -> B * B -> B * B -> T12 B).
Hypothesis Emb : forall x a b c, mb' (h12 x) (h2 a) (h2 b) (h2 c) = h12 (mb x a b c).
Notation hI := (fun s : T12 A * nat => (h12 (fst s), snd s)).
Lemma mul_line_map f c P : mul_line G mb' (h12 f) (h3 c) (h2 P) = h12 (mul_line F mb f c P).
Proof.
  destruct c as [[a b] c], P as [X Y]. change (h3 (a, b, c)) with (h2 a, h2 b, h2 c). unfold mul_line.
  change (snd (h2 (X, Y))) with (h Y). change (fst (h2 (X, Y))) with (h X). rewrite !scale2. apply Emb.
Qed.
Lemma miller_body_map P cs b s : bn_miller_body G (h nr2) (h2 nr6) (h2 nr12) mb' (h2 P) (map h3 cs) b (hI s) =
  rmap hI (bn_miller_body F nr2 nr6 nr12 mb P cs b s).
Proof.
  destruct s as [f i]. cbn [fst snd]. unfold bn_miller_body. apply (bind_map' h3); [apply at_idx_map|]. intros c. cbv zeta.
  rewrite <- (hi_sqr H12), mul_line_map. destruct b; [|reflexivity].
  apply (bind_map' h3); [apply at_idx_map|]. intros c2. rewrite mul_line_map. reflexivity.
Qed.
Lemma loop_map P cs : bit_loop lc (bn_miller_body G (h nr2) (h2 nr6) (h2 nr12) mb' (h2 P) (map h3 cs)) (S (max_bits lc)) false (o1 G12, O) =
  rmap hI (bit_loop lc (bn_miller_body F nr2 nr6 nr12 mb P cs) (S (max_bits lc)) false (o1 F12, O)).
Proof. rewrite <- (bit_loop_map hI lc _ _ (miller_body_map P cs)). cbn [fst snd]. rewrite (hi_1 H12). reflexivity. Qed.
Lemma inv_map (b : bool) f : (if b then oinv G12 (h12 f) else Ok (h12 f)) = rmap h12 (if b then oinv F12 f else Ok f).
Proof. destruct b; [apply (hi_inv _ _ _ H12)|reflexivity]. Qed.
Lemma bls_loop_map P cs : bls_miller_loop_idx G (h nr2) (h2 nr6) (h2 nr12) lc lneg mb' (h2 P) (map h3 cs) =
  rmap hI (bls_miller_loop_idx F nr2 nr6 nr12 lc lneg mb P cs).
Proof.
  unfold bls_miller_loop_idx. apply (bind_map' hI); [apply loop_map|]. intros [f i]. cbn [fst snd].
  apply (bind_map' h12); [apply inv_map|]. reflexivity.
Qed.
Lemma alt_loop_map P cs : alt_miller_loop_idx G (h nr2) (h2 nr6) (h2 nr12) lc lneg mb' (h2 P) (map h3 cs) =
  rmap hI (alt_miller_loop_idx F nr2 nr6 nr12 lc lneg mb P cs).
Proof.
  unfold alt_miller_loop_idx. apply (bind_map' hI); [apply loop_map|]. intros [f i]. cbn [fst snd].
  apply (bind_map' h12); [apply inv_map|]. intros y.
  apply (bind_map' h3); [apply at_idx_map|]. intros c. cbv zeta. rewrite mul_line_map.
  apply (bind_map' h3); [apply at_idx_map|]. intros c2. rewrite mul_line_map. reflexivity.
Qed.
End Miller.
Lemma miller_value_map {X Y} (g : X -> Y) (r : result (X * nat)) r' : r' = rmap (fun s => (g (fst s), snd s)) r -> miller_value r' = rmap g (miller_value r).
Proof. intros ->. destruct r as [[x i]| | | | |]; reflexivity. Qed.
Lemma alt_pairing_map P Q : alt_reduced_pairing G (h nr2) (h2 nr6) (h2 nr12) u2 u61 u62 u12 (h2 twist) (h2 twist_b) (h2 qX) (h2 qY) lc lneg z z_neg (map3 h P) (h3 Q) =
  rmap h12 (alt_reduced_pairing F nr2 nr6 nr12 t2 t61 t62 t12 twist twist_b qX qY lc lneg z z_neg P Q).
Proof.
  unfold alt_reduced_pairing, alt_pairing. apply (bind_map' h12); [|apply bn_final_map].
  apply (bind_map' h2); [apply precompute_G1_map|]. intros P'.
  apply (bind_map' (map h3)); [apply alt_precompute_map|]. intros Q'.
  apply miller_value_map, alt_loop_map. exact mul_024_map.
Qed.
Lemma bls_pairing_map P Q : bls_reduced_pairing G (h nr2) (h2 nr6) (h2 nr12) u2 u61 u62 u12 (h2 twist) (h2 twist_b) lc lneg z z_neg (map3 h P) (h3 Q) =
  rmap h12 (bls_reduced_pairing F nr2 nr6 nr12 t2 t61 t62 t12 twist twist_b lc lneg z z_neg P Q).
Proof.
  unfold bls_reduced_pairing, bls_pairing. apply (bind_map' h12); [|apply bls_final_map].
  apply (bind_map' h2); [apply precompute_G1_map|]. intros P'.
  apply (bind_map' (map h3)); [apply bls_precompute_map|]. intros Q'.
  apply miller_value_map, bls_loop_map. exact mul_045_map.
Qed.
End Twelve.

(** *** With the constants of the init functions; [e] embeds integers. *)
Section Consts.
Context {A B : Type} {F : Fops A} {G : Fops B} {h : A -> B} (H : homi F G h) (e : Z -> A) (eG : Z -> B).
Hypothesis He : forall z, eG z = h (e z).
Lemma e_map2 x : map2 eG x = map2 h (map2 e x).
Proof. unfold map2. cbn [fst snd]. now rewrite !He. Qed.
Lemma e_map3 x : map3 eG x = map3 h (map3 e x).
Proof. unfold map3. cbn [fst snd]. now rewrite !He. Qed.
Lemma e_list l : map eG l = map h (map e l).
Proof. rewrite map_map. apply map_ext. exact He. Qed.
Lemma e_list2 l : map (map2 eG) l = map (map2 h) (map (map2 e) l).
Proof. rewrite map_map. apply map_ext. exact e_map2. Qed.

Section Twelve.
Variable D : twelve_consts.
Notation h2 := (map2 h).
Notation h12 := (map2 (map3 (map2 h))).
Lemma tw_twist_b_map : tw_twist_b G eG D = map2 h (tw_twist_b F e D).
Proof.
  unfold tw_twist_b, tw_b. rewrite <- (scale2 H), He, e_map2. f_equal. destruct (bt_twist_b_inv D); [|reflexivity].
  unfold twF2. rewrite He. apply (hi_tinv (homi_fp2 H (e (bt_nr2 D)))).
Qed.
Lemma tw_alt_map P Q : tw_alt_reduced_pairing G eG D (map3 h P) (map3 h2 Q) = rmap h12 (tw_alt_reduced_pairing F e D P Q).
Proof. unfold tw_alt_reduced_pairing. rewrite tw_twist_b_map, !e_list2, e_list, !e_map2, He. apply (alt_pairing_map H). Qed.
Lemma tw_bls_map P Q : tw_bls_reduced_pairing G eG D (map3 h P) (map3 h2 Q) = rmap h12 (tw_bls_reduced_pairing F e D P Q).
Proof. unfold tw_bls_reduced_pairing. rewrite tw_twist_b_map, !e_list2, e_list, !e_map2, He. apply (bls_pairing_map H). Qed.
End Twelve.
End Consts.
