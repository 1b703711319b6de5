(** The pairing code run on small curves, where every pair of points of the two
    prime-order subgroups can be tried.  The parameters below play the role of
    the constants of alt_bn128_init.cpp, bls12_381_init.cpp, mnt4_init.cpp,
    mnt6_init.cpp and edwards_init.cpp for curves of the same families. *)
From Coq Require Import ZArith List Bool Lia PeanoNat.
From Verif Require Import Result Limbs Algebra FieldOps NumTheory ZmInst ExtModel ExtProofs CurveModel FinalExpModel PairingModel.
Import ListNotations.
Open Scope Z_scope.

(** [times add g n] is [g + ... + g], [n] times, for [n >= 1]. *)
Definition times {T} (add : T -> T -> T) (g : T) (n : nat) : T := Nat.iter (n - 1) (fun x => add x g) g.

(** A bilinear, non-degenerate pairing on the subgroups of order [r] generated by
    [g1] and [g2]; [add1], [add2] are the group laws the library computes with. *)
Record bilinear_on {P Q T} (FT : Fops T) (add1 : P -> P -> P) (zero1 : P -> bool) (add2 : Q -> Q -> Q) (zero2 : Q -> bool)
  (pair : P -> Q -> result T) (g1 : P) (g2 : Q) (r : nat) : Prop := {
  bo_g1 : zero1 g1 = false /\ zero1 (times add1 g1 r) = true;
  bo_g2 : zero2 g2 = false /\ zero2 (times add2 g2 r) = true;
  bo_pair : exists e, e <> o1 FT /\ fpow FT e r = o1 FT /\
    forall a b, (1 <= a < r)%nat -> (1 <= b < r)%nat ->
      pair (times add1 g1 a) (times add2 g2 b) = Ok (fpow FT e (a * b))
}.

Section Check.
Context {P Q T : Type} (FT : Fops T) (add1 : P -> P -> P) (zero1 : P -> bool) (add2 : Q -> Q -> Q) (zero2 : Q -> bool)
  (pair : P -> Q -> result T) (g1 : P) (g2 : Q) (r : nat).
Definition bilinear_check : bool :=
  negb (zero1 g1) && zero1 (times add1 g1 r) && negb (zero2 g2) && zero2 (times add2 g2 r) &&
  match pair g1 g2 with
  | Ok e => negb (oeqb FT e (o1 FT)) && oeqb FT (fpow FT e r) (o1 FT) &&
      forallb (fun a => let aP := times add1 g1 a in
        forallb (fun b => match pair aP (times add2 g2 b) with
          | Ok f => oeqb FT f (fpow FT e ((a * b) mod r)) | _ => false end) (seq 1 (r - 1))) (seq 1 (r - 1))
  | _ => false
  end.
Lemma bilinear_check_sound : ring_ok FT -> (1 < r)%nat -> bilinear_check = true ->
  bilinear_on FT add1 zero1 add2 zero2 pair g1 g2 r.
Proof.
  intros R Hr H. unfold bilinear_check in H.
  rewrite !andb_true_iff, !negb_true_iff in H. destruct H as [[[[H1 H2] H3] H4] H].
  split; [now split| now split|].
  destruct (pair g1 g2) as [e| | | | |] eqn:E; try discriminate.
  rewrite !andb_true_iff, negb_true_iff in H. destruct H as [[H5 H6] H7].
  apply (rk_eqb FT R) in H6. apply (rk_eqb_neq FT R) in H5.
  exists e. split; [exact H5|]. split; [exact H6|].
  intros a b Ha Hb. rewrite forallb_forall in H7.
  specialize (H7 a). cbv zeta in H7. rewrite forallb_forall in H7.
  specialize (H7 ltac:(apply in_seq; lia) b ltac:(apply in_seq; lia)).
  destruct (pair (times add1 g1 a) (times add2 g2 b)) as [f| | | | |]; try discriminate.
  apply (rk_eqb FT R) in H7. subst f. f_equal.
  rewrite (Nat.div_mod (a * b) r) at 2 by lia.
  pose proof (rk_monoid FT R) as M.
  rewrite (npow_add _ _ M), (npow_mul _ _ M), H6, (npow_one _ _ M), (ml_1_l _ _ M). reflexivity.
Qed.
End Check.

(** Two pairings compared on all the multiples. *)
Definition relates_on {P Q T} (rel : T -> T -> Prop) (add1 : P -> P -> P) (add2 : Q -> Q -> Q)
  (pair pair' : P -> Q -> result T) (g1 : P) (g2 : Q) (r : nat) : Prop :=
  forall a b, (1 <= a < r)%nat -> (1 <= b < r)%nat ->
  exists u v, pair (times add1 g1 a) (times add2 g2 b) = Ok u /\ pair' (times add1 g1 a) (times add2 g2 b) = Ok v /\ rel u v.
Definition relates_check {P Q T} (rel : T -> T -> bool) (add1 : P -> P -> P) (add2 : Q -> Q -> Q)
  (pair pair' : P -> Q -> result T) (g1 : P) (g2 : Q) (r : nat) : bool :=
  forallb (fun a => let aP := times add1 g1 a in
    forallb (fun b => let bQ := times add2 g2 b in match pair aP bQ, pair' aP bQ with
      | Ok u, Ok v => rel u v | _, _ => false end) (seq 1 (r - 1))) (seq 1 (r - 1)).
Lemma relates_check_sound {P Q T} (rel : T -> T -> bool) (Rel : T -> T -> Prop) add1 add2 (pair pair' : P -> Q -> result T) g1 g2 r :
  (forall u v, rel u v = true -> Rel u v) -> relates_check rel add1 add2 pair pair' g1 g2 r = true ->
  relates_on Rel add1 add2 pair pair' g1 g2 r.
Proof.
  intros HR H a b Ha Hb. unfold relates_check in H. rewrite forallb_forall in H.
  specialize (H a). cbv zeta in H. rewrite forallb_forall in H.
  specialize (H ltac:(apply in_seq; lia) b ltac:(apply in_seq; lia)).
  destruct (pair _ _) as [u| | | | |]; try discriminate.
  destruct (pair' _ _) as [v| | | | |]; try discriminate.
  exists u, v. auto.
Qed.

(** *** A Barreto-Naehrig curve: z = -1, y^2 = x^3 + 2 over F_19, r = 13. *)
Lemma lt19 : 1 < 19. Proof. reflexivity. Qed.
Definition F19 := zm_ops 19 lt19.
Definition f19 (z : Z) : Zm 19 := mkzm 19 lt19 z.
Definition e19 (a b : Z) := (f19 a, f19 b).
Definition bn_toy P Q := alt_reduced_pairing F19 (f19 18) (e19 1 1) (e19 1 1)
  [f19 1; f19 18]
  [e19 1 0; e19 0 11; e19 7 0; e19 0 1; e19 11 0; e19 0 7]
  [e19 1 0; e19 12 0; e19 11 0; e19 18 0; e19 7 0; e19 8 0]
  [e19 1 0; e19 17 2; e19 8 0; e19 3 16; e19 7 0; e19 5 14; e19 18 0; e19 2 17; e19 11 0; e19 16 3; e19 12 0; e19 14 5]
  (e19 1 1) (e19 1 18) (e19 0 11) (e19 16 16) [4] true [1] true P Q.
Notation bn_bilinear C := (C (fp12_ops F19 (f19 18) (e19 1 1) (e19 1 1))
  (jac_add F19) (jac_is_zero F19) (jac_add (fp2_ops F19 (f19 18))) (jac_is_zero (fp2_ops F19 (f19 18))) bn_toy
  (f19 4, f19 3, f19 1) (e19 7 18, e19 11 8, e19 1 0) 13%nat) (only parsing).

(** *** A BLS12 curve: z = -2, y^2 = x^3 + 3 over F_37, r = 13. *)
Lemma lt37 : 1 < 37. Proof. reflexivity. Qed.
Definition F37 := zm_ops 37 lt37.
Definition f37 (z : Z) : Zm 37 := mkzm 37 lt37 z.
Definition e37 (a b : Z) := (f37 a, f37 b).
Definition bls_toy P Q := bls_reduced_pairing F37 (f37 2) (e37 0 1) (e37 0 1)
  [f37 1; f37 36]
  [e37 1 0; e37 27 0; e37 26 0; e37 36 0; e37 10 0; e37 11 0]
  [e37 1 0; e37 26 0; e37 10 0; e37 1 0; e37 26 0; e37 10 0]
  [e37 1 0; e37 8 0; e37 27 0; e37 31 0; e37 26 0; e37 23 0; e37 36 0; e37 29 0; e37 10 0; e37 6 0; e37 11 0; e37 14 0]
  (e37 0 1) (e37 0 3) [2] true [2] true P Q.
Notation bls_bilinear C := (C (fp12_ops F37 (f37 2) (e37 0 1) (e37 0 1))
  (jac_add F37) (jac_is_zero F37) (jac_add (fp2_ops F37 (f37 2))) (jac_is_zero (fp2_ops F37 (f37 2))) bls_toy
  (f37 15, f37 23, f37 1) (e37 14 14, e37 23 16, e37 1 0) 13%nat) (only parsing).

(** *** Two curves with embedding degree 4. *)
Lemma lt13 : 1 < 13. Proof. reflexivity. Qed.
Definition K13 := zm_ops 13 lt13.
Definition f13 (z : Z) : Zm 13 := mkzm 13 lt13 z.
Definition e13 (a b : Z) := (f13 a, f13 b).
Notation four_bilinear C pair F nr a G1 G2 r := (C (fp4_ops F nr nr)
  (prj_add F (omul F a)) (prj_is_zero F) (prj_add (fp2_ops F nr) (mnt4_mul_by_a F a nr))
  (prj_is_zero (fp2_ops F nr)) pair G1 G2 r%nat) (only parsing).
(** y^2 = x^3 + 2 x + 4 over F_13, r = 17, loop count -4 *)
Definition mnt4_toy_neg P Q := mnt4_reduced_pairing K13 (f13 2) (f13 2) [f13 1; f13 12] [f13 1; f13 8; f13 12; f13 5]
  (mnt4_twist_a K13 (f13 2) (f13 2)) [4] true [1] [3] true P Q.
Notation mnt4_neg_bilinear C pair := (four_bilinear C pair K13 (f13 2) (f13 2) (f13 0, f13 2, f13 1) (e13 3 9, e13 6 10, e13 1 0) 17) (only parsing).
(** y^2 = x^3 + 4 x + 5 over F_13, r = 5, loop count 3 *)
Definition mnt4_toy P Q := mnt4_reduced_pairing K13 (f13 2) (f13 2) [f13 1; f13 12] [f13 1; f13 8; f13 12; f13 5]
  (mnt4_twist_a K13 (f13 4) (f13 2)) [3] false [2] [8] false P Q.
Notation mnt4_pos_bilinear C pair := (four_bilinear C pair K13 (f13 2) (f13 4) (f13 8, f13 4, f13 1) (e13 5 4, e13 4 10, e13 1 0) 5) (only parsing).
(** y^2 = x^3 + x + 17 over F_109, r = 13, loop count 5 *)
Lemma lt109 : 1 < 109. Proof. reflexivity. Qed.
Definition F109 := zm_ops 109 lt109.
Definition f109 (z : Z) : Zm 109 := mkzm 109 lt109 z.
Definition e109 (a b : Z) := (f109 a, f109 b).
Definition mnt4_toy5 P Q := mnt4_reduced_pairing F109 (f109 2) (f109 2) [f109 1; f109 108] (map f109 [1; 33; 108; 76])
  (mnt4_twist_a F109 (f109 1) (f109 2)) [5] false [8] [42] false P Q.
Definition mnt4_toy5_affine P Q := mnt4_affine_reduced_pairing F109 (f109 2) (f109 2) [f109 1; f109 108] (map f109 [1; 33; 108; 76])
  (mnt4_twist_a F109 (f109 1) (f109 2)) [5] [8] [42] false P Q.

(** *** Two curves with embedding degree 6. *)
Lemma lt31 : 1 < 31. Proof. reflexivity. Qed.
Definition F31 := zm_ops 31 lt31.
Definition f31 (z : Z) : Zm 31 := mkzm 31 lt31 z.
Definition g31 (a b c : Z) := (f31 a, f31 b, f31 c).
(** y^2 = x^3 + x + 8 over F_31, r = 7, loop count -4 *)
Definition mnt6_toy_neg P Q := mnt6_reduced_pairing F31 (f31 3) (f31 3) (f31 3) (map f31 [1; 25; 5]) (map f31 [1; 5; 25])
  (map f31 [1; 26; 25; 30; 5; 6]) (mnt6_twist_a F31 (f31 1)) [4] true [5] [22] true P Q.
Definition mnt6_toy_affine_neg P Q := mnt6_affine_reduced_pairing F31 (f31 3) (f31 3) (f31 3) (map f31 [1; 25; 5]) (map f31 [1; 5; 25])
  (map f31 [1; 26; 25; 30; 5; 6]) (mnt6_twist_a F31 (f31 1)) [4] [5] [22] true P Q.
(** y^2 = x^3 + x + 5 over F_31, r = 7, loop count 3 *)
Definition mnt6_toy P Q := mnt6_reduced_pairing F31 (f31 3) (f31 3) (f31 3) (map f31 [1; 25; 5]) (map f31 [1; 5; 25])
  (map f31 [1; 26; 25; 30; 5; 6]) (mnt6_twist_a F31 (f31 1)) [3] false [4] [9] false P Q.
Definition mnt6_toy_affine P Q := mnt6_affine_reduced_pairing F31 (f31 3) (f31 3) (f31 3) (map f31 [1; 25; 5]) (map f31 [1; 5; 25])
  (map f31 [1; 26; 25; 30; 5; 6]) (mnt6_twist_a F31 (f31 1)) [3] [4] [9] false P Q.
Notation six_bilinear C pair F nr a G1 G2 r := (C (fp6_2over3_ops F nr nr)
  (prj_add F (omul F a)) (prj_is_zero F) (prj_add (fp3_ops F nr) (mnt6_mul_by_a F a nr))
  (prj_is_zero (fp3_ops F nr)) pair G1 G2 r%nat) (only parsing).
Notation mnt6_neg_bilinear C pair := (six_bilinear C pair F31 (f31 3) (f31 1) (f31 16, f31 20, f31 1)
  (g31 2 14 7, g31 4 25 26, g31 1 0 0) 7) (only parsing).
Notation mnt6_pos_bilinear C pair := (six_bilinear C pair F31 (f31 3) (f31 1) (f31 3, f31 2, f31 1)
  (g31 8 10 15, g31 7 10 19, g31 1 0 0) 7) (only parsing).

(** *** An Edwards curve with embedding degree 6: x^2 + y^2 = 1 + 6 x^2 y^2 over F_31, r = 7, loop count 3. *)
Definition edw_toy P Q := edwards_reduced_pairing F31 (f31 3) (f31 3) (f31 3) (map f31 [1; 25; 5]) (map f31 [1; 5; 25])
  (map f31 [1; 26; 25; 30; 5; 6]) (edwards_mul_by_a F31 (f31 1) (f31 3)) [3] [5] [22] true P Q.
Definition tate_toy P Q := edwards_tate_reduced_pairing F31 (f31 3) (f31 3) (f31 3) (map f31 [1; 25; 5]) (map f31 [1; 5; 25])
  (map f31 [1; 26; 25; 30; 5; 6]) [7] [5] [22] true P Q.
Notation edw_bilinear C pair := (C (fp6_2over3_ops F31 (f31 3) (f31 3))
  (edw_add F31 (fun x => x) (omul F31 (f31 6))) (edw_is_zero F31)
  (edw_add (fp3_ops F31 (f31 3)) (edwards_mul_by_a F31 (f31 1) (f31 3)) (edwards_mul_by_d F31 (f31 6) (f31 3)))
  (edw_is_zero (fp3_ops F31 (f31 3))) pair (edw_of_affine F31 (f31 18) (f31 16))
  (edw_of_affine (fp3_ops F31 (f31 3)) (g31 13 8 14) (g31 19 10 2)) 7%nat) (only parsing).

(** *** The checks *)
Notation chk := (@bilinear_check _ _ _) (only parsing).
Notation bil := (@bilinear_on _ _ _) (only parsing).
Ltac check := apply bilinear_check_sound;
  [first [apply fp12_ring | apply fp4_ring | apply fp6_2over3_ring]; apply zm_ops_ring | repeat constructor | vm_cast_no_check (eq_refl true)].
Lemma bn_toy_bilinear : bn_bilinear bil. Proof. check. Qed.
Lemma bls_toy_bilinear : bls_bilinear bil. Proof. check. Qed.
Lemma mnt4_toy_neg_bilinear : mnt4_neg_bilinear bil mnt4_toy_neg. Proof. check. Qed.
Lemma mnt4_toy_bilinear : mnt4_pos_bilinear bil mnt4_toy. Proof. check. Qed.
Lemma mnt6_toy_neg_bilinear : mnt6_neg_bilinear bil mnt6_toy_neg. Proof. check. Qed.
Lemma mnt6_toy_bilinear : mnt6_pos_bilinear bil mnt6_toy. Proof. check. Qed.
Lemma edw_toy_bilinear : edw_bilinear bil edw_toy. Proof. check. Qed.
Lemma tate_toy_bilinear : edw_bilinear bil tate_toy. Proof. check. Qed.

(** The affine pairing of mnt4 and mnt6 agrees with the projective one when the
    loop count is positive; for a negative loop count it is its inverse. *)
Notation four_relates C pair pair' F nr a G1 G2 r := (C
  (prj_add F (omul F a)) (prj_add (fp2_ops F nr) (mnt4_mul_by_a F a nr)) pair pair' G1 G2 r%nat) (only parsing).
Notation six_relates C pair pair' F nr a G1 G2 r := (C
  (prj_add F (omul F a)) (prj_add (fp3_ops F nr) (mnt6_mul_by_a F a nr)) pair pair' G1 G2 r%nat) (only parsing).
Notation mnt4_pos_relates C := (four_relates C mnt4_toy5_affine mnt4_toy5 F109 (f109 2) (f109 1)
  (f109 5, f109 93, f109 1) (e109 23 88, e109 24 21, e109 1 0) 13) (only parsing).
Notation mnt6_pos_relates C := (six_relates C mnt6_toy_affine mnt6_toy F31 (f31 3) (f31 1) (f31 3, f31 2, f31 1)
  (g31 8 10 15, g31 7 10 19, g31 1 0 0) 7) (only parsing).
Notation mnt6_neg_relates C := (six_relates C mnt6_toy_affine_neg mnt6_toy_neg F31 (f31 3) (f31 1) (f31 16, f31 20, f31 1)
  (g31 2 14 7, g31 4 25 26, g31 1 0 0) 7) (only parsing).
Definition inverse_of {T} (FT : Fops T) (u v : T) : Prop := omul FT u v = o1 FT /\ u <> v.
Definition inverse_ofb {T} (FT : Fops T) (u v : T) : bool := oeqb FT (omul FT u v) (o1 FT) && negb (oeqb FT u v).
Lemma mnt4_toy_affine_eq : mnt4_pos_relates (relates_on (T := Zm 109 * Zm 109 * (Zm 109 * Zm 109)) eq).
Proof.
  apply (relates_check_sound (oeqb (fp4_ops F109 (f109 2) (f109 2)))).
  - intros u v H. apply (rk_eqb _ (fp4_ring _ (zm_ops_ring _ _) _)) in H. exact H.
  - vm_cast_no_check (eq_refl true).
Qed.
Lemma mnt6_toy_affine_eq : mnt6_pos_relates (relates_on (T := Zm 31 * Zm 31 * Zm 31 * (Zm 31 * Zm 31 * Zm 31)) eq).
Proof.
  apply (relates_check_sound (oeqb (fp6_2over3_ops F31 (f31 3) (f31 3)))).
  - intros u v H. apply (rk_eqb _ (fp6_2over3_ring _ (zm_ops_ring _ _) _)) in H. exact H.
  - vm_cast_no_check (eq_refl true).
Qed.
Lemma mnt6_toy_affine_inverse : mnt6_neg_relates (relates_on (inverse_of (fp6_2over3_ops F31 (f31 3) (f31 3)))).
Proof.
  apply (relates_check_sound (inverse_ofb (fp6_2over3_ops F31 (f31 3) (f31 3)))).
  - intros u v H. unfold inverse_ofb in H. apply andb_true_iff in H. destruct H as [H1 H2].
    pose proof (fp6_2over3_ring F31 (zm_ops_ring _ _) (f31 3)) as R.
    apply negb_true_iff in H2. split; [now apply (rk_eqb _ R)|now apply (rk_eqb_neq _ R)].
  - vm_cast_no_check (eq_refl true).
Qed.
