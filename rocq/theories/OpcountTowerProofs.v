(** Proofs about the prime field costs of the extension fields. *)
From Coq Require Import ZArith List Bool Lia.
From Verif Require Import Result FieldOps ExtModel OpcountModel OpcountProofs OpcountTowerModel.
Import ListNotations.
Open Scope Z_scope.

(** Every operation of the class returns the value of [F] and adds the given
    numbers to the counters; inverse() when it returns. *)
Record costs {T} (F : Fops T) (O : towerclass T) (ca cs cm cn cq ci : counts) : Prop := {
  cost_add : forall x y c, t_add O x y c = (oadd F x y, plus_counts c ca);
  cost_sub : forall x y c, t_sub O x y c = (osub F x y, plus_counts c cs);
  cost_mul : forall x y c, t_mul O x y c = (omul F x y, plus_counts c cm);
  cost_neg : forall x c, t_neg O x c = (oopp F x, plus_counts c cn);
  cost_sqr : forall x c, t_sqr O x c = (osqr F x, plus_counts c cq);
  cost_inv : forall x c, fst (t_inv O x c) = oinv F x /\
    (forall y, oinv F x = Ok y -> snd (t_inv O x c) = plus_counts c ci) }.

Definition scale_counts (k : Z) (d : counts) : counts :=
  mkCounts (k * add_cnt d) (k * sub_cnt d) (k * mul_cnt d) (k * sqr_cnt d) (k * inv_cnt d).
Local Infix "+++" := plus_counts (at level 50, left associativity).
Local Infix "**" := scale_counts (at level 40).
(** Equal vectors: five linear equations.  The sums are nested deeply, so the
    projections are pushed in by rewriting, not by unfolding. *)
Lemma proj_plus c d : add_cnt (c +++ d) = add_cnt c + add_cnt d /\ sub_cnt (c +++ d) = sub_cnt c + sub_cnt d /\
  mul_cnt (c +++ d) = mul_cnt c + mul_cnt d /\ sqr_cnt (c +++ d) = sqr_cnt c + sqr_cnt d /\
  inv_cnt (c +++ d) = inv_cnt c + inv_cnt d.
Proof. repeat split. Qed.
Lemma add_plus c d : add_cnt (c +++ d) = add_cnt c + add_cnt d. Proof. apply proj_plus. Qed.
Lemma sub_plus c d : sub_cnt (c +++ d) = sub_cnt c + sub_cnt d. Proof. apply proj_plus. Qed.
Lemma mul_plus c d : mul_cnt (c +++ d) = mul_cnt c + mul_cnt d. Proof. apply proj_plus. Qed.
Lemma sqr_plus c d : sqr_cnt (c +++ d) = sqr_cnt c + sqr_cnt d. Proof. apply proj_plus. Qed.
Lemma inv_plus c d : inv_cnt (c +++ d) = inv_cnt c + inv_cnt d. Proof. apply proj_plus. Qed.
Lemma add_scale k d : add_cnt (k ** d) = k * add_cnt d. Proof. reflexivity. Qed.
Lemma sub_scale k d : sub_cnt (k ** d) = k * sub_cnt d. Proof. reflexivity. Qed.
Lemma mul_scale k d : mul_cnt (k ** d) = k * mul_cnt d. Proof. reflexivity. Qed.
Lemma sqr_scale k d : sqr_cnt (k ** d) = k * sqr_cnt d. Proof. reflexivity. Qed.
Lemma inv_scale k d : inv_cnt (k ** d) = k * inv_cnt d. Proof. reflexivity. Qed.
Lemma counts_eq c d : add_cnt c = add_cnt d -> sub_cnt c = sub_cnt d -> mul_cnt c = mul_cnt d ->
  sqr_cnt c = sqr_cnt d -> inv_cnt c = inv_cnt d -> c = d.
Proof. destruct c, d; cbn; intros; subst; reflexivity. Qed.
Ltac vec := apply counts_eq;
  [ rewrite ?add_plus, ?add_scale, ?add_plus | rewrite ?sub_plus, ?sub_scale, ?sub_plus
  | rewrite ?mul_plus, ?mul_scale, ?mul_plus | rewrite ?sqr_plus, ?sqr_scale, ?sqr_plus
  | rewrite ?inv_plus, ?inv_scale, ?inv_plus ];
  clear; lia.

Section Towers.
Context {T : Type} (F : Fops T) (O : towerclass T) (ca cs cm cn cq ci cr : counts)
  (H : costs F O ca cs cm cn cq ci) (mnr : T -> counted T) (mnrv : T -> T)
  (HM : forall x c, mnr x c = (mnrv x, plus_counts c cr)).
Ltac go := unfold cbind, cret; destruct H as [HA HS HL HN HQ HI];
  repeat (rewrite ?HA, ?HS, ?HL, ?HN, ?HQ, ?HM; cbv beta iota).
Lemma inv_step x c {U} (k : T -> counted (result U)) (f : T -> result U) ck :
  (forall t c, fst (k t c) = f t) -> (forall t c y, f t = Ok y -> snd (k t c) = c +++ ck) ->
  fst (on_ok (t_inv O x) k c) = (t <- oinv F x ;; f t)%result /\
  (forall y, (t <- oinv F x ;; f t)%result = Ok y -> snd (on_ok (t_inv O x) k c) = c +++ ci +++ ck).
Proof.
  intros K1 K2. unfold on_ok, cbind. destruct (cost_inv _ _ _ _ _ _ _ _ H x c) as [E1 E2].
  destruct (t_inv O x c) as [r c'] eqn:E. cbn [fst snd] in *. subst r.
  destruct (oinv F x) as [t| | | | |] eqn:EI; cbn; split; intros; try discriminate; auto.
  rewrite (E2 t eq_refl). eauto.
Qed.

Theorem quad_costs : costs (quad_ops F mnrv) (quad_tower O mnr)
  (2 ** ca) (2 ** cs) (3 ** cm +++ cr +++ 3 ** ca +++ 2 ** cs) (2 ** cn)
  (2 ** cm +++ 2 ** cr +++ 3 ** ca +++ 2 ** cs) (2 ** cq +++ cr +++ cs +++ ci +++ 2 ** cm +++ cn).
Proof.
  split; cbn [quad_tower t_add t_sub t_mul t_neg t_sqr t_inv quad_ops oadd osub omul oopp osqr oinv].
  - intros [a b] [a' b'] c. unfold quad_tower_add. go. cbn [quad_add]. f_equal. vec.
  - intros [a b] [a' b'] c. unfold quad_tower_sub. go. cbn [quad_sub]. f_equal. vec.
  - intros [a b] [a' b'] c. unfold quad_tower_mul. go. cbn [quad_mul]. f_equal. vec.
  - intros [a b] c. unfold quad_tower_neg. go. cbn [quad_opp]. f_equal. vec.
  - intros [a b] c. unfold quad_tower_sqr. go. cbn [quad_sqr_complex]. f_equal. vec.
  - intros [a b] c. unfold quad_tower_inv, quad_inv. cbv zeta.
    set (k := fun t => (c0 <- t_mul O a t ;; bt <- t_mul O b t ;; c1 <- t_neg O bt ;; cret (@Ok (T * T) (c0, c1)))%counted).
    assert (G1 : forall t c, fst (k t c) = Ok (omul F a t, oopp F (omul F b t))).
    { intros t d. unfold k. go. reflexivity. }
    assert (G2 : forall t c, snd (k t c) = c +++ (2 ** cm +++ cn)).
    { intros t d. unfold k. go. cbn [snd]. vec. }
    assert (E : forall d, (t0 <- t_sqr O a ;; t1 <- t_sqr O b ;; nt1 <- mnr t1 ;; t2 <- t_sub O t0 nt1 ;; d t2)%counted c =
      (d (osub F (osqr F a) (mnrv (osqr F b))) : counted (result (T * T))) (c +++ cq +++ cq +++ cr +++ cs)).
    { intros d. go. reflexivity. }
    rewrite (E (fun t2 => on_ok (t_inv O t2) k)).
    destruct (inv_step (osub F (osqr F a) (mnrv (osqr F b))) (c +++ cq +++ cq +++ cr +++ cs) k
      (fun t => Ok (omul F a t, oopp F (omul F b t))) (2 ** cm +++ cn)) as [R1 R2].
    + intros; apply G1.
    + intros; apply G2.
    + split; [exact R1|]. intros y Hy. rewrite (R2 y Hy). vec.
Qed.

Theorem cubic_costs : costs (cubic_ops F mnrv) (cubic_tower O mnr)
  (3 ** ca) (3 ** cs) (6 ** cm +++ 2 ** cr +++ 9 ** ca +++ 6 ** cs) (3 ** cn)
  (3 ** cq +++ 2 ** cm +++ 2 ** cr +++ 7 ** ca +++ 3 ** cs)
  (3 ** cq +++ 9 ** cm +++ 3 ** cr +++ 2 ** ca +++ 3 ** cs +++ ci).
Proof.
  split; cbn [cubic_tower t_add t_sub t_mul t_neg t_sqr t_inv cubic_ops oadd osub omul oopp osqr oinv].
  - intros [[a b] e] [[a' b'] e'] c. unfold cubic_tower_add. go. cbn [cubic_add]. f_equal. vec.
  - intros [[a b] e] [[a' b'] e'] c. unfold cubic_tower_sub. go. cbn [cubic_sub]. f_equal. vec.
  - intros [[a b] e] [[a' b'] e'] c. unfold cubic_tower_mul. go. cbn [cubic_mul]. f_equal. vec.
  - intros [[a b] e] c. unfold cubic_tower_neg. go. cbn [cubic_opp]. f_equal. vec.
  - intros [[a b] e] c. unfold cubic_tower_sqr. go. cbn [cubic_sqr]. f_equal. vec.
  - intros [[a b] e] c. unfold cubic_tower_inv, cubic_inv. cbv zeta.
    set (c0 := osub F (osqr F a) (mnrv (omul F b e))). set (c1 := osub F (mnrv (osqr F e)) (omul F a b)).
    set (c2 := osub F (osqr F b) (omul F a e)).
    set (k := fun t6 => (r0 <- t_mul O t6 c0 ;; r1 <- t_mul O t6 c1 ;; r2 <- t_mul O t6 c2 ;; cret (@Ok (T * T * T) (r0, r1, r2)))%counted).
    assert (G1 : forall t c, fst (k t c) = Ok (omul F t c0, omul F t c1, omul F t c2)).
    { intros t d. unfold k. go. reflexivity. }
    assert (G2 : forall t c, snd (k t c) = c +++ 3 ** cm).
    { intros t d. unfold k. go. cbn [snd]. vec. }
    set (s := oadd F (omul F a c0) (mnrv (oadd F (omul F e c1) (omul F b c2)))).
    destruct (inv_step s (c +++ (3 ** cq +++ 6 ** cm +++ 3 ** cr +++ 2 ** ca +++ 3 ** cs)) k
      (fun t => Ok (omul F t c0, omul F t c1, omul F t c2)) (3 ** cm)) as [R1 R2]; [intros; apply G1| intros; apply G2|].
    match goal with |- fst ?X = _ /\ _ => assert (E : X = on_ok (t_inv O s) k (c +++ (3 ** cq +++ 6 ** cm +++ 3 ** cr +++ 2 ** ca +++ 3 ** cs))) end.
    { unfold s, k, c0, c1, c2. clear R1 R2 G1 G2. unfold cbind at 1 2 3 4 5 6 7 8 9 10 11 12 13 14 15 16 17.
      destruct H as [HA HS HL HN HQ HI]. repeat (rewrite ?HA, ?HS, ?HL, ?HN, ?HQ, ?HM; cbv beta iota).
      apply f_equal. vec. }
    rewrite E. split; [exact R1|]. intros y Hy. rewrite (R2 y Hy). vec.
Qed.
End Towers.

Lemma fp4_mnr_costs {T} (F : Fops T) O ca cs cm cn cq ci nr : costs F O ca cs cm cn cq ci ->
  forall x c, fp4_tower_mnr O nr x c = (fp4_mnr F nr x, c +++ cm).
Proof. intros H [a b] c. cbn [fp4_tower_mnr]. unfold cbind, cret. rewrite (cost_mul _ _ _ _ _ _ _ _ H). reflexivity. Qed.
Lemma rot_mnr_costs {T} (F : Fops T) O ca cs cm cn cq ci nr : costs F O ca cs cm cn cq ci ->
  forall x c, rot_tower_mnr O nr x c = (rot_mnr F nr x, c +++ cm).
Proof. intros H [[a b] e] c. cbn [rot_tower_mnr]. unfold cbind, cret. rewrite (cost_mul _ _ _ _ _ _ _ _ H). reflexivity. Qed.

Definition three_limb_asm (asm : bool) (n : Z) : bool := asm && (n =? 3).
Lemma prime_costs {T} (F : Fops T) asm n : (forall x, osqr F x = omul F x x) ->
  costs F (prime_tower F asm n) (mkCounts 1 0 0 0 0) (mkCounts 0 1 0 0 0) (mkCounts 0 0 1 0 0) (mkCounts 0 1 0 0 0)
    (mkCounts 0 0 (if three_limb_asm asm n then -1 else 0) 1 0) (mkCounts 0 0 0 0 1).
Proof.
  intros SQ. unfold three_limb_asm. split; cbn; intros; unfold fp_plus, fp_addeq, fp_minus, fp_subeq, fp_times, fp_muleq, fp_negate, fp_squared, fp_inverse, fp_invert, cbind, bump, cret;
    try (f_equal; unfold plus_counts; cbn [add_cnt sub_cnt mul_cnt sqr_cnt inv_cnt]; apply counts_ext; lia).
  - rewrite SQ. destruct (asm && (n =? 3)); f_equal; unfold plus_counts; cbn [add_cnt sub_cnt mul_cnt sqr_cnt inv_cnt]; apply counts_ext; lia.
  - split; [cbn; destruct (oinv F x); reflexivity|]. intros y _. reflexivity.
Qed.

Lemma costs_vec {T} (F : Fops T) O ca cs cm cn cq ci ca' cs' cm' cn' cq' ci' :
  costs F O ca cs cm cn cq ci -> ca = ca' -> cs = cs' -> cm = cm' -> cn = cn' -> cq = cq' -> ci = ci' ->
  costs F O ca' cs' cm' cn' cq' ci'.
Proof. intros; subst; auto. Qed.
Ltac vecs := unfold plus_counts, scale_counts; cbn [add_cnt sub_cnt mul_cnt sqr_cnt inv_cnt]; apply counts_ext; lia.

(** [e] is what squared() of the prime field adds to mul_cnt. *)
Section Six.
Context {T : Type} (F : Fops T) (P : towerclass T) (e : Z)
  (H : costs F P (mkCounts 1 0 0 0 0) (mkCounts 0 1 0 0 0) (mkCounts 0 0 1 0 0) (mkCounts 0 1 0 0 0)
    (mkCounts 0 0 e 1 0) (mkCounts 0 0 0 0 1)).
Lemma fp2_costs (nr2 : T) : costs (fp2_ops F nr2) (fp2_tower P nr2)
  (mkCounts 2 0 0 0 0) (mkCounts 0 2 0 0 0) (mkCounts 3 2 4 0 0) (mkCounts 0 2 0 0 0)
  (mkCounts 3 2 4 0 0) (mkCounts 0 2 (3 + e * 2) 2 1).
Proof. eapply costs_vec; [exact (quad_costs _ _ _ _ _ _ _ _ _ H _ _ (fun x c => cost_mul _ _ _ _ _ _ _ _ H nr2 x c))|..]; vecs. Qed.
Lemma fp3_costs (nr3 : T) : costs (fp3_ops F nr3) (fp3_tower P nr3)
  (mkCounts 3 0 0 0 0) (mkCounts 0 3 0 0 0) (mkCounts 9 6 8 0 0) (mkCounts 0 3 0 0 0)
  (mkCounts 7 3 (4 + e * 3) 3 0) (mkCounts 2 3 (12 + e * 3) 3 1).
Proof. eapply costs_vec; [exact (cubic_costs _ _ _ _ _ _ _ _ _ H _ _ (fun x c => cost_mul _ _ _ _ _ _ _ _ H nr3 x c))|..]; vecs. Qed.
Lemma fp4_costs (nr2 nr4 : T) : costs (fp4_ops F nr2 nr4) (fp4_tower P nr2 nr4)
  (mkCounts 4 0 0 0 0) (mkCounts 0 4 0 0 0) (mkCounts 15 10 13 0 0) (mkCounts 0 4 0 0 0)
  (mkCounts 12 8 10 0 0) (mkCounts 12 14 (20 + e * 2) 2 1).
Proof. eapply costs_vec; [exact (quad_costs _ _ _ _ _ _ _ _ _ (fp2_costs nr2) _ _ (fp4_mnr_costs F P _ _ _ _ _ _ nr4 H))|..]; vecs. Qed.
Lemma fp6_2over3_costs (nr3 nr6 : T) : costs (fp6_2over3_ops F nr3 nr6) (fp6_2over3_tower P nr3 nr6)
  (mkCounts 6 0 0 0 0) (mkCounts 0 6 0 0 0) (mkCounts 36 24 25 0 0) (mkCounts 0 6 0 0 0)
  (mkCounts 27 18 18 0 0) (mkCounts 34 27 (37 + e * 9) 9 1).
Proof. eapply costs_vec; [exact (quad_costs _ _ _ _ _ _ _ _ _ (fp3_costs nr3) _ _ (rot_mnr_costs F P _ _ _ _ _ _ nr6 H))|..]; vecs. Qed.
Lemma fp6_3over2_costs (nr2 : T) (nr6 : T * T) : costs (fp6_3over2_ops F nr2 nr6) (fp6_3over2_tower P nr2 nr6)
  (mkCounts 6 0 0 0 0) (mkCounts 0 6 0 0 0) (mkCounts 42 28 32 0 0) (mkCounts 0 6 0 0 0)
  (mkCounts 35 20 28 0 0) (mkCounts 49 38 (63 + e * 2) 2 1).
Proof. eapply costs_vec; [exact (cubic_costs _ _ _ _ _ _ _ _ _ (fp2_costs nr2) _ _ (fun x c => cost_mul _ _ _ _ _ _ _ _ (fp2_costs nr2) nr6 x c))|..]; vecs. Qed.
Lemma fp12_costs (nr2 : T) (nr6 nr12 : T * T) : costs (fp12_ops F nr2 nr6 nr12) (fp12_tower P nr2 nr6 nr12)
  (mkCounts 12 0 0 0 0) (mkCounts 0 12 0 0 0) (mkCounts 147 98 100 0 0) (mkCounts 0 12 0 0 0)
  (mkCounts 108 72 72 0 0) (mkCounts 206 148 (187 + e * 2) 2 1).
Proof. eapply costs_vec; [exact (quad_costs _ _ _ _ _ _ _ _ _ (fp6_3over2_costs nr2 nr6) _ _ (rot_mnr_costs _ _ _ _ _ _ _ _ nr12 (fp2_costs nr2)))|..]; vecs. Qed.
End Six.

Section Shipped.
Context {T : Type} (F : Fops T) (R : ring_ok F) (asm : bool) (n : Z).
Lemma prime_costs_plain : asm && (n =? 3) = false -> costs F (prime_tower F asm n) (mkCounts 1 0 0 0 0) (mkCounts 0 1 0 0 0)
  (mkCounts 0 0 1 0 0) (mkCounts 0 1 0 0 0) (mkCounts 0 0 0 1 0) (mkCounts 0 0 0 0 1).
Proof. intros E. pose proof (prime_costs F asm n (rk_sqr F R)) as H. unfold three_limb_asm in H. rewrite E in H. exact H. Qed.
Lemma prime_costs_asm : costs F (prime_tower F true 3) (mkCounts 1 0 0 0 0) (mkCounts 0 1 0 0 0)
  (mkCounts 0 0 1 0 0) (mkCounts 0 1 0 0 0) (mkCounts 0 0 (-1) 1 0) (mkCounts 0 0 0 0 1).
Proof. exact (prime_costs F true 3 (rk_sqr F R)). Qed.
Lemma fp2_costs_plain (nr2 : T) : asm && (n =? 3) = false -> costs (fp2_ops F nr2) (fp2_tower (prime_tower F asm n) nr2)
  (mkCounts 2 0 0 0 0) (mkCounts 0 2 0 0 0) (mkCounts 3 2 4 0 0) (mkCounts 0 2 0 0 0)
  (mkCounts 3 2 4 0 0) (mkCounts 0 2 3 2 1).
Proof. intros E. exact (fp2_costs F _ 0 (prime_costs_plain E) nr2). Qed.
Lemma fp3_costs_plain (nr3 : T) : asm && (n =? 3) = false -> costs (fp3_ops F nr3) (fp3_tower (prime_tower F asm n) nr3)
  (mkCounts 3 0 0 0 0) (mkCounts 0 3 0 0 0) (mkCounts 9 6 8 0 0) (mkCounts 0 3 0 0 0)
  (mkCounts 7 3 4 3 0) (mkCounts 2 3 12 3 1).
Proof. intros E. exact (fp3_costs F _ 0 (prime_costs_plain E) nr3). Qed.
Lemma fp4_costs_plain (nr2 nr4 : T) : asm && (n =? 3) = false -> costs (fp4_ops F nr2 nr4) (fp4_tower (prime_tower F asm n) nr2 nr4)
  (mkCounts 4 0 0 0 0) (mkCounts 0 4 0 0 0) (mkCounts 15 10 13 0 0) (mkCounts 0 4 0 0 0)
  (mkCounts 12 8 10 0 0) (mkCounts 12 14 20 2 1).
Proof. intros E. exact (fp4_costs F _ 0 (prime_costs_plain E) nr2 nr4). Qed.
Lemma fp6_2over3_costs_plain (nr3 nr6 : T) : asm && (n =? 3) = false -> costs (fp6_2over3_ops F nr3 nr6) (fp6_2over3_tower (prime_tower F asm n) nr3 nr6)
  (mkCounts 6 0 0 0 0) (mkCounts 0 6 0 0 0) (mkCounts 36 24 25 0 0) (mkCounts 0 6 0 0 0)
  (mkCounts 27 18 18 0 0) (mkCounts 34 27 37 9 1).
Proof. intros E. exact (fp6_2over3_costs F _ 0 (prime_costs_plain E) nr3 nr6). Qed.
Lemma fp6_3over2_costs_plain (nr2 : T) (nr6 : T * T) : asm && (n =? 3) = false -> costs (fp6_3over2_ops F nr2 nr6) (fp6_3over2_tower (prime_tower F asm n) nr2 nr6)
  (mkCounts 6 0 0 0 0) (mkCounts 0 6 0 0 0) (mkCounts 42 28 32 0 0) (mkCounts 0 6 0 0 0)
  (mkCounts 35 20 28 0 0) (mkCounts 49 38 63 2 1).
Proof. intros E. exact (fp6_3over2_costs F _ 0 (prime_costs_plain E) nr2 nr6). Qed.
Lemma fp12_costs_plain (nr2 : T) (nr6 nr12 : T * T) : asm && (n =? 3) = false -> costs (fp12_ops F nr2 nr6 nr12) (fp12_tower (prime_tower F asm n) nr2 nr6 nr12)
  (mkCounts 12 0 0 0 0) (mkCounts 0 12 0 0 0) (mkCounts 147 98 100 0 0) (mkCounts 0 12 0 0 0)
  (mkCounts 108 72 72 0 0) (mkCounts 206 148 187 2 1).
Proof. intros E. exact (fp12_costs F _ 0 (prime_costs_plain E) nr2 nr6 nr12). Qed.
Lemma fp3_costs_asm (nr3 : T) : costs (fp3_ops F nr3) (fp3_tower (prime_tower F true 3) nr3)
  (mkCounts 3 0 0 0 0) (mkCounts 0 3 0 0 0) (mkCounts 9 6 8 0 0) (mkCounts 0 3 0 0 0)
  (mkCounts 7 3 1 3 0) (mkCounts 2 3 9 3 1).
Proof. exact (fp3_costs F _ (-1) prime_costs_asm nr3). Qed.
Lemma fp6_2over3_costs_asm (nr3 nr6 : T) : costs (fp6_2over3_ops F nr3 nr6) (fp6_2over3_tower (prime_tower F true 3) nr3 nr6)
  (mkCounts 6 0 0 0 0) (mkCounts 0 6 0 0 0) (mkCounts 36 24 25 0 0) (mkCounts 0 6 0 0 0)
  (mkCounts 27 18 18 0 0) (mkCounts 34 27 28 9 1).
Proof. exact (fp6_2over3_costs F _ (-1) prime_costs_asm nr3 nr6). Qed.
End Shipped.

Definition z7 : Fops Z :=
  {| o0 := 0; o1 := 1; oadd a b := (a + b) mod 7; osub a b := (a - b) mod 7; omul a b := (a * b) mod 7;
     oopp a := (- a) mod 7; osqr a := (a * a) mod 7; oinv a := if a =? 0 then AssertFail else Ok (a ^ 5 mod 7); oeqb := Z.eqb |}.
(** Over Z/7 with 3 as a non residue: a product of Fp2 and an inverse of Fp2
    and of Fp3 (2 is no cube modulo 7), and the inverse of zero. *)
Example tower_example :
  t_mul (fp2_tower (prime_tower z7 false 4) 3) (1, 2) (3, 4) (mkCounts 0 0 0 0 0) = ((6, 3), mkCounts 3 2 4 0 0) /\
  t_inv (fp2_tower (prime_tower z7 false 4) 3) (1, 2) (mkCounts 0 0 0 0 0) = (Ok (5, 4), mkCounts 0 2 3 2 1) /\
  snd (t_inv (fp3_tower (prime_tower z7 true 3) 2) (1, 2, 3) (mkCounts 0 0 0 0 0)) = mkCounts 2 3 9 3 1 /\
  fst (t_inv (fp2_tower (prime_tower z7 false 4) 3) (0, 0) (mkCounts 0 0 0 0 0)) = AssertFail.
Proof. vm_compute. repeat split. Qed.
