(** Symmetric 2-cocycles g of an abelian group with values in an abelian group,
    and the sums Miller's algorithm forms from them.  Both groups are written
    additively; in the application g is line / vertical, a quotient in the
    multiplicative group of a field. *)
From Coq Require Import ZArith List Bool Lia.
From Verif Require Import Result Algebra GroupOps GroupProofs.
Import ListNotations.
Open Scope Z_scope.

Section Cochain.
Context {I : Type} (iz : I) (iadd : I -> I -> I) (iopp : I -> I) (IG : agroup iz iadd iopp).
Context {U : Type} (uz : U) (uadd : U -> U -> U) (uopp : U -> U) (UG : agroup uz uadd uopp).
Declare Scope u_scope.
Delimit Scope u_scope with u.
Declare Scope i_scope.
Delimit Scope i_scope with i.
Notation "x + y" := (uadd x y) : u_scope.
Notation "- x" := (uopp x) : u_scope.
Notation "k ** x" := (gmul uz uadd uopp k x) (at level 40, left associativity) : u_scope.
Notation "x + y" := (iadd x y) : i_scope.
Notation "- x" := (iopp x) : i_scope.
Notation "k ** x" := (gmul iz iadd iopp k x) (at level 40, left associativity) : i_scope.

Lemma u_use a b L R : a = b -> (L + b = R + a)%u -> L = R.
Proof. intros -> H. exact (ag_cancel uz uadd uopp UG _ _ _ H). Qed.
Lemma u_cancel x y w : (x + w = y + w)%u -> x = y.
Proof. apply (ag_cancel uz uadd uopp UG). Qed.

(** The cocycles. *)
Record cocyc (g : I -> I -> U) : Prop := {
  cc_sym : forall i j, g i j = g j i;
  cc_coc : forall i j k, (g i j + g (i + j)%i k = g j k + g i (j + k)%i)%u;
  cc_00 : g iz iz = uz
}.
(** The sums. *)
Fixpoint csum (g : I -> I -> U) (n : positive) (i : I) : U :=
  match n with
  | xH => uz
  | xO n => let S := (Z.pos n ** i)%i in (csum g n i + csum g n i + g S S)%u
  | xI n => let S := (Z.pos n ** i)%i in (csum g n i + csum g n i + g S S + g (S + S)%i i)%u
  end.
Definition csigned (g : I -> I -> U) (neg : bool) (n : positive) (i : I) : U :=
  if neg then (- (csum g n i + g (Z.pos n ** i)%i (- (Z.pos n ** i))%i))%u else csum g n i.
Definition sgnz (neg : bool) (n : positive) : Z := if neg then Z.neg n else Z.pos n.

Lemma gm_dbl n i : (Z.pos (xO n) ** i = Z.pos n ** i + Z.pos n ** i)%i.
Proof. rewrite <- (gmul_add _ _ _ IG). f_equal. lia. Qed.
Lemma gm_dbl1 n i : (Z.pos (xI n) ** i = Z.pos n ** i + Z.pos n ** i + i)%i.
Proof. rewrite <- (gmul_add _ _ _ IG), <- (gmul_succ _ _ _ IG). f_equal. lia. Qed.

Section One.
Variable g : I -> I -> U.
Hypothesis C : cocyc g.
Lemma cc_0 j : g iz j = uz.
Proof.
  pose proof (cc_coc g C iz iz j) as H. rewrite !(ag_0_l _ _ _ IG), (cc_00 g C) in H.
  apply (u_cancel _ _ (g iz j)). rewrite <- H. agroup_eq UG.
Qed.
Lemma cc_0r j : g j iz = uz. Proof. rewrite (cc_sym g C). apply cc_0. Qed.
Lemma four a b c d : (g a b + g c d + g (a + b)%i (c + d)%i = g a c + g b d + g (a + c)%i (b + d)%i)%u.
Proof.
  pose proof (cc_coc g C a b (c + d)%i) as H1. pose proof (cc_coc g C a c (b + d)%i) as H2.
  pose proof (cc_coc g C b c d) as H3. pose proof (cc_coc g C c b d) as H4.
  replace (c + (b + d))%i with (b + (c + d))%i in H2 by agroup_eq IG.
  rewrite (cc_sym g C c b) in H4. replace (c + b)%i with (b + c)%i in H4 by agroup_eq IG.
  apply (u_use _ _ _ _ H1), (u_use _ _ _ _ (eq_sym H2)), (u_use _ _ _ _ H4), (u_use _ _ _ _ (eq_sym H3)).
  agroup_eq UG.
Qed.
(** -A, -B against A, B. *)
Lemma cc_opp a b : (g a b + g (- a)%i (- b)%i + g (a + b)%i (- (a + b))%i = g a (- a)%i + g b (- b)%i)%u.
Proof.
  pose proof (four a b (- a)%i (- b)%i) as H. replace (- a + - b)%i with (- (a + b))%i in H by agroup_eq IG.
  replace (a + - a)%i with iz in H by agroup_eq IG. rewrite cc_0 in H. rewrite H. agroup_eq UG.
Qed.

Lemma csum_add n a b :
  (csum g n a + csum g n b + g (Z.pos n ** a)%i (Z.pos n ** b)%i = Z.pos n ** g a b + csum g n (a + b)%i)%u.
Proof.
  induction n as [n IH|n IH|]; cbn [csum]; cbv zeta.
  - rewrite !gm_dbl1, (gmul_distr _ _ _ IG).
    set (A := (Z.pos n ** a)%i) in *. set (B := (Z.pos n ** b)%i) in *.
    pose proof (four A A B B) as F1. pose proof (four (A + A)%i a (B + B)%i b) as F2.
    replace (A + B + (A + B))%i with (A + A + (B + B))%i by agroup_eq IG.
    replace (Z.pos (xI n)) with (Z.pos n + Z.pos n + 1) by lia. rewrite !(gmul_add _ _ _ UG), (gmul_1 _ _ _ UG).
    apply (u_use _ _ _ _ IH), (u_use _ _ _ _ IH), (u_use _ _ _ _ F1), (u_use _ _ _ _ F2). agroup_eq UG.
  - rewrite !gm_dbl, (gmul_distr _ _ _ IG).
    set (A := (Z.pos n ** a)%i) in *. set (B := (Z.pos n ** b)%i) in *.
    pose proof (four A A B B) as F1.
    replace (Z.pos (xO n)) with (Z.pos n + Z.pos n) by lia. rewrite !(gmul_add _ _ _ UG).
    apply (u_use _ _ _ _ IH), (u_use _ _ _ _ IH), (u_use _ _ _ _ F1). agroup_eq UG.
  - rewrite !(gmul_1 _ _ _ IG), (gmul_1 _ _ _ UG). agroup_eq UG.
Qed.
Lemma csigned_add neg n a b : let t := sgnz neg n in
  (csigned g neg n a + csigned g neg n b + g (t ** a)%i (t ** b)%i = t ** g a b + csigned g neg n (a + b)%i)%u.
Proof.
  cbv zeta. unfold csigned, sgnz. pose proof (csum_add n a b) as H. destruct neg; [|exact H].
  change (Z.neg n) with (- Z.pos n). rewrite !(gmul_opp _ _ _ IG), (gmul_opp _ _ _ UG), (gmul_distr _ _ _ IG).
  pose proof (cc_opp (Z.pos n ** a)%i (Z.pos n ** b)%i) as F1.
  apply (u_use _ _ _ _ (eq_sym H)), (u_use _ _ _ _ F1). agroup_eq UG.
Qed.

(** The eigenvalue q of the Frobenius, the order r. *)
Variables q r : Z.
Hypothesis Hq : forall i j, (g (q ** i)%i (q ** j)%i = q ** g i j)%u.
Hypothesis Hr : forall i k j, g (i + (r * k) ** j)%i = g i.

Lemma cc_q3 i j : (g ((q * q * q) ** i)%i ((q * q * q) ** j)%i = (q * q * q) ** g i j)%u.
Proof. rewrite !(gmul_mul _ _ _ IG), !(gmul_mul _ _ _ UG), !Hq. reflexivity. Qed.
Lemma cc_q2 i j : (g ((q * q) ** i)%i ((q * q) ** j)%i = (q * q) ** g i j)%u.
Proof. rewrite !(gmul_mul _ _ _ IG), !(gmul_mul _ _ _ UG), !Hq. reflexivity. Qed.
Lemma cc_mod t s k i j : t = s + r * k -> g (t ** i)%i (t ** j)%i = g (s ** i)%i (s ** j)%i.
Proof.
  intros ->. rewrite !(gmul_add _ _ _ IG), Hr, (cc_sym g C), Hr. apply (cc_sym g C).
Qed.
(** The ate pairing: t = q mod r. *)
Theorem ate_add neg n k a b : sgnz neg n = q + r * k ->
  (csigned g neg n a + csigned g neg n b = (r * k) ** g a b + csigned g neg n (a + b)%i)%u.
Proof.
  intros E. pose proof (csigned_add neg n a b) as H. cbv zeta in H. rewrite (cc_mod _ q k _ _ E), Hq, E, (gmul_add _ _ _ UG) in H.
  apply (u_use _ _ _ _ H). agroup_eq UG.
Qed.
(** The optimal ate pairing: t + q - q^2 + q^3 = 0 mod r. *)
Definition coptimal (neg : bool) (n : positive) (a : I) : U :=
  let t := sgnz neg n in
  (csigned g neg n a + g (t ** a)%i (q ** a)%i + g (t ** a + q ** a)%i (- ((q * q) ** a))%i)%u.
Definition vert (a : I) : U := g a (- a)%i.
Theorem optimal_add neg n k a b : sgnz neg n + q - q * q + q * q * q = r * k ->
  (coptimal neg n a + coptimal neg n b =
   (r * k) ** g a b + (q * q - q * q * q) ** (vert a + vert b + - vert (a + b)%i) + coptimal neg n (a + b)%i)%u.
Proof.
  intros E. pose proof (csigned_add neg n a b) as H. cbv zeta in H. unfold coptimal. cbv zeta.
  set (t := sgnz neg n) in *. rewrite !(gmul_distr _ _ _ IG).
  pose proof (four (t ** a)%i (q ** a)%i (t ** b)%i (q ** b)%i) as F1.
  pose proof (four (t ** a + q ** a)%i (- ((q * q) ** a))%i (t ** b + q ** b)%i (- ((q * q) ** b))%i) as F2.
  rewrite Hq in F1.
  assert (X : forall i, (t ** i + q ** i + - ((q * q) ** i) = (t + q - q * q) ** i)%i).
  { intros i. unfold Z.sub. rewrite !(gmul_add _ _ _ IG), (gmul_opp _ _ _ IG). reflexivity. }
  rewrite !X in F2. rewrite (cc_mod (t + q - q * q) (- (q * q * q)) k) in F2 by lia.
  assert (N3 : forall i, (- (q * q * q) ** i = (q * q * q) ** (- i))%i).
  { intros i. apply (ag_cancel iz iadd iopp IG _ _ ((q * q * q) ** i)%i). rewrite <- !(gmul_distr _ _ _ IG), <- (gmul_add _ _ _ IG).
    replace (- (q * q * q) + q * q * q) with 0 by lia. replace (- i + i)%i with iz by agroup_eq IG. now rewrite (gmul_zero _ _ _ IG). }
  assert (N2 : forall i, (- ((q * q) ** i) = (q * q) ** (- i))%i).
  { intros i. apply (ag_cancel iz iadd iopp IG _ _ ((q * q) ** i)%i). rewrite <- !(gmul_distr _ _ _ IG).
    replace (- i + i)%i with iz by agroup_eq IG. rewrite (gmul_zero _ _ _ IG). agroup_eq IG. }
  rewrite (N3 a), (N3 b), cc_q3 in F2. 
  rewrite (N2 a), (N2 b), cc_q2 in F2.
  rewrite (ag_opp_add _ _ _ IG), !N2.
  replace (t ** a + t ** b + (q ** a + q ** b))%i with (t ** a + q ** a + (t ** b + q ** b))%i by agroup_eq IG.
  assert (V : g (- a)%i (- b)%i = (vert a + vert b + - vert (a + b)%i + - g a b)%u).
  { unfold vert. pose proof (cc_opp a b) as V. apply (u_use _ _ _ _ V). agroup_eq UG. }
  rewrite V in F2. set (v := (vert a + vert b + - vert (a + b)%i)%u) in *.
  rewrite !(gmul_distr _ _ _ UG) in F2.
  rewrite <- E. unfold Z.sub. rewrite !(gmul_add _ _ _ UG), !(gmul_opp _ _ _ UG).
  assert (NU : forall k x, (k ** - x = - (k ** x))%u).
  { intros k0 x. apply (u_cancel _ _ (k0 ** x)%u). rewrite <- (gmul_distr _ _ _ UG).
    replace (- x + x)%u with uz by agroup_eq UG. rewrite (gmul_zero _ _ _ UG). agroup_eq UG. }
  rewrite !NU in F2.
  apply (u_use _ _ _ _ H), (u_use _ _ _ _ F1), (u_use _ _ _ _ F2). agroup_eq UG.
Qed.
End One.

(** Three cocycles, the third the sum of the others up to a coboundary. *)
Section Three.
Variables g1 g2 g3 : I -> I -> U.
Hypotheses (C1 : cocyc g1) (C2 : cocyc g2) (C3 : cocyc g3).
Variable chi : I -> U.
Hypothesis X0 : chi iz = uz.
Hypothesis X : forall i j, (g1 i j + g2 i j + chi (i + j)%i = g3 i j + chi i + chi j)%u.
Lemma csum_chi n i : (csum g1 n i + csum g2 n i + chi (Z.pos n ** i)%i = csum g3 n i + Z.pos n ** chi i)%u.
Proof.
  induction n as [n IH|n IH|]; cbn [csum]; cbv zeta.
  - rewrite gm_dbl1. set (A := (Z.pos n ** i)%i) in *. pose proof (X A A) as F1. pose proof (X (A + A)%i i) as F2.
    replace (Z.pos (xI n)) with (Z.pos n + Z.pos n + 1) by lia. rewrite !(gmul_add _ _ _ UG), (gmul_1 _ _ _ UG).
    apply (u_use _ _ _ _ IH), (u_use _ _ _ _ IH), (u_use _ _ _ _ F1), (u_use _ _ _ _ F2). agroup_eq UG.
  - rewrite gm_dbl. set (A := (Z.pos n ** i)%i) in *. pose proof (X A A) as F1.
    replace (Z.pos (xO n)) with (Z.pos n + Z.pos n) by lia. rewrite !(gmul_add _ _ _ UG).
    apply (u_use _ _ _ _ IH), (u_use _ _ _ _ IH), (u_use _ _ _ _ F1). agroup_eq UG.
  - rewrite (gmul_1 _ _ _ IG), (gmul_1 _ _ _ UG). agroup_eq UG.
Qed.
Lemma chi_opp i : (chi i + chi (- i)%i = vert g1 i + vert g2 i + - vert g3 i)%u.
Proof.
  pose proof (X i (- i)%i) as H. replace (i + - i)%i with iz in H by agroup_eq IG. rewrite X0 in H. unfold vert.
  apply (u_use _ _ _ _ (eq_sym H)). agroup_eq UG.
Qed.
Lemma csigned_chi neg n i : let t := sgnz neg n in
  (csigned g1 neg n i + csigned g2 neg n i + chi (t ** i)%i = csigned g3 neg n i + t ** chi i)%u.
Proof.
  cbv zeta. unfold csigned, sgnz. pose proof (csum_chi n i) as H. destruct neg; [|exact H].
  change (Z.neg n) with (- Z.pos n). rewrite (gmul_opp _ _ _ IG), (gmul_opp _ _ _ UG).
  pose proof (chi_opp (Z.pos n ** i)%i) as F1. unfold vert in F1.
  apply (u_use _ _ _ _ (eq_sym H)), (u_use _ _ _ _ F1). agroup_eq UG.
Qed.

Variables q r : Z.
Hypothesis Hq : forall i, (chi (q ** i)%i = q ** chi i)%u.
Hypothesis Hr : forall i k j, chi (i + (r * k) ** j)%i = chi i.
Theorem ate_chi neg n k a : sgnz neg n = q + r * k ->
  (csigned g1 neg n a + csigned g2 neg n a = (r * k) ** chi a + csigned g3 neg n a)%u.
Proof.
  intros E. pose proof (csigned_chi neg n a) as H. cbv zeta in H. rewrite E, (gmul_add _ _ _ IG), Hr, Hq, (gmul_add _ _ _ UG) in H.
  apply (u_use _ _ _ _ H). agroup_eq UG.
Qed.
Theorem optimal_chi neg n k a : sgnz neg n + q - q * q + q * q * q = r * k ->
  (coptimal g1 q neg n a + coptimal g2 q neg n a =
   (r * k) ** chi a + (q * q - q * q * q) ** (vert g1 a + vert g2 a + - vert g3 a) + coptimal g3 q neg n a)%u.
Proof.
  intros E. pose proof (csigned_chi neg n a) as H. cbv zeta in H. unfold coptimal. cbv zeta.
  set (t := sgnz neg n) in *.
  pose proof (X (t ** a)%i (q ** a)%i) as F1.
  pose proof (X (t ** a + q ** a)%i (- ((q * q) ** a))%i) as F2.
  rewrite Hq in F1.
  assert (Y : (t ** a + q ** a + - ((q * q) ** a) = (t + q - q * q) ** a)%i).
  { unfold Z.sub. rewrite !(gmul_add _ _ _ IG), (gmul_opp _ _ _ IG). reflexivity. }
  rewrite Y in F2. replace (t + q - q * q) with (- (q * q * q) + r * k) in F2 by lia. rewrite (gmul_add _ _ _ IG), Hr in F2.
  assert (NI : forall k i, (- (k ** i) = k ** (- i))%i).
  { intros k0 i. apply (ag_cancel iz iadd iopp IG _ _ (k0 ** i)%i). rewrite <- !(gmul_distr _ _ _ IG).
    replace (- i + i)%i with iz by agroup_eq IG. rewrite (gmul_zero _ _ _ IG). agroup_eq IG. }
  rewrite (gmul_opp _ _ _ IG) in F2.
  rewrite !(NI _ a), !(gmul_mul _ _ _ IG), !Hq, <- !(gmul_mul _ _ _ UG) in F2.
  rewrite !(NI _ a), !(gmul_mul _ _ _ IG).
  assert (V : chi (- a)%i = (vert g1 a + vert g2 a + - vert g3 a + - chi a)%u).
  { pose proof (chi_opp a) as V. apply (u_use _ _ _ _ V). agroup_eq UG. }
  rewrite V in F2. set (v := (vert g1 a + vert g2 a + - vert g3 a)%u) in *.
  assert (NU : forall k x, (k ** - x = - (k ** x))%u).
  { intros k0 x. apply (u_cancel _ _ (k0 ** x)%u). rewrite <- (gmul_distr _ _ _ UG).
    replace (- x + x)%u with uz by agroup_eq UG. rewrite (gmul_zero _ _ _ UG). agroup_eq UG. }
  rewrite !(gmul_distr _ _ _ UG), !NU in F2.
  replace (q * (q * q)) with (q * q * q) in F2 by lia.
  rewrite <- E. unfold Z.sub. rewrite !(gmul_add _ _ _ UG), !(gmul_opp _ _ _ UG).
  apply (u_use _ _ _ _ H), (u_use _ _ _ _ F1), (u_use _ _ _ _ F2). agroup_eq UG.
Qed.
End Three.
End Cochain.
