(** The points of a non-singular short Weierstrass curve form an abelian group
    under chord-and-tangent addition. *)
From Coq Require Import ZArith List Bool Ring Field Eqdep_dec.
From Verif Require Import Result Algebra FieldOps GroupOps CurveSpec.
Import ListNotations.

Section SW.
Context {K : Type} (F : Fops K).
Hypothesis FK : field_ok F.
Variables a b : K.
Hypothesis H2 : oadd F (o1 F) (o1 F) <> o0 F.
Hypothesis HD : sw_disc F a b <> o0 F.
Let R : ring_ok F := fk_ring F FK.
Add Ring SWring : (rk_ring F (fk_ring F FK)).
Local Notation "0" := (o0 F).
Local Notation "1" := (o1 F).
Local Notation "x + y" := (oadd F x y).
Local Notation "x - y" := (osub F x y).
Local Notation "x * y" := (omul F x y).
Local Notation "- x" := (oopp F x).
Local Notation add := (sw_add F a).
Local Notation opp := (sw_opp F).
Local Notation on := (sw_on F a b).

Lemma sw_onb_iff P : sw_onb F a b P = true <-> on P.
Proof. destruct P; cbn; [tauto|]. apply (rk_eqb F R). Qed.

Lemma dbl_0 x : x + x = 0 -> x = 0.
Proof.
  intros E. destruct (fk_mul_0 F FK (1 + 1) x) as [|]; auto.
  - replace ((1 + 1) * x) with (x + x) by ring. exact E.
  - contradiction.
Qed.
Lemma dbl_inj x y : x + x = y + y -> x = y.
Proof.
  intros E. apply (proj1 (rk_sub_0 F R x y)). apply dbl_0.
  replace (x - y + (x - y)) with ((x + x) - (y + y)) by ring. rewrite E. ring.
Qed.
Lemma opp_self x : x = - x -> x = 0.
Proof. intros E. apply dbl_0. rewrite E at 1. ring. Qed.
Lemma opp_inj x y : - x = - y -> x = y.
Proof. intros E. replace x with (- (- x)) by ring. rewrite E. ring. Qed.

Lemma smooth x y : on (Aff x y) -> y = 0 -> x * x + x * x + x * x + a <> 0.
Proof.
  cbn. intros O Y E. apply HD. subst y.
  assert (A : a = - (x * x + x * x + x * x)).
  { replace a with ((x * x + x * x + x * x + a) - (x * x + x * x + x * x)) by ring. rewrite E. ring. }
  assert (B : b = x * x * x + x * x * x).
  { replace b with ((x * x * x + a * x + b) - (x * x * x + a * x)) by ring. rewrite <- O, A. ring. }
  unfold sw_disc. cbn [npow]. rewrite A, B. ring.
Qed.

(** [line x1 y1 x2 y2 l]: the line of slope l through the first point meets
    the curve exactly in x1, x2 and l^2 - x1 - x2 (with multiplicity). *)
Definition line (x1 y1 x2 y2 l : K) : Prop :=
  y2 = y1 + l * (x2 - x1) /\
  a = l * (y1 + y2) - (x1 * x1 + x1 * x2 + x2 * x2) /\
  b = (y1 - l * x1) * (y1 - l * x1) - x1 * x2 * (l * l - x1 - x2).

Lemma line_on x1 y1 x2 y2 l : y2 = y1 + l * (x2 - x1) ->
  a = l * (y1 + y2) - (x1 * x1 + x1 * x2 + x2 * x2) -> on (Aff x1 y1) -> line x1 y1 x2 y2 l.
Proof.
  cbn. intros E A O. repeat split; auto.
  replace b with (y1 * y1 - (x1 * x1 * x1 + a * x1)) by (rewrite O; ring).
  rewrite A, E. ring.
Qed.
Lemma line_on1 x1 y1 x2 y2 l : line x1 y1 x2 y2 l -> on (Aff x1 y1).
Proof. intros (E & A & B). cbn. rewrite B, A, E. ring. Qed.
Lemma line_sym x1 y1 x2 y2 l : line x1 y1 x2 y2 l -> line x2 y2 x1 y1 l.
Proof.
  intros (E & A & B). repeat split.
  - rewrite E. ring.
  - rewrite A. ring.
  - rewrite B, E. ring.
Qed.
Lemma line_on2 x1 y1 x2 y2 l : line x1 y1 x2 y2 l -> on (Aff x2 y2).
Proof. intros H. eapply line_on1, line_sym, H. Qed.
Lemma line_third x1 y1 x2 y2 l : line x1 y1 x2 y2 l ->
  line x1 y1 (l * l - x1 - x2) (y1 + l * (l * l - x1 - x2 - x1)) l.
Proof.
  intros (E & A & B). repeat split.
  - rewrite A, E. ring.
  - rewrite B. ring.
Qed.
Lemma line_opp x1 y1 x2 y2 l : line x1 y1 x2 y2 l -> line x1 (- y1) x2 (- y2) (- l).
Proof.
  intros (E & A & B). repeat split.
  - rewrite E. ring.
  - rewrite A. ring.
  - rewrite B. ring.
Qed.

(** A line gives the sum of its two points. *)
Lemma line_add x1 y1 x2 y2 l : line x1 y1 x2 y2 l ->
  add (Aff x1 y1) (Aff x2 y2) = Aff (l * l - x1 - x2) (l * (x1 - (l * l - x1 - x2)) - y1).
Proof.
  intros L. pose proof (line_on1 _ _ _ _ _ L) as O. destruct L as (E & A & B).
  unfold sw_add. destruct (rk_eqb_spec F R x1 x2) as [X|X].
  - subst x2. assert (Y : y2 = y1) by (rewrite E; ring). clear E. subst y2.
    assert (D : x1 * x1 + x1 * x1 + x1 * x1 + a = l * (y1 + y1)).
    { rewrite A. ring. }
    assert (N : y1 + y1 <> 0).
    { intros Z. apply (smooth x1 y1 O); [now apply dbl_0|]. rewrite D, Z. ring. }
    destruct (rk_eqb_spec F R y1 (- y1)) as [Y2|Y2].
    { exfalso. apply N. rewrite Y2 at 1. ring. }
    cbn [andb].
    assert (L : tdiv F (x1 * x1 + x1 * x1 + x1 * x1 + a) (y1 + y1) = l).
    { rewrite D. unfold tdiv. destruct (tinv_spec F FK _ N) as [_ I].
      transitivity (l * (tinv F (y1 + y1) * (y1 + y1))); [ring|]. rewrite I. ring. }
    rewrite L. reflexivity.
  - cbn [andb].
    assert (N : x2 - x1 <> 0) by (intros Z; apply X; symmetry; now apply (proj1 (rk_sub_0 F R x2 x1))).
    assert (L : tdiv F (y2 - y1) (x2 - x1) = l).
    { rewrite E. unfold tdiv. destruct (tinv_spec F FK _ N) as [_ I].
      transitivity (l * (tinv F (x2 - x1) * (x2 - x1))); [ring|]. rewrite I. ring. }
    rewrite L. reflexivity.
Qed.

(** Two points that are not opposite lie on a line. *)
Lemma line_exists x1 y1 x2 y2 : on (Aff x1 y1) -> on (Aff x2 y2) ->
  (x1 = x2 -> y1 <> - y2) -> exists l, line x1 y1 x2 y2 l.
Proof.
  intros O1 O2 N. destruct (rk_dec F R x1 x2) as [X|X].
  - subst x2. specialize (N eq_refl).
    assert (Y : y1 = y2).
    { cbn in O1, O2. destruct (fk_sqr_eq F FK y1 y2) as [|Y]; auto; [|contradiction].
      rewrite O1, O2. reflexivity. }
    subst y2. assert (N2 : y1 + y1 <> 0).
    { intros Z. apply N. replace y1 with ((y1 + y1) - y1) at 1 by ring. rewrite Z. ring. }
    destruct (tinv_spec F FK _ N2) as [_ I].
    exists ((x1 * x1 + x1 * x1 + x1 * x1 + a) * tinv F (y1 + y1)). apply line_on; auto.
    + ring.
    + transitivity ((x1 * x1 + x1 * x1 + x1 * x1 + a) * (tinv F (y1 + y1) * (y1 + y1)) - (x1 * x1 + x1 * x1 + x1 * x1)).
      * rewrite I. ring.
      * ring.
  - assert (N2 : x2 - x1 <> 0) by (intros Z; apply X; symmetry; now apply (proj1 (rk_sub_0 F R x2 x1))).
    destruct (tinv_spec F FK _ N2) as [_ I]. set (i := tinv F (x2 - x1)) in *.
    exists ((y2 - y1) * i).
    assert (S : (y2 - y1) * i * (x2 - x1) = y2 - y1).
    { transitivity ((y2 - y1) * (i * (x2 - x1))); [ring|]. rewrite I. ring. }
    apply line_on; auto.
    + rewrite S. ring.
    + apply (fk_mul_cancel F FK _ _ (x2 - x1) N2).
      replace (((y2 - y1) * i * (y1 + y2) - (x1 * x1 + x1 * x2 + x2 * x2)) * (x2 - x1))
        with (((y2 - y1) * i * (x2 - x1)) * (y1 + y2) - (x1 * x1 + x1 * x2 + x2 * x2) * (x2 - x1)) by ring.
      rewrite S. cbn in O1, O2.
      replace ((y2 - y1) * (y1 + y2)) with (y2 * y2 - y1 * y1) by ring.
      rewrite O1, O2. ring.
Qed.

Lemma sw_add_O_l P : add Inf P = P. Proof. reflexivity. Qed.
Lemma sw_add_O_r P : add P Inf = P. Proof. destruct P; reflexivity. Qed.

Lemma opp_dec P Q : {P = opp Q} + {P <> opp Q}.
Proof.
  destruct P as [|x y], Q as [|x' y']; cbn; try (right; discriminate); [now left|].
  destruct (rk_dec F R x x') as [->|N]; [|right; congruence].
  destruct (rk_dec F R y (- y')) as [->|N]; [left; reflexivity|right; congruence].
Qed.
Lemma sw_opp_opp P : opp (opp P) = P.
Proof. destruct P; cbn; auto. f_equal. ring. Qed.
Lemma sw_on_opp P : on P -> on (opp P).
Proof. destruct P; cbn; auto. intros E. rewrite <- E. ring. Qed.
Lemma sw_add_opp_l P : add (opp P) P = Inf.
Proof.
  destruct P as [|x y]; cbn; auto. now rewrite !(rk_eqb_refl F R).
Qed.
Lemma sw_add_opp_r P : add P (opp P) = Inf.
Proof. rewrite <- (sw_opp_opp P) at 1. apply sw_add_opp_l. Qed.

(** Either opposite, or a line. *)
Lemma line_cases P Q : on P -> on Q ->
  P = Inf \/ Q = Inf \/ P = opp Q \/
  exists x1 y1 x2 y2 l, P = Aff x1 y1 /\ Q = Aff x2 y2 /\ line x1 y1 x2 y2 l.
Proof.
  intros OP OQ. destruct P as [|x1 y1]; auto. destruct Q as [|x2 y2]; auto.
  destruct (opp_dec (Aff x1 y1) (Aff x2 y2)) as [E|N]; auto.
  right; right; right. destruct (line_exists x1 y1 x2 y2 OP OQ) as (l & L).
  - intros -> ->. now apply N.
  - exists x1, y1, x2, y2, l. auto.
Qed.

Lemma sw_add_comm P Q : on P -> on Q -> add P Q = add Q P.
Proof.
  intros OP OQ. destruct (line_cases P Q OP OQ) as [->|[->|[->|(x1 & y1 & x2 & y2 & l & -> & -> & L)]]].
  - now rewrite sw_add_O_r.
  - now rewrite sw_add_O_r.
  - now rewrite sw_add_opp_l, sw_add_opp_r.
  - rewrite (line_add _ _ _ _ _ L), (line_add _ _ _ _ _ (line_sym _ _ _ _ _ L)).
    destruct L as (E & _). f_equal; [ring|]. rewrite E. ring.
Qed.

Lemma sw_on_add P Q : on P -> on Q -> on (add P Q).
Proof.
  intros OP OQ. destruct (line_cases P Q OP OQ) as [->|[->|[->|(x1 & y1 & x2 & y2 & l & -> & -> & L)]]].
  - exact OQ.
  - now rewrite sw_add_O_r.
  - now rewrite sw_add_opp_l.
  - rewrite (line_add _ _ _ _ _ L). apply line_third, line_on2, sw_on_opp in L.
    cbn [sw_opp] in L.
    replace (l * (x1 - (l * l - x1 - x2)) - y1) with (- (y1 + l * (l * l - x1 - x2 - x1))) by ring.
    exact L.
Qed.

Lemma sw_opp_add P Q : on P -> on Q -> opp (add P Q) = add (opp P) (opp Q).
Proof.
  intros OP OQ. destruct (line_cases P Q OP OQ) as [->|[->|[->|(x1 & y1 & x2 & y2 & l & -> & -> & L)]]].
  - reflexivity.
  - now rewrite !sw_add_O_r.
  - now rewrite sw_add_opp_l, sw_add_opp_l.
  - rewrite (line_add _ _ _ _ _ L). cbn [sw_opp].
    rewrite (line_add _ _ _ _ _ (line_opp _ _ _ _ _ L)). f_equal; ring.
Qed.

(** (P + Q) - Q = P. *)
Lemma sw_cancel P Q : on P -> on Q -> add (add P Q) (opp Q) = P.
Proof.
  intros OP OQ. destruct (line_cases P Q OP OQ) as [->|[->|[->|(x1 & y1 & x2 & y2 & l & -> & -> & L)]]].
  - cbn [sw_add]. apply sw_add_opp_r.
  - cbn [sw_opp]. now rewrite !sw_add_O_r.
  - now rewrite sw_add_opp_l.
  - rewrite (line_add _ _ _ _ _ L). cbn [sw_opp].
    pose proof (line_opp _ _ _ _ _ (line_sym _ _ _ _ _ (line_third _ _ _ _ _ (line_sym _ _ _ _ _ L)))) as M.
    replace (l * l - x1 - x2) with (l * l - x2 - x1) by ring.
    replace (l * (x1 - (l * l - x2 - x1)) - y1) with (- (y2 + l * (l * l - x2 - x1 - x2))).
    2:{ destruct L as (E & _). rewrite E. ring. }
    rewrite (line_add _ _ _ _ _ M). destruct L as (E & _).
    f_equal; [ring|]. rewrite E. ring.
Qed.
Lemma sw_cancel_eq P Q : on P -> on Q -> add P Q = Q -> P = Inf.
Proof.
  intros OP OQ E. rewrite <- (sw_cancel P Q OP OQ), E. apply sw_add_opp_r.
Qed.

(** The main case of associativity: three lines give the fourth, and the slopes
    of the two pairs of lines have the same sum. *)
Lemma assoc_slopes x1 y1 x2 y2 x3 y3 l m k :
  line x1 y1 x2 y2 l -> line x2 y2 x3 y3 m ->
  line (l * l - x1 - x2) (l * (x1 - (l * l - x1 - x2)) - y1) x3 y3 k ->
  x3 = x1 + (m - l) * (k + l) /\
  y1 + y1 = (k + l) * (x3 - (l * l - x1 - x2)) - (m - l) * (x3 - x2) - (l + l) * (x3 - x1) /\
  line x1 y1 (m * m - x2 - x3) (m * (x2 - (m * m - x2 - x3)) - y2) (k + l - m).
Proof.
  intros L M N.
  assert (D : (m - l) * (k + l) = x3 - x1).
  { apply (proj1 (rk_sub_0 F R _ _)).
    pose proof (line_on1 _ _ _ _ _ L) as O1. pose proof (line_on2 _ _ _ _ _ L) as O2.
    pose proof (line_add _ _ _ _ _ L) as SL.
    destruct L as (E1 & A1 & _), M as (E2 & A2 & _), N as (E3 & A3 & _).
    set (x4 := l * l - x1 - x2) in *. set (y4 := l * (x1 - x4) - y1) in *.
    set (t := (m - l) * (k + l) - (x3 - x1)).
    (* y3 + L(x3) = (k + l)(x3 - x4) *)
    assert (S : y3 + (y1 + l * (x3 - x1)) = (k + l) * (x3 - x4)).
    { rewrite E3. unfold y4. ring. }
    assert (S' : y3 - (y1 + l * (x3 - x1)) = (m - l) * (x3 - x2)).
    { rewrite E2, E1. ring. }
    assert (T4 : t * (x3 - x4) = 0).
    { unfold t. replace (((m - l) * (k + l) - (x3 - x1)) * (x3 - x4))
        with ((m - l) * ((k + l) * (x3 - x4)) - (x3 - x1) * (x3 - x4)) by ring.
      rewrite <- S.
      transitivity ((m * (y2 + y3) - (x2 * x2 + x2 * x3 + x3 * x3)) - (l * (y1 + y2) - (x1 * x1 + x1 * x2 + x2 * x2))).
      - rewrite E2, E1. unfold x4. ring.
      - rewrite <- A1, <- A2. ring. }
    assert (T2 : t * (x3 - x2) = 0).
    { unfold t. replace (((m - l) * (k + l) - (x3 - x1)) * (x3 - x2))
        with ((k + l) * ((m - l) * (x3 - x2)) - (x3 - x1) * (x3 - x2)) by ring.
      rewrite <- S'.
      transitivity ((k * (y4 + y3) - (x4 * x4 + x4 * x3 + x3 * x3)) - (l * (y1 + y2) - (x1 * x1 + x1 * x2 + x2 * x2))).
      - rewrite E3, E1. unfold y4, x4. ring.
      - rewrite <- A1, <- A3. ring. }
    destruct (fk_mul_0 F FK _ _ T4) as [|X4]; auto.
    destruct (fk_mul_0 F FK _ _ T2) as [|X2]; auto.
    apply (proj1 (rk_sub_0 F R _ _)) in X4, X2. exfalso.
    assert (X42 : x4 = x2) by congruence.
    assert (Y42 : y4 = y2).
    { transitivity y3; [rewrite E3, X4; ring|]. rewrite E2, X2. ring. }
    rewrite X42, Y42 in SL. apply sw_cancel_eq in SL; auto. discriminate. }
  assert (X3 : x3 = x1 + (m - l) * (k + l)) by (rewrite D; ring).
  assert (Y1 : y1 + y1 = (k + l) * (x3 - (l * l - x1 - x2)) - (m - l) * (x3 - x2) - (l + l) * (x3 - x1)).
  { destruct L as (E1 & _), M as (E2 & _), N as (E3 & _).
    replace ((k + l) * (x3 - (l * l - x1 - x2)))
      with (k * (x3 - (l * l - x1 - x2)) + l * (x3 - (l * l - x1 - x2))) by ring.
    replace (k * (x3 - (l * l - x1 - x2))) with (y3 - (l * (x1 - (l * l - x1 - x2)) - y1)).
    2:{ rewrite E3. ring. }
    rewrite E2, E1. ring. }
  set (T := (k + l) * (x3 - (l * l - x1 - x2)) - (m - l) * (x3 - x2) - (l + l) * (x3 - x1)) in *.
  set (w := k + l - m).
  set (x5 := m * m - x2 - x3). set (y5 := m * (x2 - x5) - y2).
  assert (W : line x1 y1 x5 y5 w).
  { assert (E : y5 = y1 + w * (x5 - x1)).
    { apply dbl_inj. destruct L as (E1 & _). unfold y5. rewrite E1.
      transitivity (m * (x2 - x5) + m * (x2 - x5) - (y1 + y1) - (l + l) * (x2 - x1)); [ring|].
      transitivity ((y1 + y1) + (w + w) * (x5 - x1)); [|ring].
      rewrite Y1. unfold T, w, x5. rewrite X3. ring. }
    apply line_on; auto.
    - apply dbl_inj. rewrite E. destruct L as (E1 & A1 & _).
      transitivity ((l + l) * (y1 + y1) + (l + l) * (l * (x2 - x1)) - (1 + 1) * (x1 * x1 + x1 * x2 + x2 * x2)).
      + rewrite A1, E1. ring.
      + transitivity ((w + w) * (y1 + y1) + (w + w) * (w * (x5 - x1)) - (1 + 1) * (x1 * x1 + x1 * x5 + x5 * x5)).
        2: ring.
        rewrite Y1. unfold T, w, x5. rewrite X3. ring.
    - apply (line_on1 _ _ _ _ _ L). }
  split; [exact X3|]. split; [exact Y1|exact W].
Qed.
Lemma assoc_lines x1 y1 x2 y2 x3 y3 l m k :
  line x1 y1 x2 y2 l -> line x2 y2 x3 y3 m ->
  line (l * l - x1 - x2) (l * (x1 - (l * l - x1 - x2)) - y1) x3 y3 k ->
  add (add (Aff x1 y1) (Aff x2 y2)) (Aff x3 y3) = add (Aff x1 y1) (add (Aff x2 y2) (Aff x3 y3)).
Proof.
  intros L M N. destruct (assoc_slopes _ _ _ _ _ _ _ _ _ L M N) as (X3 & Y1 & W).
  rewrite (line_add _ _ _ _ _ L), (line_add _ _ _ _ _ M), (line_add _ _ _ _ _ N).
  set (T := (k + l) * (x3 - (l * l - x1 - x2)) - (m - l) * (x3 - x2) - (l + l) * (x3 - x1)) in *.
  set (w := k + l - m) in *.
  set (x5 := m * m - x2 - x3) in *.
  rewrite (line_add _ _ _ _ _ W).
  assert (X : k * k - (l * l - x1 - x2) - x3 = w * w - x1 - x5).
  { unfold w, x5. rewrite X3. ring. }
  rewrite X. f_equal.
  rewrite <- X.
  set (x6 := k * k - (l * l - x1 - x2) - x3).
  transitivity (k * (l * l - x1 - x2 - x6) - l * (x1 - (l * l - x1 - x2)) + (y1 + y1) - y1); [ring|].
  rewrite Y1. unfold T, w, x6. rewrite X3. ring.
Qed.

Theorem sw_add_assoc P Q S : on P -> on Q -> on S -> add (add P Q) S = add P (add Q S).
Proof.
  intros OP OQ OS.
  destruct (line_cases P Q OP OQ) as [->|[->|[->|(x1 & y1 & x2 & y2 & l & HP & HQ & L)]]].
  - reflexivity.
  - now rewrite sw_add_O_r.
  - rewrite sw_add_opp_l. cbn [sw_add].
    rewrite (sw_add_comm (opp Q) (add Q S)), (sw_add_comm Q S); auto using sw_on_add.
    now rewrite sw_cancel.
  - destruct (line_cases Q S OQ OS) as [?|[->|[E|(? & ? & x3 & y3 & m & HQ' & HS & M)]]]; [subst; discriminate| | |].
    + now rewrite !sw_add_O_r.
    + rewrite E at 2. rewrite sw_add_opp_l, sw_add_O_r.
      rewrite <- (sw_opp_opp S), <- E. now apply sw_cancel.
    + subst P Q S. injection HQ' as <- <-.
      destruct (line_cases (add (Aff x1 y1) (Aff x2 y2)) (Aff x3 y3)) as [E|[E|[E|(x4 & y4 & ? & ? & k & H4 & H3 & N)]]];
        auto using sw_on_add.
      * rewrite (line_add _ _ _ _ _ L) in E. discriminate.
      * discriminate.
      * assert (E' : Aff x3 y3 = opp (add (Aff x1 y1) (Aff x2 y2))) by (rewrite E; now rewrite sw_opp_opp).
        rewrite E at 1. rewrite sw_add_opp_l, E', sw_opp_add; auto.
        rewrite (sw_add_comm (Aff x2 y2)); auto using sw_on_add, sw_on_opp.
        rewrite <- (sw_opp_opp (Aff x2 y2)) at 2.
        rewrite sw_cancel; auto using sw_on_opp. now rewrite sw_add_opp_r.
      * injection H3 as <- <-.
        rewrite (line_add _ _ _ _ _ L) in H4. injection H4 as <- <-.
        now apply (assoc_lines x1 y1 x2 y2 x3 y3 l m k).
Qed.

(** The group on the type of curve points. *)
Lemma sw_pt_eq (P Q : sw_pt F a b) : proj1_sig P = proj1_sig Q -> P = Q.
Proof.
  destruct P as [p Hp], Q as [q Hq]. cbn. intros ->. f_equal. apply UIP_dec. apply bool_dec.
Qed.
Lemma sw_pt_on (P : sw_pt F a b) : on (proj1_sig P).
Proof. apply sw_onb_iff. exact (proj2_sig P). Qed.
End SW.

Section Group.
Context {K : Type} (F : Fops K).
Hypothesis FK : field_ok F.
Variables a b : K.
Hypothesis H2 : oadd F (o1 F) (o1 F) <> o0 F.
Hypothesis HD : sw_disc F a b <> o0 F.

Definition sp_zero : sw_pt F a b := exist _ Inf eq_refl.
(** [sp_mk P] is P when it lies on the curve and O otherwise. *)
Definition sp_mk (P : apt K) : sw_pt F a b :=
  match bool_dec (sw_onb F a b P) true with
  | left e => exist _ P e
  | right _ => sp_zero
  end.
Definition sp_add (P Q : sw_pt F a b) : sw_pt F a b := sp_mk (sw_add F a (proj1_sig P) (proj1_sig Q)).
Definition sp_opp (P : sw_pt F a b) : sw_pt F a b := sp_mk (sw_opp F (proj1_sig P)).

Lemma sp_mk_val P : sw_on F a b P -> proj1_sig (sp_mk P) = P.
Proof.
  intros O. unfold sp_mk. destruct (bool_dec (sw_onb F a b P) true) as [e|n]; auto.
  exfalso. apply n. now apply sw_onb_iff.
Qed.
Lemma sp_add_val P Q : proj1_sig (sp_add P Q) = sw_add F a (proj1_sig P) (proj1_sig Q).
Proof. apply sp_mk_val. apply sw_on_add; auto using sw_pt_on. Qed.
Lemma sp_opp_val P : proj1_sig (sp_opp P) = sw_opp F (proj1_sig P).
Proof. apply sp_mk_val. apply sw_on_opp; auto using sw_pt_on. Qed.

Theorem sp_group : agroup sp_zero sp_add sp_opp.
Proof.
  constructor.
  - constructor; intros; apply sw_pt_eq.
    + rewrite sp_add_val. reflexivity.
    + rewrite sp_add_val. apply sw_add_O_r.
    + rewrite !sp_add_val. first [apply (sw_add_assoc F FK a b)|symmetry; apply (sw_add_assoc F FK a b)]; auto using sw_pt_on.
  - intros. apply sw_pt_eq. rewrite !sp_add_val. apply (sw_add_comm F FK a b); auto using sw_pt_on.
  - intros. apply sw_pt_eq. rewrite !sp_add_val, sp_opp_val. now apply sw_add_opp_r.
Qed.
End Group.
