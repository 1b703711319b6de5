(** Identities between values of lines: the quotients line / vertical form a
    2-cocycle in the points of the curve, and they are symmetric between the
    points defining the line and the points where it is evaluated. *)
From Coq Require Import ZArith List Bool Ring Field.
From Verif Require Import Result Algebra FieldOps CurveSpec GroupOps CurveGroup MillerSpec.

Section Cocycle.
Context {K : Type} (F : Fops K) (FK : field_ok F) (a b : K).
Hypothesis H2 : oadd F (o1 F) (o1 F) <> o0 F.
Hypothesis HD : sw_disc F a b <> o0 F.
Let R : ring_ok F := fk_ring F FK.
Add Ring MCring : (rk_ring F (fk_ring F FK)).
Local Notation "0" := (o0 F).
Local Notation "1" := (o1 F).
Local Notation "x + y" := (oadd F x y).
Local Notation "x - y" := (osub F x y).
Local Notation "x * y" := (omul F x y).
Local Notation "- x" := (oopp F x).
Local Notation add := (sw_add F a).
Local Notation opp := (sw_opp F).
Local Notation on := (sw_on F a b).
Local Notation line := (line F a b).
Local Notation la := (line_at F a).
Local Notation va := (vertical_at F).
Local Notation comm := (sw_add_comm F FK a b H2 HD).
Local Notation assoc := (sw_add_assoc F FK a b H2 HD).

Lemma la_line x1 y1 x2 y2 l x y : line x1 y1 x2 y2 l -> la (Aff x1 y1) (Aff x2 y2) x y = y - y1 - l * (x - x1).
Proof.
  intros L. pose proof (line_on1 F FK _ _ _ _ _ _ _ L) as O. destruct L as (E & A & B).
  cbn [line_at]. unfold slope. destruct (rk_eqb_spec F R x1 x2) as [X|X].
  - subst x2. assert (Y : y2 = y1) by (rewrite E; ring). clear E. subst y2.
    assert (D : x1 * x1 + x1 * x1 + x1 * x1 + a = l * (y1 + y1)).
    { rewrite A. ring. }
    assert (N : y1 + y1 <> 0).
    { intros Z. apply (smooth F FK _ _ HD x1 y1 O); [now apply (dbl_0 F FK H2)|]. rewrite D, Z. ring. }
    destruct (rk_eqb_spec F R y1 (- y1)) as [Y2|Y2].
    { exfalso. apply N. rewrite Y2 at 1. ring. }
    cbn [andb]. rewrite D. unfold tdiv. destruct (tinv_spec F FK _ N) as [_ I].
    transitivity (y - y1 - l * (tinv F (y1 + y1) * (y1 + y1)) * (x - x1)); [ring|]. rewrite I. ring.
  - cbn [andb].
    assert (N : x2 - x1 <> 0) by (intros Z; apply X; symmetry; now apply (proj1 (rk_sub_0 F R x2 x1))).
    rewrite E. unfold tdiv. destruct (tinv_spec F FK _ N) as [_ I].
    transitivity (y - y1 - l * (tinv F (x2 - x1) * (x2 - x1)) * (x - x1)); [ring|]. rewrite I. ring.
Qed.
Lemma la_opp A x y : la A (opp A) x y = va A x.
Proof.
  destruct A as [|x1 y1]; [reflexivity|]. cbn [sw_opp line_at vertical_at].
  replace (- - y1) with y1 by ring. now rewrite !(rk_eqb_refl F R).
Qed.
Lemma la_opp' A x y : la (opp A) A x y = va A x.
Proof.
  destruct A as [|x1 y1]; [reflexivity|]. cbn [sw_opp line_at vertical_at]. now rewrite !(rk_eqb_refl F R).
Qed.
Lemma va_opp A x : va (opp A) x = va A x. Proof. now destruct A. Qed.
Lemma la_O_l A x y : la Inf A x y = va A x. Proof. now destruct A. Qed.
Lemma la_O_r A x y : la A Inf x y = va A x. Proof. now destruct A. Qed.

Lemma la_sym A B x y : on A -> on B -> la A B x y = la B A x y.
Proof.
  intros OA OB. destruct (line_cases F FK a b A B OA OB) as [->|[->|[->|(x1 & y1 & x2 & y2 & l & -> & -> & L)]]].
  - now rewrite la_O_l, la_O_r.
  - now rewrite la_O_l, la_O_r.
  - now rewrite la_opp, la_opp'.
  - rewrite (la_line _ _ _ _ _ _ _ L), (la_line _ _ _ _ _ _ _ (line_sym F FK _ _ _ _ _ _ _ L)).
    destruct L as (E & _). rewrite E. ring.
Qed.

(** The third point lies on the same line. *)
Lemma la_third A B x y : on A -> on B -> A <> Inf -> B <> Inf -> A <> opp B -> la B (opp (add A B)) x y = la A B x y.
Proof.
  intros OA OB NA NB NO. destruct (line_cases F FK a b A B OA OB) as [|[|[|(x1 & y1 & x2 & y2 & l & -> & -> & L)]]]; try contradiction.
  rewrite (line_add F FK a b H2 HD _ _ _ _ _ L). cbn [sw_opp].
  pose proof (line_third F FK _ _ _ _ _ _ _ (line_sym F FK _ _ _ _ _ _ _ L)) as M.
  replace (l * l - x1 - x2) with (l * l - x2 - x1) by ring.
  replace (- (l * (x1 - (l * l - x2 - x1)) - y1)) with (y2 + l * (l * l - x2 - x1 - x2)).
  2:{ destruct L as (E & _). rewrite E. ring. }
  rewrite (la_line _ _ _ _ _ _ _ M), (la_line _ _ _ _ _ _ _ L). destruct L as (E & _). rewrite E. ring.
Qed.

(** A line times its conjugate, at a point of the curve. *)
Lemma line_norm x1 y1 x2 y2 l x y : line x1 y1 x2 y2 l -> on (Aff x y) ->
  (y - y1 - l * (x - x1)) * (y + y1 + l * (x - x1)) = (x - x1) * (x - x2) * (x - (l * l - x1 - x2)).
Proof.
  intros (E & A & B) O. cbn in O.
  transitivity (y * y - (y1 + l * (x - x1)) * (y1 + l * (x - x1))); [ring|]. rewrite O, B, A, E. ring.
Qed.

(** C - A, for A and C on a line, is again on a line with A. *)
Lemma cocycle_opp A C x y : on A -> on C -> on (Aff x y) ->
  la A C x y * la (opp A) (add A C) x y = va A x * va C x * va (add A C) x.
Proof.
  intros OA OC O. destruct (line_cases F FK a b A C OA OC) as [->|[->|[->|(x1 & y1 & x2 & y2 & l & -> & -> & L)]]].
  - cbn [sw_opp sw_add]. rewrite !la_O_l. cbn [vertical_at]. ring.
  - rewrite (sw_add_O_r F), la_O_r, la_opp'. cbn [vertical_at]. ring.
  - rewrite (sw_add_opp_l F FK), (sw_opp_opp F FK), la_opp', la_O_r, va_opp. cbn [vertical_at]. ring.
  - rewrite (line_add F FK a b H2 HD _ _ _ _ _ L). cbn [sw_opp].
    pose proof (line_opp F FK _ _ _ _ _ _ _ (line_third F FK _ _ _ _ _ _ _ L)) as M.
    replace (- (y1 + l * (l * l - x1 - x2 - x1))) with (l * (x1 - (l * l - x1 - x2)) - y1) in M by ring.
    rewrite (la_line _ _ _ _ _ _ _ L), (la_line _ _ _ _ _ _ _ M). cbn [vertical_at].
    rewrite <- (line_norm _ _ _ _ _ _ _ L O). ring.
Qed.

Lemma cocycle_lines x1 y1 x2 y2 x3 y3 l m k x y :
  line x1 y1 x2 y2 l -> line x2 y2 x3 y3 m ->
  line (l * l - x1 - x2) (l * (x1 - (l * l - x1 - x2)) - y1) x3 y3 k -> on (Aff x y) ->
  (y - y1 - l * (x - x1)) * (y - (l * (x1 - (l * l - x1 - x2)) - y1) - k * (x - (l * l - x1 - x2))) * (x - (m * m - x2 - x3)) =
  (y - y2 - m * (x - x2)) * (y - y1 - (k + l - m) * (x - x1)) * (x - (l * l - x1 - x2)).
Proof.
  intros L M N O. destruct (assoc_slopes F FK a b H2 HD _ _ _ _ _ _ _ _ _ L M N) as (X3 & Y1 & _).
  destruct L as (E1 & A1 & B1). cbn in O.
  apply (dbl_inj F FK H2), (dbl_inj F FK H2).
  set (x4 := l * l - x1 - x2). set (x5 := m * m - x2 - x3).
  apply (proj1 (rk_sub_0 F R _ _)).
  transitivity ((x4 - x5) * (1 + 1) * (1 + 1) * (y * y - (x * x * x + a * x + b))); [|rewrite O; ring].
  assert (AA : a + a = (l + l) * (y1 + y1) + (l + l) * (l * (x2 - x1)) - (1 + 1) * (x1 * x1 + x1 * x2 + x2 * x2)).
  { rewrite A1, E1. ring. }
  assert (BB : (b + b) + (b + b) = ((y1 + y1) - (l + l) * x1) * ((y1 + y1) - (l + l) * x1) - (1 + 1) * (1 + 1) * (x1 * x2 * (l * l - x1 - x2))).
  { rewrite B1. ring. }
  transitivity ((x4 - x5) * ((1 + 1) * (1 + 1) * (y * y - x * x * x) - (1 + 1) * (a + a) * x - ((b + b) + (b + b)))); [|ring].
  rewrite AA, BB. rewrite E1. clear A1 B1 AA BB O E1.
  set (t := y1 + y1) in *.
  transitivity (
    ((y + y - t - (l + l) * (x - x1)) * (y + y - ((l + l) * (x1 - x4) - t) - (k + k) * (x - x4)) * (x - x5)) -
    ((y + y - (t + (l + l) * (x2 - x1)) - (m + m) * (x - x2)) * (y + y - t - (k + l - m + (k + l - m)) * (x - x1)) * (x - x4))).
  { unfold t. ring. }
  rewrite Y1. unfold x4, x5. rewrite X3. ring.
Qed.

(** The cocycle identity. *)
Theorem cocycle A B C x y : on A -> on B -> on C -> on (Aff x y) ->
  la A B x y * la (add A B) C x y * va (add B C) x = la B C x y * la A (add B C) x y * va (add A B) x.
Proof.
  intros OA OB OC O.
  assert (CO : forall U V, U = opp V -> V = opp U) by (intros U V ->; now rewrite (sw_opp_opp F FK)).
  destruct (line_cases F FK a b A B OA OB) as [->|[->|[->|(x1 & y1 & x2 & y2 & l & HA & HB & L)]]].
  - rewrite !(sw_add_O_l F), !la_O_l. ring.
  - rewrite !(sw_add_O_l F), !(sw_add_O_r F), !la_O_l, !la_O_r. ring.
  - rewrite (sw_add_opp_l F FK), la_O_l, la_opp'. rewrite (cocycle_opp B C x y OB OC O). cbn [vertical_at]. ring.
  - destruct (line_cases F FK a b B C OB OC) as [EB|[->|[->|(x2' & y2' & x3 & y3 & m & HB' & HC & M)]]].
    + rewrite EB in HB. discriminate.
    + rewrite !(sw_add_O_r F), !la_O_r. ring.
    + rewrite (sw_add_opp_l F FK), la_O_r, la_opp'. cbn [vertical_at].
      assert (OC' : on (opp C)) by now apply sw_on_opp.
      rewrite (la_sym A (opp C)) by auto. rewrite (comm A (opp C)) by auto.
      assert (OAC : on (add (opp C) A)) by now apply (sw_on_add F FK a b H2 HD).
      pose proof (cocycle_opp (opp C) A x y OC' OA O) as Q. rewrite (sw_opp_opp F FK), va_opp in Q.
      rewrite (la_sym _ C) by auto. rewrite Q. ring.
    + rewrite HB in HB'. injection HB' as <- <-.
      assert (OAB : on (add A B)) by now apply (sw_on_add F FK a b H2 HD).
      assert (OBC : on (add B C)) by now apply (sw_on_add F FK a b H2 HD).
      destruct (line_cases F FK a b (add A B) C OAB OC) as [EAB|[EC|[EAB|(x4 & y4 & x3' & y3' & k & HAB & HC' & N)]]].
      * exfalso. rewrite HA, HB, (line_add F FK a b H2 HD _ _ _ _ _ L) in EAB. discriminate.
      * exfalso. rewrite EC in HC. discriminate.
      * (* A + B + C = 0 *)
        assert (EBC : add B C = opp A).
        { rewrite (CO _ _ EAB), (sw_opp_add F FK a b H2 HD) by auto.
          rewrite <- (sw_opp_opp F FK B) at 1. rewrite (comm (opp A) (opp B)) by now apply sw_on_opp.
          rewrite <- assoc by (repeat apply sw_on_opp; auto). now rewrite (sw_add_opp_l F FK). }
        rewrite EBC. rewrite EAB at 1 2. rewrite la_opp', la_opp, !va_opp.
        assert (EL : la B C x y = la A B x y).
        { rewrite (CO _ _ EAB). apply la_third; auto; [rewrite HA; discriminate|rewrite HB; discriminate|].
          intros EO. rewrite EO, (sw_add_opp_l F FK) in EAB. rewrite HC in EAB. discriminate. }
        rewrite EL. ring.
      * rewrite HC in HC'. injection HC' as <- <-.
        assert (EAB := HAB). rewrite HA, HB, (line_add F FK a b H2 HD _ _ _ _ _ L) in EAB. injection EAB as <- <-.
        destruct (assoc_slopes F FK a b H2 HD _ _ _ _ _ _ _ _ _ L M N) as (_ & _ & W).
        rewrite HAB. subst A B C. rewrite (line_add F FK a b H2 HD _ _ _ _ _ M).
        rewrite (la_line _ _ _ _ _ _ _ L), (la_line _ _ _ _ _ _ _ M), (la_line _ _ _ _ _ _ _ N), (la_line _ _ _ _ _ _ _ W).
        cbn [vertical_at]. exact (cocycle_lines _ _ _ _ _ _ _ _ _ _ _ L M N O).
Qed.

(** Two lines: the product of the values of the first at the three points of
    the second is minus the product of the values of the second at the three
    points of the first. *)
Lemma recip_lines x1 y1 x2 y2 l u1 v1 u2 v2 m : line x1 y1 x2 y2 l -> line u1 v1 u2 v2 m ->
  let L x y := y - y1 - l * (x - x1) in
  let M x y := y - v1 - m * (x - u1) in
  let x3 := l * l - x1 - x2 in let y3 := y1 + l * (x3 - x1) in
  let u3 := m * m - u1 - u2 in let v3 := v1 + m * (u3 - u1) in
  L u1 v1 * L u2 v2 * L u3 v3 = - (M x1 y1 * M x2 y2 * M x3 y3).
Proof.
  intros (E & A & B) (E' & A' & B'). cbv zeta.
  set (n1 := y1 - l * x1) in *. set (n2 := v1 - m * u1) in *.
  set (d := m - l). set (z := n2 - n1).
  set (x3 := l * l - x1 - x2) in *. set (u3 := m * m - u1 - u2) in *.
  assert (P1 : x1 * x2 + (x1 + x2) * x3 = a - (1 + 1) * l * n1).
  { rewrite A, E. unfold n1, x3. ring. }
  assert (P2 : u1 * u2 + (u1 + u2) * u3 = a - (1 + 1) * m * n2).
  { rewrite A', E'. unfold n2, u3. ring. }
  assert (Q1 : x1 * x2 * x3 = n1 * n1 - b) by (rewrite B; ring).
  assert (Q2 : u1 * u2 * u3 = n2 * n2 - b) by (rewrite B'; ring).
  transitivity ((d * u1 + z) * (d * u2 + z) * (d * u3 + z)).
  { rewrite E'. unfold d, z, n1, n2. ring. }
  transitivity ((d * x1 + z) * (d * x2 + z) * (d * x3 + z)).
  2:{ rewrite E. unfold d, z, n1, n2. ring. }
  transitivity (d * d * d * (u1 * u2 * u3) + d * d * z * (u1 * u2 + (u1 + u2) * u3) + d * z * z * (m * m) + z * z * z).
  { unfold u3. ring. }
  transitivity (d * d * d * (x1 * x2 * x3) + d * d * z * (x1 * x2 + (x1 + x2) * x3) + d * z * z * (l * l) + z * z * z).
  2:{ unfold x3. ring. }
  rewrite P1, P2, Q1, Q2. unfold d, z. ring.
Qed.
End Cocycle.
