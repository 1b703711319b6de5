(** Point serialisation. *)
From Coq Require Import ZArith List Bool Lia Ring.
From Verif Require Import Result Limbs LimbsProofs StreamModel StreamProofs SerializationModel BigintModel BigintProofs
  FpModel FpSpec FpProofs FpField FpIoProofs FpInst FieldOps AlgorithmsModel AlgorithmsField GroupOps
  CurveSpec CurveModel CurveProofs CurveEdwards CurveEdwOps CurveIoModel.
Import ListNotations.
Open Scope Z_scope.

(** What may surround a coordinate in the stream. *)
Definition before (bin : bool) (ws : stream) : Prop :=
  if bin then ws = [] else Forall (fun c => is_space c = true) ws.
Definition after (bin : bool) (rest : stream) : Prop := if bin then True else token_end rest.

(** The coordinate field's own streams round trip, and the stored bit is a bit. *)
Record codec_ok {K} (bin : bool) (C : codec K) : Prop := {
  co_rt : forall x, exists w, cd_wr C x = Ok w /\
    forall ws rest, before bin ws -> after bin rest -> cd_rd C (ws ++ w ++ rest) = Ok (x, rest);
  co_bit : forall x, cd_lsb C x = Ok 0 \/ cd_lsb C x = Ok 1
}.

Lemma sep_before bin : before bin (output_separator bin).
Proof. destruct bin; cbn; auto. Qed.
Lemma sep_after bin rest : after bin (output_separator bin ++ rest).
Proof. destruct bin; cbn; auto. Qed.
Lemma nil_before bin : before bin [].
Proof. destruct bin; cbn; auto. Qed.
Lemma consume_sep bin rest : consume_output_separator bin (output_separator bin ++ rest) = Ok rest.
Proof. now destruct bin. Qed.

(** ** Codecs *)
Lemma fp_of_list_repr P (x : Fp P) : fp_of_list P (repr P x) = Some x.
Proof.
  unfold fp_of_list. destruct (bool_dec (canonb P (repr P x)) true) as [e|n].
  - apply (f_equal (@Some (Fp P))). now apply Fp_ext.
  - exfalso. apply n. apply canonb_iff. apply repr_canon.
Qed.
Lemma land_1_bit z : Z.land z 1 = z mod 2.
Proof. change 1 with (Z.ones 1). rewrite Z.land_ones by lia. reflexivity. Qed.
Lemma fp_lsb P : fp_ok P -> forall bin mont x, cd_lsb (fp_codec P bin mont) x = Ok (toZ P x mod 2).
Proof.
  intros OK bin mont x. cbn [cd_lsb fp_codec]. pose proof (repr_canon P x) as C.
  destruct (as_bigint_spec P OK (repr P x)) as (r & E & Cr & V & _); try apply C.
  rewrite E. cbn [bind]. f_equal. rewrite land_1_bit. unfold toZ. rewrite <- V.
  destruct r as [|l r].
  - destruct Cr as (L & _). cbn in L. pose proof (ok_n P OK). lia.
  - cbn [nth val]. rewrite Z.add_mod, Z.mul_mod by lia.
    change (B mod 2) with 0. rewrite Z.mul_0_l, Z.mod_0_l, Z.add_0_r, Z.mod_mod by lia. reflexivity.
Qed.
Lemma fp_codec_ok P bin mont : fp_ok P -> codec_ok bin (fp_codec P bin mont).
Proof.
  intros OK. split.
  - intros x. destruct (fp_stream_roundtrip P OK bin mont (repr P x) [] [] (repr_canon P x)) as (w & E & _).
    { destruct bin; cbn; auto. }
    exists w. split; [exact E|]. intros ws rest HB HA.
    destruct (fp_stream_roundtrip P OK bin mont (repr P x) ws rest (repr_canon P x)) as (w' & E' & RT).
    { destruct bin; cbn in *; auto. }
    assert (w' = w) by congruence. subst w'. cbn [cd_rd fp_codec]. rewrite RT. cbn [bind].
    now rewrite fp_of_list_repr.
  - intros x. rewrite (fp_lsb P OK). pose proof (Z.mod_pos_bound (toZ P x) 2). 
    assert (H1 : toZ P x mod 2 = 0 \/ toZ P x mod 2 = 1) by lia. destruct H1 as [-> | ->]; auto.
Qed.

(** In a prime field of odd characteristic y and -y differ in the stored bit. *)
Lemma fp_lsb_opp P (OK : fp_ok P) OKI bin mont y : Z.odd (val (fp_modulus P)) = true ->
  y <> o0 (fp_ops P OK OKI) ->
  cd_lsb (fp_codec P bin mont) (oopp (fp_ops P OK OKI) y) <> cd_lsb (fp_codec P bin mont) y.
Proof.
  intros Od N E. rewrite !(fp_lsb P OK) in E. injection E as E. cbn [oopp fp_ops] in E.
  rewrite (toZ_opp P OK) in E. pose proof (toZ_bound P OK y) as B.
  assert (NZ : toZ P y <> 0).
  { intros Z0. apply N. apply (toZ_inj P OK). cbn. now rewrite (toZ_zero P OK). }
  set (p := val (fp_modulus P)) in *. set (z := toZ P y) in *.
  rewrite Z_mod_nz_opp_full in E by (rewrite Z.mod_small; lia). rewrite (Z.mod_small z p) in E by lia.
  rewrite !Zmod_odd in E. rewrite Z.odd_sub, Od in E. destruct (Z.odd z); discriminate.
Qed.

Section Ext.
Context {K : Type} (bin : bool) (C : codec K).
Hypothesis CO : codec_ok bin C.
Lemma fp2_codec_ok : codec_ok bin (fp2_codec bin C).
Proof.
  split.
  - intros [c0 c1]. destruct (co_rt _ _ CO c0) as (w0 & E0 & R0). destruct (co_rt _ _ CO c1) as (w1 & E1 & R1).
    cbn [cd_wr cd_rd fp2_codec fst snd]. rewrite E0, E1. cbn [bind]. eexists. split; [reflexivity|].
    intros ws rest HB HA. rewrite <- !app_assoc, R0; auto using sep_after. cbn [bind].
    rewrite R1; auto using sep_before.
  - intros x. apply (co_bit _ _ CO).
Qed.
Lemma fp3_codec_ok : codec_ok bin (fp3_codec bin C).
Proof.
  split.
  - intros [[c0 c1] c2]. destruct (co_rt _ _ CO c0) as (w0 & E0 & R0). destruct (co_rt _ _ CO c1) as (w1 & E1 & R1).
    destruct (co_rt _ _ CO c2) as (w2 & E2 & R2).
    cbn [cd_wr cd_rd fp3_codec fst snd]. rewrite E0, E1, E2. cbn [bind]. eexists. split; [reflexivity|].
    intros ws rest HB HA. rewrite <- !app_assoc, R0; auto using sep_after. cbn [bind].
    rewrite R1; auto using sep_before, sep_after. cbn [bind]. rewrite R2; auto using sep_before.
  - intros x. apply (co_bit _ _ CO).
Qed.
End Ext.

(** ** Points *)
Section Points.
Context {K : Type} (F : Fops K).
Hypothesis FK : field_ok F.
Variable C : codec K.
Variables bin comp : bool.
Hypothesis CO : codec_ok bin C.
Variable sqrt : K -> result K.
Let R : ring_ok F := fk_ring F FK.
Add Ring CIring : (rk_ring F (fk_ring F FK)).

(** The stored bit tells y from -y, and the square root of y^2 is found. *)
Definition recoverable (y : K) : Prop :=
  (y <> o0 F -> cd_lsb C (oopp F y) <> cd_lsb C y) /\
  exists r, sqrt (omul F y y) = Ok r /\ (r = y \/ r = oopp F y).

Lemma pick_root_ok y l rest : recoverable y -> cd_lsb C y = Ok l ->
  read_char (dec l ++ rest) = Ok (ch_0 + l, rest) /\
  pick_root F C sqrt (omul F y y) (y_lsb (ch_0 + l)) = Ok y.
Proof.
  intros [HL (r & E & Hr)] El.
  assert (BL : forall x, cd_lsb C x = Ok 0 \/ cd_lsb C x = Ok 1) by apply (co_bit _ _ CO).
  assert (HL01 : l = 0 \/ l = 1) by (destruct (BL y) as [H|H]; rewrite H in El; injection El; auto).
  assert (YL : y_lsb (ch_0 + l) = l) by (destruct HL01; subst l; reflexivity).
  split; [destruct HL01; subst l; reflexivity|].
  rewrite YL. unfold pick_root. rewrite E. cbn [bind].
  destruct Hr as [-> | ->].
  - rewrite El. cbn [bind]. now rewrite Z.eqb_refl.
  - destruct (rk_dec F R y (o0 F)) as [->|N].
    + assert (Z0 : oopp F (o0 F) = o0 F) by ring. rewrite !Z0. rewrite El. cbn [bind]. now rewrite Z.eqb_refl.
    + specialize (HL N). destruct (BL (oopp F y)) as [H|H]; rewrite H in *; cbn [bind];
        (destruct HL01; subst l; [|]); cbn [Z.eqb]; try (rewrite El in HL; now contradiction HL);
        f_equal; ring.
Qed.

Lemma rd0 (rd : stream -> result (K * stream)) x w :
  (forall ws rest, before bin ws -> after bin rest -> rd (ws ++ w ++ rest) = Ok (x, rest)) ->
  forall rest, after bin rest -> rd (w ++ rest) = Ok (x, rest).
Proof. intros H rest. apply (H [] rest). apply nil_before. Qed.

Section Weierstrass.
Variables a b : K.
Variable rhs : K -> K.
Hypothesis HR : forall x, rhs x = oadd F (oadd F (omul F (omul F x x) x) (omul F a x)) b.
Variable to_affine : pt K -> result (pt K).
Variable is_zero : pt K -> bool.
Variable zero : pt K.
Hypothesis HZ : is_zero zero = true.
Hypothesis HN : forall X Y, is_zero (X, Y, o1 F) = false.

(** Reading what was written for p gives the normalised p. *)
Theorem sw_roundtrip p q : to_affine p = Ok q ->
  (q = zero \/ exists x y, q = (x, y, o1 F) /\ sw_on F a b (Aff x y) /\ (comp = true -> recoverable y)) ->
  exists w, sw_write C bin comp to_affine is_zero p = Ok w /\
    forall rest, (comp = true \/ after bin rest) ->
      sw_read F C bin comp sqrt rhs zero (w ++ rest) = Ok (q, rest).
Proof.
  intros EQ HQ. unfold sw_write. rewrite EQ. cbn [bind].
  destruct q as [[X Y] Z]. destruct (co_rt _ _ CO X) as (wx & Ex & Rx). rewrite Ex. cbn [bind].
  set (f := if is_zero (X, Y, Z) then 1 else 0).
  assert (Hf : f = 0 \/ f = 1) by (unfold f; destruct (is_zero (X, Y, Z)); auto).
  assert (Df : forall tl, dec f ++ tl = (ch_0 + f) :: tl) by (intros; destruct Hf as [-> | ->]; reflexivity).
  assert (Nf : is_space (ch_0 + f) = false) by (destruct Hf as [-> | ->]; reflexivity).
  assert (Ff : (ch_0 + f =? ch_0) = negb (is_zero (X, Y, Z))) by (unfold f; destruct (is_zero (X, Y, Z)); reflexivity).
  unfold sw_read. destruct comp.
  - destruct (cd_lsb C Y) as [l| | | | |] eqn:El; try (destruct (co_bit _ _ CO Y); congruence).
    cbn [bind]. eexists. split; [reflexivity|]. intros rest _.
    rewrite <- !app_assoc, Df. cbn [read_char bind]. rewrite consume_sep. cbn [bind].
    rewrite (rd0 _ _ _ Rx _ (sep_after bin _)). cbn [bind]. rewrite consume_sep. cbn [bind].
    assert (HC : read_char (dec l ++ rest) = Ok (ch_0 + l, rest)).
    { destruct (co_bit _ _ CO Y) as [H|H]; rewrite H in El; injection El as <-; reflexivity. }
    rewrite HC. cbn [bind]. rewrite Ff.
    destruct HQ as [HQ|(x & y & HQ & O & HRc)].
    + rewrite HQ, HZ. reflexivity.
    + rewrite HQ, HN. cbn [negb]. injection HQ as -> -> ->.
      destruct (pick_root_ok y l rest (HRc eq_refl) El) as [_ PR].
      rewrite HR. cbn in O. rewrite <- O, PR. reflexivity.
  - destruct (co_rt _ _ CO Y) as (wy & Ey & Ry). rewrite Ey. cbn [bind]. eexists. split; [reflexivity|].
    intros rest HA. destruct HA as [|HA]; [discriminate|].
    rewrite <- !app_assoc, Df. unfold read_nonspace_char. rewrite skip_ws_nonspace by exact Nf. cbn [read_char bind].
    rewrite (Rx _ _ (sep_before bin) (sep_after bin _)). cbn [bind].
    rewrite (Ry _ _ (sep_before bin) HA). cbn [bind]. rewrite Ff.
    destruct HQ as [HQ|(x & y & HQ & O & HRc)].
    + rewrite HQ, HZ. reflexivity.
    + rewrite HQ, HN. injection HQ as -> -> ->. reflexivity.
Qed.
(** A compressed x coordinate with no point above it: the reader's outcome is
    that of the square root. *)
Theorem sw_read_off_curve x w c rest : cd_wr C x = Ok w -> comp = true ->
  sw_read F C bin comp sqrt rhs zero (ch_0 :: output_separator bin ++ w ++ output_separator bin ++ c :: rest)
  = tY <- pick_root F C sqrt (rhs x) (y_lsb c) ;; Ok ((x, tY, o1 F), rest).
Proof.
  intros E ->. unfold sw_read. cbn [read_char bind]. rewrite consume_sep. cbn [bind].
  destruct (co_rt _ _ CO x) as (w' & E' & Rx). assert (w' = w) by congruence. subst w'.
  rewrite (rd0 _ _ _ Rx _ (sep_after bin _)). cbn [bind]. rewrite consume_sep. reflexivity.
Qed.
End Weierstrass.

(** Jacobian curves. *)
Theorem jac_roundtrip b p : jac_ok F b p ->
  (forall x y, jac_den F p = Aff x y -> comp = true -> recoverable y) ->
  exists w q, sw_write C bin comp (jac_to_affine F) (jac_is_zero F) p = Ok w /\
    jac_to_affine F p = Ok q /\ jac_den F q = jac_den F p /\
    forall rest, (comp = true \/ after bin rest) ->
      sw_read F C bin comp sqrt (jac_rhs F b) (jac_zero F) (w ++ rest) = Ok (q, rest).
Proof.
  intros O HY. destruct (jac_to_affine_spec F FK p) as (q & E & D & S1 & S2).
  destruct (sw_roundtrip (o0 F) b (jac_rhs F b)) with (to_affine := jac_to_affine F) (is_zero := jac_is_zero F)
    (zero := jac_zero F) (p := p) (q := q) as (w & Ew & Rw); auto.
  - intros x. unfold jac_rhs. rewrite (rk_sqr F R). ring.
  - cbn. apply (rk_eqb_refl F R).
  - intros X Y. cbn. apply (rk_eqb_neq F R). apply (fk_1_neq_0 F FK).
  - destruct p as [[X Y] Z]. unfold jac_to_affine in E. destruct (jac_is_zero F (X, Y, Z)) eqn:EZ.
    + left. now injection E.
    + right. cbn in EZ. apply (rk_eqb_neq F R) in EZ. destruct (tinv_spec F FK Z EZ) as [EI I].
      rewrite EI in E. cbn [bind] in E. injection E as E. rewrite (rk_sqr F R) in E. set (i := tinv F Z) in *.
      exists (omul F X (omul F i i)), (omul F Y (omul F (omul F i i) i)). split; [now symmetry|].
      assert (DP : jac_den F (X, Y, Z) = Aff (omul F X (omul F i i)) (omul F Y (omul F (omul F i i) i))).
      { apply (jac_den_at F FK); auto.
        - transitivity (omul F X (omul F (omul F i Z) (omul F i Z))); [rewrite I; ring|ring].
        - transitivity (omul F Y (omul F (omul F i Z) (omul F (omul F i Z) (omul F i Z)))); [rewrite I; ring|ring]. }
      split; [rewrite <- DP; exact O|]. eauto.
  - exists w, q. auto.
Qed.
Theorem prj_roundtrip a b p : prj_ok F a b p ->
  (forall x y, prj_den F p = Aff x y -> comp = true -> recoverable y) ->
  exists w q, sw_write C bin comp (prj_to_affine F) (prj_is_zero F) p = Ok w /\
    prj_to_affine F p = Ok q /\ prj_ok F a b q /\ prj_den F q = prj_den F p /\
    forall rest, (comp = true \/ after bin rest) ->
      sw_read F C bin comp sqrt (prj_rhs F a b) (prj_zero F) (w ++ rest) = Ok (q, rest).
Proof.
  intros O HY. destruct (prj_to_affine_spec F FK a b p O) as (q & E & OQ & D & S1 & S2).
  destruct (sw_roundtrip a b (prj_rhs F a b)) with (to_affine := prj_to_affine F) (is_zero := prj_is_zero F)
    (zero := prj_zero F) (p := p) (q := q) as (w & Ew & Rw); auto.
  - intros x. unfold prj_rhs. rewrite (rk_sqr F R). ring.
  - cbn. now rewrite !(rk_eqb_refl F R).
  - intros X Y. cbn. rewrite (proj2 (rk_eqb_neq F R (o1 F) (o0 F)) (fk_1_neq_0 F FK)). apply andb_false_r.
  - destruct p as [[X Y] Z]. unfold prj_to_affine in E. destruct (prj_is_zero F (X, Y, Z)) eqn:EZ.
    + left. now injection E.
    + right. destruct (prj_cases F FK a b _ O) as [[H _]|H]; [congruence|].
      destruct H as (NZ & H).
      assert (NZ' : Z <> o0 F).
      { intros ->. destruct O as [_ W]. cbn in EZ. rewrite (W eq_refl), !(rk_eqb_refl F R) in EZ. discriminate. }
      destruct (tinv_spec F FK Z NZ') as [EI I].
      rewrite EI in E. cbn [bind] in E. injection E as E. set (i := tinv F Z) in *.
      exists (omul F X i), (omul F Y i). split; [now symmetry|].
      assert (DP : prj_den F (X, Y, Z) = Aff (omul F X i) (omul F Y i)).
      { apply (prj_den_at F FK); auto.
        - transitivity (omul F X (omul F i Z)); [rewrite I; ring|ring].
        - transitivity (omul F Y (omul F i Z)); [rewrite I; ring|ring]. }
      split; [rewrite <- DP; apply O|]. eauto.
  - exists w, q. split; [exact Ew|]. split; [exact E|]. split; [exact OQ|]. split; [exact D|]. exact Rw.
Qed.

(** Two different points with the same bytes: no reader can be right on both. *)
Theorem jac_write_opp p x y : jac_den F p = Aff x y -> y <> o0 F -> oadd F (o1 F) (o1 F) <> o0 F ->
  cd_lsb C (oopp F y) = cd_lsb C y ->
  sw_write C bin true (jac_to_affine F) (jac_is_zero F) (jac_opp F p) =
  sw_write C bin true (jac_to_affine F) (jac_is_zero F) p /\
  jac_den F (jac_opp F p) <> jac_den F p.
Proof.
  intros D N H2 L. split.
  - destruct p as [[X Y] Z]. unfold sw_write, jac_to_affine, jac_opp, jac_is_zero.
    cbn in D. destruct (rk_eqb_spec F R Z (o0 F)) as [|NZ]; [discriminate|].
    destruct (tinv_spec F FK Z NZ) as [EI I]. rewrite EI. cbn [bind].
    rewrite !(rk_sqr F R). set (i := tinv F Z) in *.
    assert (EY : omul F Y (omul F (omul F i i) i) = y).
    { injection D as _ <-. symmetry. apply (tdiv_eq F FK); [repeat apply fk_mul_neq_0; auto|].
      transitivity (omul F Y (omul F (omul F i Z) (omul F (omul F i Z) (omul F i Z)))); [rewrite I; ring|ring]. }
    assert (EY' : omul F (oopp F Y) (omul F (omul F i i) i) = oopp F y) by (rewrite <- EY; ring).
    rewrite EY, EY', L. reflexivity.
  - rewrite (jac_opp_den F FK), D. cbn. intros E. injection E as E. apply N.
    assert (H : omul F (oadd F (o1 F) (o1 F)) y = o0 F).
    { transitivity (oadd F y y); [ring|]. rewrite <- E at 1. ring. }
    apply fk_mul_0 in H; auto. tauto.
Qed.

(** Edwards curves. *)
Section Edwards.
Variables a d : K.
Variables mul_a mul_d : K -> K.
Hypothesis MA : forall x, mul_a x = omul F a x.
Hypothesis MD : forall x, mul_d x = omul F d x.
Hypothesis NAD : a <> d.
Theorem edw_roundtrip mixed p : edw_ok F a d p ->
  (comp = true -> recoverable (snd (edw_den F p))) ->
  exists w q, edw_write F C bin comp p = Ok w /\
    edw_ok F a d q /\ edw_den F q = edw_den F p /\
    forall rest, (comp = true \/ after bin rest) ->
      edw_read F C bin comp sqrt mul_a mul_d mixed (w ++ rest) = Ok (q, rest).
Proof.
  intros O HY. unfold edw_write. rewrite (edw_to_affine_spec F FK a d p O). cbn [bind].
  set (x := fst (edw_den F p)). set (y := snd (edw_den F p)).
  assert (OG : edw_ok F a d (y, x, omul F x y) /\ edw_den F (y, x, omul F x y) = edw_den F p).
  { change (y, x, omul F x y) with (edw_of_affine F x y). unfold x, y.
    destruct (edw_cases F FK a d p O) as [[_ ->]|(_ & x0 & y0 & c & Nx & Ny & _ & OO & -> & _)].
    - apply (edw_zero_ok F FK a d).
    - now apply edw_of_affine_ok. }
  assert (ON : te_on F a d (x, y)).
  { unfold x, y. destruct (edw_cases F FK a d p O) as [[_ ->]|(_ & x0 & y0 & c & Nx & Ny & _ & OO & -> & _)]; auto.
    now apply te_zero_on. }
  assert (FIN : exists q, (if mixed then edw_to_special F (y, x, omul F x y) else Ok (y, x, omul F x y)) = Ok q /\
     edw_ok F a d q /\ edw_den F q = edw_den F p).
  { destruct OG as [OG DG]. destruct mixed; [|eauto].
    destruct (edw_to_special_spec F FK a d _ OG) as (q & E & OQ & DQ & _). exists q. split; auto. split; auto. congruence. }
  destruct FIN as (q & EQ & OQ & DQ).
  destruct (co_rt _ _ CO x) as (wx & Ex & Rx). rewrite Ex. cbn [bind].
  unfold edw_read. destruct comp.
  - destruct (cd_lsb C y) as [l| | | | |] eqn:El; try (destruct (co_bit _ _ CO y); congruence).
    cbn [bind]. eexists. exists q. split; [reflexivity|]. split; auto. split; auto. intros rest _.
    rewrite <- !app_assoc.
    rewrite (rd0 _ _ _ Rx _ (sep_after bin _)). cbn [bind]. rewrite consume_sep. cbn [bind].
    destruct (pick_root_ok y l rest (HY eq_refl) El) as [RC PR]. rewrite RC. cbn [bind].
    rewrite MD, MA, (rk_sqr F R). cbn in ON.
    assert (NI : osub F (o1 F) (omul F d (omul F x x)) <> o0 F).
    { intros E.
      assert (E2 : osub F (o1 F) (omul F a (omul F x x)) = o0 F).
      { transitivity (omul F (omul F y y) (osub F (o1 F) (omul F d (omul F x x)))).
        - transitivity (osub F (osub F (oadd F (o1 F) (omul F d (omul F (omul F x x) (omul F y y)))) (omul F a (omul F x x)))
            (omul F d (omul F (omul F x x) (omul F y y)))); [ring|]. rewrite <- ON. ring.
        - rewrite E. ring. }
      assert (NX : x <> o0 F).
      { intros X0. rewrite X0 in E2. apply (fk_1_neq_0 F FK). rewrite <- E2. ring. }
      apply NAD. apply (fk_mul_cancel F FK _ _ (omul F x x)); [now apply fk_mul_neq_0|].
      transitivity (osub F (o1 F) (osub F (o1 F) (omul F a (omul F x x)))); [ring|].
      rewrite E2, <- E. ring. }
    destruct (tinv_spec F FK _ NI) as [EI I]. rewrite EI. cbn [bind]. set (i := tinv F _) in *.
    assert (EY : omul F (osub F (o1 F) (omul F a (omul F x x))) i = omul F y y).
    { transitivity (omul F (omul F (omul F y y) (osub F (o1 F) (omul F d (omul F x x)))) i).
      - f_equal. transitivity (osub F (osub F (oadd F (o1 F) (omul F d (omul F (omul F x x) (omul F y y)))) (omul F a (omul F x x)))
            (omul F d (omul F (omul F x x) (omul F y y)))); [ring|]. rewrite <- ON. ring.
      - transitivity (omul F (omul F y y) (omul F i (osub F (o1 F) (omul F d (omul F x x))))); [ring|]. rewrite I. ring. }
    rewrite EY, PR. cbn [bind]. rewrite EQ. reflexivity.
  - destruct (co_rt _ _ CO y) as (wy & Ey & Ry). rewrite Ey. cbn [bind]. eexists. exists q. split; [reflexivity|].
    split; auto. split; auto. intros rest HA. destruct HA as [|HA]; [discriminate|].
    rewrite <- !app_assoc.
    rewrite (rd0 _ _ _ Rx _ (sep_after bin _)). cbn [bind]. rewrite consume_sep. cbn [bind].
    rewrite (rd0 _ _ _ Ry _ HA). cbn [bind]. rewrite EQ. reflexivity.
Qed.
End Edwards.
End Points.
