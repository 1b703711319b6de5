(** The printed text determines what was printed. *)
From Coq Require Import ZArith NArith List Bool Lia.
From Verif Require Import Result Limbs LimbsProofs BigintModel BigintProofs FpModel FpSpec FpProofs FpField FieldOps BinaryModel BinaryProofs StreamModel StreamProofs
  CurveModel CurveSpec CurveProofs CurveEdwOps Bn128Model Bn128Proofs PrintModel.
Import ListNotations.
Open Scope Z_scope.

Lemma split_at {A} (c : A) u u' v v' : ~ In c u -> ~ In c u' -> u ++ c :: v = u' ++ c :: v' -> u = u' /\ v = v'.
Proof.
  revert u'. induction u as [|x u IH]; intros [|x' u'] H H' E; cbn in *.
  - injection E as ->. auto.
  - injection E as -> _. exfalso. apply H'. now left.
  - injection E as -> _. exfalso. apply H. now left.
  - injection E as -> E. destruct (IH u') as [-> ->]; auto.
Qed.

Lemma dec_inj a b : 0 <= a -> 0 <= b -> dec a = dec b -> a = b.
Proof. intros Ha Hb E. rewrite <- (dec_val a Ha), <- (dec_val b Hb). now rewrite E. Qed.
Lemma dec_not_in c z : 0 <= z -> is_digit c = false -> ~ In c (dec z).
Proof.
  intros Hz H I. pose proof (dec_digits z Hz) as D. rewrite Forall_forall in D. specialize (D c I). congruence.
Qed.

(** ** Field elements: no text is the beginning of another *)
Definition prefix_free {K} (print : K -> result stream) : Prop :=
  forall x, exists w, print x = Ok w /\ forall y w' u v, print y = Ok w' -> w ++ u = w' ++ v -> x = y /\ u = v.

Lemma bigint_print_free a b u v : limbs a -> limbs b -> length a = length b ->
  bigint_print a ++ u = bigint_print b ++ v -> a = b /\ u = v.
Proof.
  intros La Lb L. unfold bigint_print. rewrite !bigint_to_mpz_spec, <- !app_assoc. cbn [app]. intros E.
  pose proof (val_nonneg a La). pose proof (val_nonneg b Lb).
  apply split_at in E as [E ->]; try (apply dec_not_in; auto).
  apply dec_inj in E; auto. split; auto. now apply val_inj.
Qed.

Section Prime.
Variable P : fp_params.
Hypothesis OK : fp_ok P.
Lemma fp_print_spec a : canon P a -> fp_print P a = Ok (dec (den P a) ++ [ch_nl]).
Proof.
  intros Ca. pose proof Ca as (L & Lm & V). unfold fp_print.
  destruct (bigint_one_spec (fp_n P) (ok_n P OK)) as (V1 & L1 & Len1).
  destruct (mul_reduce_spec P OK (bigint_one (fp_n P)) a) as (r & E & C & M); auto.
  { apply (lt_pR P OK); auto. }
  rewrite E. cbn [bind]. unfold bigint_print. rewrite bigint_to_mpz_spec. do 3 f_equal.
  destruct (as_bigint_spec P OK a Lm L) as (r' & E' & C' & V' & M').
  rewrite <- V' in *. rewrite V1, Z.mul_1_l, <- M' in M. apply (cancel_R P OK) in M.
  pose proof (canon_lt P r C). pose proof (canon_lt P r' C'). rewrite !Z.mod_small in M by lia. exact M.
Qed.
Lemma den_range (x : Fp P) : 0 <= den P (repr P x).
Proof. destruct (repr_canon P x) as (L & Lm & V). now destruct (den_spec P OK _ Lm L) as [[? ?] _]. Qed.
Lemma den_repr_inj (x y : Fp P) : den P (repr P x) = den P (repr P y) -> x = y.
Proof. intros E. apply Fp_ext. apply (den_inj P OK); auto using repr_canon. Qed.

Lemma fp_print_free : prefix_free (fun x : Fp P => fp_print P (repr P x)).
Proof.
  intros x. rewrite (fp_print_spec _ (repr_canon P x)). eexists. split; [reflexivity|]. intros y w' u v.
  rewrite (fp_print_spec _ (repr_canon P y)). intros E. injection E as <-. rewrite <- !app_assoc. cbn [app]. intros E.
  apply split_at in E as [E ->]; try (apply dec_not_in; auto using den_range).
  apply dec_inj in E; auto using den_range. split; auto. now apply den_repr_inj.
Qed.
End Prime.

Lemma quad_print_free {K} (print : K -> result stream) : prefix_free print -> prefix_free (quad_print print).
Proof.
  intros H [x0 x1]. unfold quad_print. cbn [fst snd].
  destruct (H x0) as (w0 & E0 & I0), (H x1) as (w1 & E1 & I1). rewrite E0, E1. cbn [bind].
  eexists. split; [reflexivity|]. intros [y0 y1] w' u v. cbn [fst snd].
  destruct (H y0) as (v0 & F0 & _), (H y1) as (v1 & F1 & _). rewrite F0, F1. cbn [bind]. intros EW.
  assert (w' = str_c0c1 ++ v0 ++ v1) as -> by congruence. clear EW. rewrite <- !app_assoc. intros E. apply app_inv_head in E.
  destruct (I0 y0 v0 _ _ F0 E) as [-> E']. destruct (I1 y1 v1 _ _ F1 E') as [-> ->]. auto.
Qed.
Lemma cubic_print_free {K} (print : K -> result stream) : prefix_free print -> prefix_free (cubic_print print).
Proof.
  intros H [[x0 x1] x2]. unfold cubic_print. cbn [fst snd].
  destruct (H x0) as (w0 & E0 & I0), (H x1) as (w1 & E1 & I1), (H x2) as (w2 & E2 & I2). rewrite E0, E1, E2. cbn [bind].
  eexists. split; [reflexivity|]. intros [[y0 y1] y2] w' u v. cbn [fst snd].
  destruct (H y0) as (v0 & F0 & _), (H y1) as (v1 & F1 & _), (H y2) as (v2 & F2 & _). rewrite F0, F1, F2. cbn [bind].
  intros EW. assert (w' = str_c0c1c2 ++ v0 ++ v1 ++ v2) as -> by congruence. clear EW. rewrite <- !app_assoc. intros E. apply app_inv_head in E.
  destruct (I0 y0 v0 _ _ F0 E) as [-> E']. destruct (I1 y1 v1 _ _ F1 E') as [-> E'']. destruct (I2 y2 v2 _ _ F2 E'') as [-> ->]. auto.
Qed.

(** ** Binary fields *)
Lemma hex_digit_inj a b : 0 <= a < 16 -> 0 <= b < 16 -> hex_digit a = hex_digit b -> a = b.
Proof. unfold hex_digit. intros Ha Hb. destruct (Z.ltb_spec a 10), (Z.ltb_spec b 10); lia. Qed.
Lemma hex_word_length k w : length (hex_word k w) = k.
Proof. revert w. induction k as [|k IH]; intros w; [reflexivity|]. cbn [hex_word]. rewrite app_length, IH. cbn. lia. Qed.
(** What the digits say. *)
Definition unhex (c : Z) : Z := if c <? 58 then c - 48 else c - 87.
Definition hex_val (s : stream) : Z := fold_left (fun acc c => 16 * acc + unhex c) s 0.
Lemma unhex_digit d : 0 <= d < 16 -> unhex (hex_digit d) = d.
Proof. intros H. unfold unhex, hex_digit. destruct (Z.ltb_spec d 10); match goal with |- context [?x <? 58] => destruct (Z.ltb_spec x 58) end; lia. Qed.
Lemma hex_val_snoc s c : hex_val (s ++ [c]) = 16 * hex_val s + unhex c.
Proof. unfold hex_val. now rewrite fold_left_app. Qed.
Lemma hex_word_val k : forall w, 0 <= w < 16 ^ Z.of_nat k -> hex_val (hex_word k w) = w.
Proof.
  induction k as [|k IH]; intros w H.
  - change (16 ^ Z.of_nat 0) with 1 in H. cbn. lia.
  - rewrite Nat2Z.inj_succ, Z.pow_succ_r in H by lia. cbn [hex_word]. rewrite hex_val_snoc, IH, unhex_digit.
    + pose proof (Z.div_mod w 16). lia.
    + apply Z.mod_pos_bound. lia.
    + split; [apply Z.div_pos; lia|apply Z.div_lt_upper_bound; lia].
Qed.
Lemma hex_fuel_val f : forall z, 0 <= z < 2 * 2 ^ Z.of_nat f -> hex_val (hex_fuel f z) = z.
Proof.
  induction f as [|f IH]; intros z Hz; cbn [hex_fuel].
  - cbn in Hz. change [hex_digit (z mod 16)] with ([] ++ [hex_digit (z mod 16)]). rewrite hex_val_snoc.
    rewrite Z.mod_small by lia. rewrite unhex_digit by lia. cbn. lia.
  - destruct (Z.ltb_spec z 16).
    + change [hex_digit z] with ([] ++ [hex_digit z]). rewrite hex_val_snoc, unhex_digit by lia. cbn [hex_val fold_left]. unfold hex_val. cbn [fold_left]. lia.
    + rewrite hex_val_snoc, IH, unhex_digit.
      * pose proof (Z.div_mod z 16). lia.
      * apply Z.mod_pos_bound. lia.
      * rewrite Nat2Z.inj_succ, Z.pow_succ_r in Hz by lia.
        split; [apply Z.div_pos; lia|apply Z.div_lt_upper_bound; lia].
Qed.
Lemma hex_value z : 0 <= z -> hex_val (hex z) = z.
Proof.
  intros Hz. unfold hex. apply hex_fuel_val. rewrite Z2Nat.id by apply Z.log2_nonneg.
  split; auto. destruct (Z.eq_dec z 0) as [->|]; [cbn; lia|].
  pose proof (Z.log2_spec z). rewrite Z.pow_succ_r in H by apply Z.log2_nonneg. lia.
Qed.
Lemma hex_head f : forall z, 0 < z < 2 * 2 ^ Z.of_nat f -> exists s, hex_fuel f z = s /\ hd 48 s <> 48 /\ s <> [].
Proof.
  assert (N : forall d, 0 < d < 16 -> hex_digit d <> 48) by (intros d H; unfold hex_digit; destruct (Z.ltb_spec d 10); lia).
  induction f as [|f IH]; intros z Hz; cbn [hex_fuel]; (eexists; split; [reflexivity|]).
  - cbn in Hz. rewrite Z.mod_small by lia. split; [apply N; lia|discriminate].
  - destruct (Z.ltb_spec z 16); [split; [apply N; lia|discriminate]|].
    destruct (IH (z / 16)) as (s & -> & H1 & H2).
    + rewrite Nat2Z.inj_succ, Z.pow_succ_r in Hz by lia.
      split; [apply Z.div_str_pos; lia|apply Z.div_lt_upper_bound; lia].
    + destruct s; [now destruct H2|]. split; [exact H1|discriminate].
Qed.
Lemma bigint_print_hex_spec a : limbs a -> exists w, bigint_print_hex a = w ++ [ch_nl] /\ hex_val w = val a /\ (0 < val a -> hd 48 w <> 48).
Proof.
  intros L. unfold bigint_print_hex. rewrite bigint_to_mpz_spec. eexists. split; [reflexivity|].
  pose proof (val_nonneg a L). split; [now apply hex_value|]. intros Hp. unfold hex.
  destruct (hex_head (Z.to_nat (Z.log2 (val a))) (val a)) as (s & -> & H1 & _); [|exact H1].
  rewrite Z2Nat.id by apply Z.log2_nonneg. pose proof (Z.log2_spec (val a) Hp) as S. rewrite Z.pow_succ_r in S by apply Z.log2_nonneg. lia.
Qed.
Lemma gok_64 g a : gok (gf_of g) a -> Forall (fun w => (w < 2 ^ 64)%N) a.
Proof.
  intros [_ H]. eapply Forall_impl; [|exact H]. cbv beta. intros w Hw. eapply N.lt_le_trans; [exact Hw|].
  apply N.pow_le_mono_r; [discriminate|]. now destruct g.
Qed.
Lemma gf_print_words g a : gf_of g <> gf_of G32 -> gok (gf_of g) a ->
  exists ws, gf_print g a = concat ws ++ [ch_nl] /\ Forall (fun w => length w = 16%nat) ws /\ map hex_val ws = map Z.of_N (rev a).
Proof.
  intros N H. exists (map (fun w => hex_word 16 (Z.of_N w)) (rev a)). split; [|split].
  - unfold gf_print. rewrite flat_map_concat_map. now destruct g.
  - apply Forall_map, Forall_forall. intros. apply hex_word_length.
  - rewrite map_map. apply map_ext_in. intros w I. apply hex_word_val. apply in_rev in I.
    pose proof (gok_64 g a H) as G. rewrite Forall_forall in G. specialize (G w I). change (16 ^ Z.of_nat 16) with (Z.of_N (2 ^ 64)). lia.
Qed.
Lemma hex_word_inj k : forall a b, 0 <= a < 16 ^ Z.of_nat k -> 0 <= b < 16 ^ Z.of_nat k -> hex_word k a = hex_word k b -> a = b.
Proof.
  induction k as [|k IH]; intros a b Ha Hb E.
  - change (16 ^ Z.of_nat 0) with 1 in *. lia.
  - cbn [hex_word] in E. rewrite Nat2Z.inj_succ, Z.pow_succ_r in Ha, Hb by lia.
    apply app_inj_tail in E as [E1 E2].
    apply IH in E1.
    + apply hex_digit_inj in E2; try (apply Z.mod_pos_bound; lia).
      rewrite (Z.div_mod a 16), (Z.div_mod b 16) by lia. congruence.
    + split; [apply Z.div_pos; lia|apply Z.div_lt_upper_bound; lia].
    + split; [apply Z.div_pos; lia|apply Z.div_lt_upper_bound; lia].
Qed.
Lemma hex_words_inj : forall a b, length a = length b -> Forall (fun w => (w < 2 ^ 64)%N) a -> Forall (fun w => (w < 2 ^ 64)%N) b ->
  flat_map (fun w => hex_word 16 (Z.of_N w)) a = flat_map (fun w => hex_word 16 (Z.of_N w)) b -> a = b.
Proof.
  induction a as [|x a IH]; intros [|y b] L Fa Fb E; try discriminate; auto.
  cbn [flat_map] in E. inversion Fa; subst. inversion Fb; subst.
  assert (H16 : forall w, (w < 2 ^ 64)%N -> 0 <= Z.of_N w < 16 ^ Z.of_nat 16).
  { intros w Hw. change (16 ^ Z.of_nat 16) with (Z.of_N (2 ^ 64)). lia. }
  assert (EE : hex_word 16 (Z.of_N x) = hex_word 16 (Z.of_N y)).
  { apply (f_equal (firstn 16)) in E. rewrite !firstn_app, !hex_word_length, !Nat.sub_diag, !firstn_O in E.
    rewrite !app_nil_r in E. rewrite !firstn_all2 in E by (rewrite hex_word_length; auto). exact E. }
  rewrite EE in E. apply app_inv_head in E. f_equal; [|apply IH; auto].
  apply hex_word_inj in EE; auto. now apply N2Z.inj.
Qed.
Lemma gf_print_inj g a b : gok (gf_of g) a -> gok (gf_of g) b -> gf_print g a = gf_print g b -> a = b.
Proof.
  intros Ga Gb. pose proof (gok_64 g a Ga) as Fa. pose proof (gok_64 g b Gb) as Fb.
  destruct Ga as [La _], Gb as [Lb _]. unfold gf_print. intros E. apply app_inv_tail in E.
  assert (G : g <> G32 -> a = b).
  { intros N. rewrite <- (rev_involutive a), <- (rev_involutive b). f_equal. apply hex_words_inj.
    - rewrite !rev_length. congruence.
    - apply Forall_rev; auto.
    - apply Forall_rev; auto.
    - destruct g; try congruence. }
  destruct g; try (apply G; congruence). clear G.
  destruct a as [|x [|]]; try discriminate. destruct b as [|y [|]]; try discriminate. cbn [nth] in E.
  apply dec_inj in E; try lia. apply N2Z.inj in E. congruence.
Qed.

(** ** Points *)
(** Texts without comma and colon, different for different elements. *)
Definition fmt_ok {K} (fmt : K -> result stream) : Prop :=
  forall x, exists w, fmt x = Ok w /\ ~ In 44 w /\ ~ In 58 w /\ ~ In 41 w /\ forall y, fmt y = Ok w -> x = y.

Section Fmt.
Variable P : fp_params.
Hypothesis OK : fp_ok P.
Lemma fp_fmt_spec x : fp_fmt P x = Ok (dec (den P (repr P x))).
Proof.
  destruct (repr_canon P x) as (L & Lm & V). destruct (as_bigint_spec P OK _ Lm L) as (r & E & _ & V' & _).
  unfold fp_fmt. rewrite E. cbn [bind]. now rewrite bigint_to_mpz_spec, V'.
Qed.
Lemma fp_fmt_ok : fmt_ok (fp_fmt P).
Proof.
  intros x. rewrite fp_fmt_spec. pose proof (den_range P OK x). eexists. split; [reflexivity|].
  repeat split; try (apply dec_not_in; auto). intros y. rewrite fp_fmt_spec. intros E. injection E as E.
  apply dec_inj in E; auto using den_range. symmetry. now apply (den_repr_inj P OK).
Qed.
Lemma fp_fmt_nostar x w : fp_fmt P x = Ok w -> ~ In 42 w.
Proof. rewrite fp_fmt_spec. intros E. injection E as <-. apply dec_not_in; auto using den_range. Qed.
End Fmt.

Lemma not_in_app {A} (c : A) u v : ~ In c u -> ~ In c v -> ~ In c (u ++ v).
Proof. intros H1 H2 I. apply in_app_or in I. tauto. Qed.
Ltac notin := repeat (apply not_in_app); auto; cbv; intuition discriminate.

Lemma fp2_fmt_ok {K} (fmt : K -> result stream) : fmt_ok fmt -> (forall x w, fmt x = Ok w -> ~ In 42 w) -> fmt_ok (fp2_fmt fmt).
Proof.
  intros H S [x0 x1]. unfold fp2_fmt. cbn [fst snd].
  destruct (H x0) as (w0 & E0 & A0 & B0 & C0 & I0), (H x1) as (w1 & E1 & A1 & B1 & C1 & I1).
  rewrite E0, E1. cbn [bind]. eexists. split; [reflexivity|].
  split; [notin|]. split; [notin|]. split; [notin|]. intros [y0 y1]. cbn [fst snd].
  destruct (H y0) as (v0 & F0 & _), (H y1) as (v1 & F1 & _). rewrite F0, F1. cbn [bind]. intros E. injection E as E.
  unfold str_z in E. cbn [app] in E. apply split_at in E as [Ea Eb]; eauto. injection Eb as Eb. subst v1 v0.
  now rewrite (I0 y0), (I1 y1).
Qed.
Lemma fp3_fmt_ok {K} (fmt : K -> result stream) : fmt_ok fmt -> (forall x w, fmt x = Ok w -> ~ In 42 w) -> fmt_ok (fp3_fmt fmt).
Proof.
  intros H S [[x0 x1] x2]. unfold fp3_fmt. cbn [fst snd].
  destruct (H x0) as (w0 & E0 & A0 & B0 & C0 & I0), (H x1) as (w1 & E1 & A1 & B1 & C1 & I1), (H x2) as (w2 & E2 & A2 & B2 & C2 & I2).
  rewrite E0, E1, E2. cbn [bind]. eexists. split; [reflexivity|].
  split; [notin|]. split; [notin|]. split; [notin|]. intros [[y0 y1] y2]. cbn [fst snd].
  destruct (H y0) as (v0 & F0 & _), (H y1) as (v1 & F1 & _), (H y2) as (v2 & F2 & _). rewrite F0, F1, F2. cbn [bind].
  intros E. injection E as E. unfold str_z, str_z2 in E. cbn [app] in E.
  apply split_at in E as [Ea Eb]; eauto. injection Eb as Eb. apply split_at in Eb as [Eb Ec]; eauto. injection Ec as Ec. subst v2 v1 v0.
  now rewrite (I0 y0), (I1 y1), (I2 y2).
Qed.

Section Points.
Context {K : Type} (fmt : K -> result stream) (is_zero : K * K * K -> bool) (to_affine : K * K * K -> result (K * K * K)).
Variable D : K * K * K -> option (K * K).
Variable ok : K * K * K -> Prop.
Hypothesis FO : fmt_ok fmt.
Hypothesis H0 : forall p, ok p -> is_zero p = true -> D p = None.
Hypothesis H1 : forall p, ok p -> is_zero p = false -> exists x y z, to_affine p = Ok (x, y, z) /\ D p = Some (x, y).

Lemma point_print_iff p q : ok p -> ok q -> exists w, point_print fmt is_zero to_affine p = Ok w /\
  (point_print fmt is_zero to_affine q = Ok w <-> D p = D q).
Proof.
  intros Op Oq. unfold point_print.
  destruct (is_zero p) eqn:Zp; destruct (is_zero q) eqn:Zq.
  - rewrite (H0 p), (H0 q) by auto. eexists. split; [reflexivity|tauto].
  - destruct (H1 q Oq Zq) as (x & y & z & E & Dq). rewrite E, Dq, (H0 p) by auto. cbn [bind].
    destruct (FO x) as (wx & Ex & _), (FO y) as (wy & Ey & _). rewrite Ex, Ey. cbn [bind].
    eexists. split; [reflexivity|]. split; discriminate.
  - destruct (H1 p Op Zp) as (x & y & z & E & Dq). rewrite E, Dq, (H0 q) by auto. cbn [bind].
    destruct (FO x) as (wx & Ex & _), (FO y) as (wy & Ey & _). rewrite Ex, Ey. cbn [bind].
    eexists. split; [reflexivity|]. split; discriminate.
  - destruct (H1 p Op Zp) as (x & y & z & E & Dp), (H1 q Oq Zq) as (x' & y' & z' & E' & Dq). rewrite E, E', Dp, Dq. cbn [bind].
    destruct (FO x) as (wx & Ex & Ax & Bx & Cx & Ix), (FO y) as (wy & Ey & Ay & By & Cy & Iy).
    destruct (FO x') as (vx & Fx & Ax' & Bx' & Cx' & _), (FO y') as (vy & Fy & Ay' & By' & Cy' & _).
    rewrite Ex, Ey, Fx, Fy. cbn [bind]. eexists. split; [reflexivity|]. split.
    + intros EE. injection EE as EE. unfold str_comma, str_close in EE. cbn [app] in EE.
      change (vx ++ ch_sp :: 44 :: ch_sp :: ?t) with (vx ++ [ch_sp] ++ 44 :: ch_sp :: t) in EE.
      change (wx ++ ch_sp :: 44 :: ch_sp :: ?t) with (wx ++ [ch_sp] ++ 44 :: ch_sp :: t) in EE.
      rewrite !app_assoc in EE. apply split_at in EE as [Ea Eb]; try notin.
      apply app_inj_tail in Ea as [-> _]. injection Eb as Eb. apply split_at in Eb as [-> _]; auto.
      rewrite (Ix x'), (Iy y'); auto.
    + intros EE. injection EE as -> ->. congruence.
Qed.
End Points.

Section Coordinates.
Context {K : Type} (fmt : K -> result stream).
Hypothesis FO : fmt_ok fmt.
Lemma coordinates_text_inj p : exists w, coordinates_text fmt p = Ok w /\ (exists w', w = 40 :: w') /\
  forall q, coordinates_text fmt q = Ok w -> p = q.
Proof.
  destruct p as [[x y] z]. unfold coordinates_text.
  destruct (FO x) as (wx & Ex & Ax & Bx & Cx & Ix), (FO y) as (wy & Ey & Ay & By & Cy & Iy), (FO z) as (wz & Ez & Az & Bz & Cz & Iz).
  rewrite Ex, Ey, Ez. cbn [bind]. eexists. split; [reflexivity|]. split; [eexists; reflexivity|]. intros [[x' y'] z'].
  destruct (FO x') as (vx & Fx & Ax' & Bx' & Cx' & _), (FO y') as (vy & Fy & Ay' & By' & Cy' & _), (FO z') as (vz & Fz & Az' & Bz' & Cz' & _).
  rewrite Fx, Fy, Fz. cbn [bind]. intros EE. injection EE as EE. unfold str_colon, str_close in EE. cbn [app] in EE.
  repeat change (vx ++ ch_sp :: 58 :: ?t) with (vx ++ [ch_sp] ++ 58 :: t) in EE.
  repeat change (wx ++ ch_sp :: 58 :: ?t) with (wx ++ [ch_sp] ++ 58 :: t) in EE.
  rewrite (app_assoc vx), (app_assoc wx) in EE. apply split_at in EE as [Ea Eb]; try notin.
  apply app_inj_tail in Ea as [-> _]. injection Eb as Eb.
  repeat change (vy ++ ch_sp :: 58 :: ?t) with (vy ++ [ch_sp] ++ 58 :: t) in Eb.
  repeat change (wy ++ ch_sp :: 58 :: ?t) with (wy ++ [ch_sp] ++ 58 :: t) in Eb.
  rewrite (app_assoc vy), (app_assoc wy) in Eb. apply split_at in Eb as [Ea Ec]; try notin.
  apply app_inj_tail in Ea as [-> _]. injection Ec as Ec. apply split_at in Ec as [-> _]; auto.
  rewrite (Ix x'), (Iy y'), (Iz z'); auto.
Qed.
Lemma print_coordinates_iff is_zero p q : is_zero p = false -> exists w, point_print_coordinates fmt is_zero p = Ok w /\
  (point_print_coordinates fmt is_zero q = Ok w <-> p = q).
Proof.
  intros Zp. unfold point_print_coordinates. rewrite Zp.
  destruct (coordinates_text_inj p) as (w & E & (w' & ->) & I). exists (40 :: w'). split; auto. split.
  - destruct (is_zero q); [discriminate|apply I].
  - intros <-. now rewrite Zp.
Qed.
End Coordinates.

Definition apt_opt {K} (P : apt K) : option (K * K) := match P with Inf => None | Aff x y => Some (x, y) end.
Lemma apt_opt_inj {K} (P Q : apt K) : apt_opt P = apt_opt Q <-> P = Q.
Proof. split; [|congruence]. destruct P, Q; cbn; intros E; try discriminate; auto. now injection E as -> ->. Qed.

Section Curves.
Context {K : Type} (F : Fops K) (FK : field_ok F).
Variable fmt : K -> result stream.
Hypothesis FO : fmt_ok fmt.
Let R := fk_ring F FK.
Add Ring FringP : (rk_ring F (fk_ring F FK)).

Lemma jac_den_one x y P : jac_den F (x, y, o1 F) = P -> P <> Inf -> P = Aff x y.
Proof.
  intros D N. destruct (jac_cases F FK (x, y, o1 F)) as [[_ D']|[_ (x' & y' & z & Nz & E & D')]]; [congruence|].
  injection E as E1 E2 E3. rewrite <- D, D'. subst z. f_equal.
  - rewrite E1. ring.
  - rewrite E2. ring.
Qed.
Lemma jac_affine p : jac_is_zero F p = false -> exists x y, jac_to_affine F p = Ok (x, y, o1 F) /\ jac_den F p = Aff x y.
Proof.
  intros Z. assert (N : jac_den F p <> Inf). { intros E. apply (jac_is_zero_spec F) in E. congruence. }
  destruct (jac_to_affine_spec F FK p) as (q & E & D & [->|(x & y & ->)] & _).
  - exfalso. apply N. rewrite <- D. now apply jac_den_0.
  - exists x, y. split; auto. now apply jac_den_one.
Qed.
Theorem jac_print_iff p q : exists w, point_print fmt (jac_is_zero F) (jac_to_affine F) p = Ok w /\
  (point_print fmt (jac_is_zero F) (jac_to_affine F) q = Ok w <-> jac_eqb F p q = true).
Proof.
  destruct (point_print_iff fmt (jac_is_zero F) (jac_to_affine F) (fun p => apt_opt (jac_den F p)) (fun _ => True) FO) with (p := p) (q := q)
    as (w & E & I); auto.
  - intros s _ Z. apply (jac_is_zero_spec F) in Z. now rewrite Z.
  - intros s _ Z. destruct (jac_affine s Z) as (x & y & E & D). exists x, y, (o1 F). now rewrite D.
  - exists w. split; auto. now rewrite I, apt_opt_inj, (jac_eqb_den F FK).
Qed.

Lemma prj_den_one a b x y : prj_ok F a b (x, y, o1 F) -> prj_den F (x, y, o1 F) <> Inf -> prj_den F (x, y, o1 F) = Aff x y.
Proof.
  intros O N. destruct (prj_cases F FK a b (x, y, o1 F) O) as [[_ D']|[_ (x' & y' & z & Nz & E & D' & _)]]; [congruence|].
  injection E as E1 E2 E3. rewrite D'. subst z. f_equal.
  - rewrite E1. ring.
  - rewrite E2. ring.
Qed.
Theorem prj_print_iff a b p q : prj_ok F a b p -> prj_ok F a b q ->
  exists w, point_print fmt (prj_is_zero F) (prj_to_affine F) p = Ok w /\
  (point_print fmt (prj_is_zero F) (prj_to_affine F) q = Ok w <-> prj_eqb F p q = true).
Proof.
  intros Op Oq.
  destruct (point_print_iff fmt (prj_is_zero F) (prj_to_affine F) (fun p => apt_opt (prj_den F p)) (prj_ok F a b) FO) with (p := p) (q := q)
    as (w & E & I); auto.
  - intros s O Z. apply (prj_is_zero_spec F FK a b s O) in Z. now rewrite Z.
  - intros s O Z. assert (N : prj_den F s <> Inf). { intros E. apply (prj_is_zero_spec F FK a b s O) in E. congruence. }
    destruct (prj_to_affine_spec F FK a b s O) as (t & E & OT & D & [->|(x & y & ->)] & _).
    + exfalso. apply N. rewrite <- D. unfold prj_den. now rewrite (rk_eqb_refl F R).
    + exists x, y, (o1 F). split; auto. rewrite <- D in *. now rewrite (prj_den_one a b).
  - exists w. split; auto. now rewrite I, apt_opt_inj, (prj_eqb_den F FK a b).
Qed.

Theorem edw_print_iff a d p q : edw_ok F a d p -> edw_ok F a d q ->
  exists w, point_print fmt (edw_is_zero F) (edw_to_affine F) p = Ok w /\
  (point_print fmt (edw_is_zero F) (edw_to_affine F) q = Ok w <-> edw_eqb F p q = true).
Proof.
  intros Op Oq.
  destruct (point_print_iff fmt (edw_is_zero F) (edw_to_affine F)
    (fun p => if edw_is_zero F p then None else Some (edw_den F p)) (edw_ok F a d) FO) with (p := p) (q := q) as (w & E & I); auto.
  - intros s O Z. now rewrite Z.
  - intros s O Z. rewrite Z, (edw_to_affine_spec F FK a d s O). destruct (edw_den F s) as [x y]. cbn [fst snd]. eauto.
  - exists w. split; auto. rewrite I, (edw_eqb_den F FK a d) by auto.
    pose proof (edw_is_zero_spec F FK a d p Op). pose proof (edw_is_zero_spec F FK a d q Oq).
    destruct (edw_is_zero F p), (edw_is_zero F q); split; intros EE; try discriminate; try tauto.
    + transitivity (te_zero F); [tauto|symmetry; tauto].
    + exfalso. assert (edw_den F p = te_zero F) by tauto. assert (edw_den F q = te_zero F) by congruence. intuition discriminate.
    + exfalso. assert (edw_den F q = te_zero F) by tauto. assert (edw_den F p = te_zero F) by congruence. intuition discriminate.
    + congruence.
    + congruence.
Qed.

Theorem bn_print_iff p q : exists w, bn_print fmt (bn_is_zero F) (bn_to_affine F) p = Ok w /\
  (bn_print fmt (bn_is_zero F) (bn_to_affine F) q = Ok w <-> jac_den F p = jac_den F q).
Proof.
  assert (A : forall s, bn_is_zero F s = false -> exists x y, bn_to_affine F s = Ok (x, y, o1 F) /\ jac_den F s = Aff x y).
  { intros s. rewrite (bn_to_affine_jac F FK). destruct s as [[X Y] Z]. intros Zs. apply jac_affine. exact Zs. }
  assert (Z : forall s, bn_is_zero F s = true -> jac_den F s = Inf).
  { intros [[X Y] Z] H. apply (jac_is_zero_spec F). exact H. }
  unfold bn_print. destruct (bn_is_zero F p) eqn:Zp; destruct (bn_is_zero F q) eqn:Zq.
  - rewrite (Z p), (Z q) by auto. eexists. split; [reflexivity|tauto].
  - destruct (A q Zq) as (x & y & E & D). rewrite E, D, (Z p) by auto. cbn [bind].
    destruct (coordinates_text_inj fmt FO (x, y, o1 F)) as (w & -> & (w' & ->) & _). eexists. split; [reflexivity|]. split; discriminate.
  - destruct (A p Zp) as (x & y & E & D). rewrite E, D, (Z q) by auto. cbn [bind].
    destruct (coordinates_text_inj fmt FO (x, y, o1 F)) as (w & -> & (w' & ->) & _). eexists. split; [reflexivity|]. split; discriminate.
  - destruct (A p Zp) as (x & y & E & D), (A q Zq) as (x' & y' & E' & D'). rewrite E, E', D, D'. cbn [bind].
    destruct (coordinates_text_inj fmt FO (x, y, o1 F)) as (w & EW & _ & I). exists w. split; auto. split.
    + intros H. apply I in H. congruence.
    + intros H. injection H as <- <-. exact EW.
Qed.
End Curves.

Lemma towers_print_free P (OK : fp_ok P) :
  let print := fun x : Fp P => fp_print P (repr P x) in
  prefix_free print /\ prefix_free (quad_print print) /\ prefix_free (cubic_print print) /\
  prefix_free (quad_print (quad_print print)) /\ prefix_free (quad_print (cubic_print print)) /\
  prefix_free (cubic_print (quad_print print)) /\ prefix_free (quad_print (cubic_print (quad_print print))).
Proof.
  cbv zeta. pose proof (fp_print_free P OK) as H.
  repeat split; repeat (apply quad_print_free || apply cubic_print_free); exact H.
Qed.
Lemma formats_ok P (OK : fp_ok P) : fmt_ok (fp_fmt P) /\ fmt_ok (fp2_fmt (fp_fmt P)) /\ fmt_ok (fp3_fmt (fp_fmt P)).
Proof.
  pose proof (fp_fmt_ok P OK) as H. pose proof (fp_fmt_nostar P OK) as S.
  split; [exact H|]. split; [now apply fp2_fmt_ok|now apply fp3_fmt_ok].
Qed.

Lemma fp2_fmt_spec P (OK : fp_ok P) x0 x1 :
  fp2_fmt (fp_fmt P) (x0, x1) = Ok (dec (den P (repr P x1)) ++ str_z ++ dec (den P (repr P x0))).
Proof. unfold fp2_fmt. cbn [fst snd]. now rewrite !fp_fmt_spec. Qed.
Lemma fp3_fmt_spec P (OK : fp_ok P) x0 x1 x2 :
  fp3_fmt (fp_fmt P) (x0, x1, x2) =
  Ok (dec (den P (repr P x2)) ++ str_z2 ++ dec (den P (repr P x1)) ++ str_z ++ dec (den P (repr P x0))).
Proof. unfold fp3_fmt. cbn [fst snd]. now rewrite !fp_fmt_spec. Qed.
Lemma fmt_texts P (OK : fp_ok P) x0 x1 x2 :
  fp_fmt P x0 = Ok (dec (den P (repr P x0))) /\
  fp2_fmt (fp_fmt P) (x0, x1) = Ok (dec (den P (repr P x1)) ++ str_z ++ dec (den P (repr P x0))) /\
  fp3_fmt (fp_fmt P) (x0, x1, x2) =
  Ok (dec (den P (repr P x2)) ++ str_z2 ++ dec (den P (repr P x1)) ++ str_z ++ dec (den P (repr P x0))).
Proof. auto using fp_fmt_spec, fp2_fmt_spec, fp3_fmt_spec. Qed.

Lemma print_examples :
  gf_print G128 [42; 1]%N = repeat 48 15 ++ [49] ++ repeat 48 14 ++ [50; 97; 10] /\
  fp2_fmt (fun z => Ok (dec z)) (7, 12) = Ok [49; 50; 42; 122; 32; 43; 32; 55] /\
  quad_print (fun z => Ok (bigint_print [z])) (7, 12) = Ok [99; 48; 47; 99; 49; 58; 10; 55; 10; 49; 50; 10] /\
  point_print (fun z => Ok (dec z)) (fun _ => false) Ok (3, 4, 1) = Ok [40; 51; 32; 44; 32; 52; 41; 10] /\
  bigint_print_hex [0; 26] = [49; 97] ++ repeat 48 16 ++ [10] /\ bigint_print_hex [0; 0] = [48; 10].
Proof. vm_compute. repeat split. Qed.
