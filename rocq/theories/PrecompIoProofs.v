(** Round trips of extension-field elements, vectors of them, and pairing
    precomputations. *)
From Coq Require Import ZArith List Bool Lia.
From Verif Require Import Result Limbs LimbsProofs StreamModel StreamProofs SerializationModel SerializationProofs
  FpModel FpSpec FpField FpInst ParamsModel ParamsProofs AlgorithmsField FieldOps CurveSpec CurveModel CurveProofs
  CurveIoModel CurveIoProofs PairingModel PrecompIoModel Examples.
Import ListNotations.
Open Scope Z_scope.

(** x is written, and read back from between white space and the end of a
    token, leaving the rest of the stream. *)
Definition io_ok {T} (bin : bool) (wr : T -> result stream) (rd : stream -> result (T * stream)) (x : T) : Prop :=
  exists w, wr x = Ok w /\
    forall ws rest, before bin ws -> after bin rest -> rd (ws ++ w ++ rest) = Ok (x, rest).
(** The same for objects which end with a newline of their own: nothing is
    asked of what follows. *)
Definition io_ok_any {T} (bin : bool) (wr : T -> result stream) (rd : stream -> result (T * stream)) (x : T) : Prop :=
  exists w, wr x = Ok w /\ forall ws rest, before bin ws -> rd (ws ++ w ++ rest) = Ok (x, rest).

Lemma io_codec {K} bin (C : codec K) : codec_ok bin C -> forall x, io_ok bin (cd_wr C) (cd_rd C) x.
Proof. intros CO x. apply (co_rt _ _ CO). Qed.
Lemma nl_before bin : before bin (output_newline bin).
Proof. destruct bin; cbn; auto. Qed.
Lemma nl_after bin rest : after bin (output_newline bin ++ rest).
Proof. destruct bin; cbn; auto. Qed.
Lemma ch_nl_after bin rest : after bin (ch_nl :: rest).
Proof. destruct bin; cbn; auto. Qed.
Lemma consume_nl bin rest : consume_output_newline bin (output_newline bin ++ rest) = Ok rest.
Proof. now destruct bin. Qed.

Lemma at_start {T} bin (rd : stream -> result (T * stream)) x w :
  (forall ws rest, before bin ws -> after bin rest -> rd (ws ++ w ++ rest) = Ok (x, rest)) ->
  forall rest, after bin rest -> rd (w ++ rest) = Ok (x, rest).
Proof. intros H rest. apply (H [] rest). apply nil_before. Qed.

(** ** Extension fields *)
Section Towers.
Context {K : Type} (bin : bool) (C : codec K).
Hypothesis CO : codec_ok bin C.
Theorem fp4_codec_ok : codec_ok bin (fp4_codec bin C).
Proof. apply fp2_codec_ok, fp2_codec_ok, CO. Qed.
Theorem fp6_2over3_codec_ok : codec_ok bin (fp6_2over3_codec bin C).
Proof. apply fp2_codec_ok, fp3_codec_ok, CO. Qed.
Theorem fp6_3over2_codec_ok : codec_ok bin (fp6_3over2_codec bin C).
Proof. apply fp3_codec_ok, fp2_codec_ok, CO. Qed.
Theorem fp12_codec_ok : codec_ok bin (fp12_codec bin C).
Proof. apply fp2_codec_ok, fp6_3over2_codec_ok. Qed.
End Towers.

(** ** Lists *)
Section Lists.
Context {T : Type} (bin : bool) (wr : T -> result stream) (rd : stream -> result (T * stream)).

Lemma write_all_read l : Forall (io_ok bin wr rd) l -> exists w, write_all bin wr l = Ok w /\
  forall rest, read_many (read_elt bin rd) (length l) (w ++ rest) = Ok (l, rest).
Proof.
  induction 1 as [|x l (w & E & Rw) _ (ws & Es & Rs)]; cbn [write_all length read_many].
  - now exists [].
  - rewrite E, Es. cbn [bind]. eexists. split; [reflexivity|]. intros rest.
    unfold read_elt at 1. rewrite <- !app_assoc.
    rewrite (at_start bin _ _ _ Rw) by apply nl_after. cbn [bind].
    rewrite consume_nl. cbn [bind]. rewrite Rs. reflexivity.
Qed.

Theorem sized_ok l : Forall (io_ok bin wr rd) l -> Z.of_nat (length l) < 2 ^ 64 ->
  exists w, write_sized bin wr l = Ok w /\ forall rest, read_sized bin rd (w ++ rest) = Ok (l, rest).
Proof.
  intros H HL. destruct (write_all_read l H) as (w & E & Rw). unfold write_sized. rewrite E. cbn [bind].
  eexists. split; [reflexivity|]. intros rest. unfold read_sized, read_vector. rewrite <- !app_assoc.
  rewrite read_size by (unfold B; lia). cbn [bind consume_newline read_char]. rewrite Nat2Z.id. apply Rw.
Qed.

(** The reader of extension-field vectors restores the elements and leaves the
    last newline in the stream. *)
Lemma ext_many l : Forall (io_ok bin wr rd) l -> l <> [] -> exists w, write_all bin wr l = Ok w /\
  forall ws rest, before bin ws ->
    read_many rd (length l) (ws ++ w ++ rest) = Ok (l, output_newline bin ++ rest).
Proof.
  induction 1 as [|x l (w & E & Rw) H IH]; intros NE; [contradiction|].
  destruct l as [|y l].
  - cbn [write_all length read_many]. rewrite E. cbn [bind]. eexists. split; [reflexivity|].
    intros ws rest HB. rewrite app_nil_r, <- !app_assoc, Rw; auto using nl_after.
  - destruct IH as (ws' & Es & Rs); [discriminate|]. cbn [write_all] in Es |- *. rewrite E. cbn [bind].
    rewrite Es. cbn [bind]. eexists. split; [reflexivity|]. intros ws rest HB.
    cbn [length read_many]. rewrite <- !app_assoc, Rw; auto using nl_after. cbn [bind].
    cbn [length read_many] in Rs. rewrite (Rs (output_newline bin) rest (nl_before bin)). reflexivity.
Qed.
Theorem ext_vector_read l : Forall (io_ok bin wr rd) l -> Z.of_nat (length l) < 2 ^ 64 ->
  exists w, write_sized bin wr l = Ok w /\ forall rest,
    ext_read_vector rd (w ++ rest) = Ok (l, match l with [] => rest | _ => output_newline bin ++ rest end).
Proof.
  intros H HL. destruct l as [|x l].
  - eexists. split; [reflexivity|]. intros rest. reflexivity.
  - destruct (ext_many (x :: l) H) as (w & E & Rw); [discriminate|]. unfold write_sized. rewrite E. cbn [bind].
    eexists. split; [reflexivity|]. intros rest. unfold ext_read_vector. rewrite <- !app_assoc.
    rewrite read_size by (unfold B; lia). cbn [bind read_char]. rewrite Nat2Z.id.
    apply (Rw [] rest (nil_before bin)).
Qed.
End Lists.

(** ** Records *)
Section Fields.
Context {K : Type} (bin : bool) (C : codec K).
Hypothesis CO : codec_ok bin C.

Ltac field x := let w := fresh "w" in let E := fresh "E" in let Rd := fresh "Rd" in
  destruct (co_rt _ _ CO x) as (w & E & Rd); rewrite E; cbn [bind].
Ltac rd_field Rd := rewrite Rd by auto using nil_before, sep_after, sep_before, ch_nl_after; cbn [bind];
  rewrite ?consume_sep; cbn [bind].
Theorem io2 p : io_ok bin (write2 bin C) (read2 bin C) p.
Proof.
  destruct p as [a b]. unfold io_ok, write2, read2.
  destruct (co_rt _ _ CO a) as (wa & Ea & Ra). destruct (co_rt _ _ CO b) as (wb & Eb & Rb).
  rewrite Ea, Eb. cbn [bind]. eexists. split; [reflexivity|]. intros ws rest HB HA. rewrite <- !app_assoc.
  rd_field Ra. rewrite (at_start bin _ _ _ Rb) by auto. reflexivity.
Qed.
Theorem io3 p : io_ok bin (write3 bin C) (read3 bin C) p.
Proof.
  destruct p as [[a b] d]. unfold io_ok, write3, read3.
  destruct (co_rt _ _ CO a) as (wa & Ea & Ra). destruct (co_rt _ _ CO b) as (wb & Eb & Rb).
  destruct (co_rt _ _ CO d) as (wd & Ed & Rd).
  rewrite Ea, Eb, Ed. cbn [bind]. eexists. split; [reflexivity|]. intros ws rest HB HA. rewrite <- !app_assoc.
  rd_field Ra. rd_field (at_start bin _ _ _ Rb). rewrite (at_start bin _ _ _ Rd) by auto. reflexivity.
Qed.
Theorem edw_g1_io p : io_ok bin (write3 bin C) (edw_g1_read C) p.
Proof.
  destruct p as [[a b] d]. unfold io_ok, write3, edw_g1_read.
  destruct (co_rt _ _ CO a) as (wa & Ea & Ra). destruct (co_rt _ _ CO b) as (wb & Eb & Rb).
  destruct (co_rt _ _ CO d) as (wd & Ed & Rd).
  rewrite Ea, Eb, Ed. cbn [bind]. eexists. split; [reflexivity|]. intros ws rest HB HA. rewrite <- !app_assoc.
  rd_field Ra. rewrite Rb by auto using sep_before, sep_after. cbn [bind].
  rewrite Rd by auto using sep_before. reflexivity.
Qed.
Theorem conics_io l : Z.of_nat (length l) < 2 ^ 64 ->
  exists w, conics_write bin C l = Ok w /\ forall rest, conics_read bin C (w ++ rest) = Ok (l, rest).
Proof. apply sized_ok. apply Forall_forall. intros x _. apply io3. Qed.
Theorem bn_g2_io p : Z.of_nat (length (snd p)) < 2 ^ 64 -> io_ok_any bin (bn_g2_write bin C) (bn_g2_read bin C) p.
Proof.
  destruct p as [[QX QY] l]. cbn [snd]. intros HL. unfold io_ok_any, bn_g2_write, bn_g2_read.
  destruct (io2 (QX, QY)) as (w & E & Rw). rewrite E. cbn [bind].
  destruct (sized_ok bin (write3 bin C) (read3 bin C) l) as (ws & Es & Rs); auto.
  { apply Forall_forall. intros x _. apply io3. }
  rewrite Es. cbn [bind]. eexists. split; [reflexivity|]. intros pre rest HB. rewrite <- !app_assoc.
  rewrite Rw by (cbn [app]; auto using ch_nl_after). cbn [bind app consume_newline read_char].
  rewrite Rs. reflexivity.
Qed.
Theorem dbl_io d : io_ok bin (dbl_write bin C) (dbl_read bin C) d.
Proof.
  destruct d as [a b c e]. unfold io_ok, dbl_write, dbl_read. cbn [c_H c_4C c_J c_L].
  destruct (co_rt _ _ CO a) as (wa & Ea & Ra). destruct (co_rt _ _ CO b) as (wb & Eb & Rb).
  destruct (co_rt _ _ CO c) as (wc & Ec & Rc). destruct (co_rt _ _ CO e) as (we & Ee & Re).
  rewrite Ea, Eb, Ec, Ee. cbn [bind]. eexists. split; [reflexivity|]. intros ws rest HB HA. rewrite <- !app_assoc.
  rd_field Ra. rd_field (at_start bin _ _ _ Rb). rd_field (at_start bin _ _ _ Rc).
  rewrite (at_start bin _ _ _ Re) by auto. reflexivity.
Qed.
Theorem add_io d : io_ok bin (add_write bin C) (add_read bin C) d.
Proof.
  destruct d as [a b]. unfold io_ok, add_write, add_read. cbn [c_L1 c_RZ].
  destruct (io2 (a, b)) as (w & E & Rw). exists w. split; [exact E|]. intros ws rest HB HA.
  rewrite Rw by auto. reflexivity.
Qed.
Theorem mnt_g2_io q : Z.of_nat (length (dbl_coeffs q)) < 2 ^ 64 -> Z.of_nat (length (add_coeffs q)) < 2 ^ 64 ->
  io_ok_any bin (mnt_g2_write bin C) (mnt_g2_read bin C) q.
Proof.
  destruct q as [a b c d e dc ac]. cbn [dbl_coeffs add_coeffs]. intros H1 H2.
  unfold io_ok_any, mnt_g2_write, mnt_g2_read. cbn [QX QY QY2 QX_over_twist QY_over_twist dbl_coeffs add_coeffs].
  destruct (co_rt _ _ CO a) as (wa & Ea & Ra). destruct (co_rt _ _ CO b) as (wb & Eb & Rb).
  destruct (co_rt _ _ CO c) as (wc & Ec & Rc). destruct (co_rt _ _ CO d) as (wd & Ed & Rd).
  destruct (co_rt _ _ CO e) as (we & Ee & Re).
  destruct (sized_ok bin (dbl_write bin C) (dbl_read bin C) dc) as (w1 & E1 & R1); auto.
  { apply Forall_forall. intros x _. apply dbl_io. }
  destruct (sized_ok bin (add_write bin C) (add_read bin C) ac) as (w2 & E2 & R2); auto.
  { apply Forall_forall. intros x _. apply add_io. }
  rewrite Ea, Eb, Ec, Ed, Ee, E1, E2. cbn [bind]. eexists. split; [reflexivity|].
  intros ws rest HB. rewrite <- !app_assoc.
  rd_field Ra. rd_field (at_start bin _ _ _ Rb). rd_field (at_start bin _ _ _ Rc). rd_field (at_start bin _ _ _ Rd).
  rewrite (at_start bin _ _ _ Re) by (cbn [app]; apply ch_nl_after). cbn [bind app consume_newline read_char].
  rewrite R1. cbn [bind]. rewrite R2. reflexivity.
Qed.
End Fields.

Theorem mnt_g1_io {K L} bin (C : codec K) (CL : codec L) p : codec_ok bin C -> codec_ok bin CL ->
  io_ok bin (mnt_g1_write bin C CL) (mnt_g1_read bin C CL) p.
Proof.
  intros CO CLO. destruct p as [a b c d]. unfold io_ok, mnt_g1_write, mnt_g1_read. cbn [PX PY PX_twist PY_twist].
  destruct (co_rt _ _ CO a) as (wa & Ea & Ra). destruct (co_rt _ _ CO b) as (wb & Eb & Rb).
  destruct (co_rt _ _ CLO c) as (wc & Ec & Rc). destruct (co_rt _ _ CLO d) as (wd & Ed & Rd).
  rewrite Ea, Eb, Ec, Ed. cbn [bind]. eexists. split; [reflexivity|]. intros ws rest HB HA. rewrite <- !app_assoc.
  rewrite Ra by auto using sep_after. cbn [bind]. rewrite consume_sep. cbn [bind].
  rewrite (at_start bin _ _ _ Rb) by auto using sep_after. cbn [bind]. rewrite consume_sep. cbn [bind].
  rewrite (at_start bin _ _ _ Rc) by auto using sep_after. cbn [bind]. rewrite consume_sep. cbn [bind].
  rewrite (at_start bin _ _ _ Rd) by auto. reflexivity.
Qed.

(** ** bn128 *)
Section Bn128.
Context {K : Type} (bin : bool) (C : codec K).
Hypothesis CO : codec_ok bin C.
Lemma elts_ok l : Forall (io_ok bin (cd_wr C) (cd_rd C)) l.
Proof. apply Forall_forall. intros x _. now apply io_codec. Qed.
(** The whole text is consumed and the target keeps its old value. *)
Theorem bn128_g1_lost P old : exists w, bn128_g1_write bin C P = Ok w /\
  forall rest, bn128_g1_read bin C old (w ++ rest) = Ok (old, rest).
Proof.
  destruct P as [[a b] c]. unfold bn128_g1_write, bn128_g1_read, bn128_read_elt.
  destruct (write_all_read bin (cd_wr C) (cd_rd C) [a; b; c] (elts_ok _)) as (w & E & Rw).
  exists w. split; [exact E|]. intros rest.
  change (S (S (S O))) with (length [a; b; c]). rewrite Rw. reflexivity.
Qed.

Lemma write_all_app l1 l2 w1 w2 : write_all bin (cd_wr C) l1 = Ok w1 -> write_all bin (cd_wr C) l2 = Ok w2 ->
  write_all bin (cd_wr C) (l1 ++ l2) = Ok (w1 ++ w2).
Proof.
  revert w1. induction l1 as [|x l IH]; intros w1 H1 H2; cbn [write_all app] in *.
  - now injection H1 as <-.
  - destruct (cd_wr C x) as [w| | | | |]; try discriminate. cbn [bind] in *.
    destruct (write_all bin (cd_wr C) l) as [w'| | | | |] eqn:E; try discriminate. cbn [bind] in *.
    injection H1 as <-. rewrite (IH w' eq_refl H2). cbn [bind]. now rewrite <- !app_assoc.
Qed.
Lemma line_read c : exists w, write_all bin (cd_wr C) (fp2_triple_list c) = Ok w /\
  forall rest, bn128_read_line bin C (w ++ rest) = Ok (c, rest).
Proof.
  destruct c as [[[aa ab] [ba bb]] [ca cb]]. cbn [fp2_triple_list fp2_list fst snd app].
  destruct (write_all_read bin (cd_wr C) (cd_rd C) [aa; ab; ba; bb; ca; cb] (elts_ok _)) as (w & E & Rw).
  exists w. split; [exact E|]. intros rest. specialize (Rw rest). cbn [length read_many] in Rw.
  unfold bn128_read_line, bn128_read_elt. revert Rw.
  repeat (match goal with |- context [bind (read_elt bin (cd_rd C) ?s) _] =>
    destruct (read_elt bin (cd_rd C) s) as [[? ?]| | | | |]; cbn [bind]; try discriminate end).
  intros H. now inversion H.
Qed.
Lemma lines_read l : exists w, write_all bin (cd_wr C) (flat_map fp2_triple_list l) = Ok w /\
  forall rest, read_many (bn128_read_line bin C) (length l) (w ++ rest) = Ok (l, rest).
Proof.
  induction l as [|c l (ws & Es & Rs)]; cbn [flat_map length read_many].
  - now exists [].
  - destruct (line_read c) as (w & E & Rw). exists (w ++ ws). split; [now apply write_all_app|].
    intros rest. rewrite <- app_assoc, Rw. cbn [bind]. rewrite Rs. reflexivity.
Qed.
(** The lines are restored, Q is not. *)
Theorem bn128_g2_lost Q coeffs old : Z.of_nat (length coeffs) < 2 ^ 64 ->
  exists w, bn128_g2_write bin C (Q, coeffs) = Ok w /\
    forall rest, bn128_g2_read bin C old (w ++ rest) = Ok ((old, coeffs), rest).
Proof.
  intros HL. unfold bn128_g2_write, bn128_g2_read.
  destruct (line_read Q) as (wq & Eq & Rq). destruct (lines_read coeffs) as (wc & Ec & Rc).
  rewrite Eq, Ec. cbn [bind]. eexists. split; [reflexivity|]. intros rest. rewrite <- !app_assoc, Rq. cbn [bind].
  rewrite read_size by (unfold B; lia). cbn [bind consume_newline read_char]. rewrite Nat2Z.id, Rc. reflexivity.
Qed.
End Bn128.

(** ** A vector of extension-field elements followed by a point
    In text mode with point compression the newline left behind is taken for
    the flag of the point and the flag for the separator: the point is read as
    the neutral element, and nothing fails. *)
Section Compose.
Context {K : Type} (F : Fops K) (C : codec K) (sqrt : K -> result K) (rhs : K -> K).
Hypothesis CO : codec_ok false C.
Variable to_affine : pt K -> result (pt K).
Variable is_zero : pt K -> bool.
Variable zero : pt K.
Lemma sw_after_newline p q w rest : to_affine p = Ok q -> sw_write C false true to_affine is_zero p = Ok w ->
  sw_read F C false true sqrt rhs zero (ch_nl :: w ++ rest) = Ok (zero, rest).
Proof.
  intros EQ EW. unfold sw_write in EW. rewrite EQ in EW. cbn [bind] in EW.
  destruct q as [[X Y] Z]. destruct (co_rt _ _ CO X) as (wx & Ex & Rx). rewrite Ex in EW. cbn [bind] in EW.
  assert (HL : exists l, (l = 0 \/ l = 1) /\ cd_lsb C Y = Ok l).
  { destruct (co_bit _ _ CO Y) as [H|H]; [exists 0|exists 1]; auto. }
  destruct HL as (l & Hl & El). rewrite El in EW. cbn [bind] in EW.
  apply (f_equal (get_ok [])) in EW. cbn [get_ok] in EW. subst w.
  set (f := if is_zero (X, Y, Z) then 1 else 0).
  assert (Hf : f = 0 \/ f = 1) by (unfold f; destruct (is_zero (X, Y, Z)); auto).
  assert (Df : forall tl, dec f ++ tl = (ch_0 + f) :: tl) by (intros; destruct Hf as [-> | ->]; reflexivity).
  assert (Dl : forall tl, dec l ++ tl = (ch_0 + l) :: tl) by (intros; destruct Hl as [-> | ->]; reflexivity).
  assert (Rx' : cd_rd C (ch_sp :: wx ++ ch_sp :: (ch_0 + l) :: rest) = Ok (X, ch_sp :: (ch_0 + l) :: rest)).
  { apply (Rx [ch_sp] (ch_sp :: (ch_0 + l) :: rest)); [repeat constructor|reflexivity]. }
  match goal with |- sw_read _ _ _ _ _ _ _ (ch_nl :: ?t ++ rest) = _ =>
    assert (ET : t ++ rest = (ch_0 + f) :: ch_sp :: wx ++ ch_sp :: (ch_0 + l) :: rest) end.
  { rewrite <- !app_assoc. rewrite Dl. rewrite Df. reflexivity. }
  rewrite ET. unfold sw_read. cbn [read_char bind consume_output_separator]. rewrite Rx'. reflexivity.
Qed.
End Compose.

Theorem vector_then_point {K T} (F : Fops K) (FK : field_ok F) (C : codec K) (CT : codec T) sqrt b v p :
  codec_ok false C -> codec_ok false CT -> v <> [] -> Z.of_nat (length v) < 2 ^ 64 ->
  exists wv wp, write_sized false (cd_wr CT) v = Ok wv /\
    sw_write C false true (jac_to_affine F) (jac_is_zero F) p = Ok wp /\
    forall rest, exists s, ext_read_vector (cd_rd CT) (wv ++ wp ++ rest) = Ok (v, s) /\
      sw_read F C false true sqrt (jac_rhs F b) (jac_zero F) s = Ok (jac_zero F, rest).
Proof.
  intros CO CTO NE HL.
  destruct (ext_vector_read false (cd_wr CT) (cd_rd CT) v) as (wv & Ev & Rv); auto.
  { apply Forall_forall. intros x _. now apply io_codec. }
  destruct (jac_to_affine_spec F FK p) as (q & E & _).
  assert (HW : exists wp, sw_write C false true (jac_to_affine F) (jac_is_zero F) p = Ok wp).
  { unfold sw_write. rewrite E. cbn [bind]. destruct q as [[X Y] Z].
    destruct (co_rt _ _ CO X) as (wx & -> & _). cbn [bind].
    destruct (co_bit _ _ CO Y) as [-> | ->]; cbn [bind]; eauto. }
  destruct HW as (wp & EP). exists wv, wp. split; [exact Ev|]. split; [exact EP|]. intros rest.
  eexists. split; [apply Rv|]. destruct v; [contradiction|]. cbn [output_newline app].
  eapply sw_after_newline; eauto.
Qed.

Theorem ext_vector_binary {T} (C : codec T) v : codec_ok true C -> Z.of_nat (length v) < 2 ^ 64 ->
  exists w, write_sized true (cd_wr C) v = Ok w /\ forall rest, ext_read_vector (cd_rd C) (w ++ rest) = Ok (v, rest).
Proof.
  intros CO HL. destruct (ext_vector_read true (cd_wr C) (cd_rd C) v) as (w & E & Rw); auto.
  { apply Forall_forall. intros x _. now apply io_codec. }
  exists w. split; [exact E|]. intros rest. rewrite Rw. now destruct v.
Qed.
Theorem ext_vector_text {T} (C : codec T) v : codec_ok false C -> Z.of_nat (length v) < 2 ^ 64 -> v <> [] ->
  exists w, write_sized false (cd_wr C) v = Ok w /\
    forall rest, ext_read_vector (cd_rd C) (w ++ rest) = Ok (v, ch_nl :: rest) /\ ch_nl :: rest <> rest.
Proof.
  intros CO HL NE. destruct (ext_vector_read false (cd_wr C) (cd_rd C) v) as (w & E & Rw); auto.
  { apply Forall_forall. intros x _. now apply io_codec. }
  exists w. split; [exact E|]. intros rest. rewrite Rw. split; [now destruct v|].
  intros H. apply (f_equal (@length Z)) in H. cbn [length] in H. lia.
Qed.

Lemma toy_streams : fp_ok toy /\ codec_ok false (fp_codec toy false true) /\
  exists P old : Fp toy * Fp toy * Fp toy, old <> P.
Proof.
  pose proof (fco_ok _ toy_C_ok) as OK. split; [exact OK|]. split; [now apply fp_codec_ok|].
  set (F := fp_ops (fc_P toy_C) (fco_ok _ toy_C_ok) (fco_inv _ toy_C_ok)).
  exists (o0 F, o0 F, o0 F), (o1 F, o0 F, o0 F). intros H.
  apply (fk_1_neq_0 F (prime_field_ok toy_C toy_C_ok)). exact (f_equal (fun t => fst (fst t)) H).
Qed.
Lemma toy_vectors : codec_ok false (fp_codec toy false true) /\
  codec_ok false (fp2_codec false (fp_codec toy false true)) /\
  exists v : list (Fp toy * Fp toy), v <> [] /\ Z.of_nat (length v) < 2 ^ 64.
Proof.
  destruct toy_streams as (OK & CO & ([[a b] c] & _ & _)). split; [exact CO|].
  split; [now apply fp2_codec_ok|]. exists [(a, b)]. split; [discriminate|reflexivity].
Qed.
