(** The shipped prime-field constants satisfy every equation the arithmetic
    relies on: primality (Pocklington certificates), Montgomery constants,
    2-adicity data, non-residue, root of unity, primitive generator. *)
From Coq Require Import ZArith List Lia Bool Znumtheory Zpow_facts.
From Verif Require Import Algebra NumTheory Certs Limbs LimbsProofs BigintProofs FpModel FpSpec FpProofs
  FpField ParamsModel.
Import ListNotations.
Open Scope Z_scope.

Record field_consts_ok (C : field_consts) : Prop := {
  fco_ok : fp_ok (fc_P C);
  fco_inv : fp_ok_inv (fc_P C);
  fco_bits : fp_num_bits (fc_P C) = bit_length (fc_p C);
  fco_odd : Z.odd (fc_p C) = true;
  fco_euler : fc_p C = 2 * fc_euler C + 1;
  fco_s : 1 <= fc_s C;
  fco_t : fc_p C - 1 = 2 ^ fc_s C * fc_t C;
  fco_tm1 : fc_t C = 2 * fc_tm1 C + 1;
  fco_tm1_pos : 0 <= fc_tm1 C;
  fco_nqr_range : 0 < fc_nqr C < fc_p C;
  fco_nqr_euler : fc_nqr C ^ fc_euler C mod fc_p C = fc_p C - 1;
  fco_nqr : forall x, (x * x) mod fc_p C <> fc_nqr C;
  fco_nqr_to_t : fc_nqr C ^ fc_t C mod fc_p C = fc_nqr_to_t C;
  fco_rou : fc_rou C ^ (2 ^ (fc_s C - 1)) mod fc_p C = fc_p C - 1;
  fco_rou_gen : fc_gen C ^ fc_t C mod fc_p C = fc_rou C;
  fco_gen : forall k, 0 < k < fc_p C - 1 -> fc_gen C ^ k mod fc_p C <> 1;
  fco_gen_range : 0 < fc_gen C < fc_p C
}.

Lemma prime_div_fac q l : prime q -> (forall qe, In qe l -> prime (fst qe) /\ 0 <= snd qe) ->
  (q | fac_prod l) -> In q (map fst l).
Proof.
  intros Pq. induction l as [|[q' e] l IH]; intros H D; cbn in *.
  - exfalso. apply Z.divide_pos_le in D; destruct Pq; lia.
  - apply prime_mult in D as [D|D]; auto.
    + left. destruct (H (q', e)) as [Pq' He]; [now left|]. cbn in *.
      symmetry. eapply prime_power_prime; eauto.
Qed.

Lemma primitive_root n l a : prime n -> fac_prod l = n - 1 ->
  (forall qe, In qe l -> prime (fst qe) /\ 0 <= snd qe /\
      a ^ (n - 1) mod n = 1 /\ Z.gcd (a ^ ((n - 1) / fst qe) - 1) n = 1) ->
  forall k, 0 < k < n - 1 -> a ^ k mod n <> 1.
Proof.
  intros Pn Hf H k Hk E. assert (Hn : 1 < n) by (destruct Pn; lia).
  assert (A1 : a ^ (n - 1) mod n = 1).
  { destruct l as [|qe l]; [cbn in Hf; lia|]. apply (H qe). now left. }
  set (g := Z.gcd k (n - 1)).
  assert (G : a ^ g mod n = 1) by (apply pow1_gcd; auto; lia).
  assert (G0 : 0 < g).
  { assert (0 <= g) by apply Z.gcd_nonneg.
    assert (g <> 0). { intros Eg. apply Z.gcd_eq_0 in Eg. lia. } lia. }
  assert (Gk : g <= k) by (apply Z.divide_pos_le; [lia|apply Z.gcd_divide_l]).
  destruct (Z.gcd_divide_r k (n - 1)) as [c Hc]. fold g in Hc.
  assert (1 < c) by nia.
  destruct (has_prime_divisor c) as (q & Pq & [c' Dq]); auto.
  assert (Hin : In q (map fst l)).
  { apply prime_div_fac; auto. { intros qe Hin. destruct (H qe Hin); tauto. }
    rewrite Hf, Hc, Dq. exists (c' * g). ring. }
  apply in_map_iff in Hin as (qe & <- & Hin). destruct (H qe Hin) as (_ & _ & _ & A2).
  assert (1 < fst qe) by (destruct Pq; lia).
  replace ((n - 1) / fst qe) with (g * c') in A2.
  2:{ rewrite Hc, Dq. replace (c' * fst qe * g) with (g * c' * fst qe) by ring.
      now rewrite Z.div_mul by lia. }
  assert (0 <= c') by nia.
  assert (A3 : a ^ (g * c') mod n = 1) by (apply pow1_mul; auto; lia).
  assert (D1 : (n | a ^ (g * c') - 1)).
  { apply Z.mod_divide; [lia|]. rewrite Zminus_mod, A3, (Z.mod_small 1) by lia. reflexivity. }
  assert (D2 : (n | 1)) by (rewrite <- A2; apply Z.gcd_greatest; auto; apply Z.divide_refl).
  apply Z.divide_pos_le in D2; lia.
Qed.

Lemma nonresidue p e a : prime p -> p = 2 * e + 1 -> 0 < a < p -> a ^ e mod p = p - 1 ->
  forall x, (x * x) mod p <> a.
Proof.
  intros Pp Ep Ha He x E. assert (1 < p) by (destruct Pp; lia).
  assert (Hx : x mod p <> 0).
  { intros Z0. rewrite Z.mul_mod, Z0, Z.mul_0_l, Z.mod_0_l in E by lia. lia. }
  pose proof (fermat_pred p x Pp Hx) as F.
  rewrite <- E, <- Zpower_mod in He by lia.
  replace (x * x) with (x ^ 2) in He by ring.
  rewrite <- Z.pow_mul_r in He by lia. replace (2 * e) with (p - 1) in He by lia.
  assert (p = 2) by lia. lia.
Qed.

(** Boolean check of all equations, given a certificate whose factorisation of
    p-1 is complete and whose bases are the generator. *)
Definition pw (a e m : Z) : Z := match e with Zpos e' => powmod a e' m | _ => -1 end.

Lemma pw_spec a e m r : 1 < m -> 0 <= r -> pw a e m = r -> 0 < e /\ a ^ e mod m = r.
Proof.
  intros Hm Hr. destruct e; cbn; try lia. rewrite powmod_spec by auto. split; auto; lia.
Qed.

Definition cert_facs (c : cert) : list (cert * Z) :=
  match c with Small _ => [] | Pock _ _ fs => fs end.
Definition cert_base (c : cert) : Z := match c with Small n => 0 | Pock _ a _ => a end.

Definition consts_check (C : field_consts) (c : cert) : bool :=
  let P := fc_P C in
  let p := fc_p C in
  let R := Bn (fp_n P) in
  let n := fp_n P in
  forallb (fun b => b)
  [ cert_num c =? p;
    fac_prod (map (fun t => (cert_num (fst t), snd t)) (cert_facs c)) =? p - 1;
    cert_base c =? fc_gen C;
    (1 <=? n)%nat; (length (fp_modulus P) =? n)%nat; limbsb (fp_modulus P);
    1 <? p; 2 * p <=? R; (fp_inv P * p + 1) mod B =? 0;
    (length (fp_Rsquared P) =? n)%nat; limbsb (fp_Rsquared P);
    val (fp_Rsquared P) =? (R * R) mod p;
    (length (fp_Rcubed P) =? n)%nat; limbsb (fp_Rcubed P);
    val (fp_Rcubed P) =? (R * R * R) mod p;
    negb (nth (n - 1) (fp_modulus P) 0 =? 0);
    fp_num_bits P =? bit_length p; Z.odd p;
    p =? 2 * fc_euler C + 1; 1 <=? fc_s C; p - 1 =? 2 ^ fc_s C * fc_t C;
    fc_t C =? 2 * fc_tm1 C + 1; 0 <=? fc_tm1 C;
    0 <? fc_nqr C; fc_nqr C <? p;
    0 <=? fc_nqr_to_t C; pw (fc_nqr C) (fc_t C) p =? fc_nqr_to_t C;
    pw (fc_nqr_to_t C) (2 ^ (fc_s C - 1)) p =? p - 1;
    pw (fc_rou C) (2 ^ (fc_s C - 1)) p =? p - 1;
    0 <=? fc_rou C;
    (if fc_gen C =? fc_nqr C then fc_nqr_to_t C else pw (fc_gen C) (fc_t C) p) =? fc_rou C;
    0 <? fc_gen C; fc_gen C <? p ].

Theorem consts_check_sound C c : check c = true -> consts_check C c = true -> field_consts_ok C.
Proof.
  unfold consts_check. cbv zeta. cbn [forallb]. rewrite !andb_true_iff.
  intros Hcheck H. decompose [and] H. clear H.
  repeat match goal with
  | H : (_ =? _) = true |- _ => apply Z.eqb_eq in H
  | H : (_ <? _) = true |- _ => apply Z.ltb_lt in H
  | H : (_ <=? _) = true |- _ => apply Z.leb_le in H
  | H : (_ <=? _)%nat = true |- _ => apply Nat.leb_le in H
  | H : (_ =? _)%nat = true |- _ => apply Nat.eqb_eq in H
  | H : limbsb _ = true |- _ => apply limbsb_iff in H
  | H : negb _ = true |- _ => apply negb_true_iff, Z.eqb_neq in H
  | H : pw _ _ _ = _ |- _ => apply pw_spec in H as [? H]; [|lia|lia]
  end.
  assert (Pp : prime (fc_p C)) by (eapply check_prime; eauto).
  assert (Hgen : fc_gen C ^ fc_t C mod fc_p C = fc_rou C).
  { match goal with H : (if _ then _ else _) = _ |- _ => rename H into Hg end.
    destruct (fc_gen C =? fc_nqr C) eqn:E.
    - apply Z.eqb_eq in E. rewrite E. congruence.
    - apply pw_spec in Hg as [? Hg]; auto. }
  assert (Heu : fc_nqr C ^ fc_euler C mod fc_p C = fc_p C - 1).
  { replace (fc_euler C) with (fc_t C * 2 ^ (fc_s C - 1)).
    2:{ match goal with H : fc_p C - 1 = 2 ^ fc_s C * _ |- _ => rename H into Hs end.
        replace (2 ^ fc_s C) with (2 * 2 ^ (fc_s C - 1)) in Hs; [lia|].
        rewrite <- Z.pow_succ_r by lia. f_equal. lia. }
    rewrite Z.pow_mul_r, Zpower_mod by lia. congruence. }
  constructor; auto.
  - constructor; auto.
  - constructor; auto.
  - eapply nonresidue; eauto.
  - destruct c as [n|n a fs]; cbn [cert_facs cert_num cert_base] in *.
    { exfalso. match goal with H : fac_prod _ = _ |- _ => cbn in H end.
      assert (E2 : fc_p C = 2) by lia.
      match goal with H : Z.odd (fc_p C) = true |- _ => rewrite E2 in H; discriminate end. }
    intros k Hk. subst n a.
    match goal with H : fac_prod ?l = _ |- _ => apply (primitive_root _ l) end; auto.
    intros qe Hin. apply in_map_iff in Hin as (t & <- & Ht). cbn [fst snd].
    cbn [check] in Hcheck; cbv zeta in Hcheck; rename Hcheck into Hc.
    apply andb_true_iff in Hc as [Hc' Hc]. apply andb_true_iff in Hc' as [_ Hc'].
    rewrite forallb_forall in Hc. specialize (Hc t Ht).
    rewrite !andb_true_iff in Hc. destruct Hc as [Hc He].
    split; [now apply check_sound|]. split; [now apply Z.leb_le|].
    apply check_bases_spec in Hc' as [F1 F2]; auto. split; auto.
    apply F2. apply in_map_iff. exists (cert_num (fst t), snd t). split; auto.
    apply in_map_iff. now exists t.
Qed.
