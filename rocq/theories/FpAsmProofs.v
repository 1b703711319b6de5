(** Symbolic execution of the programs of FpAsmModel.v. *)
From Coq Require Import ZArith List Bool Lia.
From Verif Require Import Result Limbs LimbsProofs FpModel FpAsmModel.
Import ListNotations.
Open Scope Z_scope.
Open Scope result_scope.

Definition rset (r : reg) (v : Z) (R : reg -> Z) : reg -> Z := fun r' => if reg_eqb r r' then v else R r'.
Definition mset (a : arr) (l : list Z) (Mm : arr -> list Z) : arr -> list Z :=
  fun a' => if arr_eqb a a' then l else Mm a'.

Lemma add_facts x y c : is_limb x -> is_limb y ->
  is_limb ((x + y + Z.b2z c) mod B) /\
  (x + y + Z.b2z c) mod B + B * Z.b2z (B <=? x + y + Z.b2z c) = x + y + Z.b2z c.
Proof.
  unfold is_limb. intros Hx Hy.
  assert (Hc : 0 <= Z.b2z c <= 1) by (destruct c; cbn; lia).
  split; [apply Z.mod_pos_bound; reflexivity|].
  destruct (Z.leb_spec B (x + y + Z.b2z c)); cbn [Z.b2z].
  - rewrite <- (Z.mod_unique _ B 1 (x + y + Z.b2z c - B)); unfold B in *; lia.
  - rewrite Z.mod_small by lia. lia.
Qed.
Lemma sub_facts x y c : is_limb x -> is_limb y ->
  is_limb ((x - y - Z.b2z c) mod B) /\
  (x - y - Z.b2z c) mod B - B * Z.b2z (x - y - Z.b2z c <? 0) = x - y - Z.b2z c.
Proof.
  unfold is_limb. intros Hx Hy.
  assert (Hc : 0 <= Z.b2z c <= 1) by (destruct c; cbn; lia).
  split; [apply Z.mod_pos_bound; reflexivity|].
  destruct (Z.ltb_spec (x - y - Z.b2z c) 0); cbn [Z.b2z].
  - rewrite <- (Z.mod_unique _ B (-1) (x - y - Z.b2z c + B)); unfold B in *; lia.
  - rewrite Z.mod_small by lia. lia.
Qed.
Lemma mul_facts x y : is_limb x -> is_limb y ->
  is_limb (x * y mod B) /\ 0 <= x * y / B <= B - 2 /\ x * y mod B + B * (x * y / B) = x * y.
Proof.
  unfold is_limb. intros Hx Hy. assert (0 < B) by reflexivity.
  split; [apply Z.mod_pos_bound; lia|].
  assert (Hle : x * y <= (B - 1) * (B - 1)) by (apply Z.mul_le_mono_nonneg; lia).
  assert (0 <= x * y) by (apply Z.mul_nonneg_nonneg; lia).
  split; [split|].
  - apply Z.div_pos; lia.
  - apply (Z.le_trans _ ((B - 1) * (B - 1) / B)); [apply Z.div_le_mono; lia|]. vm_compute; discriminate.
  - rewrite Z.add_comm. symmetry. apply Z.div_mod. lia.
Qed.

Section Wp.
Variable pt : ptr -> arr * nat.
Definition wp (p : list instr) (s : state) (Q : state -> Prop) : Prop :=
  exists s', run pt p None s = Ok s' /\ Q s'.

Definition no_jump (i : instr) : bool :=
  match i with jb _ | ja _ | jc _ | jnc _ => false | _ => true end.
Lemma run_app p q s : forallb no_jump p = true ->
  run pt (p ++ q) None s = bind (run pt p None s) (run pt q None).
Proof.
  revert s; induction p as [|i p IH]; intros s H; cbn [app run bind]; auto.
  cbn [forallb] in H. apply andb_true_iff in H as [Hi Hp].
  destruct (jump i s) as [[tk l]|] eqn:J; [destruct i; cbn in J, Hi; discriminate|].
  destruct (step pt i s); cbn [bind]; auto.
Qed.
Lemma wp_app p q s Q : forallb no_jump p = true ->
  wp p s (fun s' => wp q s' Q) -> wp (p ++ q) s Q.
Proof.
  intros Hn (s' & E & s2 & E2 & HQ). exists s2. rewrite run_app, E by auto. auto.
Qed.
Lemma wp_nil s (Q : state -> Prop) : Q s -> wp [] s Q.
Proof. exists s; auto. Qed.
Lemma wp_mono p s (Q Q' : state -> Prop) : wp p s Q -> (forall s', Q s' -> Q' s') -> wp p s Q'.
Proof. intros (s' & E & H) I'. exists s'; auto. Qed.

Section Step.
Variables (R : reg -> Z) (Mm : arr -> list Z) (c z : option bool) (p : list instr) (Q : state -> Prop).
Notation st := (mkSt R Mm c z).

Lemma wp_mov_r src d v : rd pt st src = Ok v ->
  wp p (mkSt (rset d v R) Mm c z) Q -> wp (movq src (Reg d) :: p) st Q.
Proof. intros E (s' & E' & H). exists s'. cbn [run jump step]. rewrite E. cbn [bind wr]. auto. Qed.
Lemma wp_mov_m src q i a o l v : rd pt st src = Ok v -> pt q = (a, o) -> Mm a = l -> (o + i <? length l)%nat = true ->
  wp p (mkSt R (mset a (upd l (o + i) v) Mm) c z) Q -> wp (movq src (Mem q i) :: p) st Q.
Proof.
  intros E Ep <- L (s' & E' & H). exists s'. cbn [run jump step]. rewrite E. cbn [bind wr].
  rewrite Ep. cbn [mem]. rewrite L. auto.
Qed.
Lemma wp_xor_self d :
  wp p (mkSt (rset d 0 R) Mm (Some false) (Some true)) Q -> wp (xorq (Reg d) (Reg d) :: p) st Q.
Proof.
  intros (s' & E' & H). exists s'. cbn [run jump step rd bind]. cbv zeta. rewrite Z.lxor_nilpotent. auto.
Qed.
Lemma wp_mul src v : rd pt st src = Ok v -> is_limb (R rax) -> is_limb v ->
  (forall lo hi cf, is_limb lo -> 0 <= hi <= B - 2 -> lo + B * hi = R rax * v ->
     wp p (mkSt (rset rdx hi (rset rax lo R)) Mm (Some cf) None) Q) -> wp (mulq src :: p) st Q.
Proof.
  intros E Hr Hv H. destruct (mul_facts (R rax) v Hr Hv) as (L & Hh & Heq).
  destruct (H _ _ (negb (R rax * v / B =? 0)) L Hh Heq) as (s' & E' & H').
  exists s'. cbn [run jump step]. rewrite E. cbn [bind wr]. auto.
Qed.

(** add and adc; [cin] is the incoming carry *)
Definition adds (i : instr) (src dst : operand) (cin : bool) : Prop :=
  i = addq src dst /\ cin = false \/ i = adcq src dst /\ c = Some cin.
Definition subs (i : instr) (src dst : operand) (cin : bool) : Prop :=
  i = subq src dst /\ cin = false \/ i = sbbq src dst /\ c = Some cin.
Lemma run_adds i src dst cin : adds i src dst cin ->
  run pt (i :: p) None st = bind (do_add pt st src dst cin) (run pt p None).
Proof. intros [[-> ->]|[-> E]]; cbn [run jump step]; auto. cbn [CF]. rewrite E. auto. Qed.
Lemma run_subs i src dst cin : subs i src dst cin ->
  run pt (i :: p) None st = bind (do_sub pt st src dst cin true) (run pt p None).
Proof. intros [[-> ->]|[-> E]]; cbn [run jump step]; auto. cbn [CF]. rewrite E. auto. Qed.

Lemma wp_add_r i src d cin y : adds i src (Reg d) cin -> rd pt st src = Ok y ->
  is_limb (R d) -> is_limb y ->
  (forall r cf, is_limb r -> r + B * Z.b2z cf = R d + y + Z.b2z cin ->
     wp p (mkSt (rset d r R) Mm (Some cf) (Some (r =? 0))) Q) -> wp (i :: p) st Q.
Proof.
  intros A0 E Hx Hy H. destruct (add_facts (R d) y cin Hx Hy) as (L & Heq).
  destruct (H _ _ L Heq) as (s' & E' & H'). exists s'. rewrite (run_adds _ _ _ _ A0).
  unfold do_add. rewrite E. cbn [rd bind wr]. auto.
Qed.
Lemma wp_add_m i src q k a o l cin x y : adds i src (Mem q k) cin -> rd pt st src = Ok y ->
  pt q = (a, o) -> Mm a = l -> nth_error l (o + k) = Some x ->
  is_limb x -> is_limb y ->
  (forall r cf, is_limb r -> r + B * Z.b2z cf = x + y + Z.b2z cin ->
     wp p (mkSt R (mset a (upd l (o + k) r) Mm) (Some cf) (Some (r =? 0))) Q) -> wp (i :: p) st Q.
Proof.
  intros A0 E Ep <- En Hx Hy H. destruct (add_facts x y cin Hx Hy) as (L & Heq).
  destruct (H _ _ L Heq) as (s' & E' & H'). exists s'. rewrite (run_adds _ _ _ _ A0).
  unfold do_add. rewrite E. cbn [rd bind wr]. rewrite Ep. cbn [mem]. rewrite En. cbn [bind].
  assert (En' : (o + k <? length (Mm a))%nat = true).
  { apply Nat.ltb_lt, nth_error_Some. congruence. }
  rewrite En'. auto.
Qed.
Lemma wp_sub_m i src q k a o l cin x y : subs i src (Mem q k) cin -> rd pt st src = Ok y ->
  pt q = (a, o) -> Mm a = l -> nth_error l (o + k) = Some x ->
  is_limb x -> is_limb y ->
  (forall r cf, is_limb r -> r - B * Z.b2z cf = x - y - Z.b2z cin ->
     wp p (mkSt R (mset a (upd l (o + k) r) Mm) (Some cf) (Some (r =? 0))) Q) -> wp (i :: p) st Q.
Proof.
  intros A0 E Ep <- En Hx Hy H. destruct (sub_facts x y cin Hx Hy) as (L & Heq).
  destruct (H _ _ L Heq) as (s' & E' & H'). exists s'. rewrite (run_subs _ _ _ _ A0).
  unfold do_sub. rewrite E. cbn [rd bind wr]. rewrite Ep. cbn [mem]. rewrite En. cbn [bind].
  assert (En' : (o + k <? length (Mm a))%nat = true).
  { apply Nat.ltb_lt, nth_error_Some. congruence. }
  rewrite En'. auto.
Qed.
End Step.
End Wp.

Lemma nth_error_upd_same {X} (l : list X) i x y : nth_error l i = Some y -> nth_error (upd l i x) i = Some x.
Proof. revert i; induction l as [|z l IH]; intros [|i] H; cbn in *; try discriminate; auto. Qed.
Lemma nth_error_upd_other {X} (l : list X) i j x : i <> j -> nth_error (upd l i x) j = nth_error l j.
Proof. revert i j; induction l as [|z l IH]; intros [|i] [|j] H; cbn in *; auto; congruence. Qed.
Lemma upd_upd {X} (l : list X) i x y : upd (upd l i x) i y = upd l i y.
Proof. revert i; induction l as [|z l IH]; intros [|i]; cbn; f_equal; auto. Qed.
Lemma nth_error_ltb {X} (l : list X) i x : nth_error l i = Some x -> (i <? length l)%nat = true.
Proof. intros E. apply Nat.ltb_lt, nth_error_Some. congruence. Qed.

(** close a reading side condition *)
Ltac rdt := cbn [rd ptrs regs mem rset reg_eqb mset arr_eqb Nat.add];
  repeat match goal with H : ?M0 ?a = _ :> list Z |- context [?M0 ?a] => rewrite H end;
  first
  [ cbn [nth_error upd length Nat.ltb Nat.leb]; reflexivity
  | repeat match goal with H : nth_error _ _ = Some _ |- _ => rewrite H end; reflexivity
  | eapply nth_error_ltb; eassumption
  | erewrite nth_error_upd_same by eassumption; reflexivity
  | rewrite !nth_error_upd_other by lia;
    repeat match goal with H : nth_error _ _ = Some _ |- _ => rewrite H end; reflexivity ].
(** ... the contents of an array *)
Ltac lrd := cbn [mset arr_eqb];
  repeat match goal with H : ?M0 ?a = _ :> list Z |- context [?M0 ?a] => rewrite H end;
  cbn [Nat.add upd]; reflexivity.
Ltac rng := cbn [rset reg_eqb]; first [assumption | unfold is_limb in *; unfold B in *; lia].
Ltac st1 :=
  lazymatch goal with
  | |- wp _ (movq _ (Reg _) :: _) _ _ => eapply wp_mov_r; [rdt|]
  | |- wp _ (movq _ (Mem _ _) :: _) _ _ => eapply wp_mov_m; [rdt|cbn [ptrs]; reflexivity|lrd|rdt|]
  | |- wp _ (xorq _ _ :: _) _ _ => apply wp_xor_self
  | |- wp _ (mulq _ :: _) _ _ =>
      eapply wp_mul; [rdt|rng|rng|];
      let lo := fresh "lo" in let hi := fresh "hi" in let cf := fresh "cf" in
      let H1 := fresh "Hlo" in let H2 := fresh "Hhi" in let E := fresh "E" in
      intros lo hi cf H1 H2 E; cbn [rset reg_eqb] in E
  | |- wp _ (?i :: _) _ _ =>
      (lazymatch i with
       | addq _ (Reg _) => eapply wp_add_r; [left; split; reflexivity|rdt|rng|rng|]
       | adcq _ (Reg _) => eapply wp_add_r; [right; split; reflexivity|rdt|rng|rng|]
       | addq _ (Mem _ _) => eapply wp_add_m; [left; split; reflexivity|rdt|cbn [ptrs]; reflexivity|lrd|rdt|rng|rng|]
       | adcq _ (Mem _ _) => eapply wp_add_m; [right; split; reflexivity|rdt|cbn [ptrs]; reflexivity|lrd|rdt|rng|rng|]
       | subq _ (Mem _ _) => eapply wp_sub_m; [left; split; reflexivity|rdt|cbn [ptrs]; reflexivity|lrd|rdt|rng|rng|]
       | sbbq _ (Mem _ _) => eapply wp_sub_m; [right; split; reflexivity|rdt|cbn [ptrs]; reflexivity|lrd|rdt|rng|rng|]
       end);
      let r := fresh "r" in let cf := fresh "cf" in let H1 := fresh "Hr" in let E := fresh "E" in
      intros r cf H1 E; cbn [rset reg_eqb Z.b2z] in E
  end.

(** What a block may rely on and must keep. *)
Definition barr (same : bool) : arr := if same then ThisData else OtherData.
Definition holds (same : bool) (a b m t : list Z) (s : state) : Prop :=
  mem s ThisData = a /\ mem s (barr same) = b /\ mem s Modulus = m /\ mem s Scratch = t.

Lemma b2z_range c : 0 <= Z.b2z c <= 1.
Proof. destruct c; cbn; lia. Qed.
(** arithmetic end of a block: everything is linear once products are atoms *)
Ltac arith :=
  repeat match goal with E : context [Z.b2z ?c] |- _ =>
    let v := fresh "c" in let H := fresh "Hc" in
    pose proof (b2z_range c) as H; set (v := Z.b2z c) in *; clearbody v end;
  unfold is_limb in *; unfold B in *; lia.
(** memory end of a block *)
Ltac memt :=
  unfold mset; cbn [arr_eqb barr Nat.add mem];
  repeat match goal with H : ?M0 ?a = _ :> list Z |- context [?M0 ?a] => rewrite H end;
  cbn [upd]; rewrite ?upd_upd; repeat split; reflexivity.
Ltac same_cases same Ha Hb := destruct same; cbn [barr] in Hb; [rewrite Ha in Hb; subst|].

Lemma iteriter_spec same i j a b m t ai bj mj t0 t2 s (Q : state -> Prop) :
  holds same a b m t s -> (1 <= j)%nat ->
  nth_error a i = Some ai -> nth_error b j = Some bj -> nth_error m j = Some mj ->
  nth_error t (j - 1) = Some t0 -> nth_error t (j + 1) = Some t2 ->
  is_limb ai -> is_limb bj -> is_limb mj -> is_limb t2 ->
  is_limb (regs s T1) -> is_limb (regs s cy) -> is_limb (regs s u) ->
  (forall s' x, holds same a b m (upd t (j - 1) x) s' -> is_limb x ->
     regs s' inv = regs s inv -> regs s' u = regs s u ->
     is_limb (regs s' T1) -> is_limb (regs s' cy) ->
     x + B * regs s' T1 + B * B * regs s' cy =
       ai * bj + regs s T1 + mj * regs s u + B * regs s cy + B * t2 -> Q s') ->
  wp (ptrs same 0) (MONT_ITERITER i j) s Q.
Proof.
  destruct s as [R Mm c z]. cbn [regs mem]. unfold holds. cbn [mem].
  intros (Ha & Hb & Hm & Ht) Hj Hai Hbj Hmj Ht0 Ht2 La Lb Lm Lt L1 Lc Lu H.
  destruct same; cbn [barr] in Hb; [rewrite Ha in Hb; subst b|].
  all: unfold MONT_ITERITER.
  all: do 17 st1; apply wp_nil.
  all: eapply H; [memt|..]; cbn [regs rset reg_eqb]; auto; clear H.
  all: arith.
Qed.
Lemma firstiter_spec same j a b m t a0 bj mj t0 s (Q : state -> Prop) :
  holds same a b m t s -> (1 <= j)%nat ->
  nth_error a 0 = Some a0 -> nth_error b j = Some bj -> nth_error m j = Some mj ->
  nth_error t (j - 1) = Some t0 ->
  is_limb a0 -> is_limb bj -> is_limb mj ->
  is_limb (regs s T1) -> is_limb (regs s cy) -> is_limb (regs s u) ->
  (forall s' x, holds same a b m (upd t (j - 1) x) s' -> is_limb x ->
     regs s' inv = regs s inv -> regs s' u = regs s u ->
     is_limb (regs s' T1) -> is_limb (regs s' cy) ->
     x + B * regs s' T1 + B * B * regs s' cy =
       a0 * bj + regs s T1 + mj * regs s u + B * regs s cy -> Q s') ->
  wp (ptrs same 0) (MONT_FIRSTITER j) s Q.
Proof.
  destruct s as [R Mm c z]. cbn [regs mem]. unfold holds. cbn [mem].
  intros (Ha & Hb & Hm & Ht) Hj Hai Hbj Hmj Ht0 La Lb Lm L1 Lc Lu H.
  destruct same; cbn [barr] in Hb; [rewrite Ha in Hb; subst b|].
  all: unfold MONT_FIRSTITER.
  all: do 15 st1; apply wp_nil.
  all: eapply H; [memt|..]; cbn [regs rset reg_eqb]; auto; clear H.
  all: arith.
Qed.

(** [u] makes the low limb vanish. *)
Lemma mont_low iv m0 x u0 r hi c lo hi' :
  (iv * m0 + 1) mod B = 0 -> is_limb u0 -> u0 + B * hi' = x * iv ->
  is_limb r -> lo + B * hi = u0 * m0 -> r + B * c = lo + x -> r = 0.
Proof.
  intros Hi Hu Eu Hr E1 E2.
  apply Z.mod_divide in Hi; [|discriminate]. destruct Hi as [q Hq].
  assert (D : r = B * (x * q - hi' * m0 - hi - c)).
  { assert (E3 : (x * iv - B * hi') * m0 = u0 * m0) by (rewrite <- Eu; ring).
    assert (E4 : x * (iv * m0 + 1) = x * (q * B)) by (rewrite Hq; ring).
    ring_simplify in E3. ring_simplify in E4. ring_simplify.
    replace (iv * x * m0) with (x * iv * m0) in * by ring. lia. }
  unfold is_limb in Hr. destruct (Z.eq_dec (x * q - hi' * m0 - hi - c) 0) as [E0|E0]; unfold B in *; lia.
Qed.
Lemma iterfirst_spec same i a b m t ai b0 m0 t0 t1 s (Q : state -> Prop) :
  holds same a b m t s ->
  nth_error a i = Some ai -> nth_error b 0 = Some b0 -> nth_error m 0 = Some m0 ->
  nth_error t 0 = Some t0 -> nth_error t 1 = Some t1 ->
  is_limb ai -> is_limb b0 -> is_limb m0 -> is_limb t0 -> is_limb t1 -> is_limb (regs s inv) ->
  (regs s inv * m0 + 1) mod B = 0 ->
  (forall s', holds same a b m t s' -> regs s' inv = regs s inv -> is_limb (regs s' u) ->
     is_limb (regs s' T1) -> is_limb (regs s' cy) ->
     B * regs s' T1 + B * B * regs s' cy = ai * b0 + m0 * regs s' u + t0 + B * t1 -> Q s') ->
  wp (ptrs same 0) (MONT_ITERFIRST i) s Q.
Proof.
  destruct s as [R Mm c z]. cbn [regs mem]. unfold holds. cbn [mem].
  intros (Ha & Hb & Hm & Ht) Hai Hb0 Hm0 Ht0 Ht1 La Lb Lm L0 L1 Li Hi H.
  destruct same; cbn [barr] in Hb; [rewrite Ha in Hb; subst b|].
  all: unfold MONT_ITERFIRST.
  all: do 14 st1; apply wp_nil.
  all: eapply H; [memt|..]; cbn [regs rset reg_eqb]; auto; clear H.
  - assert (Hz : r2 = 0) by (eapply (mont_low (R inv) m0 r lo0 r2 hi1 (Z.b2z cf5) lo1 hi0); try eassumption; lia).
    arith.
  - assert (Hz : r2 = 0) by (eapply (mont_low (R inv) m0 r lo0 r2 hi1 (Z.b2z cf5) lo1 hi0); try eassumption; lia).
    arith.
Qed.
Lemma precompute_spec same a b m t a0 b0 m0 s (Q : state -> Prop) :
  holds same a b m t s ->
  nth_error a 0 = Some a0 -> nth_error b 0 = Some b0 -> nth_error m 0 = Some m0 ->
  is_limb a0 -> is_limb b0 -> is_limb m0 -> is_limb (regs s inv) ->
  (regs s inv * m0 + 1) mod B = 0 ->
  (forall s', holds same a b m t s' -> regs s' inv = regs s inv -> is_limb (regs s' u) ->
     is_limb (regs s' T1) -> is_limb (regs s' cy) ->
     B * regs s' T1 + B * B * regs s' cy = a0 * b0 + m0 * regs s' u -> Q s') ->
  wp (ptrs same 0) MONT_PRECOMPUTE s Q.
Proof.
  destruct s as [R Mm c z]. cbn [regs mem]. unfold holds. cbn [mem].
  intros (Ha & Hb & Hm & Ht) Ha0 Hb0 Hm0 La Lb Lm Li Hi H.
  destruct same; cbn [barr] in Hb; [rewrite Ha in Hb; subst b|].
  all: unfold MONT_PRECOMPUTE.
  all: do 11 st1; apply wp_nil.
  all: eapply H; [memt|..]; cbn [regs rset reg_eqb]; auto; clear H.
  - try (assert (a0 = b0) by congruence; subst b0).
    assert (Hz : r = 0) by (eapply (mont_low (R inv) m0 lo lo0 r hi1 (Z.b2z cf2) lo1 hi0); try eassumption; lia).
    arith.
  - assert (Hz : r = 0) by (eapply (mont_low (R inv) m0 lo lo0 r hi1 (Z.b2z cf2) lo1 hi0); try eassumption; lia).
    arith.
Qed.
Lemma finalize_spec same j a b m t t0 t1 s (Q : state -> Prop) :
  holds same a b m t s -> nth_error t j = Some t0 -> nth_error t (j + 1) = Some t1 ->
  (forall s', holds same a b m (upd (upd t j (regs s T1)) (j + 1) (regs s cy)) s' ->
     regs s' inv = regs s inv -> Q s') ->
  wp (ptrs same 0) (MONT_FINALIZE j) s Q.
Proof.
  destruct s as [R Mm c z]. cbn [regs mem]. unfold holds. cbn [mem].
  intros (Ha & Hb & Hm & Ht) H0 H1 H. unfold MONT_FINALIZE.
  eapply wp_mov_m; [rdt|reflexivity|lrd|rdt|].
  eapply wp_mov_m; [rdt|reflexivity|lrd|..].
  { cbn [Nat.add].
    apply (nth_error_ltb _ _ t1). rewrite nth_error_upd_other by lia. auto. }
  apply wp_nil. apply H; [|reflexivity].
  destruct same; cbn [barr] in *; [rewrite Ha in Hb; subst b|]; memt.
Qed.

(** ** One row of the CIOS multiplication *)
Lemma row4 same i a b m t ai s (Q : state -> Prop) :
  holds same a b m t s -> nth_error a i = Some ai ->
  is_limb ai -> limbs b -> limbs m -> limbs t -> length b = 4%nat -> length m = 4%nat -> length t = 5%nat ->
  is_limb (regs s inv) -> (regs s inv * nth 0 m 0 + 1) mod B = 0 ->
  (forall s' t' U, holds same a b m t' s' -> limbs t' -> length t' = 5%nat ->
     regs s' inv = regs s inv -> is_limb U ->
     B * val t' = val t + ai * val b + U * val m -> Q s') ->
  wp (ptrs same 0) (MONT_ITERFIRST i ++ MONT_ITERITER i 1 ++ MONT_ITERITER i 2 ++ MONT_ITERITER i 3 ++ MONT_FINALIZE 3) s Q.
Proof.
  intros Hs Hai La Lb Lm Lt Eb Em Et Li Hi HQ.
  destruct b as [|b0 [|b1 [|b2 [|b3 [|]]]]]; try discriminate.
  destruct m as [|m0 [|m1 [|m2 [|m3 [|]]]]]; try discriminate.
  destruct t as [|t0 [|t1 [|t2 [|t3 [|t4 [|]]]]]]; try discriminate.
  unfold limbs in *.
  repeat match goal with L : Forall _ (_ :: _) |- _ => inversion_clear L end.
  cbn [nth] in Hi.
  apply wp_app; [reflexivity|]. eapply iterfirst_spec; first [reflexivity|eassumption|idtac].
  intros s1 K1 I1 U1 L1 C1 E1.
  apply wp_app; [reflexivity|]. eapply iteriter_spec;
    first [reflexivity|eassumption|lia|idtac].
  intros s2 x0 K2 X0 I2 U2 L2 C2 E2. cbn [Nat.sub upd] in K2.
  apply wp_app; [reflexivity|]. eapply iteriter_spec;
    first [reflexivity|eassumption|lia|idtac]; [congruence|].
  intros s3 x1 K3 X1 I3 U3 L3 C3 E3. cbn [Nat.sub upd] in K3.
  apply wp_app; [reflexivity|]. eapply iteriter_spec;
    first [reflexivity|eassumption|lia|idtac]; [congruence|].
  intros s4 x2 K4 X2 I4 U4 L4 C4 E4. cbn [Nat.sub upd] in K4.
  eapply finalize_spec; first [reflexivity|eassumption|idtac].
  intros s5 K5 I5. cbn [Nat.add upd] in K5.
  eapply (HQ _ _ (regs s1 u)); first [reflexivity|eassumption|congruence|idtac].
  - repeat apply Forall_cons; try apply Forall_nil; assumption.
  - cbn [val]. replace (regs s2 u) with (regs s1 u) in E3 by congruence. replace (regs s3 u) with (regs s1 u) in E4 by congruence.
    clear - E1 E2 E3 E4. unfold B in *. lia.
Qed.
Lemma firstrow4 same a b m t ai s (Q : state -> Prop) :
  holds same a b m t s -> nth_error a 0 = Some ai ->
  is_limb ai -> limbs b -> limbs m -> length b = 4%nat -> length m = 4%nat -> length t = 5%nat ->
  is_limb (regs s inv) -> (regs s inv * nth 0 m 0 + 1) mod B = 0 ->
  (forall s' t' U, holds same a b m t' s' -> limbs t' -> length t' = 5%nat ->
     regs s' inv = regs s inv -> is_limb U ->
     B * val t' = ai * val b + U * val m -> Q s') ->
  wp (ptrs same 0) (MONT_PRECOMPUTE ++ MONT_FIRSTITER 1 ++ MONT_FIRSTITER 2 ++ MONT_FIRSTITER 3 ++ MONT_FINALIZE 3) s Q.
Proof.
  intros Hs Hai La Lb Lm Eb Em Et Li Hi HQ.
  destruct b as [|b0 [|b1 [|b2 [|b3 [|]]]]]; try discriminate.
  destruct m as [|m0 [|m1 [|m2 [|m3 [|]]]]]; try discriminate.
  destruct t as [|t0 [|t1 [|t2 [|t3 [|t4 [|]]]]]]; try discriminate.
  unfold limbs in *.
  repeat match goal with L : Forall _ (_ :: _) |- _ => inversion_clear L end.
  cbn [nth] in Hi.
  apply wp_app; [reflexivity|]. eapply precompute_spec; first [reflexivity|eassumption|idtac].
  intros s1 K1 I1 U1 L1 C1 E1.
  apply wp_app; [reflexivity|]. eapply firstiter_spec;
    first [reflexivity|eassumption|lia|idtac].
  intros s2 x0 K2 X0 I2 U2 L2 C2 E2. cbn [Nat.sub upd] in K2.
  apply wp_app; [reflexivity|]. eapply firstiter_spec;
    first [reflexivity|eassumption|lia|idtac]; [congruence|].
  intros s3 x1 K3 X1 I3 U3 L3 C3 E3. cbn [Nat.sub upd] in K3.
  apply wp_app; [reflexivity|]. eapply firstiter_spec;
    first [reflexivity|eassumption|lia|idtac]; [congruence|].
  intros s4 x2 K4 X2 I4 U4 L4 C4 E4. cbn [Nat.sub upd] in K4.
  eapply finalize_spec; first [reflexivity|eassumption|idtac].
  intros s5 K5 I5. cbn [Nat.add upd] in K5.
  eapply (HQ _ _ (regs s1 u)); first [reflexivity|eassumption|congruence|idtac].
  - repeat apply Forall_cons; try apply Forall_nil; assumption.
  - cbn [val]. replace (regs s2 u) with (regs s1 u) in E3 by congruence. replace (regs s3 u) with (regs s1 u) in E4 by congruence.
    clear - E1 E2 E3 E4. unfold B in *. lia.
Qed.
Lemma row5 same i a b m t ai s (Q : state -> Prop) :
  holds same a b m t s -> nth_error a i = Some ai ->
  is_limb ai -> limbs b -> limbs m -> limbs t -> length b = 5%nat -> length m = 5%nat -> length t = 6%nat ->
  is_limb (regs s inv) -> (regs s inv * nth 0 m 0 + 1) mod B = 0 ->
  (forall s' t' U, holds same a b m t' s' -> limbs t' -> length t' = 6%nat ->
     regs s' inv = regs s inv -> is_limb U ->
     B * val t' = val t + ai * val b + U * val m -> Q s') ->
  wp (ptrs same 0) (MONT_ITERFIRST i ++ MONT_ITERITER i 1 ++ MONT_ITERITER i 2 ++ MONT_ITERITER i 3 ++ MONT_ITERITER i 4 ++ MONT_FINALIZE 4) s Q.
Proof.
  intros Hs Hai La Lb Lm Lt Eb Em Et Li Hi HQ.
  destruct b as [|b0 [|b1 [|b2 [|b3 [|b4 [|]]]]]]; try discriminate.
  destruct m as [|m0 [|m1 [|m2 [|m3 [|m4 [|]]]]]]; try discriminate.
  destruct t as [|t0 [|t1 [|t2 [|t3 [|t4 [|t5 [|]]]]]]]; try discriminate.
  unfold limbs in *.
  repeat match goal with L : Forall _ (_ :: _) |- _ => inversion_clear L end.
  cbn [nth] in Hi.
  apply wp_app; [reflexivity|]. eapply iterfirst_spec; first [reflexivity|eassumption|idtac].
  intros s1 K1 I1 U1 L1 C1 E1.
  apply wp_app; [reflexivity|]. eapply iteriter_spec;
    first [reflexivity|eassumption|lia|idtac].
  intros s2 x0 K2 X0 I2 U2 L2 C2 E2. cbn [Nat.sub upd] in K2.
  apply wp_app; [reflexivity|]. eapply iteriter_spec;
    first [reflexivity|eassumption|lia|idtac]; [congruence|].
  intros s3 x1 K3 X1 I3 U3 L3 C3 E3. cbn [Nat.sub upd] in K3.
  apply wp_app; [reflexivity|]. eapply iteriter_spec;
    first [reflexivity|eassumption|lia|idtac]; [congruence|].
  intros s4 x2 K4 X2 I4 U4 L4 C4 E4. cbn [Nat.sub upd] in K4.
  apply wp_app; [reflexivity|]. eapply iteriter_spec;
    first [reflexivity|eassumption|lia|idtac]; [congruence|].
  intros s5 x3 K5 X3 I5 U5 L5 C5 E5. cbn [Nat.sub upd] in K5.
  eapply finalize_spec; first [reflexivity|eassumption|idtac].
  intros s6 K6 I6. cbn [Nat.add upd] in K6.
  eapply (HQ _ _ (regs s1 u)); first [reflexivity|eassumption|congruence|idtac].
  - repeat apply Forall_cons; try apply Forall_nil; assumption.
  - cbn [val]. replace (regs s2 u) with (regs s1 u) in E3 by congruence. replace (regs s3 u) with (regs s1 u) in E4 by congruence. replace (regs s4 u) with (regs s1 u) in E5 by congruence.
    clear - E1 E2 E3 E4 E5. unfold B in *. lia.
Qed.
Lemma firstrow5 same a b m t ai s (Q : state -> Prop) :
  holds same a b m t s -> nth_error a 0 = Some ai ->
  is_limb ai -> limbs b -> limbs m -> length b = 5%nat -> length m = 5%nat -> length t = 6%nat ->
  is_limb (regs s inv) -> (regs s inv * nth 0 m 0 + 1) mod B = 0 ->
  (forall s' t' U, holds same a b m t' s' -> limbs t' -> length t' = 6%nat ->
     regs s' inv = regs s inv -> is_limb U ->
     B * val t' = ai * val b + U * val m -> Q s') ->
  wp (ptrs same 0) (MONT_PRECOMPUTE ++ MONT_FIRSTITER 1 ++ MONT_FIRSTITER 2 ++ MONT_FIRSTITER 3 ++ MONT_FIRSTITER 4 ++ MONT_FINALIZE 4) s Q.
Proof.
  intros Hs Hai La Lb Lm Eb Em Et Li Hi HQ.
  destruct b as [|b0 [|b1 [|b2 [|b3 [|b4 [|]]]]]]; try discriminate.
  destruct m as [|m0 [|m1 [|m2 [|m3 [|m4 [|]]]]]]; try discriminate.
  destruct t as [|t0 [|t1 [|t2 [|t3 [|t4 [|t5 [|]]]]]]]; try discriminate.
  unfold limbs in *.
  repeat match goal with L : Forall _ (_ :: _) |- _ => inversion_clear L end.
  cbn [nth] in Hi.
  apply wp_app; [reflexivity|]. eapply precompute_spec; first [reflexivity|eassumption|idtac].
  intros s1 K1 I1 U1 L1 C1 E1.
  apply wp_app; [reflexivity|]. eapply firstiter_spec;
    first [reflexivity|eassumption|lia|idtac].
  intros s2 x0 K2 X0 I2 U2 L2 C2 E2. cbn [Nat.sub upd] in K2.
  apply wp_app; [reflexivity|]. eapply firstiter_spec;
    first [reflexivity|eassumption|lia|idtac]; [congruence|].
  intros s3 x1 K3 X1 I3 U3 L3 C3 E3. cbn [Nat.sub upd] in K3.
  apply wp_app; [reflexivity|]. eapply firstiter_spec;
    first [reflexivity|eassumption|lia|idtac]; [congruence|].
  intros s4 x2 K4 X2 I4 U4 L4 C4 E4. cbn [Nat.sub upd] in K4.
  apply wp_app; [reflexivity|]. eapply firstiter_spec;
    first [reflexivity|eassumption|lia|idtac]; [congruence|].
  intros s5 x3 K5 X3 I5 U5 L5 C5 E5. cbn [Nat.sub upd] in K5.
  eapply finalize_spec; first [reflexivity|eassumption|idtac].
  intros s6 K6 I6. cbn [Nat.add upd] in K6.
  eapply (HQ _ _ (regs s1 u)); first [reflexivity|eassumption|congruence|idtac].
  - repeat apply Forall_cons; try apply Forall_nil; assumption.
  - cbn [val]. replace (regs s2 u) with (regs s1 u) in E3 by congruence. replace (regs s3 u) with (regs s1 u) in E4 by congruence. replace (regs s4 u) with (regs s1 u) in E5 by congruence.
    clear - E1 E2 E3 E4 E5. unfold B in *. lia.
Qed.

(** ** Comparison, addition and subtraction with jumps *)
Definition wpk pt (p : list instr) (k : option label) (s : state) (Q : state -> Prop) : Prop :=
  exists s', run pt p k s = Ok s' /\ Q s'.
Fixpoint after (l : label) (p : list instr) : list instr :=
  match p with
  | [] => []
  | Lab l' :: p' => if label_eqb l l' then p' else after l p'
  | _ :: p' => after l p'
  end.
Definition is_lab (l : label) (i : instr) : bool := match i with Lab l' => label_eqb l l' | _ => false end.
Lemma wp_skip pt l p s Q : existsb (is_lab l) p = true ->
  wp pt (after l p) s Q -> wpk pt p (Some l) s Q.
Proof.
  intros Hl (s' & E & H). exists s'. split; auto. rewrite <- E. clear E H.
  induction p as [|i p IH]; cbn in Hl; try discriminate.
  destruct i; cbn [run after]; auto.
  cbn [is_lab] in Hl. destruct (label_eqb l l0); auto.
Qed.
Lemma wp_lab pt l p s Q : wp pt p s Q -> wp pt (Lab l :: p) s Q.
Proof. intros H; exact H. Qed.
Lemma wp_jc pt l p R Mm cf z Q :
  wpk pt p (if cf : bool then Some l else None) (mkSt R Mm (Some cf) z) Q ->
  wp pt (jc l :: p) (mkSt R Mm (Some cf) z) Q.
Proof. intros (s' & E & H). exists s'. cbn [run jump CF defined bind]. auto. Qed.
Lemma wp_jnc pt l p R Mm cf z Q :
  wpk pt p (if cf : bool then None else Some l) (mkSt R Mm (Some cf) z) Q ->
  wp pt (jnc l :: p) (mkSt R Mm (Some cf) z) Q.
Proof.
  intros (s' & E & H). exists s'. cbn [run jump CF defined rmap bind]. destruct cf; auto.
Qed.
Lemma wp_cmp pt q i p x y R Mm c z Q :
  rd pt (mkSt R Mm c z) (Mem M i) = Ok y -> rd pt (mkSt R Mm c z) (Mem q i) = Ok x ->
  is_limb x -> is_limb y ->
  (forall R' c' z', x < y -> wpk pt p (Some Ldone) (mkSt R' Mm c' z') Q) ->
  (forall R' c' z', y < x -> wpk pt p (Some Lsubtract) (mkSt R' Mm c' z') Q) ->
  (forall R' c' z', x = y -> wpk pt p None (mkSt R' Mm c' z') Q) ->
  wp pt (movq (Mem M i) rax :: cmpq rax (Mem q i) :: jb Ldone :: ja Lsubtract :: p) (mkSt R Mm c z) Q.
Proof.
  intros Ey Ex Lx Ly H1 H2 H3. unfold is_limb in *.
  assert (K : forall c' z', wpk pt p (if x <? y then Some Ldone else if x =? y then None else Some Lsubtract)
    (mkSt (rset rax y R) Mm c' z') Q).
  { intros c' z'. destruct (Z.ltb_spec x y); auto. destruct (Z.eqb_spec x y); auto. apply H2; lia. }
  specialize (K (Some (x <? y)) (Some (x =? y))). destruct K as (s' & E & H). exists s'. split; auto.
  rewrite <- E. cbn [run jump step]. rewrite Ey. cbn [bind wr].
  unfold do_sub. cbn [rd regs reg_eqb mem] in *.
  destruct (pt q) as [a o]. destruct (nth_error (Mm a) (o + i)); [|discriminate]. injection Ex as ->.
  cbn [bind flags CF ZF defined run jump].
  assert (Ec : (x - y - Z.b2z false <? 0) = (x <? y)).
  { cbn [Z.b2z]. destruct (Z.ltb_spec x y); [apply Z.ltb_lt|apply Z.ltb_ge]; lia. }
  assert (Ez : ((x - y - Z.b2z false) mod B =? 0) = (x =? y)).
  { cbn [Z.b2z]. destruct (Z.eqb_spec x y) as [->|N].
    - replace (y - y - 0) with 0 by lia. reflexivity.
    - apply Z.eqb_neq. intros D. apply Z.mod_divide in D; [|discriminate]. destruct D as [w Hw].
      unfold B in *. lia. }
  rewrite Ec, Ez. cbn [regs mem]. destruct (x <? y) eqn:E1; cbn [bind run label_eqb]; [reflexivity|].
  cbn [jump CF ZF defined bind negb andb]. destruct (x =? y); reflexivity.
Qed.
Ltac st2 :=
  lazymatch goal with
  | |- wp _ [] _ _ => apply wp_nil
  | |- wp _ (Lab _ :: _) _ _ => apply wp_lab
  | |- wp _ (jc _ :: _) (mkSt _ _ (Some ?cf) _) _ => apply wp_jc; destruct cf; cbn [Z.b2z] in *
  | |- wp _ (jnc _ :: _) (mkSt _ _ (Some ?cf) _) _ => apply wp_jnc; destruct cf; cbn [Z.b2z] in *
  | |- wpk _ _ (Some _) _ _ => apply wp_skip; [reflexivity|cbn [after label_eqb]]
  | |- wpk ?pt ?p None ?s ?Q => change (wp pt p s Q)
  | |- wp _ (movq _ (Reg rax) :: cmpq _ _ :: _) _ _ =>
      eapply wp_cmp; [rdt|rdt|rng|rng|..];
      let a := fresh "R" in let b := fresh "c" in let d := fresh "z" in let H := fresh "K" in
      intros a b d H
  | |- wp _ _ _ _ => st1
  end.
Ltac splits :=
  repeat match goal with L : limbs (_ :: _) |- _ => unfold limbs in L at 1
  | L : Forall _ (_ :: _) |- _ => inversion_clear L end.

Lemma cond_sub3_ok same a b m p0 p1 p2 x s (Q : state -> Prop) :
  holds same a b m (p0 :: p1 :: p2 :: x) s -> limbs m -> limbs x -> length m = 3%nat -> length x = 3%nat ->
  (forall s' r, mem s' Scratch = p0 :: p1 :: p2 :: r -> limbs r -> length r = 3%nat ->
     val r = (if val m <=? val x then val x - val m else val x) -> Q s') ->
  wp (ptrs same 3) cond_sub3_prog s Q.
Proof.
  destruct s as [R Mm c z]. unfold holds. cbn [mem].
  intros (Ha & Hb & Hm & Ht) Lm Lx Em Ex HQ.
  destruct m as [|m0 [|m1 [|m2 [|]]]]; try discriminate.
  destruct x as [|x0 [|x1 [|x2 [|]]]]; try discriminate.
  splits. unfold cond_sub3_prog, MONT_CMP, MONT_FIRSTSUB, MONT_NEXTSUB. cbn [app].
  repeat st2.
  all: eapply HQ; [memt|repeat apply Forall_cons; try apply Forall_nil; assumption|reflexivity|].
  all: cbn [val]; match goal with |- context [?u <=? ?v] => destruct (Z.leb_spec u v) end.
  all: clear HQ Ha Hb Hm Ht; arith.
Qed.

Lemma cond_sub4_ok same a b m x s (Q : state -> Prop) :
  holds same a b m (x ++ [0]) s -> limbs m -> limbs x -> length m = 4%nat -> length x = 4%nat ->
  (forall s' r, mem s' Scratch = r ++ [0] -> limbs r -> length r = 4%nat ->
     val r = (if val m <=? val x then val x - val m else val x) -> Q s') ->
  wp (ptrs same 0) (MONT_CMP 3 ++ MONT_CMP 2 ++ MONT_CMP 1 ++ MONT_CMP 0 ++
    [Lab Lsubtract] ++ MONT_FIRSTSUB ++ MONT_NEXTSUB 1 ++ MONT_NEXTSUB 2 ++ MONT_NEXTSUB 3 ++ [Lab Ldone]) s Q.
Proof.
  destruct s as [R Mm c z]. unfold holds. cbn [mem].
  intros (Ha & Hb & Hm & Ht) Lm Lx Em Ex HQ.
  destruct m as [|m0 [|m1 [|m2 [|m3 [|]]]]]; try discriminate.
  destruct x as [|x0 [|x1 [|x2 [|x3 [|]]]]]; try discriminate.
  cbn [app] in Ht. splits. unfold MONT_CMP, MONT_FIRSTSUB, MONT_NEXTSUB. cbn [app].
  repeat st2.
  all: eapply (HQ _ [_; _; _; _]); [memt|repeat apply Forall_cons; try apply Forall_nil; eassumption|reflexivity|].
  all: cbn [val]; match goal with |- context [?u <=? ?v] => destruct (Z.leb_spec u v) end.
  all: clear HQ Ha Hb Hm Ht; arith.
Qed.
Lemma cond_sub5_ok same a b m x s (Q : state -> Prop) :
  holds same a b m (x ++ [0]) s -> limbs m -> limbs x -> length m = 5%nat -> length x = 5%nat ->
  (forall s' r, mem s' Scratch = r ++ [0] -> limbs r -> length r = 5%nat ->
     val r = (if val m <=? val x then val x - val m else val x) -> Q s') ->
  wp (ptrs same 0) (MONT_CMP 4 ++ MONT_CMP 3 ++ MONT_CMP 2 ++ MONT_CMP 1 ++ MONT_CMP 0 ++
    [Lab Lsubtract] ++ MONT_FIRSTSUB ++ MONT_NEXTSUB 1 ++ MONT_NEXTSUB 2 ++ MONT_NEXTSUB 3 ++ MONT_NEXTSUB 4 ++ [Lab Ldone]) s Q.
Proof.
  destruct s as [R Mm c z]. unfold holds. cbn [mem].
  intros (Ha & Hb & Hm & Ht) Lm Lx Em Ex HQ.
  destruct m as [|m0 [|m1 [|m2 [|m3 [|m4 [|]]]]]]; try discriminate.
  destruct x as [|x0 [|x1 [|x2 [|x3 [|x4 [|]]]]]]; try discriminate.
  cbn [app] in Ht. splits. unfold MONT_CMP, MONT_FIRSTSUB, MONT_NEXTSUB. cbn [app].
  repeat st2.
  all: eapply (HQ _ [_; _; _; _; _]); [memt|repeat apply Forall_cons; try apply Forall_nil; eassumption|reflexivity|].
  all: cbn [val]; match goal with |- context [?u <=? ?v] => destruct (Z.leb_spec u v) end.
  all: clear HQ Ha Hb Hm Ht; arith.
Qed.
Lemma add3_ok same a b m t s (Q : state -> Prop) :
  holds same a b m t s -> limbs a -> limbs b -> limbs m -> length a = 3%nat -> length b = 3%nat -> length m = 3%nat ->
  val a < val m -> val b < val m ->
  (forall s' r, mem s' ThisData = r -> limbs r -> length r = 3%nat ->
     val r = (if val m <=? val a + val b then val a + val b - val m else val a + val b) -> Q s') ->
  wp (ptrs same 0) add3_prog s Q.
Proof.
  destruct s as [R Mm c z]. unfold holds. cbn [mem].
  intros (Ha & Hb & Hm & Ht) La Lb Lm Ea Eb Em Va Vb HQ.
  destruct a as [|a0 [|a1 [|a2 [|]]]]; try discriminate.
  destruct b as [|b0 [|b1 [|b2 [|]]]]; try discriminate.
  destruct m as [|m0 [|m1 [|m2 [|]]]]; try discriminate.
  splits. unfold add3_prog, ADD_FIRSTADD, ADD_NEXTADD, ADD_CMP, ADD_FIRSTSUB, ADD_NEXTSUB. cbn [app].
  destruct same; cbn [barr] in Hb; [rewrite Ha in Hb; injection Hb as <- <- <-|].
  all: repeat st2.
  all: eapply HQ; [memt|repeat apply Forall_cons; try apply Forall_nil; eassumption|reflexivity|].
  all: cbn [val] in *; match goal with |- context [?u <=? ?v] => destruct (Z.leb_spec u v) end.
  all: clear HQ Ha Hm Ht; try clear Hb; arith.
Qed.
Lemma sub3_ok same a b m t s (Q : state -> Prop) :
  holds same a b m t s -> limbs a -> limbs b -> limbs m -> length a = 3%nat -> length b = 3%nat -> length m = 3%nat ->
  val a < val m -> val b < val m ->
  (forall s' r, mem s' ThisData = r -> limbs r -> length r = 3%nat ->
     val r = (if val b <=? val a then val a - val b else val a - val b + val m) -> Q s') ->
  wp (ptrs same 0) sub3_prog s Q.
Proof.
  destruct s as [R Mm c z]. unfold holds. cbn [mem].
  intros (Ha & Hb & Hm & Ht) La Lb Lm Ea Eb Em Va Vb HQ.
  destruct a as [|a0 [|a1 [|a2 [|]]]]; try discriminate.
  destruct b as [|b0 [|b1 [|b2 [|]]]]; try discriminate.
  destruct m as [|m0 [|m1 [|m2 [|]]]]; try discriminate.
  splits. unfold sub3_prog, SUB_FIRSTSUB, SUB_NEXTSUB, SUB_FIRSTADD, SUB_NEXTADD. cbn [app].
  destruct same; cbn [barr] in Hb; [rewrite Ha in Hb; injection Hb as <- <- <-|].
  all: repeat st2.
  all: eapply HQ; [memt|repeat apply Forall_cons; try apply Forall_nil; eassumption|reflexivity|].
  all: cbn [val] in *; match goal with |- context [?u <=? ?v] => destruct (Z.leb_spec u v) end.
  all: clear HQ Ha Hm Ht; try clear Hb; arith.
Qed.
Lemma add4_ok same a b m t s (Q : state -> Prop) :
  holds same a b m t s -> limbs a -> limbs b -> limbs m -> length a = 4%nat -> length b = 4%nat -> length m = 4%nat ->
  val a < val m -> val b < val m ->
  (forall s' r, mem s' ThisData = r -> limbs r -> length r = 4%nat ->
     val r = (if val m <=? val a + val b then val a + val b - val m else val a + val b) -> Q s') ->
  wp (ptrs same 0) add4_prog s Q.
Proof.
  destruct s as [R Mm c z]. unfold holds. cbn [mem].
  intros (Ha & Hb & Hm & Ht) La Lb Lm Ea Eb Em Va Vb HQ.
  destruct a as [|a0 [|a1 [|a2 [|a3 [|]]]]]; try discriminate.
  destruct b as [|b0 [|b1 [|b2 [|b3 [|]]]]]; try discriminate.
  destruct m as [|m0 [|m1 [|m2 [|m3 [|]]]]]; try discriminate.
  splits. unfold add4_prog, ADD_FIRSTADD, ADD_NEXTADD, ADD_CMP, ADD_FIRSTSUB, ADD_NEXTSUB. cbn [app].
  destruct same; cbn [barr] in Hb; [rewrite Ha in Hb; injection Hb as <- <- <- <-|].
  all: repeat st2.
  all: eapply HQ; [memt|repeat apply Forall_cons; try apply Forall_nil; eassumption|reflexivity|].
  all: cbn [val] in *; match goal with |- context [?u <=? ?v] => destruct (Z.leb_spec u v) end.
  all: clear HQ Ha Hm Ht; try clear Hb; arith.
Qed.
Lemma sub4_ok same a b m t s (Q : state -> Prop) :
  holds same a b m t s -> limbs a -> limbs b -> limbs m -> length a = 4%nat -> length b = 4%nat -> length m = 4%nat ->
  val a < val m -> val b < val m ->
  (forall s' r, mem s' ThisData = r -> limbs r -> length r = 4%nat ->
     val r = (if val b <=? val a then val a - val b else val a - val b + val m) -> Q s') ->
  wp (ptrs same 0) sub4_prog s Q.
Proof.
  destruct s as [R Mm c z]. unfold holds. cbn [mem].
  intros (Ha & Hb & Hm & Ht) La Lb Lm Ea Eb Em Va Vb HQ.
  destruct a as [|a0 [|a1 [|a2 [|a3 [|]]]]]; try discriminate.
  destruct b as [|b0 [|b1 [|b2 [|b3 [|]]]]]; try discriminate.
  destruct m as [|m0 [|m1 [|m2 [|m3 [|]]]]]; try discriminate.
  splits. unfold sub4_prog, SUB_FIRSTSUB, SUB_NEXTSUB, SUB_FIRSTADD, SUB_NEXTADD. cbn [app].
  destruct same; cbn [barr] in Hb; [rewrite Ha in Hb; injection Hb as <- <- <- <-|].
  all: repeat st2.
  all: eapply HQ; [memt|repeat apply Forall_cons; try apply Forall_nil; eassumption|reflexivity|].
  all: cbn [val] in *; match goal with |- context [?u <=? ?v] => destruct (Z.leb_spec u v) end.
  all: clear HQ Ha Hm Ht; try clear Hb; arith.
Qed.
Lemma add5_ok same a b m t s (Q : state -> Prop) :
  holds same a b m t s -> limbs a -> limbs b -> limbs m -> length a = 5%nat -> length b = 5%nat -> length m = 5%nat ->
  val a < val m -> val b < val m ->
  (forall s' r, mem s' ThisData = r -> limbs r -> length r = 5%nat ->
     val r = (if val m <=? val a + val b then val a + val b - val m else val a + val b) -> Q s') ->
  wp (ptrs same 0) add5_prog s Q.
Proof.
  destruct s as [R Mm c z]. unfold holds. cbn [mem].
  intros (Ha & Hb & Hm & Ht) La Lb Lm Ea Eb Em Va Vb HQ.
  destruct a as [|a0 [|a1 [|a2 [|a3 [|a4 [|]]]]]]; try discriminate.
  destruct b as [|b0 [|b1 [|b2 [|b3 [|b4 [|]]]]]]; try discriminate.
  destruct m as [|m0 [|m1 [|m2 [|m3 [|m4 [|]]]]]]; try discriminate.
  splits. unfold add5_prog, ADD_FIRSTADD, ADD_NEXTADD, ADD_CMP, ADD_FIRSTSUB, ADD_NEXTSUB. cbn [app].
  destruct same; cbn [barr] in Hb; [rewrite Ha in Hb; injection Hb as <- <- <- <- <-|].
  all: repeat st2.
  all: eapply HQ; [memt|repeat apply Forall_cons; try apply Forall_nil; eassumption|reflexivity|].
  all: cbn [val] in *; match goal with |- context [?u <=? ?v] => destruct (Z.leb_spec u v) end.
  all: clear HQ Ha Hm Ht; try clear Hb; arith.
Qed.
Lemma sub5_ok same a b m t s (Q : state -> Prop) :
  holds same a b m t s -> limbs a -> limbs b -> limbs m -> length a = 5%nat -> length b = 5%nat -> length m = 5%nat ->
  val a < val m -> val b < val m ->
  (forall s' r, mem s' ThisData = r -> limbs r -> length r = 5%nat ->
     val r = (if val b <=? val a then val a - val b else val a - val b + val m) -> Q s') ->
  wp (ptrs same 0) sub5_prog s Q.
Proof.
  destruct s as [R Mm c z]. unfold holds. cbn [mem].
  intros (Ha & Hb & Hm & Ht) La Lb Lm Ea Eb Em Va Vb HQ.
  destruct a as [|a0 [|a1 [|a2 [|a3 [|a4 [|]]]]]]; try discriminate.
  destruct b as [|b0 [|b1 [|b2 [|b3 [|b4 [|]]]]]]; try discriminate.
  destruct m as [|m0 [|m1 [|m2 [|m3 [|m4 [|]]]]]]; try discriminate.
  splits. unfold sub5_prog, SUB_FIRSTSUB, SUB_NEXTSUB, SUB_FIRSTADD, SUB_NEXTADD. cbn [app].
  destruct same; cbn [barr] in Hb; [rewrite Ha in Hb; injection Hb as <- <- <- <- <-|].
  all: repeat st2.
  all: eapply HQ; [memt|repeat apply Forall_cons; try apply Forall_nil; eassumption|reflexivity|].
  all: cbn [val] in *; match goal with |- context [?u <=? ?v] => destruct (Z.leb_spec u v) end.
  all: clear HQ Ha Hm Ht; try clear Hb; arith.
Qed.
