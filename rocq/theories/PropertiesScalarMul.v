(** Property theorems for scalar multiplication and multi-exponentiation:
    C14-C22.  The group type T is described by [gops] and denotes elements of
    an abelian group G ([gops_ok], GroupOps.v); [gmul z add opp k x] is k times
    x; [msum ... vec sc] is the sum of s_i * P_i; [sok] says a scalar has nl
    limbs and a spare top bit, as every prime field element has
    ([C17_field_scalars]). *)
From Coq Require Import ZArith List Lia Permutation.
From Verif Require Import Result Limbs LimbsProofs BigintModel FpModel FpSpec FpField GroupOps WnafModel WnafProofs
  MultiexpModel MultiexpProofs BosCosterProofs MultiexpExtra.
Import ListNotations.
Open Scope Z_scope.

(** ** C14: signed-digit recoding *)
Theorem C14_recoding_partial w k : (1 <= w <= 29)%nat -> limbs k -> (1 <= length k)%nat ->
  (val k <= Bn (length k) - 2 ^ Z.of_nat w \/ Z.odd (val k) = false) ->
  exists ds, find_wnaf w k = Ok ds /\ length ds = (64 * length k + 1)%nat /\
    digits_val ds = val k /\ wnaf_wf w ds.
Proof. exact (find_wnaf_spec w k). Qed.
Print Assumptions C14_recoding_partial.

(** [wnaf_wf]: non-zero digits are odd and below 2^w, and followed by w zeros. *)
Theorem C14_digits w ds : wnaf_wf w ds ->
  forall i, nth i ds 0 = 0 \/ Z.odd (nth i ds 0) = true /\ Z.abs (nth i ds 0) < 2 ^ Z.of_nat w.
Proof. exact (wf_digits w ds). Qed.
Print Assumptions C14_digits.

Theorem C14_sparse w ds : wnaf_wf w ds ->
  forall i j, (i < j)%nat -> nth i ds 0 <> 0 -> nth j ds 0 <> 0 -> (i + w < j)%nat.
Proof. exact (wf_sparse w ds). Qed.
Print Assumptions C14_sparse.

(** Every remaining scalar: the carry is lost and the digits stand for k - 2^(64n). *)
Theorem C14_carry_lost w k : (1 <= w <= 29)%nat -> limbs k -> (1 <= length k)%nat ->
  Bn (length k) - 2 ^ Z.of_nat w < val k -> Z.odd (val k) = true ->
  exists ds, find_wnaf w k = Ok ds /\ digits_val ds = val k - Bn (length k).
Proof. exact (find_wnaf_carry_lost w k). Qed.
Print Assumptions C14_carry_lost.

Theorem C14_refuted : exists w k ds, (1 <= w <= 62)%nat /\ limbs k /\ length k = 1%nat /\
  find_wnaf w k = Ok ds /\ digits_val ds <> val k.
Proof. exact find_wnaf_refuted. Qed.
Print Assumptions C14_refuted.

(** Windows of 31 and more: the digit mask shift is undefined. *)
Theorem C14_wide_window_ub w k : (31 <= w)%nat -> limbs k -> Z.odd (val k) = true -> find_wnaf w k = UB.
Proof. exact (wnaf_wide_ub w k). Qed.
Print Assumptions C14_wide_window_ub.

Example C14_example : exists ds, find_wnaf 3 [2 ^ 63 + 29; 7] = Ok ds /\
  digits_val ds = 2 ^ 63 + 29 + 7 * 2 ^ 64 /\ nth 0 ds 0 = -3.
Proof.
  destruct (C14_recoding_partial 3 [2 ^ 63 + 29; 7]) as (ds & E & _ & V & _).
  - lia.
  - apply limbsb_iff. reflexivity.
  - cbn. lia.
  - left. cbn [length]. apply Z.leb_le. vm_compute. reflexivity.
  - exists ds. split; [exact E|]. split; [rewrite V; vm_compute; reflexivity|].
    vm_compute in E. injection E as <-. reflexivity.
Qed.

Section Group.
Context {T G S : Type} (O : gops T) (ok : T -> Prop) (den : T -> G)
  (z : G) (add : G -> G -> G) (opp : G -> G).
Implicit Types (vec : list T).

(** ** C15: wNAF exponentiation *)
Theorem C15_fixed_window : gops_ok O ok den z add opp ->
  forall w base k, (1 <= w <= 29)%nat -> limbs k -> (1 <= length k)%nat ->
  (val k <= Bn (length k) - 2 ^ Z.of_nat w \/ Z.odd (val k) = false) -> ok base ->
  exists t, fixed_window_wnaf_exp O w base k = Ok t /\ ok t /\ den t = gmul z add opp (val k) (den base).
Proof. intros GO. exact (fixed_window_wnaf_exp_spec O ok den z add opp GO). Qed.

(** [bits] is the caller's size hint: any value gives the same result. *)
Theorem C15_opt_window : gops_ok O ok den z add opp ->
  forall tbl base k bits, (length tbl <= 29)%nat -> limbs k -> (1 <= length k)%nat ->
  (val k <= Bn (length k) - 2 ^ Z.of_nat (length tbl) \/ Z.odd (val k) = false) -> ok base ->
  exists t, opt_window_wnaf_exp O tbl base k bits = Ok t /\ ok t /\
    den t = gmul z add opp (val k) (den base).
Proof. intros GO. exact (opt_window_wnaf_exp_spec O ok den z add opp GO). Qed.

(** The window is the largest one whose table entry the hint reaches; without
    one, double-and-add is used. *)
Theorem C15_window_choice tbl base k bits : exists w, (w <= length tbl)%nat /\
  opt_window_wnaf_exp O tbl base k bits =
    (if (w =? 0)%nat then Ok (scalar_mul O base k) else fixed_window_wnaf_exp O w base k) /\
  (w <> 0%nat -> nth (w - 1) tbl 0 <= bits) /\ (forall i, (w <= i < length tbl)%nat -> bits < nth i tbl 0).
Proof. exact (opt_window_choice O tbl base k bits). Qed.

(** ** C16: double-and-add *)
Theorem C16_scalar_mul : gops_ok O ok den z add opp -> forall base k, limbs k -> ok base ->
  ok (scalar_mul O base k) /\ den (scalar_mul O base k) = gmul z add opp (val k) (den base).
Proof. intros GO. exact (scalar_mul_spec O ok den z add opp GO). Qed.

Theorem C16_field_scalar P (OK : fp_ok P) : gops_ok O ok den z add opp -> forall (x : Fp P) base, ok base ->
  ok (field_smul O (fscalar P) x base) /\
  den (field_smul O (fscalar P) x base) = gmul z add opp (toZ P x) (den base).
Proof. exact (field_smul_field O ok den z add opp P OK). Qed.

(** ** C17: every method computes the sum of products *)
Variable as_bigint : S -> list Z.
Implicit Types (sc : list S).

Theorem C17_naive : gops_ok O ok den z add opp -> forall tbl nl vec sc, (length tbl <= 29)%nat -> (1 <= nl)%nat ->
  length vec = length sc -> Forall ok vec -> Forall (sok as_bigint nl) sc ->
  exists t, multi_exp_naive O as_bigint tbl vec sc = Ok t /\ ok t /\ den t = msum den z add opp as_bigint vec sc.
Proof.
  intros GO tbl nl vec sc H1 H2. exact (multi_exp_naive_spec O ok den z add opp GO as_bigint tbl H1 nl H2 vec sc).
Qed.

Theorem C17_naive_plain : gops_ok O ok den z add opp -> forall nl vec sc,
  length vec = length sc -> Forall ok vec -> Forall (sok as_bigint nl) sc ->
  exists t, multi_exp_naive_plain (g_zero O) (g_add O) (field_smul O as_bigint) vec sc = Ok t /\
    ok t /\ den t = msum den z add opp as_bigint vec sc.
Proof. intros GO. exact (multi_exp_naive_plain_spec O ok den z add opp GO as_bigint). Qed.

(** Vectors of different lengths. *)
Theorem C17_naive_mismatch : gops_ok O ok den z add opp -> forall tbl nl vec sc, (length tbl <= 29)%nat -> (1 <= nl)%nat ->
  Forall ok vec -> Forall (sok as_bigint nl) sc ->
  ((length vec < length sc)%nat -> multi_exp_naive O as_bigint tbl vec sc = AssertFail) /\
  ((length sc < length vec)%nat -> multi_exp_naive O as_bigint tbl vec sc = UB).
Proof. exact (naive_mismatch O ok den z add opp as_bigint). Qed.

Theorem C17_naive_plain_mismatch vec sc :
  ((length vec < length sc)%nat ->
    multi_exp_naive_plain (g_zero O) (g_add O) (field_smul O as_bigint) vec sc = AssertFail) /\
  ((length sc < length vec)%nat ->
    multi_exp_naive_plain (g_zero O) (g_add O) (field_smul O as_bigint) vec sc = UB).
Proof. exact (naive_plain_mismatch (g_zero O) (g_add O) (field_smul O as_bigint) vec sc). Qed.

(** 2^42 points do not fit the address space. *)
Theorem C17_BDLO12 : gops_ok O ok den z add opp -> forall mixed nl vec sc, (1 <= nl)%nat ->
  length vec = length sc -> Z.of_nat (length vec) <= 2 ^ 42 ->
  Forall (fun v => ok v /\ (mixed = true -> g_is_special O v = true)) vec -> Forall (sok as_bigint nl) sc ->
  exists t, multi_exp_BDLO12 O as_bigint mixed vec sc = Ok t /\ ok t /\ den t = msum den z add opp as_bigint vec sc.
Proof. exact (bdlo12_all O ok den z add opp as_bigint). Qed.

Theorem C17_BDLO12_too_long mixed vec sc s : length vec = length sc -> 2 ^ 42 < Z.of_nat (length vec) < 2 ^ 63 ->
  In s sc -> limbs (as_bigint s) -> 0 < val (as_bigint s) -> multi_exp_BDLO12 O as_bigint mixed vec sc = UB.
Proof. exact (bdlo_too_long O as_bigint mixed vec sc s). Qed.

Theorem C17_bos_coster : gops_ok O ok den z add opp -> forall tbl nl make_heap vec sc,
  (length tbl <= 29)%nat -> (1 <= nl)%nat -> make_heap_ok make_heap ->
  length vec = length sc -> Forall ok vec -> Forall (sok as_bigint nl) sc ->
  exists t, ok t /\ den t = msum den z add opp as_bigint vec sc /\
    forall fuel, bc_bound as_bigint sc < Z.of_nat fuel ->
      multi_exp_bos_coster O as_bigint tbl make_heap nl fuel vec sc = Ok t.
Proof.
  intros GO tbl nl mh vec sc H1 H2 MH.
  exact (multi_exp_bos_coster_spec O ok den z add opp GO as_bigint tbl H1 nl H2 mh MH vec sc).
Qed.

(** ** C18: chunks and schedules *)
Theorem C18_chunks : gops_ok O ok den z add opp -> forall nl vok maxlen inner, (1 <= nl)%nat ->
  method_ok ok den z add opp as_bigint nl vok maxlen inner ->
  forall chunks vec sc, (1 <= chunks)%nat -> length vec = length sc -> Z.of_nat (length vec) <= maxlen ->
  Forall vok vec -> Forall (sok as_bigint nl) sc ->
  exists t, ok t /\ den t = msum den z add opp as_bigint vec sc /\
    forall order, Permutation order (seq 0 chunks) -> multi_exp O inner chunks order vec sc = Ok t.
Proof. exact (chunks_all O ok den z add opp as_bigint). Qed.

(** The four methods are such [inner]s. *)
Theorem C18_methods : gops_ok O ok den z add opp -> forall tbl nl make_heap m mixed,
  (length tbl <= 29)%nat -> (1 <= nl)%nat -> make_heap_ok make_heap ->
  method_ok ok den z add opp as_bigint nl ok m (multi_exp_naive O as_bigint tbl) /\
  method_ok ok den z add opp as_bigint nl ok m
    (multi_exp_naive_plain (g_zero O) (g_add O) (field_smul O as_bigint)) /\
  method_ok ok den z add opp as_bigint nl (fun v => ok v /\ (mixed = true -> g_is_special O v = true)) (2 ^ 42)
    (multi_exp_BDLO12 O as_bigint mixed) /\
  method_ok ok den z add opp as_bigint nl ok m (bos_coster O as_bigint tbl make_heap nl).
Proof. exact (methods_all O ok den z add opp as_bigint). Qed.

(** Zero chunks: a division by zero. *)
Theorem C18_zero_chunks (inner : list T -> list S -> result T) order vec sc : multi_exp O inner 0 order vec sc = UB.
Proof. exact (multi_exp_zero_chunks O inner order vec sc). Qed.

(** ** C19: Bos-Coster never leaves its heap, asserts hold, and it terminates *)
Theorem C19_bos_coster : gops_ok O ok den z add opp -> forall tbl nl make_heap vec sc,
  (length tbl <= 29)%nat -> (1 <= nl)%nat -> make_heap_ok make_heap ->
  length vec = length sc -> Forall ok vec -> Forall (sok as_bigint nl) sc ->
  exists bound, forall fuel, (bound <= fuel)%nat ->
    exists t, multi_exp_bos_coster O as_bigint tbl make_heap nl fuel vec sc = Ok t.
Proof. exact (bos_coster_terminates O ok den z add opp as_bigint). Qed.

(** ** C20: mixed addition *)
Theorem C20_mixed_addition : gops_ok O ok den z add opp -> forall nl vok maxlen inner mixed s_is0 s_is1,
  (1 <= nl)%nat ->
  method_ok ok den z add opp as_bigint nl vok maxlen inner ->
  (forall v, vok v -> ok v /\ (mixed = true -> g_is_special O v = true)) ->
  (forall s, sok as_bigint nl s -> s_is0 s = (val (as_bigint s) =? 0)) ->
  (forall s, sok as_bigint nl s -> s_is1 s = (val (as_bigint s) =? 1)) ->
  forall chunks vec sc, (1 <= chunks)%nat -> length vec = length sc -> Z.of_nat (length vec) <= maxlen ->
  Forall vok vec -> Forall (sok as_bigint nl) sc ->
  exists t, ok t /\ den t = msum den z add opp as_bigint vec sc /\
    forall order, Permutation order (seq 0 chunks) ->
      multi_exp_with_mixed_addition O inner mixed s_is0 s_is1 chunks order vec sc = Ok t.
Proof. exact (mixed_all O ok den z add opp as_bigint). Qed.

Theorem C20_length_mismatch (inner : list T -> list S -> result T) mixed s0 s1 chunks order vec sc :
  length vec <> length sc ->
  multi_exp_with_mixed_addition O inner mixed s0 s1 chunks order vec sc = AssertFail.
Proof. exact (mixed_length_mismatch O inner mixed s0 s1 chunks order vec sc). Qed.

(** ** C21: fixed-base windows *)
Theorem C21_windowed_exp : gops_ok O ok den z add opp -> forall ss w g s,
  0 < ss < 2 ^ 63 -> 1 <= w <= 32 -> ok g -> limbs (as_bigint s) -> val (as_bigint s) < 2 ^ ss ->
  exists table t, get_window_table O ss w g = Ok table /\
    windowed_exp O as_bigint ss w table s = Ok t /\ ok t /\
    den t = gmul z add opp (val (as_bigint s)) (den g).
Proof. exact (windowed_all O ok den z add opp as_bigint). Qed.

Theorem C21_window_size lowmem tbl n : 1 <= get_exp_window_size lowmem tbl n.
Proof. exact (window_size_pos lowmem tbl n). Qed.

(** ** C22: batches *)
Theorem C22_batch_exp : gops_ok O ok den z add opp -> forall ss w g v,
  0 < ss < 2 ^ 63 -> 1 <= w <= 32 -> ok g ->
  Forall (fun s => limbs (as_bigint s) /\ val (as_bigint s) < 2 ^ ss) v ->
  exists table r, get_window_table O ss w g = Ok table /\
    (forall order, Permutation order (seq 0 (length v)) -> batch_exp O as_bigint ss w table order v = Ok r) /\
    Forall2 (fun s t => windowed_exp O as_bigint ss w table s = Ok t /\ ok t /\
      den t = gmul z add opp (val (as_bigint s)) (den g)) v r.
Proof. exact (batch_all O ok den z add opp as_bigint). Qed.

Theorem C22_batch_exp_with_coeff : gops_ok O ok den z add opp -> forall (smul : S -> S -> S) coeff ss w g v,
  0 < ss < 2 ^ 63 -> 1 <= w <= 32 -> ok g ->
  Forall (fun s => limbs (as_bigint (smul coeff s)) /\ val (as_bigint (smul coeff s)) < 2 ^ ss) v ->
  exists table r, get_window_table O ss w g = Ok table /\
    (forall order, Permutation order (seq 0 (length v)) ->
       batch_exp_with_coeff O as_bigint smul ss w table order coeff v = Ok r) /\
    Forall2 (fun s t => windowed_exp O as_bigint ss w table (smul coeff s) = Ok t /\ ok t /\
      den t = gmul z add opp (val (as_bigint (smul coeff s))) (den g)) v r.
Proof. exact (batch_coeff_all O ok den z add opp as_bigint). Qed.

(** Entry i is the special form of entry i, zeros included. *)
Theorem C22_batch_to_special : gops_ok O ok den z add opp -> forall vec, Forall ok vec ->
  exists r, batch_to_special O vec = Ok r /\
    Forall2 (fun a b => g_to_special O (if g_is_zero O a then g_zero O else a) = Ok b /\
      ok b /\ g_is_special O b = true /\ den b = den a) vec r.
Proof. exact (batch_special_all O ok den z add opp). Qed.
End Group.
Print Assumptions C15_fixed_window.
Print Assumptions C15_opt_window.
Print Assumptions C15_window_choice.
Print Assumptions C16_scalar_mul.
Print Assumptions C16_field_scalar.
Print Assumptions C17_naive.
Print Assumptions C17_naive_plain.
Print Assumptions C17_naive_mismatch.
Print Assumptions C17_naive_plain_mismatch.
Print Assumptions C17_BDLO12.
Print Assumptions C17_BDLO12_too_long.
Print Assumptions C17_bos_coster.
Print Assumptions C18_chunks.
Print Assumptions C18_methods.
Print Assumptions C18_zero_chunks.
Print Assumptions C19_bos_coster.
Print Assumptions C20_mixed_addition.
Print Assumptions C20_length_mismatch.
Print Assumptions C21_windowed_exp.
Print Assumptions C21_window_size.
Print Assumptions C22_batch_exp.
Print Assumptions C22_batch_exp_with_coeff.
Print Assumptions C22_batch_to_special.

(** A scalar x >= 2^scalar_size (here 3 bits, window 2, x = 12): the last row
    holds only 2 multiples, its other entries are zero, and the result is wrong. *)
Theorem C21_large_scalar_refuted : exists table t, get_window_table zgops 3 2 1 = Ok table /\
  windowed_exp zgops (fun s : list Z => s) 3 2 table [12] = Ok t /\ t <> 12.
Proof. exact windowed_large_refuted. Qed.
Print Assumptions C21_large_scalar_refuted.

(** inner_product and naive_plain in any commutative monoid of field elements. *)
Theorem C18_inner_product {T} zero (add mul : T -> T -> T) a b :
  Algebra.monoid_laws zero add -> length a = length b ->
  inner_product zero add mul a b =
  Ok (Algebra.nprod zero add (map (fun vs => mul (snd vs) (fst vs)) (combine a b))).
Proof. exact (inner_product_spec zero add mul a b). Qed.
Print Assumptions C18_inner_product.

(** Field elements as scalars. *)
Theorem C17_field_scalars P (OK : fp_ok P) (x : Fp P) :
  sok (fscalar P) (fp_n P) x /\ fp_as_bigint P (repr P x) = Ok (fscalar P x) /\
  val (fscalar P x) = toZ P x /\
  feqb P x (fzero P OK) = (val (fscalar P x) =? 0) /\ feqb P x (fone P OK) = (val (fscalar P x) =? 1).
Proof. exact (field_scalars P OK x). Qed.
Print Assumptions C17_field_scalars.

(** std::make_heap's specification is satisfiable. *)
Theorem C19_make_heap_exists : make_heap_ok sort_desc.
Proof. exact sort_desc_ok. Qed.
Print Assumptions C19_make_heap_exists.

(** ** Examples: the integers as group *)
Example C15_example : exists t, opt_window_wnaf_exp zgops [11; 24; 60; 127] 5 [1000001; 3] 66 = Ok t /\
  t = 5 * (1000001 + 3 * 2 ^ 64).
Proof. eexists. split; [vm_compute; reflexivity|vm_compute; reflexivity]. Qed.

Example C17_example :
  let vec := [3; -7; 0; 11; 5] in
  let sc := [[12345; 0]; [0; 5]; [7; 7]; [1; 0]; [99; 2 ^ 62]] in
  Forall (sok (fun s : list Z => s) 2) sc /\
  (forall make_heap, make_heap_ok make_heap -> exists t,
    multi_exp_bos_coster zgops (fun s : list Z => s) [11; 24; 60; 127] make_heap 2
      (Z.to_nat (2 ^ 130)) vec sc = Ok t /\
    multi_exp_naive zgops (fun s => s) [11; 24; 60; 127] vec sc = Ok t /\
    multi_exp_BDLO12 zgops (fun s => s) true vec sc = Ok t).
Proof. exact example_multi_exp. Qed.

Example C21_example : exists table, get_window_table zgops 7 3 10 = Ok table /\
  windowed_exp zgops (fun s : list Z => s) 7 3 table [101] = Ok 1010.
Proof. eexists. split; [vm_compute; reflexivity|vm_compute; reflexivity]. Qed.

Example C20_example :
  multi_exp_with_mixed_addition zgops (multi_exp_BDLO12 zgops (fun s : list Z => s) true) true
    (fun s => val s =? 0) (fun s => val s =? 1) 2 [1; 0]%nat [3; 4; 5; 6; 7] [[0]; [1]; [9]; [1]; [20]] = Ok 195.
Proof. vm_compute. reflexivity. Qed.
