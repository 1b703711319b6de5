(** C61: the window tables shipped with the groups. *)
From Coq Require Import ZArith List Permutation.
From Verif Require Import Result Limbs BigintModel GroupOps WnafModel MultiexpModel MultiexpProofs MultiexpExtra WindowsModel WindowsProofs.
Import ListNotations.
Open Scope Z_scope.

(** get_exp_window_size returns the largest window whose entry is not zero and is
    reached by the number of scalars, and window 1 if there is none; LOWMEM caps it. *)
Theorem C61_choice : forall tbl n, tbl <> [] ->
  let w := get_exp_window_size false tbl n in
  1 <= w <= Z.of_nat (length tbl) /\
  (w = 1 \/ nth (Z.to_nat (w - 1)) tbl 0 <> 0 /\ nth (Z.to_nat (w - 1)) tbl 0 <= n) /\
  (forall i, w <= Z.of_nat i < Z.of_nat (length tbl) -> nth i tbl 0 = 0 \/ n < nth i tbl 0) /\
  get_exp_window_size true tbl n = Z.min 14 w.
Proof. exact choice_all. Qed.
Print Assumptions C61_choice.
Example C61_choice_nonvacuous :
  map (get_exp_window_size false (wt_fixed alt_bn128_G1_windows)) [0; 4; 5; 7121; 7122; 57817; 57818; 40000000] = [1; 1; 2; 10; 11; 11; 13; 22] /\
  get_exp_window_size true (wt_fixed alt_bn128_G1_windows) 40000000 = 14.
Proof. vm_compute. split; reflexivity. Qed.

(** Without a table the default windows are used. *)
Theorem C61_no_table : forall n, get_exp_window_size false [] n = 17 /\ get_exp_window_size true [] n = 14.
Proof. exact choice_empty. Qed.
Print Assumptions C61_no_table.

Theorem C61_monotone : forall tbl n n', n <= n' -> get_exp_window_size false tbl n <= get_exp_window_size false tbl n'.
Proof. exact window_size_mono. Qed.
Print Assumptions C61_monotone.
Example C61_monotone_nonvacuous : get_exp_window_size false [1; 0; 7] 6 = 1 /\ get_exp_window_size false [1; 0; 7] 7 = 3.
Proof. split; reflexivity. Qed.

(** With a shipped table every window whose entry is not zero is used, from exactly
    that number of scalars on. *)
Theorem C61_reached : forall W, In W shipped_windows -> forall w, (1 <= w <= 22)%nat ->
  let e := nth (w - 1) (wt_fixed W) 0 in
  e <> 0 -> get_exp_window_size false (wt_fixed W) e = Z.of_nat w /\ get_exp_window_size false (wt_fixed W) (e - 1) < Z.max 2 (Z.of_nat w).
Proof. exact shipped_fixed_reached. Qed.
Print Assumptions C61_reached.
Example C61_reached_nonvacuous : In edwards_G1_windows shipped_windows /\ get_exp_window_size false (wt_fixed edwards_G1_windows) 17350594 = 21.
Proof. split; [cbn; tauto|reflexivity]. Qed.

(** The choice agrees with the ranges recorded beside the table, in hundredths, away
    from the rounding of their bounds. *)
Theorem C61_documented : forall W, In W shipped_windows -> forall w lo hi n, In (w, (lo, hi)) (wt_doc W) ->
  match lo with Some l => l + 50 <= 100 * n | None => True end -> match hi with Some h => 100 * n < h - 50 | None => True end ->
  get_exp_window_size false (wt_fixed W) n = w.
Proof. exact shipped_documented. Qed.
Print Assumptions C61_documented.
Example C61_documented_nonvacuous : In (10, (Some 697775, Some 712223)) (wt_doc alt_bn128_G1_windows) /\ get_exp_window_size false (wt_fixed alt_bn128_G1_windows) 7000 = 10.
Proof. split; [cbn; tauto|reflexivity]. Qed.

(** With a shipped table opt_window_wnaf_exp uses the window whose range holds the
    number of bits, and plain double-and-add below the first entry. *)
Theorem C61_wnaf : forall W, In W shipped_windows -> forall bits w, (w <= 4)%nat ->
  (w <> 0%nat -> nth (w - 1) (wt_wnaf W) 0 <= bits) -> ((w < 4)%nat -> bits < nth w (wt_wnaf W) 0) ->
  forall {T} (O : gops T) base k, opt_window_wnaf_exp O (wt_wnaf W) base k bits =
    if (w =? 0)%nat then Ok (scalar_mul O base k) else fixed_window_wnaf_exp O w base k.
Proof. exact @shipped_wnaf. Qed.
Print Assumptions C61_wnaf.
Example C61_wnaf_nonvacuous : (nth 2 (wt_wnaf bn128_G1_windows) 0 <= 131 < nth 3 (wt_wnaf bn128_G1_windows) 0) /\
  opt_window_wnaf_exp zgops (wt_wnaf bn128_G1_windows) 5 [77] 131 = Ok 385.
Proof. vm_compute. split; [split; [discriminate|reflexivity]|reflexivity]. Qed.

(** Fixed-base exponentiation with the window of a shipped table is right, whatever
    number of scalars is announced. *)
Theorem C61_batch : forall W, In W shipped_windows ->
  forall {T G S : Type} (O : gops T) (ok : T -> Prop) (den : T -> G) z add opp (as_bigint : S -> list Z), gops_ok O ok den z add opp ->
  forall n lowmem ss g v, 0 < ss < 2 ^ 63 -> ok g -> Forall (fun s => limbs (as_bigint s) /\ val (as_bigint s) < 2 ^ ss) v ->
  let w := get_exp_window_size lowmem (wt_fixed W) n in
  exists table r, get_window_table O ss w g = Ok table /\
    (forall order, Permutation order (seq 0 (length v)) -> batch_exp O as_bigint ss w table order v = Ok r) /\
    Forall2 (fun s t => ok t /\ den t = gmul z add opp (val (as_bigint s)) (den g)) v r.
Proof. exact @shipped_batch. Qed.
Print Assumptions C61_batch.
Example C61_batch_nonvacuous : let w := get_exp_window_size false (wt_fixed mnt4_G1_windows) 3 in
  (t <- get_window_table zgops 8 w 10;; batch_exp zgops (fun s => s) 8 w t (seq 0 3) [[3]; [200]; [0]]) = Ok [30; 2000; 0].
Proof. vm_compute. reflexivity. Qed.

(** Variable-base exponentiation with a shipped table is right for every number of
    bits that is announced. *)
Theorem C61_opt : forall W, In W shipped_windows ->
  forall {T G S : Type} (O : gops T) (ok : T -> Prop) (den : T -> G) z add opp (as_bigint : S -> list Z), gops_ok O ok den z add opp ->
  forall nl base s bits, (1 <= nl)%nat -> sok as_bigint nl s -> ok base ->
  exists t, opt_window_wnaf_exp O (wt_wnaf W) base (as_bigint s) bits = Ok t /\ ok t /\ den t = gmul z add opp (val (as_bigint s)) (den base).
Proof. exact @shipped_opt. Qed.
Print Assumptions C61_opt.
Example C61_opt_nonvacuous : map (fun b => opt_window_wnaf_exp zgops (wt_wnaf mnt6_G2_windows) 7 [1000003] b) [0; 5; 20; 50; 300] =
  repeat (Ok 7000021) 5.
Proof. vm_compute. reflexivity. Qed.
