(** Parsers and square roots in a build with NDEBUG; see NdebugModel.v for when
    such builds are made. *)
From Coq Require Import ZArith List Bool.
From Verif Require Import Result Limbs BigintModel UtilsModel FpModel AlgorithmsModel StreamModel.
Import ListNotations.
Open Scope Z_scope.
Open Scope result_scope.

(** [mpn_set_str(rp, digits, l, 10)] (GMP manual): at least one digit, each less
    than the base, otherwise UB; writes as many limbs as the value has. *)
Definition mpn_set_str10 (n : nat) (ds : list Z) : result bigint :=
  match ds with
  | [] => UB
  | _ =>
      if forallb (fun d => d <? 10) ds then
        let v := fold_left (fun acc d => 10 * acc + d) ds 0 in
        if (n <? set_str_size v)%nat then UB else Ok (limbs_of n v)
      else UB
  end.
(** bigint.tcc:27-47 [bigint(const char* s)] without lines 35 and 41;
    [s[i] - '0'] is stored in an unsigned char. *)
Definition bigint_of_string_nd (n : nat) (s : list Z) : result bigint :=
  mpn_set_str10 n (map (fun c => (c - ch_0) mod 256) s).
(** bigint.tcc:226-254 [operator>>], text mode, without lines 240 and 245. *)
Definition bigint_read_text_nd (n : nat) (s : stream) : result (bigint * stream) :=
  let '(t, r) := read_string s in
  b <- bigint_of_string_nd n t ;; Ok (b, r).

Section Fp.
Variable P : fp_params.
(** fp.tcc:816-824 [operator>>]. *)
Definition fp_read_nd (bin mont : bool) (s : stream) : result (list Z * stream) :=
  '(b, rest) <- (if bin then bigint_read_bin (fp_n P) s else bigint_read_text_nd (fp_n P) s) ;;
  r <- (if mont then Ok b else mul_reduce P b (fp_Rsquared P)) ;;
  Ok (r, rest).
(** fp.tcc:787-807 [from_words] without line 795: [/] and [%] of a negative
    long round towards zero; an iterator before begin() and a shift by a
    negative amount are UB. *)
Definition fp_from_words_nd (mont : bool) (old words : list Z) : result (list Z * bool) :=
  let start_bit := Z.of_nat (length words) * 64 - fp_num_bits P in
  let start_word := Z.quot start_bit 64 in
  let bit_offset := Z.rem start_bit 64 in
  if start_word <? 0 then UB else
  let src := skipn (Z.to_nat start_word) words in
  if (fp_n P <? length src)%nat then UB else
  let d := src ++ skipn (length src) old in
  let top := nth (fp_n P - 1) d 0 in
  if bit_offset <? 0 then UB else
  let d := upd d (fp_n P - 1) (Z.shiftr ((Z.shiftl top bit_offset) mod B) bit_offset) in
  r <- (if mont then Ok d else mul_reduce P d (fp_Rsquared P)) ;;
  Ok (r, bigint_ltb r (fp_modulus P)).
End Fp.

(** algorithms.tcc:102-162 [tonelli_shanks_sqrt] without lines 106-108 and 130;
    what DEBUG adds is computed and not looked at. *)
Section Sqrt.
Context {T : Type} (zero one : T) (mul : T -> T -> T) (sqr : T -> T) (eqb : T -> T -> bool) (S : sqrt_params T).
Definition tonelli_shanks_sqrt_nd (fuel : nat) (value : T) : result T :=
  if eqb value zero then Ok zero
  else
    let w := power_bigint one mul value (sq_tm1 S) in
    let x := mul value w in
    let b := mul x w in
    sqrt_loop one mul sqr eqb fuel (sq_s S) (sq_nqr_to_t S) b x.
End Sqrt.
