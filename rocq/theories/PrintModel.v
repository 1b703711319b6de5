(** Model of the print functions: the bytes they send to the standard output. *)
From Coq Require Import ZArith NArith List Bool.
From Verif Require Import Result Limbs BigintModel FpModel FpSpec FpField FieldOps BinaryModel StreamModel.
Import ListNotations.
Open Scope Z_scope.
Open Scope result_scope.

(** Characters: O ( ) , : * z ^ 2 + and the words of the formats. *)
Definition str_O : stream := [79; ch_nl].
Definition str_open : stream := [40].
Definition str_close : stream := [41; ch_nl].
Definition str_comma : stream := [ch_sp; 44; ch_sp].
Definition str_colon : stream := [ch_sp; 58; ch_sp].
Definition str_z : stream := [42; 122; ch_sp; 43; ch_sp].
Definition str_z2 : stream := [42; 122; 94; 50; ch_sp; 43; ch_sp].
(** "c0/c1:" and "c0/c1/c2:" with the newline. *)
Definition str_c0c1 : stream := [99; 48; 47; 99; 49; 58; ch_nl].
Definition str_c0c1c2 : stream := [99; 48; 47; 99; 49; 47; 99; 50; 58; ch_nl].

(** bigint.tcc:74-78 *)
Definition bigint_print (a : bigint) : stream := dec (bigint_to_mpz a) ++ [ch_nl].
(** fp.tcc:278-286 *)
Definition fp_print (P : fp_params) (a : list Z) : result stream :=
  tmp <- mul_reduce P (bigint_one (fp_n P)) a ;; Ok (bigint_print tmp).
(** fp2.hpp:61, fp4.hpp:60, fp6_2over3.hpp:63, fp12_2over3over2.hpp:65 *)
Definition quad_print {K} (print : K -> result stream) (x : K * K) : result stream :=
  w0 <- print (fst x) ;; w1 <- print (snd x) ;; Ok (str_c0c1 ++ w0 ++ w1).
(** fp3.hpp:62, fp6_3over2.hpp:64 *)
Definition cubic_print {K} (print : K -> result stream) (x : K * K * K) : result stream :=
  w0 <- print (fst (fst x)) ;; w1 <- print (snd (fst x)) ;; w2 <- print (snd x) ;;
  Ok (str_c0c1c2 ++ w0 ++ w1 ++ w2).

(** printf's %016lx: [k] hexadecimal digits. *)
Definition hex_digit (d : Z) : Z := if d <? 10 then 48 + d else 87 + d.
Fixpoint hex_word (k : nat) (w : Z) : stream :=
  match k with O => [] | S k' => hex_word k' (w / 16) ++ [hex_digit (w mod 16)] end.
(** gmp_printf's %Nx: lower-case hexadecimal without leading zeros. *)
Fixpoint hex_fuel (fuel : nat) (z : Z) : stream :=
  match fuel with
  | O => [hex_digit (z mod 16)]
  | S f => if z <? 16 then [hex_digit z] else hex_fuel f (z / 16) ++ [hex_digit (z mod 16)]
  end.
Definition hex (z : Z) : stream := hex_fuel (Z.to_nat (Z.log2 z)) z.
(** bigint.tcc:80-84 *)
Definition bigint_print_hex (a : bigint) : stream := hex (bigint_to_mpz a) ++ [ch_nl].
(** gf32.cpp:225-228 (decimal), gf64.cpp:266-269, gf128.cpp:270-273,
    gf192.cpp:324-327, gf256.cpp:399-404 (the high word first). *)
Definition gf_print (g : gf_name) (a : list N) : stream :=
  (match g with
   | G32 => dec (Z.of_N (nth 0 a 0%N))
   | _ => flat_map (fun w => hex_word 16 (Z.of_N w)) (rev a)
   end) ++ [ch_nl].

(** One coordinate.  Prime field, "%Nd" of as_bigint(); over Fp2, "%Nd*z + %Nd";
    over Fp3, "%Nd*z^2 + %Nd*z + %Nd". *)
Definition fp_fmt (P : fp_params) (x : Fp P) : result stream :=
  b <- fp_as_bigint P (repr P x) ;; Ok (dec (bigint_to_mpz b)).
Definition fp2_fmt {K} (fmt : K -> result stream) (x : K * K) : result stream :=
  w1 <- fmt (snd x) ;; w0 <- fmt (fst x) ;; Ok (w1 ++ str_z ++ w0).
Definition fp3_fmt {K} (fmt : K -> result stream) (x : K * K * K) : result stream :=
  w2 <- fmt (snd x) ;; w1 <- fmt (snd (fst x)) ;; w0 <- fmt (fst (fst x)) ;; Ok (w2 ++ str_z2 ++ w1 ++ str_z ++ w0).

(** Points: alt_bn128_g1.cpp:36-65, alt_bn128_g2.cpp:41-75, bls12_381_g1.cpp:25-54,
    bls12_381_g2.cpp:30-64, mnt4_g1.cpp:44-73, mnt4_g2.cpp:55-89, mnt6_g1.cpp:44-73,
    mnt6_g2.cpp:55-94, edwards_g1.cpp:35-64, edwards_g2.cpp:47-86. *)
Section Points.
Context {K : Type} (fmt : K -> result stream) (is_zero : K * K * K -> bool) (to_affine : K * K * K -> result (K * K * K)).
Definition point_print (p : K * K * K) : result stream :=
  if is_zero p then Ok str_O else
  '(x, y, _) <- to_affine p ;;
  wx <- fmt x ;; wy <- fmt y ;; Ok (str_open ++ wx ++ str_comma ++ wy ++ str_close).
Definition coordinates_text (p : K * K * K) : result stream :=
  let '(x, y, z) := p in
  wx <- fmt x ;; wy <- fmt y ;; wz <- fmt z ;;
  Ok (str_open ++ wx ++ str_colon ++ wy ++ str_colon ++ wz ++ str_close).
Definition point_print_coordinates (p : K * K * K) : result stream :=
  if is_zero p then Ok str_O else coordinates_text p.
(** bn128_g1.cpp:87-111, bn128_g2.cpp:87-111; toString(10) of the ate-pairing
    library is [fmt]. *)
Definition bn_print (p : K * K * K) : result stream :=
  if is_zero p then Ok str_O else q <- to_affine p ;; coordinates_text q.
End Points.
