(** Model of libff/common/serialization.{hpp,tcc}, of the bit-vector
    serialisation in libff/common/utils.cpp, and of SHA512_rng.

    Writers return the bytes written; readers return the value and the
    remaining bytes, or [StreamFail] when the stream ends up in a failed
    state.  [bin] is whether BINARY_OUTPUT is defined.  Memory exhaustion in
    [resize] (absurd sizes in corrupted input) is not modelled. *)
From Coq Require Import ZArith List Bool.
From Verif Require Import Result Limbs StreamModel UtilsModel FpModel.
Import ListNotations.
Open Scope Z_scope.
Open Scope result_scope.

(** serialization.tcc:23-27 *)
Definition consume_newline (s : stream) : result stream :=
  '(_, r) <- read_char s ;; Ok r.
(** serialization.hpp:60-66 [OUTPUT_NEWLINE], serialization.tcc:29-38. *)
Definition output_newline (bin : bool) : stream := if bin then [] else [ch_nl].
Definition consume_output_newline (bin : bool) (s : stream) : result stream :=
  if bin then Ok s else consume_newline s.

(** serialization.tcc:51-54 *)
Definition output_bool (b : bool) : stream := dec (if b then 1 else 0) ++ [ch_nl].
(** serialization.tcc:56-64 *)
Definition input_bool (s : stream) : result (bool * stream) :=
  '(tmp, s) <- read_u64 s ;;
  s <- consume_newline s ;;
  assert_then ((tmp =? 0) || (tmp =? 1)) (Ok (tmp =? 1, s)).

(** Read k elements. *)
Fixpoint read_many {T} (rd : stream -> result (T * stream)) (k : nat) (s : stream) : result (list T * stream) :=
  match k with
  | O => Ok ([], s)
  | S k' => '(x, s) <- rd s ;; '(l, s) <- read_many rd k' s ;; Ok (x :: l, s)
  end.

(** serialization.tcc:66-73, 75-87 *)
Definition output_bool_vector (v : list bool) : stream :=
  dec (Z.of_nat (length v)) ++ [ch_nl] ++ flat_map output_bool v.
Definition input_bool_vector (s : stream) : result (list bool * stream) :=
  '(size, s) <- read_u64 s ;;
  s <- consume_newline s ;;
  read_many input_bool (Z.to_nat size) s.

Section Containers.
Context {T : Type} (bin : bool) (wr : T -> stream) (rd : stream -> result (T * stream)).

(** serialization.tcc:99-110 *)
Definition write_vector (v : list T) : stream :=
  dec (Z.of_nat (length v)) ++ [ch_nl] ++ flat_map (fun t => wr t ++ output_newline bin) v.
(** serialization.tcc:112-130 *)
Definition read_elt (s : stream) : result (T * stream) :=
  '(elt, s) <- rd s ;; s <- consume_output_newline bin s ;; Ok (elt, s).
Definition read_vector (s : stream) : result (list T * stream) :=
  '(size, s) <- read_u64 s ;;
  s <- consume_newline s ;;
  read_many read_elt (Z.to_nat size) s.

(** serialization.tcc:89-97 *)
Definition reserialize (x : T) : result T := '(y, _) <- rd (wr x) ;; Ok y.

(** A [std::set] is its strictly increasing list of elements; [insert]. *)
Variable ltb : T -> T -> bool.
Fixpoint set_insert (x : T) (s : list T) : list T :=
  match s with
  | [] => [x]
  | y :: s' => if ltb x y then x :: s else if ltb y x then y :: set_insert x s' else s
  end.
(** serialization.tcc:168-178, 182-199 *)
Definition write_set (v : list T) : stream :=
  dec (Z.of_nat (length v)) ++ [ch_nl] ++ flat_map (fun t => wr t ++ [ch_nl]) v.
Definition read_set_elt (s : stream) : result (T * stream) :=
  '(el, s) <- rd s ;; s <- consume_newline s ;; Ok (el, s).
Definition read_set (s : stream) : result (list T * stream) :=
  '(size, s) <- read_u64 s ;;
  s <- consume_newline s ;;
  '(els, s) <- read_many read_set_elt (Z.to_nat size) s ;;
  Ok (fold_left (fun acc x => set_insert x acc) els [], s).
End Containers.

Section Map.
Context {T1 T2 : Type} (wk : T1 -> stream) (rk : stream -> result (T1 * stream))
  (wv : T2 -> stream) (rv : stream -> result (T2 * stream)) (ltb : T1 -> T1 -> bool).
(** A [std::map] is its list of pairs with strictly increasing keys;
    [m[k] = v]. *)
Fixpoint map_assign (k : T1) (v : T2) (m : list (T1 * T2)) : list (T1 * T2) :=
  match m with
  | [] => [(k, v)]
  | (k', v') :: m' => if ltb k k' then (k, v) :: m
                      else if ltb k' k then (k', v') :: map_assign k v m'
                      else (k', v) :: m'
  end.
(** serialization.tcc:132-144, 146-166 *)
Definition write_map (m : list (T1 * T2)) : stream :=
  dec (Z.of_nat (length m)) ++ [ch_nl] ++
  flat_map (fun kv => (wk (fst kv) ++ [ch_nl]) ++ (wv (snd kv) ++ [ch_nl])) m.
Definition read_map_elt (s : stream) : result ((T1 * T2) * stream) :=
  '(k, s) <- rk s ;; s <- consume_newline s ;;
  '(v, s) <- rv s ;; s <- consume_newline s ;; Ok ((k, v), s).
Definition read_map (s : stream) : result (list (T1 * T2) * stream) :=
  '(size, s) <- read_u64 s ;;
  s <- consume_newline s ;;
  '(els, s) <- read_many read_map_elt (Z.to_nat size) s ;;
  Ok (fold_left (fun acc kv => map_assign (fst kv) (snd kv) acc) els [], s).
End Map.

(** utils.cpp:129-136 [serialize_bit_vector]. *)
Definition serialize_bit_vector (v : list bool) : stream :=
  dec (Z.of_nat (length v)) ++ [ch_nl] ++ flat_map (fun b : bool => dec (if b then 1 else 0) ++ [ch_nl]) v.
(** [in >> b] for bool: an integer that must be 0 or 1. *)
Definition read_bool (s : stream) : result (bool * stream) :=
  '(v, s) <- read_u64 s ;;
  if v =? 0 then Ok (false, s) else if v =? 1 then Ok (true, s) else StreamFail.
(** utils.cpp:138-149 [deserialize_bit_vector]. *)
Definition deserialize_bit_vector (s : stream) : result (list bool * stream) :=
  '(size, s) <- read_u64 s ;; read_many read_bool (Z.to_nat size) s.

(** rng.tcc:25-72 [SHA512_rng]: [sha idx iter] is the digest of the two words
    as eight 64-bit limbs (oracle for OpenSSL's SHA512).  The loop counter
    starts at 0 and wraps. *)
Section Sha.
Variable P : fp_params.
Variable sha : Z -> Z -> list Z.
Definition sha_attempt (idx iter : Z) : list Z :=
  clear_high P (64 * fp_n P) (firstn (fp_n P) (sha idx iter)).
Fixpoint sha512_loop (fuel : nat) (idx iter : Z) : result (list Z) :=
  match fuel with
  | O => OutOfFuel
  | S f =>
      let rval := sha_attempt idx iter in
      match mpn_cmp rval (fp_modulus P) with
      | Lt => fp_of_bigint P rval
      | _ => sha512_loop f idx (wrap64 (iter + 1))
      end
  end.
(** Reading [hash[i]] for i >= 8 would be out of bounds. *)
Definition sha512_rng (fuel : nat) (idx : Z) : result (list Z) :=
  assert_then (fp_num_bits P <=? 512) (
  if (8 <? fp_n P)%nat then UB else sha512_loop fuel idx 0).
End Sha.

(** utils.tcc:23-47 [random_element_non_zero_one], [_non_zero], [_exclude]:
    draw until the value is not excluded. *)
Fixpoint draw_until {T} (bad : T -> bool) (fuel : nat) (src : nat -> T) : result T :=
  match fuel with
  | O => OutOfFuel
  | S f => if bad (src 0%nat) then draw_until bad f (fun i => src (S i)) else Ok (src 0%nat)
  end.
