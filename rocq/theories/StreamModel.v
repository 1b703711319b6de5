(** Byte streams and the formatted I/O primitives libff relies on.

    An input stream is the list of bytes still to be read; an output stream is
    the list of bytes written.  Bytes are [Z] in [0,256). *)
From Coq Require Import ZArith List Lia Bool.
From Verif Require Import Result Limbs.
Import ListNotations.
Open Scope Z_scope.
Open Scope result_scope.

Notation stream := (list Z) (only parsing).

Definition ch_nl : Z := 10.
Definition ch_sp : Z := 32.
Definition ch_0 : Z := 48.
Definition ch_9 : Z := 57.

(** C-locale [isspace]. *)
Definition is_space (c : Z) : bool := (c =? 32) || ((9 <=? c) && (c <=? 13)).

Definition is_digit (c : Z) : bool := (ch_0 <=? c) && (c <=? ch_9).

(** [std::ws] / leading-whitespace skipping of formatted extraction. *)
Fixpoint skip_ws (s : stream) : stream :=
  match s with
  | c :: s' => if is_space c then skip_ws s' else s
  | [] => []
  end.

(** Longest non-whitespace prefix. *)
Fixpoint take_token (s : stream) : list Z * stream :=
  match s with
  | c :: s' =>
      if is_space c then ([], s)
      else let '(t, r) := take_token s' in (c :: t, r)
  | [] => ([], [])
  end.

(** [in >> std::string]: skip whitespace, read up to whitespace; an empty
    token sets failbit but leaves an empty string. *)
Definition read_string (s : stream) : list Z * stream := take_token (skip_ws s).

(** Longest prefix of decimal digits. *)
Fixpoint take_digits (s : stream) : list Z * stream :=
  match s with
  | c :: s' =>
      if is_digit c then let '(t, r) := take_digits s' in (c :: t, r)
      else ([], s)
  | [] => ([], [])
  end.

(** Value of a most-significant-first list of ASCII digits. *)
Definition digits_val (ds : list Z) : Z :=
  fold_left (fun acc c => 10 * acc + (c - ch_0)) ds 0.

(** [in >> x] for an unsigned 64-bit integer x (sign characters, which
    libff never writes, are not modelled: they fail). *)
Definition read_u64 (s : stream) : result (Z * stream) :=
  let '(ds, r) := take_digits (skip_ws s) in
  match ds with
  | [] => StreamFail
  | _ => let v := digits_val ds in
         if v <? B then Ok (v, r) else StreamFail
  end.

(** Decimal rendering of a non-negative integer, most significant first
    ([out << x], and [out << mpz_t]). The fuel is a bound on the number of
    digits. *)
Fixpoint dec_fuel (fuel : nat) (z : Z) : list Z :=
  match fuel with
  | O => [ch_0 + z mod 10]
  | S f => if z <? 10 then [ch_0 + z]
           else dec_fuel f (z / 10) ++ [ch_0 + z mod 10]
  end.
Definition dec (z : Z) : list Z := dec_fuel (Z.to_nat (Z.log2 z)) z.

(** [in.read(p, k)]: exactly k bytes, or the stream fails. *)
Definition read_bytes (k : nat) (s : stream) : result (list Z * stream) :=
  if (length s <? k)%nat then StreamFail else Ok (firstn k s, skipn k s).

(** [in.get()] with one byte available, else failure. *)
Definition read_char (s : stream) : result (Z * stream) :=
  match s with c :: r => Ok (c, r) | [] => StreamFail end.

(** Little-endian memory image of k-byte words (x86-64). *)
Fixpoint le_bytes (k : nat) (z : Z) : list Z :=
  match k with
  | O => []
  | S k' => z mod 256 :: le_bytes k' (z / 256)
  end.
Fixpoint le_val (l : list Z) : Z :=
  match l with [] => 0 | b :: l' => b + 256 * le_val l' end.

Definition bytes (l : list Z) : Prop := Forall (fun b => 0 <= b < 256) l.
