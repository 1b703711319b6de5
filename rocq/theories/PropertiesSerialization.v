(** Property theorems for container serialisation and sampling: C29, C30.
    [roundtrips wr rd sep x]: reading what was written for x, followed by sep
    and anything else, gives x back and stops right before sep. *)
From Coq Require Import ZArith List Sorted.
From Verif Require Import Result Limbs StreamModel BigintProofs FpModel FpSpec SerializationModel SerializationProofs SerializationExtra Examples.
Import ListNotations.
Open Scope Z_scope.

(** *** C29 *)
Theorem C29_bool b rest : input_bool (output_bool b ++ rest) = Ok (b, rest).
Proof. exact (bool_roundtrip b rest). Qed.
Print Assumptions C29_bool.

Theorem C29_bool_reject v rest : 1 < v < 2 ^ 64 -> input_bool (dec v ++ [ch_nl] ++ rest) = AssertFail.
Proof. exact (bool_reject v rest). Qed.
Print Assumptions C29_bool_reject.

Theorem C29_bool_vector v rest : Z.of_nat (length v) < 2 ^ 64 ->
  input_bool_vector (output_bool_vector v ++ rest) = Ok (v, rest).
Proof. exact (bool_vector_roundtrip v rest). Qed.
Print Assumptions C29_bool_vector.

Theorem C29_vector {T} (wr : T -> list Z) rd bin v rest :
  Forall (roundtrips wr rd (output_newline bin)) v -> Z.of_nat (length v) < 2 ^ 64 ->
  read_vector bin rd (write_vector bin wr v ++ rest) = Ok (v, rest).
Proof. exact (vector_roundtrip wr rd bin v rest). Qed.
Print Assumptions C29_vector.

(** A set is listed in strictly increasing order. *)
Theorem C29_set {T} (wr : T -> list Z) rd (ltb : T -> T -> bool) v rest :
  (forall x, ltb x x = false) ->
  (forall x y z, ltb x y = true -> ltb y z = true -> ltb x z = true) ->
  Forall (roundtrips wr rd [ch_nl]) v -> Z.of_nat (length v) < 2 ^ 64 ->
  StronglySorted (fun x y => ltb x y = true) v ->
  read_set rd ltb (write_set wr v ++ rest) = Ok (v, rest).
Proof. intros I T'. exact (set_roundtrip wr rd ltb I T' v rest). Qed.
Print Assumptions C29_set.

Theorem C29_map {T1 T2} (wk : T1 -> list Z) rk (wv : T2 -> list Z) rv (ltb : T1 -> T1 -> bool) m rest :
  (forall x, ltb x x = false) ->
  (forall x y z, ltb x y = true -> ltb y z = true -> ltb x z = true) ->
  Forall (fun kv => roundtrips wk rk [ch_nl] (fst kv) /\ roundtrips wv rv [ch_nl] (snd kv)) m ->
  Z.of_nat (length m) < 2 ^ 64 ->
  StronglySorted (fun x y => ltb (fst x) (fst y) = true) m ->
  read_map rk rv ltb (write_map wk wv m ++ rest) = Ok (m, rest).
Proof. intros I T'. exact (map_roundtrip wk rk wv rv ltb I T' m rest). Qed.
Print Assumptions C29_map.

Theorem C29_reserialize {T} (wr : T -> list Z) rd x : rd (wr x) = Ok (x, []) -> reserialize wr rd x = Ok x.
Proof. exact (reserialize_spec wr rd x). Qed.
Print Assumptions C29_reserialize.

(** Vectors of prime-field elements, all four output configurations. *)
Theorem C29_field_vector P bin mont v rest : fp_ok P -> Forall (canon P) v -> Z.of_nat (length v) < 2 ^ 64 ->
  read_vector bin (fp_read P bin mont)
    (write_vector bin (fun x => get_ok [] (fp_write P bin mont x)) v ++ rest) = Ok (v, rest).
Proof. exact (fp_vector_roundtrip P bin mont v rest). Qed.
Print Assumptions C29_field_vector.

(** deserialize_bit_vector restores the bits but leaves the last newline. *)
Theorem C29_bit_vector v rest : Z.of_nat (length v) < 2 ^ 64 ->
  deserialize_bit_vector (serialize_bit_vector v ++ rest) = Ok (v, ch_nl :: rest).
Proof. exact (bit_vector_roundtrip v rest). Qed.
Print Assumptions C29_bit_vector.

(** A size (or bool) of 2^64 or more fails. *)
Theorem C29_oversized {T T1 T2} bin (rd : list Z -> result (T * list Z)) (lt : T -> T -> bool)
  (rk : list Z -> result (T1 * list Z)) (rv : list Z -> result (T2 * list Z)) (ltk : T1 -> T1 -> bool) n rest :
  2 ^ 64 <= n ->
  input_bool (dec n ++ [ch_nl] ++ rest) = StreamFail /\
  input_bool_vector (dec n ++ [ch_nl] ++ rest) = StreamFail /\
  deserialize_bit_vector (dec n ++ [ch_nl] ++ rest) = StreamFail /\
  read_vector bin rd (dec n ++ [ch_nl] ++ rest) = StreamFail /\
  read_set rd lt (dec n ++ [ch_nl] ++ rest) = StreamFail /\
  read_map rk rv ltk (dec n ++ [ch_nl] ++ rest) = StreamFail.
Proof. exact (oversized_size bin rd lt rk rv ltk n rest). Qed.
Print Assumptions C29_oversized.

(** So does a bit other than 0 and 1, at any position. *)
Theorem C29_bit_vector_reject v x m rest : 1 < x -> Z.of_nat (length v + S m) < 2 ^ 64 ->
  deserialize_bit_vector (dec (Z.of_nat (length v + S m)) ++ [ch_nl] ++
    flat_map (fun b : bool => dec (if b then 1 else 0) ++ [ch_nl]) v ++ dec x ++ [ch_nl] ++ rest) = StreamFail.
Proof. exact (bit_vector_reject v x m rest). Qed.
Print Assumptions C29_bit_vector_reject.

(** Reading the encoding of any list of elements as a set: the distinct
    elements in increasing order. *)
Theorem C29_set_any {T} (ltb : T -> T -> bool) (wr : T -> list Z) rd v rest :
  (forall x, ltb x x = false) ->
  (forall x y z, ltb x y = true -> ltb y z = true -> ltb x z = true) ->
  (forall x y, ltb x y = false -> ltb y x = false -> x = y) ->
  Forall (roundtrips wr rd [ch_nl]) v -> Z.of_nat (length v) < 2 ^ 64 ->
  exists s, read_set rd ltb (write_set wr v ++ rest) = Ok (s, rest) /\
    StronglySorted (fun x y => ltb x y = true) s /\ forall x, In x s <-> In x v.
Proof. intros _ T' L. exact (set_read_any ltb T' L wr rd v rest). Qed.
Print Assumptions C29_set_any.

(** Any list of pairs as a map: increasing keys, each with the last value given. *)
Theorem C29_map_any {T1 T2} (ltb : T1 -> T1 -> bool) (wk : T1 -> list Z) rk (wv : T2 -> list Z) rv m rest :
  (forall x, ltb x x = false) ->
  (forall x y z, ltb x y = true -> ltb y z = true -> ltb x z = true) ->
  (forall x y, ltb x y = false -> ltb y x = false -> x = y) ->
  Forall (fun kv => roundtrips wk rk [ch_nl] (fst kv) /\ roundtrips wv rv [ch_nl] (snd kv)) m ->
  Z.of_nat (length m) < 2 ^ 64 ->
  exists s, read_map rk rv ltb (write_map wk wv m ++ rest) = Ok (s, rest) /\
    StronglySorted (fun x y => ltb (fst x) (fst y) = true) s /\
    forall k v, In (k, v) s <-> exists l1 l2, m = l1 ++ (k, v) :: l2 /\ forall v', ~ In (k, v') l2.
Proof. intros I T' L. exact (map_read_any ltb I T' L wk rk wv rv m rest). Qed.
Print Assumptions C29_map_any.

Example C29_hypotheses_met :
  read_map read_bool input_bool_vector (fun x y => andb (negb x) y)
    (write_map (fun b : bool => dec (if b then 1 else 0)) (fun v => output_bool_vector v)
       [(false, [true]); (true, [])] ++ [65]) = Ok ([(false, [true]); (true, [])], [65])
  /\ Forall (canon toy2) [[1; 2]; [3; 0]]
  /\ roundtrips (fun x => get_ok [] (fp_write toy2 false true x)) (fp_read toy2 false true) [ch_nl] [1; 2].
Proof.
  split; [vm_compute; reflexivity|]. split.
  - constructor; [apply FpProofs.canonb_iff; vm_compute; reflexivity|].
    constructor; [apply FpProofs.canonb_iff; vm_compute; reflexivity|constructor].
  - apply (fp_roundtrips toy2 false true); [exact toy2_ok|]. apply FpProofs.canonb_iff. vm_compute. reflexivity.
Qed.

(** *** C30: [sha_val P sha idx k] is the digest of (idx, k) cut to the bit
    length of the modulus; the result is the first one below the modulus. *)
Theorem C30_sha512_rng P sha fuel idx : fp_ok P ->
  fp_num_bits P = bit_length (val (fp_modulus P)) -> nth (fp_n P - 1) (fp_modulus P) 0 <> 0 ->
  (forall i j, limbs (sha i j) /\ length (sha i j) = 8%nat) -> fp_num_bits P <= 512 ->
  (forall r, sha512_rng P sha fuel idx = Ok r ->
     exists k, (k < fuel)%nat /\ canon P r /\ den P r = sha_val P sha idx k /\
       sha_val P sha idx k < val (fp_modulus P) /\
       forall j, (j < k)%nat -> val (fp_modulus P) <= sha_val P sha idx j) /\
  (forall k, (k < fuel)%nat -> sha_val P sha idx k < val (fp_modulus P) ->
     exists r, sha512_rng P sha fuel idx = Ok r).
Proof. intros OK NB T S. exact (sha512_rng_spec P OK NB T sha S fuel idx). Qed.
Print Assumptions C30_sha512_rng.

Theorem C30_sha512_rng_wide_field P sha fuel idx : 512 < fp_num_bits P -> sha512_rng P sha fuel idx = AssertFail.
Proof. exact (sha512_rng_too_big P sha fuel idx). Qed.
Print Assumptions C30_sha512_rng_wide_field.

(** random_element_non_zero and friends: the first draw that is not excluded. *)
Theorem C30_draw_until {T} (bad : T -> bool) fuel src r : draw_until bad fuel src = Ok r ->
  bad r = false /\ exists k, (k < fuel)%nat /\ r = src k /\ forall j, (j < k)%nat -> bad (src j) = true.
Proof. exact (draw_until_spec bad fuel src r). Qed.
Print Assumptions C30_draw_until.

Example C30_sha_hypotheses_met :
  exists r, sha512_rng toy (fun i j => if j <? 2 then repeat (2 ^ 17 - 1) 8 else repeat (i + j) 8) 4 7 = Ok r.
Proof. eexists. vm_compute. reflexivity. Qed.
