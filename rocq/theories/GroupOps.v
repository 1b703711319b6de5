(** The interface a curve group type T offers to the generic scalar
    multiplication code, and its specification by denotation into an abelian
    group. *)
From Coq Require Import ZArith List Bool.
From Verif Require Import Result Algebra.
Import ListNotations.

(** Members used by libff/algebra/scalar_multiplication and
    curves/curve_utils.tcc. *)
Record gops (T : Type) : Type := mkGops {
  g_default : T;                       (* T() *)
  g_zero : T;                          (* T::zero() *)
  g_add : T -> T -> T;                 (* operator+ *)
  g_sub : T -> T -> T;                 (* binary operator- *)
  g_mixed_add : T -> T -> T;           (* mixed_add(other) *)
  g_dbl : T -> T;                      (* dbl() *)
  g_is_zero : T -> bool;               (* is_zero() *)
  g_is_special : T -> bool;            (* is_special() *)
  g_to_special : T -> result T;        (* to_special() *)
  g_batch_special : list T -> result (list T)  (* batch_to_special_all_non_zeros *)
}.
Arguments g_default {T}. Arguments g_zero {T}. Arguments g_add {T}. Arguments g_sub {T}.
Arguments g_mixed_add {T}. Arguments g_dbl {T}. Arguments g_is_zero {T}. Arguments g_is_special {T}.
Arguments g_to_special {T}. Arguments g_batch_special {T}.

(** Abelian groups. *)
Record agroup {G : Type} (z : G) (add : G -> G -> G) (opp : G -> G) : Prop := {
  ag_monoid : monoid_laws z add;
  ag_comm : forall x y, add x y = add y x;
  ag_opp : forall x, add x (opp x) = z
}.

(** [den] maps the representations satisfying [ok] to the group G, and every
    member function is right on them. *)
Record gops_ok {T G : Type} (O : gops T) (ok : T -> Prop) (den : T -> G)
    (z : G) (add : G -> G -> G) (opp : G -> G) : Prop := {
  go_group : agroup z add opp;
  go_default : ok (g_default O) /\ den (g_default O) = z;
  go_zero : ok (g_zero O) /\ den (g_zero O) = z;
  go_add : forall a b, ok a -> ok b -> ok (g_add O a b) /\ den (g_add O a b) = add (den a) (den b);
  go_sub : forall a b, ok a -> ok b -> ok (g_sub O a b) /\ den (g_sub O a b) = add (den a) (opp (den b));
  go_mixed : forall a b, ok a -> ok b -> g_is_special O b = true ->
    ok (g_mixed_add O a b) /\ den (g_mixed_add O a b) = add (den a) (den b);
  go_dbl : forall a, ok a -> ok (g_dbl O a) /\ den (g_dbl O a) = add (den a) (den a);
  go_is_zero : forall a, ok a -> g_is_zero O a = true <-> den a = z;
  go_special : forall a, ok a -> exists b, g_to_special O a = Ok b /\
    ok b /\ g_is_special O b = true /\ den b = den a;
  go_batch : forall l, Forall ok l -> Forall (fun a => g_is_zero O a = false) l ->
    exists l', g_batch_special O l = Ok l' /\ Forall2 (fun a b => g_to_special O a = Ok b) l l'
}.

(** Integer multiples. *)
Definition gmul {G} (z : G) (add : G -> G -> G) (opp : G -> G) (k : Z) (x : G) : G :=
  if (k <? 0)%Z then opp (npow z add x (Z.to_nat (- k))) else npow z add x (Z.to_nat k).
