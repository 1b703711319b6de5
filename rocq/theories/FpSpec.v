(** Specification vocabulary for prime fields: parameter consistency, canonical
    representatives, and the integer an element stands for. *)
From Coq Require Import ZArith List Bool Znumtheory.
From Verif Require Import Result Limbs FpModel.
Import ListNotations.
Open Scope Z_scope.

(** Consistency of the static parameters with the modulus.  [ok_half] is what
    the portable reduction needs for its carry assertion (fp.tcc:179). *)
Record fp_ok (P : fp_params) : Prop := {
  ok_n : (1 <= fp_n P)%nat;
  ok_len : length (fp_modulus P) = fp_n P;
  ok_limbs : limbs (fp_modulus P);
  ok_gt1 : 1 < val (fp_modulus P);
  ok_half : 2 * val (fp_modulus P) <= Bn (fp_n P);
  ok_inv : (fp_inv P * val (fp_modulus P) + 1) mod B = 0;
  ok_Rsq_len : length (fp_Rsquared P) = fp_n P;
  ok_Rsq_limbs : limbs (fp_Rsquared P);
  ok_Rsq : val (fp_Rsquared P) = (Bn (fp_n P) * Bn (fp_n P)) mod val (fp_modulus P)
}.

(** Canonical representatives: n limbs, value below the modulus. *)
Definition canon (P : fp_params) (a : list Z) : Prop :=
  length a = fp_n P /\ limbs a /\ val a < val (fp_modulus P).

Definition canonb (P : fp_params) (a : list Z) : bool :=
  (length a =? fp_n P)%nat && limbsb a && (val a <? val (fp_modulus P)).

(** What [invert] additionally needs (fp.tcc:670-722): R^3, a modulus that
    occupies all its limbs (GMP's mpn_gcdext precondition), and primality. *)
Record fp_ok_inv (P : fp_params) : Prop := {
  oki_len : length (fp_Rcubed P) = fp_n P;
  oki_limbs : limbs (fp_Rcubed P);
  oki_val : val (fp_Rcubed P) =
    (Bn (fp_n P) * Bn (fp_n P) * Bn (fp_n P)) mod val (fp_modulus P);
  oki_top : nth (fp_n P - 1) (fp_modulus P) 0 <> 0;
  oki_prime : prime (val (fp_modulus P))
}.

(** The integer an element stands for, i.e. what [as_bigint] returns. *)
Definition den (P : fp_params) (a : list Z) : Z := val (get_ok [] (fp_as_bigint P a)).

(** Every mont_repr a program can hold after any sequence of constructor and
    operator calls (default build: MONTGOMERY_OUTPUT undefined, so [from_words]
    and [operator>>] convert).  The compound operations (power, sqrt, ...) are
    sequences of these. *)
Inductive produced (P : fp_params) : list Z -> Prop :=
| pr_of_bigint b r : length b = fp_n P -> limbs b -> fp_of_bigint P b = Ok r -> produced P r
| pr_of_long x u r : - 2 ^ 63 <= x < 2 ^ 63 -> fp_of_long P x u = Ok r -> produced P r
| pr_set_ulong x r : 0 <= x < 2 ^ 64 -> fp_set_ulong P x = Ok r -> produced P r
| pr_zero : produced P (fp_zero P)
| pr_one r : fp_one P = Ok r -> produced P r
| pr_add a b r : produced P a -> produced P b -> fp_add P a b = Ok r -> produced P r
| pr_sub a b r : produced P a -> produced P b -> fp_sub P a b = Ok r -> produced P r
| pr_mul a b r : produced P a -> produced P b -> fp_mul P a b = Ok r -> produced P r
| pr_squared a r : produced P a -> fp_squared P a = Ok r -> produced P r
| pr_neg a : produced P a -> produced P (fp_neg P a)
| pr_invert a r : produced P a -> fp_invert P a = Ok r -> produced P r
| pr_random fuel src r : fp_random_element P fuel src = Ok r -> produced P r
| pr_from_words old w r f : produced P old -> length w = fp_n P -> limbs w ->
    fp_from_words P false old w = Ok (r, f) -> produced P r
| pr_read bin s r rest : (bin = true -> Forall (fun c => 0 <= c < 256) s) ->
    fp_read P bin false s = Ok (r, rest) -> produced P r.
