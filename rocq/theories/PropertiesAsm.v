(** Property theorems about the x86-64 code paths of prime fields: C04.  The
    scratch registers [junk], arrays [scratch] and flags [cf], [zf] start with
    arbitrary contents; [same] says that other is the object itself and
    [opnd same a b] is then a instead of b.  [scratch_ok] is the declared size
    of the scratch array. *)
From Coq Require Import ZArith List Bool.
From Verif Require Import Result Limbs FpModel FpSpec FpAsmModel FpAsmTop ParamsModel Examples.
Import ListNotations.
Open Scope Z_scope.

(** *** C04 *)
Theorem C04_mul_reduce P junk scratch cf zf same a b : fp_ok P -> scratch_ok (fp_n P) scratch ->
  limbs a -> limbs (opnd same a b) -> length a = fp_n P -> length (opnd same a b) = fp_n P ->
  val a * val (opnd same a b) < val (fp_modulus P) * Bn (fp_n P) ->
  asm_mul_reduce P junk scratch cf zf same a b = mul_reduce P a (opnd same a b).
Proof. intros OK HS. exact (asm_mul_reduce_eq P OK junk scratch cf zf same HS a b). Qed.
Print Assumptions C04_mul_reduce.

Theorem C04_add P junk scratch cf zf same a b : fp_ok P ->
  canon P a -> canon P (opnd same a b) ->
  asm_add P junk scratch cf zf same a b = fp_add P a (opnd same a b).
Proof. intros OK. exact (asm_add_eq P OK junk scratch cf zf same a b). Qed.
Print Assumptions C04_add.

Theorem C04_sub P junk scratch cf zf same a b : fp_ok P ->
  canon P a -> canon P (opnd same a b) ->
  asm_sub P junk scratch cf zf same a b = fp_sub P a (opnd same a b).
Proof. intros OK. exact (asm_sub_eq P OK junk scratch cf zf same a b). Qed.
Print Assumptions C04_sub.

Theorem C04_squared P junk scratch cf zf a : fp_ok P -> scratch_ok (fp_n P) scratch -> canon P a ->
  asm_squared P junk scratch cf zf a = fp_squared P a.
Proof. intros OK. exact (asm_squared_eq P OK junk scratch cf zf a). Qed.
Print Assumptions C04_squared.

(** The hypotheses hold for shipped fields with 3, 4 and 5 limbs. *)
Example C04_shipped_ok :
  (fp_okb edwards_Fq_P && fp_okb alt_bn128_Fq_P && fp_okb mnt4_Fq_P = true) /\
  fp_n edwards_Fq_P = 3%nat /\ fp_n alt_bn128_Fq_P = 4%nat /\ fp_n mnt4_Fq_P = 5%nat.
Proof. vm_compute. auto. Qed.
(** The programs run to the end, and do something: (p-1) + (p-1), 0 - (p-1)
    and (p-1) * (p-2), from dirty scratch space. *)
Example C04_runs :
  C04_run edwards_Fq_P [9; 9; 9; 9; 9; 9] = C04_expect edwards_Fq_P /\
  C04_run alt_bn128_Fq_P [9; 9; 9; 9; 9] = C04_expect alt_bn128_Fq_P /\
  C04_run mnt4_Fq_P [9; 9; 9; 9; 9; 9] = C04_expect mnt4_Fq_P.
Proof. vm_compute. auto. Qed.
