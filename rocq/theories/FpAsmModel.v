(** Model of the x86-64 branches (USE_ASM) of [Fp_model]: the instruction
    sequences of libff/algebra/field_utils/fp_aux.tcc and fp.tcc, run by an
    interpreter for the dozen instructions they use.

    Only 64-bit operands occur.  Register operands are the names given in the
    operand lists.  Pointer operands are an array and a limb offset, so that
    [A] and [B] may point to the same element (x += x).  An access outside an
    array, or a jump on a flag that the architecture leaves undefined, is UB.
    The initial contents of scratch registers and arrays are parameters.
    Whether the compiler honours the operand constraints is not modelled
    (fp.tcc:95-97 passes registers that are written as inputs). *)
From Coq Require Import ZArith List Bool.
From Verif Require Import Result Limbs FpModel.
Import ListNotations.
Open Scope Z_scope.
Open Scope result_scope.

Inductive reg : Type := rax | rdx | c0 | c1 | c2 | k | tmp1 | tmp2 | tmp3 | inv | T0 | T1 | cy | u.
Definition reg_eqb (a b : reg) : bool :=
  match a, b with
  | rax, rax | rdx, rdx | c0, c0 | c1, c1 | c2, c2 | k, k | tmp1, tmp1 | tmp2, tmp2 | tmp3, tmp3
  | inv, inv | T0, T0 | T1, T1 | cy, cy | u, u => true
  | _, _ => false
  end.
(** The arrays, and the pointer operands [%[A]], [%[B]], [%[mod]] or [%[M]],
    [%[res]] or [%[tmp]]. *)
Inductive arr : Type := ThisData | OtherData | Modulus | Scratch.
Definition arr_eqb (a b : arr) : bool :=
  match a, b with
  | ThisData, ThisData | OtherData, OtherData | Modulus, Modulus | Scratch, Scratch => true
  | _, _ => false
  end.
Inductive ptr : Type := A | Bp | M | tmp.
Inductive operand : Type := Imm (z : Z) | Reg (r : reg) | Mem (p : ptr) (limb : nat).
Coercion Reg : reg >-> operand.
Inductive label : Type := Lsubtract | Ldone.
Definition label_eqb (a b : label) : bool :=
  match a, b with Lsubtract, Lsubtract | Ldone, Ldone => true | _, _ => false end.

(** AT&T operand order: source first. *)
Inductive instr : Type :=
| movq (src dst : operand) | addq (src dst : operand) | adcq (src dst : operand)
| subq (src dst : operand) | sbbq (src dst : operand) | cmpq (src dst : operand)
| xorq (src dst : operand) | mulq (src : operand)
| jb (l : label) | ja (l : label) | jc (l : label) | jnc (l : label) | Lab (l : label).

Record state : Type := mkSt {
  regs : reg -> Z; mem : arr -> list Z;
  CF : option bool; ZF : option bool (* None: undefined *) }.

Section Run.
(** Where the pointer operands point to. *)
Variable pt : ptr -> arr * nat.

Definition rd (s : state) (o : operand) : result Z :=
  match o with
  | Imm z => Ok z
  | Reg r => Ok (regs s r)
  | Mem p i => let '(a, ofs) := pt p in
      match nth_error (mem s a) (ofs + i) with Some v => Ok v | None => UB end
  end.
Definition wr (s : state) (o : operand) (v : Z) : result state :=
  match o with
  | Imm _ => UB
  | Reg r => Ok (mkSt (fun r' => if reg_eqb r r' then v else regs s r') (mem s) (CF s) (ZF s))
  | Mem p i => let '(a, ofs) := pt p in
      if (ofs + i <? length (mem s a))%nat
      then Ok (mkSt (regs s) (fun a' => if arr_eqb a a' then upd (mem s a) (ofs + i) v else mem s a') (CF s) (ZF s))
      else UB
  end.
Definition flags (s : state) (c z : option bool) : state := mkSt (regs s) (mem s) c z.
Definition defined (f : option bool) : result bool := match f with Some b => Ok b | None => UB end.

(** dst := (dst + src + cin) mod 2^64 *)
Definition do_add (s : state) (src dst : operand) (cin : bool) : result state :=
  x <- rd s dst ;; y <- rd s src ;;
  let t := x + y + Z.b2z cin in
  s' <- wr s dst (t mod B) ;; Ok (flags s' (Some (B <=? t)) (Some (t mod B =? 0))).
Definition do_sub (s : state) (src dst : operand) (bin : bool) (write : bool) : result state :=
  x <- rd s dst ;; y <- rd s src ;;
  let t := x - y - Z.b2z bin in
  s' <- (if write then wr s dst (t mod B) else Ok s) ;; Ok (flags s' (Some (t <? 0)) (Some (t mod B =? 0))).

(** Straight-line instructions. *)
Definition step (i : instr) (s : state) : result state :=
  match i with
  | movq src dst => v <- rd s src ;; wr s dst v
  | addq src dst => do_add s src dst false
  | adcq src dst => c <- defined (CF s) ;; do_add s src dst c
  | subq src dst => do_sub s src dst false true
  | sbbq src dst => c <- defined (CF s) ;; do_sub s src dst c true
  | cmpq src dst => do_sub s src dst false false
  | xorq src dst => x <- rd s dst ;; y <- rd s src ;;
      let t := Z.lxor x y in s' <- wr s dst t ;; Ok (flags s' (Some false) (Some (t =? 0)))
  | mulq src => v <- rd s src ;;
      let t := regs s rax * v in
      s1 <- wr s (Reg rax) (t mod B) ;; s2 <- wr s1 (Reg rdx) (t / B) ;;
      Ok (flags s2 (Some (negb (t / B =? 0))) None)
  | Lab _ => Ok s
  | _ => UB
  end.
(** Whether a jump is taken, and its target. *)
Definition jump (i : instr) (s : state) : option (result bool * label) :=
  match i with
  | jb l | jc l => Some (defined (CF s), l)
  | jnc l => Some (rmap negb (defined (CF s)), l)
  | ja l => Some ((c <- defined (CF s) ;; z <- defined (ZF s) ;; Ok (negb c && negb z)), l)
  | _ => None
  end.
(** All jumps are forward.  [skip] is the label being looked for. *)
Fixpoint run (p : list instr) (skip : option label) (s : state) : result state :=
  match p with
  | [] => match skip with None => Ok s | Some _ => UB end
  | i :: p' =>
      match skip with
      | Some l => match i with
                  | Lab l' => run p' (if label_eqb l l' then None else skip) s
                  | _ => run p' skip s
                  end
      | None =>
          match jump i s with
          | Some (taken, l) => t <- taken ;; run p' (if t then Some l else None) s
          | None => s' <- step i s ;; run p' None s'
          end
      end
  end.
End Run.

(** ** Macros of fp_aux.tcc; offsets in bytes become limb numbers *)

(** 22-28 *)
Definition ADD_FIRSTADD := [movq (Mem Bp 0) rax; addq rax (Mem A 0)].
Definition ADD_NEXTADD i := [movq (Mem Bp i) rax; adcq rax (Mem A i)].
(** 30-34 *)
Definition ADD_CMP i := [movq (Mem M i) rax; cmpq rax (Mem A i); jb Ldone; ja Lsubtract].
(** 36-46 *)
Definition ADD_FIRSTSUB := [movq (Mem M 0) rax; subq rax (Mem A 0)].
Definition ADD_NEXTSUB i := [movq (Mem M i) rax; sbbq rax (Mem A i)].
(** 48-62 *)
Definition SUB_FIRSTSUB := [movq (Mem Bp 0) rax; subq rax (Mem A 0)].
Definition SUB_NEXTSUB i := [movq (Mem Bp i) rax; sbbq rax (Mem A i)].
Definition SUB_FIRSTADD := [movq (Mem M 0) rax; addq rax (Mem A 0)].
Definition SUB_NEXTADD i := [movq (Mem M i) rax; adcq rax (Mem A i)].
(** 64-76 *)
Definition MONT_CMP i := [movq (Mem M i) rax; cmpq rax (Mem tmp i); jb Ldone; ja Lsubtract].
Definition MONT_FIRSTSUB := [movq (Mem M 0) rax; subq rax (Mem tmp 0)].
Definition MONT_NEXTSUB i := [movq (Mem M i) rax; sbbq rax (Mem tmp i)].

(** 85-96 *)
Definition MONT_PRECOMPUTE :=
  [ xorq cy cy; movq (Mem A 0) rax; mulq (Mem Bp 0); movq rax T0; movq rdx T1;
    mulq inv; movq rax u; mulq (Mem M 0); addq T0 rax; adcq rdx T1; adcq (Imm 0) cy ].
(** 98-113 *)
Definition MONT_FIRSTITER j :=
  [ xorq T0 T0; movq (Mem A 0) rax; mulq (Mem Bp j); addq T1 rax; movq rax (Mem tmp (j - 1));
    adcq (Imm 0) rdx; movq rdx T1; movq (Mem M j) rax; mulq u; addq rax (Mem tmp (j - 1));
    adcq cy rdx; adcq (Imm 0) T0; xorq cy cy; addq rdx T1; adcq T0 cy ].
(** 115-129 *)
Definition MONT_ITERFIRST i :=
  [ xorq cy cy; movq (Mem A i) rax; mulq (Mem Bp 0); addq (Mem tmp 0) rax; adcq (Mem tmp 1) rdx;
    adcq (Imm 0) cy; movq rax T0; movq rdx T1; mulq inv; movq rax u; mulq (Mem M 0);
    addq T0 rax; adcq rdx T1; adcq (Imm 0) cy ].
(** 131-148 *)
Definition MONT_ITERITER i j :=
  [ xorq T0 T0; movq (Mem A i) rax; mulq (Mem Bp j); addq T1 rax; movq rax (Mem tmp (j - 1));
    adcq (Imm 0) rdx; movq rdx T1; movq (Mem M j) rax; mulq u; addq rax (Mem tmp (j - 1));
    adcq cy rdx; adcq (Imm 0) T0; xorq cy cy; addq rdx T1; adcq T0 cy;
    addq (Mem tmp (j + 1)) T1; adcq (Imm 0) cy ].
(** 150-152 *)
Definition MONT_FINALIZE j := [movq T1 (Mem tmp j); movq cy (Mem tmp (j + 1))].

(** 165-232; [%[res]] is [tmp]. *)
Definition COMBA_3_BY_3_MUL :=
  [ movq (Mem A 0) rax; mulq (Mem Bp 0); movq rax (Mem tmp 0); movq rdx c0 ] ++
  [ xorq c1 c1; movq (Mem A 0) rax; mulq (Mem Bp 1); addq rax c0; adcq rdx c1 ] ++
  [ xorq c2 c2; movq (Mem A 1) rax; mulq (Mem Bp 0); addq rax c0; movq c0 (Mem tmp 1); adcq rdx c1; adcq (Imm 0) c2 ] ++
  (* register renaming (c1, c2, c0) *)
  [ xorq c0 c0; movq (Mem A 0) rax; mulq (Mem Bp 2); addq rax c1; adcq rdx c2; adcq (Imm 0) c0 ] ++
  [ movq (Mem A 1) rax; mulq (Mem Bp 1); addq rax c1; adcq rdx c2; adcq (Imm 0) c0 ] ++
  [ movq (Mem A 2) rax; mulq (Mem Bp 0); addq rax c1; movq c1 (Mem tmp 2); adcq rdx c2; adcq (Imm 0) c0 ] ++
  (* register renaming (c2, c0, c1) *)
  [ xorq c1 c1; movq (Mem A 1) rax; mulq (Mem Bp 2); addq rax c2; adcq rdx c0; adcq (Imm 0) c1 ] ++
  [ movq (Mem A 2) rax; mulq (Mem Bp 1); addq rax c2; movq c2 (Mem tmp 3); adcq rdx c0; adcq (Imm 0) c1 ] ++
  (* register renaming (c0, c1, c2) *)
  [ xorq c2 c2; movq (Mem A 2) rax; mulq (Mem Bp 2); addq rax c0; movq c0 (Mem tmp 4); adcq rdx c1; movq c1 (Mem tmp 5) ].

(** 234-292 *)
Definition COMBA_3_BY_3_SQR :=
  [ xorq c1 c1; xorq c2 c2; movq (Mem A 0) rax; mulq rax; movq rax (Mem tmp 0); movq rdx c0 ] ++
  [ movq (Mem A 0) rax; mulq (Mem A 1); addq rax c0; adcq rdx c1; addq rax c0; movq c0 (Mem tmp 1);
    adcq rdx c1; adcq (Imm 0) c2 ] ++
  (* register renaming (c1, c2, c0) *)
  [ movq (Mem A 0) rax; xorq c0 c0; mulq (Mem A 2); addq rax c1; adcq rdx c2; adcq (Imm 0) c0;
    addq rax c1; adcq rdx c2; adcq (Imm 0) c0 ] ++
  [ movq (Mem A 1) rax; mulq rax; addq rax c1; movq c1 (Mem tmp 2); adcq rdx c2; adcq (Imm 0) c0 ] ++
  (* register renaming (c2, c0, c1) *)
  [ movq (Mem A 1) rax; xorq c1 c1; mulq (Mem A 2); addq rax c2; adcq rdx c0; adcq (Imm 0) c1;
    addq rax c2; movq c2 (Mem tmp 3); adcq rdx c0; adcq (Imm 0) c1 ] ++
  (* register renaming (c0, c1, c2) *)
  [ movq (Mem A 2) rax; mulq rax; addq rax c0; movq c0 (Mem tmp 4); adcq rdx c1; movq c1 (Mem tmp 5) ].

(** 299-386, one of the three rounds up to the carry propagation. *)
Definition REDUCE_ROUND i :=
  [ movq (Mem tmp i) rax; mulq inv; movq rax k ] ++
  [ movq (Mem M 0) rax; mulq k; movq rax tmp1; movq rdx tmp2 ] ++
  [ xorq tmp3 tmp3; movq (Mem M 1) rax; mulq k; addq tmp1 (Mem tmp i); adcq rax tmp2; adcq rdx tmp3 ] ++
  [ xorq tmp1 tmp1; movq (Mem M 2) rax; mulq k; addq tmp2 (Mem tmp (i + 1)); adcq rax tmp3; adcq rdx tmp1 ].
Definition REDUCE_6_LIMB_PRODUCT :=
  REDUCE_ROUND 0 ++ [ addq tmp3 (Mem tmp 2); adcq tmp1 (Mem tmp 3); adcq (Imm 0) (Mem tmp 4); adcq (Imm 0) (Mem tmp 5) ] ++
  REDUCE_ROUND 1 ++ [ addq tmp3 (Mem tmp 3); adcq tmp1 (Mem tmp 4); adcq (Imm 0) (Mem tmp 5) ] ++
  REDUCE_ROUND 2 ++ [ addq tmp3 (Mem tmp 4); adcq tmp1 (Mem tmp 5) ].

(** ** The asm statements of fp.tcc *)

(** 40-54, also 629-642 *)
Definition cond_sub3_prog :=
  MONT_CMP 2 ++ MONT_CMP 1 ++ MONT_CMP 0 ++
  [Lab Lsubtract] ++ MONT_FIRSTSUB ++ MONT_NEXTSUB 1 ++ MONT_NEXTSUB 2 ++ [Lab Ldone].
(** 63-98 *)
Definition mul4_prog :=
  MONT_PRECOMPUTE ++ MONT_FIRSTITER 1 ++ MONT_FIRSTITER 2 ++ MONT_FIRSTITER 3 ++ MONT_FINALIZE 3 ++
  MONT_ITERFIRST 1 ++ MONT_ITERITER 1 1 ++ MONT_ITERITER 1 2 ++ MONT_ITERITER 1 3 ++ MONT_FINALIZE 3 ++
  MONT_ITERFIRST 2 ++ MONT_ITERITER 2 1 ++ MONT_ITERITER 2 2 ++ MONT_ITERITER 2 3 ++ MONT_FINALIZE 3 ++
  MONT_ITERFIRST 3 ++ MONT_ITERITER 3 1 ++ MONT_ITERITER 3 2 ++ MONT_ITERITER 3 3 ++ MONT_FINALIZE 3 ++
  MONT_CMP 3 ++ MONT_CMP 2 ++ MONT_CMP 1 ++ MONT_CMP 0 ++
  [Lab Lsubtract] ++ MONT_FIRSTSUB ++ MONT_NEXTSUB 1 ++ MONT_NEXTSUB 2 ++ MONT_NEXTSUB 3 ++ [Lab Ldone].
(** 107-154 *)
Definition mul5_prog :=
  MONT_PRECOMPUTE ++ MONT_FIRSTITER 1 ++ MONT_FIRSTITER 2 ++ MONT_FIRSTITER 3 ++ MONT_FIRSTITER 4 ++ MONT_FINALIZE 4 ++
  MONT_ITERFIRST 1 ++ MONT_ITERITER 1 1 ++ MONT_ITERITER 1 2 ++ MONT_ITERITER 1 3 ++ MONT_ITERITER 1 4 ++ MONT_FINALIZE 4 ++
  MONT_ITERFIRST 2 ++ MONT_ITERITER 2 1 ++ MONT_ITERITER 2 2 ++ MONT_ITERITER 2 3 ++ MONT_ITERITER 2 4 ++ MONT_FINALIZE 4 ++
  MONT_ITERFIRST 3 ++ MONT_ITERITER 3 1 ++ MONT_ITERITER 3 2 ++ MONT_ITERITER 3 3 ++ MONT_ITERITER 3 4 ++ MONT_FINALIZE 4 ++
  MONT_ITERFIRST 4 ++ MONT_ITERITER 4 1 ++ MONT_ITERITER 4 2 ++ MONT_ITERITER 4 3 ++ MONT_ITERITER 4 4 ++ MONT_FINALIZE 4 ++
  MONT_CMP 4 ++ MONT_CMP 3 ++ MONT_CMP 2 ++ MONT_CMP 1 ++ MONT_CMP 0 ++
  [Lab Lsubtract] ++ MONT_FIRSTSUB ++ MONT_NEXTSUB 1 ++ MONT_NEXTSUB 2 ++ MONT_NEXTSUB 3 ++ MONT_NEXTSUB 4 ++ [Lab Ldone].
(** 330-353, 355-381, 383-413 *)
Definition add3_prog :=
  ADD_FIRSTADD ++ ADD_NEXTADD 1 ++ ADD_NEXTADD 2 ++ [jc Lsubtract] ++ ADD_CMP 2 ++ ADD_CMP 1 ++ ADD_CMP 0 ++
  [Lab Lsubtract] ++ ADD_FIRSTSUB ++ ADD_NEXTSUB 1 ++ ADD_NEXTSUB 2 ++ [Lab Ldone].
Definition add4_prog :=
  ADD_FIRSTADD ++ ADD_NEXTADD 1 ++ ADD_NEXTADD 2 ++ ADD_NEXTADD 3 ++ [jc Lsubtract] ++
  ADD_CMP 3 ++ ADD_CMP 2 ++ ADD_CMP 1 ++ ADD_CMP 0 ++
  [Lab Lsubtract] ++ ADD_FIRSTSUB ++ ADD_NEXTSUB 1 ++ ADD_NEXTSUB 2 ++ ADD_NEXTSUB 3 ++ [Lab Ldone].
Definition add5_prog :=
  ADD_FIRSTADD ++ ADD_NEXTADD 1 ++ ADD_NEXTADD 2 ++ ADD_NEXTADD 3 ++ ADD_NEXTADD 4 ++ [jc Lsubtract] ++
  ADD_CMP 4 ++ ADD_CMP 3 ++ ADD_CMP 2 ++ ADD_CMP 1 ++ ADD_CMP 0 ++
  [Lab Lsubtract] ++ ADD_FIRSTSUB ++ ADD_NEXTSUB 1 ++ ADD_NEXTSUB 2 ++ ADD_NEXTSUB 3 ++ ADD_NEXTSUB 4 ++ [Lab Ldone].
(** 447-463, 465-483, 485-505 *)
Definition sub3_prog :=
  SUB_FIRSTSUB ++ SUB_NEXTSUB 1 ++ SUB_NEXTSUB 2 ++ [jnc Ldone] ++
  SUB_FIRSTADD ++ SUB_NEXTADD 1 ++ SUB_NEXTADD 2 ++ [Lab Ldone].
Definition sub4_prog :=
  SUB_FIRSTSUB ++ SUB_NEXTSUB 1 ++ SUB_NEXTSUB 2 ++ SUB_NEXTSUB 3 ++ [jnc Ldone] ++
  SUB_FIRSTADD ++ SUB_NEXTADD 1 ++ SUB_NEXTADD 2 ++ SUB_NEXTADD 3 ++ [Lab Ldone].
Definition sub5_prog :=
  SUB_FIRSTSUB ++ SUB_NEXTSUB 1 ++ SUB_NEXTSUB 2 ++ SUB_NEXTSUB 3 ++ SUB_NEXTSUB 4 ++ [jnc Ldone] ++
  SUB_FIRSTADD ++ SUB_NEXTADD 1 ++ SUB_NEXTADD 2 ++ SUB_NEXTADD 3 ++ SUB_NEXTADD 4 ++ [Lab Ldone].

(** Pointers: [same] says that other is *this; [ofs] is where tmp points to in
    the scratch array. *)
Definition ptrs (same : bool) (ofs : nat) (p : ptr) : arr * nat :=
  match p with
  | A => (ThisData, O)
  | Bp => (if same then ThisData else OtherData, O)
  | M => (Modulus, O)
  | tmp => (Scratch, ofs)
  end.

Section Asm.
Variable P : fp_params.
(** What the scratch registers, arrays and flags hold at the start. *)
Variables (junk : reg -> Z) (scratch : list Z) (cf zf : option bool).
Definition start (a b : list Z) : state :=
  mkSt (fun r => match r with inv => fp_inv P mod B | _ => junk r end)
    (fun x => match x with ThisData => a | OtherData => b | Modulus => fp_modulus P | Scratch => scratch end) cf zf.
(** b is only used if other is not *this. *)
Definition asm_mul_reduce (same : bool) (a b : list Z) : result (list Z) :=
  match fp_n P with
  | 3%nat =>
      s <- run (ptrs same 0) COMBA_3_BY_3_MUL None (start a b) ;;
      s <- run (ptrs same 0) REDUCE_6_LIMB_PRODUCT None s ;;
      s <- run (ptrs same 3) cond_sub3_prog None s ;;
      Ok (skipn 3 (mem s Scratch))
  | 4%nat => s <- run (ptrs same 0) mul4_prog None (start a b) ;; Ok (firstn 4 (mem s Scratch))
  | 5%nat => s <- run (ptrs same 0) mul5_prog None (start a b) ;; Ok (firstn 5 (mem s Scratch))
  | _ => mul_reduce P a (if same then a else b)
  end.
Definition asm_add (same : bool) (a b : list Z) : result (list Z) :=
  match fp_n P with
  | 3%nat => s <- run (ptrs same 0) add3_prog None (start a b) ;; Ok (mem s ThisData)
  | 4%nat => s <- run (ptrs same 0) add4_prog None (start a b) ;; Ok (mem s ThisData)
  | 5%nat => s <- run (ptrs same 0) add5_prog None (start a b) ;; Ok (mem s ThisData)
  | _ => fp_add P a (if same then a else b)
  end.
Definition asm_sub (same : bool) (a b : list Z) : result (list Z) :=
  match fp_n P with
  | 3%nat => s <- run (ptrs same 0) sub3_prog None (start a b) ;; Ok (mem s ThisData)
  | 4%nat => s <- run (ptrs same 0) sub4_prog None (start a b) ;; Ok (mem s ThisData)
  | 5%nat => s <- run (ptrs same 0) sub5_prog None (start a b) ;; Ok (mem s ThisData)
  | _ => fp_sub P a (if same then a else b)
  end.
(** 615-661: only n = 3 is specialised; otherwise r *= r with other = *this. *)
Definition asm_squared (a : list Z) : result (list Z) :=
  match fp_n P with
  | 3%nat =>
      s <- run (ptrs true 0) COMBA_3_BY_3_SQR None (start a a) ;;
      s <- run (ptrs true 0) REDUCE_6_LIMB_PRODUCT None s ;;
      s <- run (ptrs true 3) cond_sub3_prog None s ;;
      Ok (skipn 3 (mem s Scratch))
  | _ => asm_mul_reduce true a a
  end.
End Asm.
