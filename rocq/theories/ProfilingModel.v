(** Model of enter_block and leave_block, libff/common/profiling.cpp:61-72 and
    250-330.

    The state is the global variables the two functions use.  std::map is a
    total function: operator[] on a missing key inserts 0, so a missing key
    and 0 cannot be told apart by these functions.  Names are strings of
    character codes.  Each call carries the clock readings it gets; a failing
    clock_gettime throws (profiling.cpp:41-44).

    Differences of long long that overflow are undefined behaviour.  Not
    modelled: the formatted output, concurrent calls (the vector and maps are not
    protected, so concurrent calls are data races).  The part under
    PROFILE_OP_COUNTS is in OpcountModel.v. *)
From Coq Require Import ZArith List Bool.
From Verif Require Import Result Limbs UtilsModel.
Import ListNotations.
Open Scope Z_scope.
Open Scope result_scope.

Notation name := (list Z) (only parsing).
Definition name_eqb (a b : name) : bool := if list_eq_dec Z.eq_dec a b then true else false.
Definition update (m : name -> Z) (k : name) (v : Z) : name -> Z := fun x => if name_eqb x k then v else m x.

Record prof := mkProf {
  block_names : list name;              (* innermost first *)
  indentation : Z;                      (* size_t *)
  invocation_counts : name -> Z;        (* size_t *)
  enter_times : name -> Z;              (* long long, as the next four *)
  last_times : name -> Z;
  cumulative_times : name -> Z;
  enter_cpu_times : name -> Z;
  last_cpu_times : name -> Z }.

(** The two inhibit flags (profiling.cpp:96-97) and the MULTICORE macro. *)
Record prof_cfg := { inhibit_info : bool; inhibit_counters : bool; multicore : bool }.

(** Signed 64-bit result, or undefined behaviour. *)
Definition ll (z : Z) : result Z := if (- 2 ^ 63 <=? z) && (z <? 2 ^ 63) then Ok z else UB.

(** One call: name, indent argument, get_nsec_time(), get_nsec_cpu_time(). *)
Inductive event :=
| Enter (n : name) (indent : bool) (t : Z) (cpu : option Z)
| Leave (n : name) (indent : bool) (t : Z) (cpu : option Z).

Section Run.
Variable C : prof_cfg.

(** profiling.cpp:250-285 *)
Definition enter_block (n : name) (indent : bool) (t : Z) (cpu : option Z) (s : prof) : result prof :=
  if inhibit_counters C then Ok s else
  match cpu with
  | None => Throw
  | Some c =>
      let ind := if inhibit_info C then indentation s
                 else if indent then wrap64 (indentation s + 1) else indentation s in
      Ok (mkProf (n :: block_names s) ind (invocation_counts s) (update (enter_times s) n t)
            (last_times s) (cumulative_times s) (update (enter_cpu_times s) n c) (last_cpu_times s))
  end.

(** profiling.cpp:287-330.  [--block_names.end()] and pop_back on an empty
    vector are undefined. *)
Definition leave_block (n : name) (indent : bool) (t : Z) (cpu : option Z) (s : prof) : result prof :=
  if inhibit_counters C then Ok s else
  match block_names s with
  | [] => UB
  | top :: rest =>
      assert_then (multicore C || name_eqb top n)
      (d <- ll (t - enter_times s n) ;;
       cum <- ll (cumulative_times s n + d) ;;
       match cpu with
       | None => Throw
       | Some c =>
           dc <- ll (c - enter_cpu_times s n) ;;
           let ind := if inhibit_info C then indentation s
                      else if indent then wrap64 (indentation s - 1) else indentation s in
           Ok (mkProf rest ind
                 (update (invocation_counts s) n (wrap64 (invocation_counts s n + 1)))
                 (enter_times s) (update (last_times s) n d) (update (cumulative_times s) n cum)
                 (enter_cpu_times s) (update (last_cpu_times s) n dc))
       end)
  end.

Definition step (s : prof) (e : event) : result prof :=
  match e with
  | Enter n i t c => enter_block n i t c s
  | Leave n i t c => leave_block n i t c s
  end.
Fixpoint run (h : list event) (s : prof) : result prof :=
  match h with [] => Ok s | e :: h' => s' <- step s e ;; run h' s' end.
End Run.
