(** Model of clear_profiling_counters and of the numbers in the profiler's
    reports, libff/common/profiling.cpp:98-175.

    A report shows averages in floating point; here a report is the sum and the
    number it is divided by.  Rounding and layout are not modelled. *)
From Coq Require Import ZArith List Bool.
From Verif Require Import Result Limbs UtilsModel ProfilingModel OpcountModel.
Import ListNotations.
Open Scope Z_scope.
Open Scope result_scope.

(** profiling.cpp:98-104 *)
Definition clear_profiling_counters (s : prof) : prof :=
  mkProf (block_names s) (indentation s) (fun _ => 0) (enter_times s) (fun _ => 0) (fun _ => 0)
    (enter_cpu_times s) (fun _ => 0).
(** The same lines: op_counts and cumulative_op_counts are not mentioned. *)
Definition clear_op_counters (o : opprof) : opprof := o.

(** profiling.cpp:106-112.  map::at throws if the key is missing.  leave_block
    inserts the key in both maps and increments the count, and clear empties both,
    so a key is missing if its count is 0 (for less than 2^64 invocations). *)
Definition time_entry (n : name) (s : prof) : result (Z * Z) :=
  if invocation_counts s n =? 0 then Throw else Ok (cumulative_times s n, invocation_counts s n).

(** profiling.cpp:123-153, one data point of one block: a line for each key of
    invocation_counts, the sum from cumulative_op_counts. *)
Definition op_entry (n : name) (s : prof) (o : opprof) : option (Z * Z) :=
  if invocation_counts s n =? 0 then None else Some (cumulative_op_counts o n, invocation_counts s n).

(** profiling.cpp:155-177: the number shown for a data point whose counter is [v]. *)
Definition op_shown (n : name) (v : Z) (o : opprof) : result Z := ll (v - op_counts o n).

(** profiling.cpp:78-94: Fr, Fq with add, sub, mul, inv and G1, G2 with add, dbl. *)
Definition op_data_points : list name :=
  flat_map (fun g => map (app g) [[97; 100; 100]; [115; 117; 98]; [109; 117; 108]; [105; 110; 118]]) [[70; 114]; [70; 113]] ++
  flat_map (fun g => map (app g) [[97; 100; 100]; [100; 98; 108]]) [[71; 49]; [71; 50]].
(** profiling.cpp:132-136: only_fq skips names that do not begin with Fq. *)
Definition shown_points (only_fq : bool) : list name :=
  filter (fun p => negb (only_fq && negb (name_eqb (firstn 2 p) [70; 113]))) op_data_points.
