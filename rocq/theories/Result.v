(** Outcomes of a C++ call.

    Every model function that can do something other than return a value
    returns a [result].  The distinct constructors keep apart:
    - [AssertFail]: an [assert] of the code is violated (a debug build aborts;
      an NDEBUG build continues with a meaningless value);
    - [Throw]: the code throws a C++ exception;
    - [UB]: the code performs an operation that is undefined behaviour
      (out-of-bounds index, oversized shift, division by zero, ...);
    - [StreamFail]: an input stream entered its fail state (short read or
      malformed token), so that the target object is not meaningful;
    - [OutOfFuel]: only produced by the model of an unbounded loop when its
      fuel argument is exhausted (not an outcome of the C++ program). *)

Inductive result (A : Type) : Type :=
| Ok (a : A)
| AssertFail
| Throw
| UB
| StreamFail
| OutOfFuel.

Arguments Ok {A} a.
Arguments AssertFail {A}.
Arguments Throw {A}.
Arguments UB {A}.
Arguments StreamFail {A}.
Arguments OutOfFuel {A}.

Definition bind {A B : Type} (r : result A) (f : A -> result B) : result B :=
  match r with
  | Ok a => f a
  | AssertFail => AssertFail
  | Throw => Throw
  | UB => UB
  | StreamFail => StreamFail
  | OutOfFuel => OutOfFuel
  end.

Definition rmap {A B : Type} (f : A -> B) (r : result A) : result B :=
  bind r (fun a => Ok (f a)).

(** [assert(b)] followed by the rest of the computation. *)
Definition assert_then {A : Type} (b : bool) (k : result A) : result A :=
  if b then k else AssertFail.

Definition get_ok {A : Type} (d : A) (r : result A) : A :=
  match r with Ok a => a | _ => d end.

Declare Scope result_scope.
Delimit Scope result_scope with result.
Notation "x <- e ;; k" := (bind e (fun x => k))
  (at level 61, e at next level, right associativity) : result_scope.
Notation "' pat <- e ;; k" := (bind e (fun x => match x with pat => k end))
  (at level 61, pat pattern, e at next level, right associativity) : result_scope.
