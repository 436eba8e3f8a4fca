(** * Outcomes of a C++ call

    A call either returns, throws, or executes undefined behaviour.  UB is kept as a distinct
    outcome so that theorems can state its absence. *)

(** The exception classes thrown by the modelled code (all of them are visible in the cited
    functions: std::invalid_argument, std::domain_error, std::logic_error, std::out_of_range,
    std::runtime_error, boost::numeric::bad_numeric_cast, kep3::not_implemented_error). *)
Inductive exn : Set :=
| InvalidArgument
| DomainError
| LogicError
| OutOfRange
| RuntimeError
| BadNumericCast
| NotImplemented.

Inductive outcome (A : Type) : Type :=
| Ret (a : A)
| Throw (e : exn)
| UB.
Arguments Ret {A} a.
Arguments Throw {A} e.
Arguments UB {A}.

Definition bind {A B} (m : outcome A) (f : A -> outcome B) : outcome B :=
  match m with
  | Ret a => f a
  | Throw e => Throw e
  | UB => UB
  end.

Declare Scope outcome_scope.
Delimit Scope outcome_scope with outcome.
Notation "x <- m ;; f" := (bind m (fun x => f))
  (at level 61, m at next level, right associativity) : outcome_scope.

Definition exn_eqb (a b : exn) : bool :=
  match a, b with
  | InvalidArgument, InvalidArgument | DomainError, DomainError | LogicError, LogicError
  | OutOfRange, OutOfRange | RuntimeError, RuntimeError | BadNumericCast, BadNumericCast
  | NotImplemented, NotImplemented => true
  | _, _ => false
  end.
