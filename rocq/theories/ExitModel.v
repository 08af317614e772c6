(** include/sleipnir/optimization/solver/exit_status.hpp 13-44. *)
Inductive status :=
| SUCCESS | CALLBACK_REQUESTED_STOP | TOO_FEW_DOFS | LOCALLY_INFEASIBLE | GLOBALLY_INFEASIBLE | FACTORIZATION_FAILED
| LINE_SEARCH_FAILED | FEASIBILITY_RESTORATION_FAILED | NONFINITE_INITIAL_GUESS | DIVERGING_ITERATES
| MAX_ITERATIONS_EXCEEDED | TIMEOUT.

(** The comparison with ExitStatus::SUCCESS (multistart.hpp 67). *)
Definition is_success (s : status) : bool := match s with SUCCESS => true | _ => false end.
