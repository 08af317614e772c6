(** Property C82: solve() returns. *)
From Coq Require Import ZArith Reals List Bool.
From Verif Require Import Base ExprModel ExprReal ExprXR NumModel ExitModel SolverModel IpmShape RestoreModel RestoreProofs PosX ProblemModel ProblemSpec ProbSolveModel ProbSolveSpec
  ProbSolveHist LagrSpec ProbSolveEx ProbSolveKktEx RunY ProbSolveRun ProbSolveTotal ProbTotalEx.
Import ListNotations.
Local Open Scope nat_scope.

(** C82: after any well-formed history of statements and solve() calls, with a positive tolerance and linear-algebra
    routines that return vectors of the right length, solve() comes to an answer whenever setting up the problem does:
    no solver, restoration phase or line search fails an assertion, does something undefined or runs on forever, whatever
    the callbacks, the clock, the linear solver's answers and the values of the user's functions are (NaN and infinities
    included), and the answer does not depend on how long it may run. *)
Theorem C82_returns :
  forall (U : Type) (E : env Xn) (o : options Xn), solve_ok E -> est_ok E -> pos (o_tol o) ->
  forall (cbs pcbs : list (callback Xn U)) sp p u clk rn x0 p1,
    lived sp p -> prepare p = Ok (rn, x0, p1) ->
    exists N st p', forall n, N <= n -> solve E o n cbs pcbs p u clk = Ok (st, p').
Proof. exact @solve_returns. Qed.
Print Assumptions C82_returns.

(** Setting up succeeds, so solve() returns, if no inequality constraint is of type LINEAR; with one that is it can fail
    (C38_cancelling_refuted, C38_foreign_variable_refuted). *)
Theorem C82_no_linear_inequality :
  forall (U : Type) (E : env Xn) (o : options Xn), solve_ok E -> est_ok E -> pos (o_tol o) ->
  forall (cbs pcbs : list (callback Xn U)) sp p u clk,
    lived sp p -> (forall i, In i (p_ineq p) -> exists ty, slot_type p i = Ok ty /\ ty <> LINEAR) ->
    exists N st p', forall n, N <= n -> solve E o n cbs pcbs p u clk = Ok (st, p').
Proof. exact @solve_returns_nonlinear. Qed.
Print Assumptions C82_no_linear_inequality.

(** Newton, SQP and interior point: minimize(x * x), alone and with x * x >= x; x[0] == x[1]. *)
Example C82_newton_case : exists sp p P x0 p1, spec_run square_ops spec_empty = Some (sp, []) /\ lived sp p /\ prepare p = Ok (RanNewton P, x0, p1) /\ forall rho, prob_smooth sp rho.
Proof. exact square_case. Qed.
Example C82_sqp_case : exists sp p P x0 p1, spec_run two_ops spec_empty = Some (sp, []) /\ lived sp p /\ prepare p = Ok (RanSqp P, x0, p1) /\ forall rho, prob_smooth sp rho.
Proof. exact two_smooth. Qed.
Example C82_ipm_case : exists sp p, spec_run disc_ops spec_empty = Some (sp, []) /\ lived sp p /\ p_ineq p <> [] /\ (forall i, In i (p_ineq p) -> exists ty, slot_type p i = Ok ty /\ ty <> LINEAR) /\
  exists P x0 p1, prepare p = Ok (RanIpm P, x0, p1).
Proof. exact disc_total. Qed.
(** The routines assumed exist. *)
Example C82_env_case : solve_ok down_env /\ est_ok down_env /\ pos (o_tol (opts_y 5)).
Proof. exact env_total. Qed.
