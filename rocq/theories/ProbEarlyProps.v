(** Properties C84 and C85: answers given at once, and which answers are possible. *)
From Coq Require Import ZArith Reals List Bool.
From Verif Require Import Base ExprModel ExprReal ExprXR VarSpec NumModel ExitModel SolverModel IpmShape RestoreModel RestoreProofs PosX ProblemModel ProblemSpec ProbSolveModel ProbSolveSpec
  ProbSolveHist ProbSolveFacts LagrSpec ProbSolveEx ProbSolveKktEx RunY ProbSolveRun ProbSolveTotal ProbTotalEx EarlySpec ProbEarly ProbEarly2 ProbEarlyEx.
Import ListNotations.
Local Open Scope nat_scope.

(** C84: a problem without inequalities whose variables already sit where the cost is flat and the equalities hold,
    both within the tolerance, is answered SUCCESS at once and every variable keeps its value, whatever the callbacks, the
    clock, the linear-algebra routines and the iteration limit are. *)
Theorem C84_warm_start :
  forall sp p t,
    lived sp p -> prob_smooth sp (se_val (sp_se sp)) -> sp_ineqs sp = [] -> length (sp_eqs sp) <= length (sp_dec sp) -> (0 < t)%R -> settled sp t ->
    (forall k, point sp (now sp) k = se_val (sp_se sp) k) /\
    exists p', forall (U : Type) (E : env Xn) (o : options Xn) (cbs pcbs : list (callback Xn U)) n u clk, o_tol o = Fin t -> 1 <= n ->
      solve E o n cbs pcbs p u clk = Ok (SUCCESS, p') /\ lived (at_point sp (now sp)) p'.
Proof. exact (fun sp p t H1 H2 H3 H4 H5 H6 => conj (now_point sp) (warm_start sp p t H1 H2 H3 H4 H5 H6)). Qed.
Print Assumptions C84_warm_start.

(** minimize(x * x) at x = 0 (Newton); x[0] == x[1] at 0 (SQP). *)
Example C84_newton_case : exists sp p P x0 p1, spec_run square_ops spec_empty = Some (sp, []) /\ lived sp p /\ prepare p = Ok (RanNewton P, x0, p1) /\
  prob_smooth sp (se_val (sp_se sp)) /\ sp_ineqs sp = [] /\ length (sp_eqs sp) <= length (sp_dec sp) /\ forall t, (0 < t)%R -> settled sp t.
Proof. exact square_settled. Qed.
Example C84_sqp_case : exists sp p P x0 p1, spec_run two_ops spec_empty = Some (sp, []) /\ lived sp p /\ prepare p = Ok (RanSqp P, x0, p1) /\
  prob_smooth sp (se_val (sp_se sp)) /\ sp_ineqs sp = [] /\ length (sp_eqs sp) <= length (sp_dec sp) /\ forall t, (0 < t)%R -> settled sp t.
Proof. exact two_settled. Qed.

(** C84, solving twice: after SUCCESS on an unconstrained problem, smooth where it ended, a second solve() with the same
    tolerance answers SUCCESS without moving any variable, whatever its other options and callbacks are. *)
Theorem C84_solve_again :
  forall (U : Type) (E : env Xn) (o : options Xn) fuel (cbs pcbs : list (callback Xn U)) sp p u clk p' t P x0 p1 y,
    solve_ok E -> o_tol o = Fin t -> (0 < t)%R -> lived sp p -> prepare p = Ok (RanNewton P, x0, p1) -> prob_smooth sp (se_val (sp_se sp)) ->
    solve E o fuel cbs pcbs p u clk = Ok (SUCCESS, p') -> final E o fuel (cbs ++ pcbs) u clk (RanNewton P) x0 SUCCESS (map Fin y) -> prob_smooth sp (point sp y) ->
    lived (at_point sp y) p' /\
    exists p'', forall (V : Type) (E' : env Xn) (o' : options Xn) (cbs' pcbs' : list (callback Xn V)) n v clk', o_tol o' = Fin t -> 1 <= n ->
      solve E' o' n cbs' pcbs' p' v clk' = Ok (SUCCESS, p'') /\ lived (at_point (at_point sp y) (now (at_point sp y))) p''.
Proof. exact @solve_again. Qed.
Print Assumptions C84_solve_again.

(** x = decision_variable(); x.set_value(1); minimize(x * x). *)
Example C84_again_case : exists sp p P x0 p1 p', spec_run from1_ops spec_empty = Some (sp, []) /\ lived sp p /\ prepare p = Ok (RanNewton P, x0, p1) /\
  (forall rho, prob_smooth sp rho) /\ solve (U := unit) down_env (opts_y 5) 2 [] [] p tt 0 = Ok (SUCCESS, p') /\
  final (U := unit) down_env (opts_y 5) 2 [] tt 0 (RanNewton P) x0 SUCCESS (map Fin [0%R]).
Proof. exact again_case. Qed.

(** C85: which statuses solve() can return follows from the constraints the user gave. *)
Theorem C85_possible :
  forall (U : Type) (E : env Xn) (o : options Xn), solve_ok E -> est_ok E ->
  forall fuel (cbs pcbs : list (callback Xn U)) sp p u clk st p',
    lived sp p -> solve E o fuel cbs pcbs p u clk = Ok (st, p') -> possible sp st.
Proof. exact @solve_possible. Qed.
Print Assumptions C85_possible.

(** C85: with more equalities than decision variables no solver runs and no variable moves; the answer is TOO_FEW_DOFS
    unless the inequalities are found to conflict or the problem has no variable in it at all. *)
Theorem C85_overdetermined :
  forall (U : Type) (E : env Xn) (o : options Xn) fuel (cbs pcbs : list (callback Xn U)) sp p u clk st p',
    lived sp p -> length (sp_dec sp) < length (sp_eqs sp) -> solve E o fuel cbs pcbs p u clk = Ok (st, p') ->
    (st = TOO_FEW_DOFS \/ st = GLOBALLY_INFEASIBLE \/ (st = SUCCESS /\ exists x0 p1, prepare p = Ok (RanNone, x0, p1))) /\ lived (at_point sp (now sp)) p'.
Proof. exact @solve_overdetermined. Qed.
Print Assumptions C85_overdetermined.

(** x == a and x == b for one decision variable x. *)
Example C85_over_case : exists sp p, spec_run over_ops spec_empty = Some (sp, []) /\ lived sp p /\ length (sp_dec sp) < length (sp_eqs sp) /\
  exists N p', forall n, N <= n -> solve (U := unit) down_env (opts_y 5) n [] [] p tt 0 = Ok (TOO_FEW_DOFS, p').
Proof. exact over_case. Qed.

(** C85: NONFINITE_INITIAL_GUESS never comes from a problem that is smooth where its variables start. *)
Theorem C85_finite_start :
  forall (U : Type) (E : env Xn) (o : options Xn), solve_ok E -> est_ok E ->
  forall fuel (cbs pcbs : list (callback Xn U)) sp p u clk st p',
    lived sp p -> prob_smooth sp (se_val (sp_se sp)) -> solve E o fuel cbs pcbs p u clk = Ok (st, p') -> st <> NONFINITE_INITIAL_GUESS.
Proof. exact @solve_finite_start. Qed.
Print Assumptions C85_finite_start.

(** minimize(x * x) subject to x * x >= x (interior point). *)
Example C85_ipm_case : exists sp p P x0 p1, spec_run disc_ops spec_empty = Some (sp, []) /\ lived sp p /\ prepare p = Ok (RanIpm P, x0, p1) /\ forall rho, prob_smooth sp rho.
Proof. exact disc_case. Qed.
Example C85_env_case : solve_ok down_env /\ est_ok down_env /\ pos (o_tol (opts_y 5)).
Proof. exact env_total. Qed.
