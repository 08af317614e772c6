(** Property C100: convexity by second derivatives.

    [hessian_test sp]: wherever the decision variables are put, the second derivatives of what is minimised form a positive
    semidefinite matrix, those of each equality are zero, and those of each inequality, read as "this is at least 0", form a
    negative semidefinite one. The derivatives are those of the functions the user wrote. *)
From Coq Require Import ZArith Reals List Bool Arith.
From Verif Require Import Base ExprModel ExprReal ExprXR VarSpec NumModel ExitModel SolverModel SolverSpec IpmShape RestoreProofs NewtonModel PosX KktSpec ProblemModel ProblemSpec ProbSolveModel ProbSolveSpec
  ProbSolveHist LagrSpec ProbSolveEx ProbSolveRun RunY FiniteSpec FiniteUseSpec ConvexSpec QuadSpec RateEx HessSpec HessUse HessEx.
Import ListNotations.
Local Open Scope R_scope.

(** C100: a smooth problem is convex exactly if it passes the test. *)
Theorem C100_test : forall sp p, lived sp p -> smooth_everywhere sp -> (convex_problem sp <-> hessian_test sp).
Proof. exact c100_test. Qed.
Print Assumptions C100_test.

(** x * x + cos(x) passes it; maximize(x * x) does not. *)
Example C100_test_case : exists sp p, spec_run wavy_ops spec_empty = Some (sp, []) /\ lived sp p /\ smooth_everywhere sp /\ hessian_test sp /\ convex_problem sp.
Proof. exact wavy_test. Qed.
Example C100_fails_case : exists sp p, spec_run dome_ops spec_empty = Some (sp, []) /\ lived sp p /\ smooth_everywhere sp /\ ~ hessian_test sp.
Proof. exact dome_test. Qed.

(** C100, what is computed: when solve() picks Newton's method, the problem is convex exactly if the matrix it computes is
    positive semidefinite wherever the decision variables are put. Only the lower triangle is stored. *)
Theorem C100_computed : forall sp p P x0 p1, lived sp p -> smooth_everywhere sp -> prepare p = Ok (RanNewton P, x0, p1) ->
  (convex_problem sp <-> forall y, length y = size sp -> exists A, np_H P (map Fin y) = map (map Fin) A /\ forall v, 0 <= form (size sp) (low A) v).
Proof. exact c100_computed. Qed.
Print Assumptions C100_computed.

Example C100_computed_case : exists sp p P x0 p1, spec_run from1_ops spec_empty = Some (sp, []) /\ lived sp p /\ smooth_everywhere sp /\ prepare p = Ok (RanNewton P, x0, p1) /\ convex_problem sp.
Proof. exact square_given. Qed.

(** C100, SQP and interior point: on such a problem SUCCESS is global, within the bound of C88. *)
Theorem C100_global :
  forall (U : Type) (E : env Xn) (o : options Xn) t, solve_ok E -> o_tol o = Fin t -> 0 < t ->
  forall sp, smooth_everywhere sp -> hessian_test sp -> est_ok E -> lin_fin E -> est_fin E ->
  forall (all : list (callback Xn U)) x s m z l, ended E o all sp SUCCESS x s m z l ->
  exists y, x = map Fin y /\ exists lam nu sl, nearly_stationary sp t (point sp y) lam nu /\ nearly_complementary sp t (point sp y) nu sl /\ (forall v, In v nu -> 0 < v) /\
    forall rho v v', can_be sp rho -> feasible sp rho -> cost_is sp (point sp y) v -> cost_is sp rho v' ->
      v <= v' + t * (excuse (sum_abs lam + sum_abs nu) (length lam + length nu) * dist1 sp rho (point sp y) + sum_abs lam + sum_abs nu + INR (length nu) * excuse (sum_abs nu) (length nu)).
Proof. exact c100_global. Qed.
Print Assumptions C100_global.

(** C100, Newton's method. *)
Theorem C100_global_newton :
  forall (U : Type) (E : env Xn) (o : options Xn) t, solve_ok E -> o_tol o = Fin t -> 0 < t ->
  forall sp, smooth_everywhere sp -> hessian_test sp -> lin_fin_any E ->
  forall (all : list (callback Xn U)) x l, ended_newton E o all sp SUCCESS x l ->
  exists y, x = map Fin y /\ forall rho v v', can_be sp rho -> cost_is sp (point sp y) v -> cost_is sp rho v' -> v <= v' + t * dist1 sp rho (point sp y).
Proof. exact c100_newton. Qed.
Print Assumptions C100_global_newton.

(** minimize(x * x) from 1 with Newton's method; an OCP with SQP. *)
Example C100_newton_case : exists sp x l, spec_run from1_ops spec_empty = Some (sp, []) /\ smooth_everywhere sp /\ hessian_test sp /\ ended_newton (U := unit) down_env (opts_y 5) [] sp SUCCESS x l.
Proof. exact square_test. Qed.
Example C100_sqp_case : exists sp x y l, smooth_everywhere sp /\ hessian_test sp /\ sp_eqs sp <> [] /\ ended (U := unit) down_env (opts_y 5) [] sp SUCCESS x [] y [] l.
Proof. exact ride_test. Qed.
