(** Property C88: on convex problems SUCCESS is global.

    [convex_problem sp]: on the points the decision variables can be put at ([can_be]), what is minimised is convex,
    equalities are affine and inequalities bound a concave function from below. Hypotheses on the linear solver and the
    multiplier estimate as in C87. *)
From Coq Require Import ZArith Reals List Bool Arith.
From Verif Require Import Base ExprModel ExprReal ExprXR VarSpec NumModel ExitModel SolverModel SolverSpec IpmShape RestoreProofs PosX KktSpec ProblemModel ProblemSpec ProbSolveModel ProbSolveSpec
  LagrSpec ProbSolveRun RunY FiniteSpec FiniteUseSpec ConvexSpec ConvexUse ConvexEx.
Import ListNotations.
Local Open Scope R_scope.

(** C88, SQP and interior point: if solve() ends in SUCCESS at [y] there are multipliers, those of C87, such that no
    assignment of the decision variables that satisfies all constraints has a cost below the final one by more than the
    tolerance times a factor in the multipliers and the distance. *)
Theorem C88_global :
  forall (U : Type) (E : env Xn) (o : options Xn) t, solve_ok E -> o_tol o = Fin t -> 0 < t ->
  forall sp, smooth_everywhere sp -> convex_problem sp -> est_ok E -> lin_fin E -> est_fin E ->
  forall (all : list (callback Xn U)) x s m z l, ended E o all sp SUCCESS x s m z l ->
  exists y, x = map Fin y /\ exists lam nu sl, nearly_stationary sp t (point sp y) lam nu /\ nearly_complementary sp t (point sp y) nu sl /\ (forall v, In v nu -> 0 < v) /\
    forall rho v v', can_be sp rho -> feasible sp rho -> cost_is sp (point sp y) v -> cost_is sp rho v' ->
      v <= v' + t * (excuse (sum_abs lam + sum_abs nu) (length lam + length nu) * dist1 sp rho (point sp y) + sum_abs lam + sum_abs nu + INR (length nu) * excuse (sum_abs nu) (length nu)).
Proof. exact (@c88). Qed.
Print Assumptions C88_global.

(** C88, Newton's method: no assignment has a cost below the final one by more than the tolerance times the distance. *)
Theorem C88_global_newton :
  forall (U : Type) (E : env Xn) (o : options Xn) t, solve_ok E -> o_tol o = Fin t -> 0 < t ->
  forall sp, smooth_everywhere sp -> convex_problem sp -> lin_fin_any E ->
  forall (all : list (callback Xn U)) x l, ended_newton E o all sp SUCCESS x l ->
  exists y, x = map Fin y /\ forall rho v v', can_be sp rho -> cost_is sp (point sp y) v -> cost_is sp rho v' -> v <= v' + t * dist1 sp rho (point sp y).
Proof. exact (@c88_newton). Qed.
Print Assumptions C88_global_newton.

(** minimize(x * x) from 1 with Newton's method; an OCP with SQP. *)
Example C88_newton_case : exists sp x l, spec_run from1_ops spec_empty = Some (sp, []) /\ smooth_everywhere sp /\ convex_problem sp /\ ended_newton (U := unit) down_env (opts_y 5) [] sp SUCCESS x l.
Proof. exact square_convex. Qed.
Example C88_sqp_case : exists sp x y l, smooth_everywhere sp /\ convex_problem sp /\ sp_eqs sp <> [] /\ ended (U := unit) down_env (opts_y 5) [] sp SUCCESS x [] y [] l.
Proof. exact ride_convex. Qed.
