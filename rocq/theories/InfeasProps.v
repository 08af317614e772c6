(** Property C96: what LOCALLY_INFEASIBLE says on convex problems.

    [convex_problem] as in C88; hypotheses on the linear solver and the multiplier estimate as in C87.
    [farther sp y d]: wherever the decision variables satisfy all relations they are more than [d] away from [y]. *)
From Coq Require Import ZArith Reals List Bool Arith.
From Verif Require Import Base ExprModel ExprReal ExprXR VarSpec NumModel ExitModel SolverModel SolverSpec IpmShape RestoreProofs LinR ProblemModel ProblemSpec ProbSolveModel ProbSolveSpec ProbSolveHist
  RunY FiniteSpec FiniteUseSpec EarlySpec ConvexSpec QuadSpec SaddleSpec LdlModel QuadEx InfeasSpec InfeasUse InfeasEx.
Import ListNotations.
Local Open Scope R_scope.

(** C96: after LOCALLY_INFEASIBLE, if feasibility restoration did not give up, the decision variables are left more than 100
    away from every assignment that satisfies the constraints, or more than 1e-6 away when there are inequalities.
    What is missing from the full claim, that no such assignment exists: it is false, see [C96_feasible_refuted]; and
    nothing is said about the answers of feasibility restoration. *)
Theorem C96_distance_partial :
  forall (U : Type) (E : env Xn) (o : options Xn) t, solve_ok E -> o_tol o = Fin t -> 0 < t ->
  forall sp, smooth_everywhere sp -> convex_problem sp -> est_ok E -> lin_fin E -> est_fin E ->
  forall (cbs pcbs : list (callback Xn U)) fuel p u clk p', lived sp p -> solve E o fuel cbs pcbs p u clk = Ok (LOCALLY_INFEASIBLE, p') ->
  exists y, length y = length (sp_dec sp) /\ lived (at_point sp y) p' /\
    (by_restoration (U := U) E o fuel p (map Fin y) \/ farther sp y 100 \/ (sp_ineqs sp <> [] /\ farther sp y (1 / 1000000))).
Proof. exact (@c96). Qed.
Print Assumptions C96_distance_partial.

(** C96: a convex problem, with a constraint that x = 0 satisfies, on which solve() answers LOCALLY_INFEASIBLE:
    minimize(x * x) subject to 1e-5 * x == 0 from x = 2000, with exact LDL' factorization. *)
Theorem C96_feasible_refuted :
  exists sp p p', spec_run (thread_at 2000 (1 / 100000) 0) spec_empty = Some (sp, []) /\ lived sp p /\ smooth_everywhere sp /\ convex_problem sp /\
  solve (U := unit) ldl_env (opts_y 5) 5 [] [] p tt 0 = Ok (LOCALLY_INFEASIBLE, p') /\ lived (at_point sp [2000]) p' /\
  exists rho, can_be sp rho /\ feasible sp rho /\ dist1 sp rho (point sp [2000]) = 2000.
Proof. exact thread_run. Qed.
Print Assumptions C96_feasible_refuted.

(** C96: with a quadratic cost and affine, unscaled equalities A x + e = 0, solve() gives up before the first step and before
    any callback as soon as the start has |c| > 1e-2 and |A' c| < 1e-6, whatever the tolerance not yet reached. *)
Theorem C96_at_once :
  forall (E : env Xn) (o : options Xn) t sp Q A b e c m, o_tol o = Fin t -> 0 < t -> smooth_everywhere sp -> quadratic sp Q b c -> affine sp A e ->
  (length (sp_eqs sp) <= size sp)%nat -> not_steep sp m -> not_scaled sp -> ~ settled sp t ->
  forall ge, Forall2 (gap (se_val (sp_se sp))) (sp_eqs sp) ge ->
  1 / 10000 < norm_sq (length (sp_eqs sp)) (fun i => ge.[i]) ->
  norm_sq (size sp) (fun j => sumn (length (sp_eqs sp)) (fun i => A i j * ge.[i])) < 1 / 1000000000000 ->
  forall (U : Type) (all : list (callback Xn U)) st x s y z l, sp_ineqs sp = [] -> ended E o all sp st x s y z l ->
  st = LOCALLY_INFEASIBLE /\ x = map Fin (now sp) /\ l = [].
Proof. exact (@c96_once). Qed.
Print Assumptions C96_at_once.

(** The hypotheses of C87, C88 and C96 on the linear solver are met by exact LDL' factorization; C96_feasible_refuted is a case of [C96_distance_partial]. *)
Theorem C96_ldlt : forall fuel (E : env Xn), est_ok E -> est_fin E ->
  solve_ok (with_ldl fuel E) /\ est_ok (with_ldl fuel E) /\ lin_fin (with_ldl fuel E) /\ lin_fin_any (with_ldl fuel E) /\ est_fin (with_ldl fuel E).
Proof. exact ldl_fits. Qed.
Print Assumptions C96_ldlt.
Example C96_case : solve_ok ldl_env /\ est_ok ldl_env /\ lin_fin ldl_env /\ lin_fin_any ldl_env /\ est_fin ldl_env.
Proof. exact ldl_env_fits. Qed.
