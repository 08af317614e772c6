(** Property C83: GLOBALLY_INFEASIBLE, and problems with linear inequalities. *)
From Coq Require Import ZArith Reals List Bool.
From Verif Require Import Base ExprModel MathSpec VarModel VarSpec ExprReal ExprXR NumModel ExitModel SolverModel IpmShape RestoreModel RestoreProofs PosX ProblemModel ProblemSpec ProbSolveModel ProbSolveSpec
  ProbSolveHist LagrSpec ProbBounds ProbBoundsEx.
Import ListNotations.
Local Open Scope nat_scope.

(** C83: if solve() answers GLOBALLY_INFEASIBLE then no values of the decision variables at which the user's inequality
    constraints are defined satisfy them all; the constraints have to be smooth where the variables are now. *)
Theorem C83_infeasible :
  forall (U : Type) (E : env Xn) (o : options Xn), solve_ok E -> est_ok E ->
  forall fuel (cbs pcbs : list (callback Xn U)) sp p u clk p',
    lived sp p -> all_smooth (se_val (sp_se sp)) (sp_ineqs sp) -> solve E o fuel cbs pcbs p u clk = Ok (GLOBALLY_INFEASIBLE, p') ->
    forall y, length y = length (sp_dec sp) -> ~ (all_defined (point sp y) (sp_ineqs sp) /\ List.Forall (rel_holds (point sp y)) (sp_ineqs sp)).
Proof. exact @solve_infeasible. Qed.
Print Assumptions C83_infeasible.

(** Setting the problem up succeeds and solve() returns whenever every inequality constraint of type LINEAR changes with
    some decision variable; for ones that do not, C38_cancelling_refuted and C38_foreign_variable_refuted show the failure. *)
Theorem C83_setup :
  forall sp p, lived sp p -> all_smooth (se_val (sp_se sp)) (sp_ineqs sp) ->
    (forall k i r, nth_error (p_ineq p) k = Some i -> nth_error (sp_ineqs sp) k = Some r -> slot_type p i = Ok LINEAR -> depends sp r) ->
    exists rn x0 p1, prepare p = Ok (rn, x0, p1).
Proof. exact prepare_linear. Qed.
Print Assumptions C83_setup.

Theorem C83_returns :
  forall (U : Type) (E : env Xn) (o : options Xn), solve_ok E -> est_ok E -> pos (o_tol o) ->
  forall (cbs pcbs : list (callback Xn U)) sp p u clk,
    lived sp p -> all_smooth (se_val (sp_se sp)) (sp_ineqs sp) ->
    (forall k i r, nth_error (p_ineq p) k = Some i -> nth_error (sp_ineqs sp) k = Some r -> slot_type p i = Ok LINEAR -> depends sp r) ->
    exists N st p', forall n, N <= n -> solve E o n cbs pcbs p u clk = Ok (st, p').
Proof. exact @solve_returns_linear. Qed.
Print Assumptions C83_returns.

(** With one decision variable, two LINEAR inequalities that change with it and exclude each other are noticed. *)
Theorem C83_one_variable :
  forall sp p k0 rn x p1, lived sp p -> all_smooth (se_val (sp_se sp)) (sp_ineqs sp) -> sp_dec sp = [k0] -> with_bounds rn -> prepare p = Ok (rn, x, p1) ->
  forall a b i j r r', nth_error (p_ineq p) a = Some i -> nth_error (p_ineq p) b = Some j -> nth_error (sp_ineqs sp) a = Some r -> nth_error (sp_ineqs sp) b = Some r' ->
  slot_type p i = Ok LINEAR -> slot_type p j = Ok LINEAR -> depends sp r -> depends sp r' ->
  (forall y, length y = 1 -> rel_defined (point sp y) r /\ rel_defined (point sp y) r' /\ ~ (rel_holds (point sp y) r /\ rel_holds (point sp y) r')) -> rn = RanBounds.
Proof. exact one_variable. Qed.
Print Assumptions C83_one_variable.

(** x >= a and x <= b with the values of the outside variables a and b being c and 0: set up for every c, and
    found infeasible for c > 0. *)
Example C83_case : forall c, exists sp p, spec_run (box_ops c) spec_empty = Some (sp, []) /\ lived sp p /\ all_smooth (se_val (sp_se sp)) (sp_ineqs sp) /\
  (forall i, In i (p_ineq p) -> slot_type p i = Ok LINEAR) /\ List.Forall (depends sp) (sp_ineqs sp) /\
  exists rn x0 p1, prepare p = Ok (rn, x0, p1) /\ ((0 < c)%R -> rn = RanBounds).
Proof. exact box_case. Qed.
