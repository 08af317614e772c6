(** Property C89: strictly convex quadratics are minimised in one step.

    [quadratic sp Q b c]: what is minimised is 1/2 x' Q x + b' x + c. [definite n Q m]: v' Q v >= m |v|^2.
    [not_steep sp m]: m is at least 1e-4, and no partial derivative of the cost at the start exceeds 1e6 m (steeper costs
    are scaled down before they are solved, and then regularized). *)
From Coq Require Import ZArith Reals List Bool Arith.
From Verif Require Import Base ExprModel ExprReal ExprXR VarSpec NumModel ExitModel SolverModel SolverSpec ProblemModel ProblemSpec ProbSolveModel ProbSolveSpec ProbSolveHist
  LagrSpec RunY FiniteUseSpec EarlySpec ConvexSpec QuadSpec QuadUse LdlModel LdlProofs QuadEx.
Import ListNotations.
Local Open Scope R_scope.

(** C89: however Newton's method ends, the callbacks ran at most once, and either the start was kept or the variables are
    at the one minimiser. The start is kept with SUCCESS where the gradient is within the tolerance, and otherwise only
    when it is beyond 1e10 or a callback stops the solve; then the status says so. *)
Theorem C89_one_step :
  forall (U : Type) (E : env Xn) (o : options Xn) t sp Q b c m, o_tol o = Fin t -> 0 < t ->
  smooth_everywhere sp -> quadratic sp Q b c -> definite (size sp) Q m -> not_steep sp m -> exact_on_definite E (size sp) ->
  forall (all : list (callback Xn U)) st x l, ended_newton E o all sp st x l -> exists y, x = map Fin y /\ (length l <= length all)%nat /\
    ((st = SUCCESS /\ y = now sp /\ l = [] /\ settled sp t) \/
     (st = DIVERGING_ITERATES /\ y = now sp /\ l = [] /\ exists i, (i < size sp)%nat /\ 10000000000 < Rabs (coord sp (se_val (sp_se sp)) i)) \/
     (st = CALLBACK_REQUESTED_STOP /\ y = now sp /\ all <> []) \/
     (minimiser sp m y /\ (st = SUCCESS \/ (st = MAX_ITERATIONS_EXCEEDED /\ (o_max o <= 1)%Z) \/ st = TIMEOUT))).
Proof. exact (@c89). Qed.
Print Assumptions C89_one_step.

(** C89, solve() with nothing to stop it: SUCCESS, and the variables are at the minimiser (or were within the tolerance
    from the start). *)
Theorem C89_solve :
  forall (U : Type) (E : env Xn) (o : options Xn) t sp Q b c m, o_tol o = Fin t -> 0 < t ->
  smooth_everywhere sp -> quadratic sp Q b c -> definite (size sp) Q m -> not_steep sp m -> exact_on_definite E (size sp) ->
  forall fuel p (u : U) clk, lived sp p -> sp_eqs sp = [] -> sp_ineqs sp = [] -> (2 <= fuel)%nat -> (1 < o_max o)%Z ->
  (forall i, (i < size sp)%nat -> Rabs (coord sp (se_val (sp_se sp)) i) <= 10000000000) ->
  s_ltb Xn (o_timeout o) (s_sub Xn (e_clock E (S clk)) (e_clock E clk)) = false ->
  exists p' y, solve E o fuel [] [] p u clk = Ok (SUCCESS, p') /\ lived (at_point sp y) p' /\ length y = size sp /\ ((y = now sp /\ settled sp t) \/ minimiser sp m y).
Proof. exact (@c89_solve). Qed.
Print Assumptions C89_solve.

(** The hypothesis on the linear solver holds of exact LDL' elimination inside the regularization of C46: a definite
    matrix is not perturbed, and the system is solved exactly. *)
Theorem C89_exact_ldlt : forall fuel E n, exact_on_definite (with_ldl fuel E) n.
Proof. exact ldl_definite. Qed.
Print Assumptions C89_exact_ldlt.

(** minimize(x * x + y * y + x * y) from (1, 2) ends at (0, 0). *)
Example C89_case : exists sp p, spec_run bowl_ops spec_empty = Some (sp, []) /\ lived sp p /\ smooth_everywhere sp /\ sp_eqs sp = [] /\ sp_ineqs sp = [] /\
  quadratic sp bowl_Q (fun _ => 0) 0 /\ definite (size sp) bowl_Q 1 /\ not_steep sp 1 /\ exact_on_definite ldl_env (size sp) /\
  (forall i, (i < size sp)%nat -> Rabs (coord sp (se_val (sp_se sp)) i) <= 10000000000) /\ now sp = [1; 2] /\
  exists l, ended_newton (U := unit) ldl_env (opts_y 5) [] sp SUCCESS (map Fin [0; 0]) l.
Proof. exact bowl_run. Qed.
