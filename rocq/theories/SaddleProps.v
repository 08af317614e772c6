(** Property C91: strictly convex quadratic programs with affine equality constraints are solved in one step.

    [quadratic], [definite], [not_steep] as in C89. [affine sp A e]: the i-th equality constraint says A_i x + e_i = 0.
    [independent n k Q A s]: w' (A Q^-1 A') w >= s |w|^2, written without the inverse. [not_scaled sp]: no partial
    derivative of a constraint at the start exceeds 100. [clear_start sp]: at the start the constraints hold exactly, or
    their violations sum to more than 1e-4. [best sp m y]: the constraints hold at [y], and wherever else they hold the cost
    is larger by at least m/2 times the squared distance. *)
From Coq Require Import ZArith Reals List Bool Arith.
From Verif Require Import Base ExprModel ExprReal ExprXR VarSpec NumModel ExitModel SolverModel SolverSpec ProblemModel ProblemSpec ProbSolveModel ProbSolveSpec ProbSolveHist
  LagrSpec RunY FiniteUseSpec EarlySpec ConvexSpec QuadSpec QuadEx LdlModel LdlProofs SaddleSpec LdlSaddle SaddleUse SaddleEx.
Import ListNotations.
Local Open Scope R_scope.

(** C91: however SQP ends, the callbacks ran at most once, and either the start was kept or the variables are at the one
    constrained minimiser. The start is kept with SUCCESS where the cost's gradient and the constraints are within the
    tolerance, and otherwise only when it is beyond 1e10 or a callback stops the solve; then the status says so.
    In particular the status is never LOCALLY_INFEASIBLE, FACTORIZATION_FAILED, FEASIBILITY_RESTORATION_FAILED or
    LINE_SEARCH_FAILED. *)
Theorem C91_one_step :
  forall (E : env Xn) (o : options Xn) t sp Q A b e c m, o_tol o = Fin t -> 0 < t ->
  smooth_everywhere sp -> quadratic sp Q b c -> affine sp A e -> definite (size sp) Q m ->
  independent (size sp) (length (sp_eqs sp)) Q A (1 / 10000) -> (length (sp_eqs sp) <= size sp)%nat ->
  not_steep sp m -> not_scaled sp -> clear_start sp -> exact_on_saddle E (size sp) (length (sp_eqs sp)) ->
  forall (U : Type) (all : list (callback Xn U)) st x s y z l, sp_ineqs sp = [] -> ended E o all sp st x s y z l ->
  exists w, x = map Fin w /\ (length l <= length all)%nat /\
    ((st = SUCCESS /\ w = now sp /\ l = [] /\ settled sp t) \/
     (st = DIVERGING_ITERATES /\ w = now sp /\ l = [] /\ exists i, (i < size sp)%nat /\ 10000000000 < Rabs (coord sp (se_val (sp_se sp)) i)) \/
     (st = CALLBACK_REQUESTED_STOP /\ w = now sp /\ all <> []) \/
     (best sp m w /\ (st = SUCCESS \/ (st = MAX_ITERATIONS_EXCEEDED /\ (o_max o <= 1)%Z) \/ st = TIMEOUT))).
Proof. exact (@c91). Qed.
Print Assumptions C91_one_step.

(** C91, solve() with nothing to stop it: SUCCESS, and the variables are at the constrained minimiser (or were within the
    tolerance from the start). *)
Theorem C91_solve :
  forall (E : env Xn) (o : options Xn) t sp Q A b e c m, o_tol o = Fin t -> 0 < t ->
  smooth_everywhere sp -> quadratic sp Q b c -> affine sp A e -> definite (size sp) Q m ->
  independent (size sp) (length (sp_eqs sp)) Q A (1 / 10000) -> (length (sp_eqs sp) <= size sp)%nat ->
  not_steep sp m -> not_scaled sp -> clear_start sp -> exact_on_saddle E (size sp) (length (sp_eqs sp)) ->
  forall (U : Type) fuel p (u : U) clk, lived sp p -> sp_eqs sp <> [] -> sp_ineqs sp = [] -> (2 <= fuel)%nat -> (1 < o_max o)%Z ->
  (forall i, (i < size sp)%nat -> Rabs (coord sp (se_val (sp_se sp)) i) <= 10000000000) ->
  s_ltb Xn (o_timeout o) (s_sub Xn (e_clock E (S clk)) (e_clock E clk)) = false ->
  exists p' y, solve E o fuel [] [] p u clk = Ok (SUCCESS, p') /\ lived (at_point sp y) p' /\ length y = size sp /\ ((y = now sp /\ settled sp t) \/ best sp m y).
Proof. exact (@c91_solve). Qed.
Print Assumptions C91_solve.

(** The hypothesis on the linear solver holds of exact LDL' elimination inside the regularization of C46: the saddle point
    matrix has n positive and k negative pivots, is not perturbed, and the system is solved exactly. *)
Theorem C91_exact_ldlt : forall fuel E n k, exact_on_saddle (with_ldl fuel E) n k.
Proof. exact ldl_saddle. Qed.
Print Assumptions C91_exact_ldlt.

(** minimize(x * x + y * y + x * y) subject to x + y == 1 from (1, 2) ends at (1/2, 1/2). *)
Example C91_case : exists sp p, spec_run rod_ops spec_empty = Some (sp, []) /\ lived sp p /\ smooth_everywhere sp /\ sp_eqs sp = [rod] /\ sp_ineqs sp = [] /\
  quadratic sp bowl_Q (fun _ => 0) 0 /\ affine sp rod_A rod_e /\ definite (size sp) bowl_Q 1 /\ independent (size sp) 1 bowl_Q rod_A (1 / 10000) /\ (1 <= size sp)%nat /\
  not_steep sp 1 /\ not_scaled sp /\ clear_start sp /\ exact_on_saddle ldl_env (size sp) 1 /\
  (forall i, (i < size sp)%nat -> Rabs (coord sp (se_val (sp_se sp)) i) <= 10000000000) /\ now sp = [1; 2] /\
  exists y l, ended (U := unit) ldl_env (opts_y 5) [] sp SUCCESS (map Fin [1 / 2; 1 / 2]) [] y [] l.
Proof. exact rod_run. Qed.
