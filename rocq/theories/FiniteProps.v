(** Property C87: solve() works with numbers.

    [smooth_everywhere sp]: wherever the decision variables are put, the cost and the constraints are twice differentiable.
    [solve_ok], [lin_fin]: the linear solver returns vectors of the right length, of numbers once a system of numbers has
    been factored; [est_ok], [est_fin]: the same of the multiplier estimate. [ended E o all sp st x s y z l]: a solve() of
    [sp], after any history, ended in status [st] with decision variables [x], slacks [s], multipliers [y] and [z], having
    called callbacks as in [l]. *)
From Coq Require Import ZArith Reals List Bool Arith.
From Verif Require Import Base ExprModel MathSpec VarModel ExprReal ExprXR VarSpec NumModel ExitModel SolverModel SolverSpec SqpModel IpmModel RestoreModel PosX XArith ProblemModel ProblemSpec ProbSolveModel ProbSolveSpec ProbSolveHist
  LagrSpec IpmShape RestoreProofs ProbSolveEx ProbSolveKktEx ProbSolveRun RunY OcpModel OcpSpec OcpEx OcpSolveSpec OcpSolve OcpSolveEx FiniteSpec FiniteUseSpec FiniteUse FiniteEx.
Import ListNotations.
Local Open Scope nat_scope.

(** C87, SQP and interior point: whatever status a solve() ends in, the point and the multipliers are numbers, the slacks
    and the multipliers of the inequalities positive; so is everything any callback was shown, during feasibility
    restoration too. No hypothesis on the callbacks, the clock, or whether the linear solver solves anything. *)
Theorem C87_numbers :
  forall (U : Type) (E : env Xn) (o : options Xn) t, solve_ok E -> o_tol o = Fin t -> (0 < t)%R ->
  forall sp, smooth_everywhere sp -> est_ok E -> lin_fin E -> est_fin E ->
  forall (all : list (callback Xn U)) st x s y z l, ended E o all sp st x s y z l ->
    good x s y z /\ List.Forall (fun c => shownf (snd (fst c))) l.
Proof. exact (@c87_numbers). Qed.
Print Assumptions C87_numbers.

(** C87, Newton's method, which solves with the factorization whether or not it succeeded. *)
Theorem C87_numbers_newton :
  forall (U : Type) (E : env Xn) (o : options Xn), solve_ok E ->
  forall sp, smooth_everywhere sp ->
  forall (all : list (callback Xn U)) st x l, lin_fin_any E -> ended_newton E o all sp st x l ->
    vfin x /\ List.Forall (fun c => shownf (snd (fst c))) l.
Proof. exact (@c87_newton). Qed.
Print Assumptions C87_numbers_newton.

(** C87, at the API: after solve() returns, with whatever status, value() of every decision variable is a number, and the
    program has become one whose decision variables hold these numbers. *)
Theorem C87_solve :
  forall (U : Type) (E : env Xn) (o : options Xn) t, solve_ok E -> o_tol o = Fin t -> (0 < t)%R ->
  forall sp, smooth_everywhere sp -> est_ok E -> lin_fin E -> est_fin E ->
  forall (cbs pcbs : list (callback Xn U)) fuel p u clk st p', (sp_eqs sp = [] -> sp_ineqs sp = [] -> lin_fin_any E) ->
  lived sp p -> solve E o fuel cbs pcbs p u clk = Ok (st, p') ->
  exists y, length y = length (sp_dec sp) /\ lived (at_point sp y) p' /\
    forall i j k, nth_error (se_exp (sp_se sp)) i = Some (XVar k) -> nth_error (sp_dec sp) j = Some k ->
      exists v p2, nth_error y j = Some v /\ prun [PH (S := X_ops) (HValue i)] p' = Ok (p2, [PVal (S := X_ops) (Fin v)]).
Proof. exact (@c87_solve). Qed.
Print Assumptions C87_solve.

(** ... and it can be solved again: smoothness everywhere does not depend on where the last solve() left off. *)
Theorem C87_again : forall sp y, smooth_everywhere sp -> length y = length (sp_dec sp) -> smooth_everywhere (at_point sp y).
Proof. exact c87_again. Qed.
Print Assumptions C87_again.

(** C87, SUCCESS: the decision variables are numbers, every constraint holds within the tolerance, and there are
    multipliers, positive for the inequalities, making the Lagrangian stationary and complementary within the tolerance
    (C81 without its hypotheses on what the solver ended with, and in feasibility mode too). *)
Theorem C87_kkt :
  forall (U : Type) (E : env Xn) (o : options Xn) t, solve_ok E -> o_tol o = Fin t -> (0 < t)%R ->
  forall sp, smooth_everywhere sp -> est_ok E -> lin_fin E -> est_fin E ->
  forall (all : list (callback Xn U)) x s m z l, ended E o all sp SUCCESS x s m z l ->
  exists y, x = map Fin y /\ List.Forall (nearly t (point sp y)) (sp_eqs sp ++ sp_ineqs sp) /\
    exists lam nu sl, nearly_stationary sp t (point sp y) lam nu /\ nearly_complementary sp t (point sp y) nu sl /\ forall v, In v nu -> (0 < v)%R.
Proof. exact (@c87_kkt). Qed.
Print Assumptions C87_kkt.

(** C87, OCPs: C86 without its hypotheses on what the solver ended with. *)
Theorem C87_transcription :
  forall (U : Type) (E : env Xn) (o : options Xn) t, solve_ok E -> o_tol o = Fin t -> (0 < t)%R ->
  forall sp, smooth_everywhere sp -> est_ok E -> lin_fin E -> est_fin E ->
  forall ns ni f F, computes ns ni f F -> forall dt N tm (all : list (callback Xn U)) x s m z l ty sp0 g0 oc g1 sp1, ended E o all sp SUCCESS x s m z l -> sync g0 sp0 ->
  did (ocp_make ns ni dt N f ty tm DIRECT_TRANSCRIPTION) g0 sp0 oc g1 sp1 -> later (handles oc) sp1 sp ->
  exists y, x = map Fin y /\ exists xs us hs, shows_inputs (sp_se sp) (point sp y) oc us hs /\ shows_states (sp_se sp) (point sp y) oc xs /\ steps_ok tm dt N hs /\
    forall k, k < N -> next_state_upto (within t) ty F (time_at hs k) (xs k) (us k) (hs k) (xs (k + 1)).
Proof. exact (@c87_transcription). Qed.
Print Assumptions C87_transcription.

Theorem C87_collocation :
  forall (U : Type) (E : env Xn) (o : options Xn) t, solve_ok E -> o_tol o = Fin t -> (0 < t)%R ->
  forall sp, smooth_everywhere sp -> est_ok E -> lin_fin E -> est_fin E ->
  forall ns ni f F, computes ns ni f F -> forall dt N tm (all : list (callback Xn U)) x s m z l sp0 g0 oc g1 sp1, ended E o all sp SUCCESS x s m z l -> sync g0 sp0 ->
  did (ocp_make ns ni dt N f EXPLICIT_ODE tm DIRECT_COLLOCATION) g0 sp0 oc g1 sp1 -> later (handles oc) sp1 sp ->
  exists y, x = map Fin y /\ exists xs us hs, shows_inputs (sp_se sp) (point sp y) oc us hs /\ shows_states (sp_se sp) (point sp y) oc xs /\ steps_ok tm dt N hs /\
    ((forall k, k < N -> hs k <> 0%R) -> forall k, k < N -> hermite_simpson_upto (within t) F (time_at hs k) (xs k) (xs (k + 1)) (us k) (us (k + 1)) (hs k)).
Proof. exact (@c87_collocation). Qed.
Print Assumptions C87_collocation.

Theorem C87_initial_state :
  forall (U : Type) (E : env Xn) (o : options Xn) t, solve_ok E -> o_tol o = Fin t -> (0 < t)%R ->
  forall sp, smooth_everywhere sp -> est_ok E -> lin_fin E -> est_fin E ->
  forall ns ni N (all : list (callback Xn U)) x s m z l oc a ga b gb (v : list R), ended E o all sp SUCCESS x s m z l -> sync ga a -> matrices a oc ns ni N -> length v = ns ->
  did (constrain_initial_state oc (ONums (S := R_ops) ns 1 v)) ga a tt gb b -> later (handles oc) b sp ->
  exists y, x = map Fin y /\ forall xs, shows_states (sp_se sp) (point sp y) oc xs -> Forall2 (within t) (xs 0) v.
Proof. exact (@c87_initial). Qed.
Print Assumptions C87_initial_state.

Theorem C87_final_state :
  forall (U : Type) (E : env Xn) (o : options Xn) t, solve_ok E -> o_tol o = Fin t -> (0 < t)%R ->
  forall sp, smooth_everywhere sp -> est_ok E -> lin_fin E -> est_fin E ->
  forall ns ni N (all : list (callback Xn U)) x s m z l oc a ga b gb (v : list R), ended E o all sp SUCCESS x s m z l -> sync ga a -> matrices a oc ns ni N -> length v = ns ->
  did (constrain_final_state oc (ONums (S := R_ops) ns 1 v)) ga a tt gb b -> later (handles oc) b sp ->
  exists y, x = map Fin y /\ forall xs, shows_states (sp_se sp) (point sp y) oc xs -> Forall2 (within t) (xs N) v.
Proof. exact (@c87_final). Qed.
Print Assumptions C87_final_state.

Theorem C87_input_bounds :
  forall (U : Type) (E : env Xn) (o : options Xn) t, solve_ok E -> o_tol o = Fin t -> (0 < t)%R ->
  forall sp, smooth_everywhere sp -> est_ok E -> lin_fin E -> est_fin E ->
  forall ns ni N (all : list (callback Xn U)) x s m z l (lower : bool) oc a ga b gb (v : list R), ended E o all sp SUCCESS x s m z l -> sync ga a -> matrices a oc ns ni N -> length v = ni ->
  did ((if lower then set_lower_input_bound else set_upper_input_bound) oc (ONums (S := R_ops) ni 1 v)) ga a tt gb b -> later (handles oc) b sp ->
  exists y, x = map Fin y /\ forall us hs, shows_inputs (sp_se sp) (point sp y) oc us hs -> forall k, k <= N -> Forall2 (fun x w => if lower then x >= w - t else x <= w + t)%R (us k) v.
Proof. exact (@c87_input_bound). Qed.
Print Assumptions C87_input_bounds.

Theorem C87_timesteps :
  forall (U : Type) (E : env Xn) (o : options Xn) t, solve_ok E -> o_tol o = Fin t -> (0 < t)%R ->
  forall sp, smooth_everywhere sp -> est_ok E -> lin_fin E -> est_fin E ->
  forall ns ni N (all : list (callback Xn U)) x s m z l (lower : bool) oc a ga b gb (h : R), ended E o all sp SUCCESS x s m z l -> sync ga a -> matrices a oc ns ni N ->
  did ((if lower then set_min_timestep else set_max_timestep) oc h) ga a tt gb b -> later (handles oc) b sp ->
  exists y, x = map Fin y /\ forall us hs, shows_inputs (sp_se sp) (point sp y) oc us hs -> forall k, k <= N -> (if lower then hs k >= h - t else hs k <= h + t)%R.
Proof. exact (@c87_timestep). Qed.
Print Assumptions C87_timesteps.

(** A linear solver and an estimate as assumed; runs of interior point, Newton and (with SUCCESS, on the OCP of C86) SQP. *)
Example C87_env_case : solve_ok down_env /\ est_ok down_env /\ lin_fin down_env /\ lin_fin_any down_env /\ est_fin down_env.
Proof. exact (conj (proj1 ProbTotalEx.env_total) (conj (proj1 (proj2 ProbTotalEx.env_total)) down_fin)). Qed.
Example C87_ipm_case : forall all : list (callback Xn unit), exists sp st x s y z l, spec_run disc_ops spec_empty = Some (sp, []) /\ smooth_everywhere sp /\ sp_ineqs sp <> [] /\ ended down_env (opts_y 5) all sp st x s y z l.
Proof. exact disc_ends. Qed.
Example C87_newton_case : forall all : list (callback Xn unit), exists sp st x l, spec_run square_ops spec_empty = Some (sp, []) /\ smooth_everywhere sp /\ ended_newton down_env (opts_y 5) all sp st x l.
Proof. exact square_ends. Qed.
Example C87_success_case : exists sp1 sp, did (ocp_make 1 1 (1 / 2)%R 2 integrator DISCRETE FIXED DIRECT_TRANSCRIPTION) (mkGen 0 0 []) spec_empty ride (mkGen 16 2 ride_code) sp1 /\
  later (handles ride) sp1 sp /\ smooth_everywhere sp /\
  exists x y l, ended (U := unit) down_env (opts_y 5) [] sp SUCCESS x [] y [] l.
Proof. exact ride_ends. Qed.
