(** Theorems about an OCP that has been solved: C86.

    [later (handles oc) sp1 sp]: the problem was set up as [sp1], then any further statements that do not assign to the
    OCP's Variables, and any earlier solves. [succeeded E o sp y]: a solve() of it ended in SUCCESS with the decision
    variables at [y] and multipliers that are numbers. [solve_ok], [est_ok]: what is assumed of the linear solver and of
    the multiplier estimate (as in C81). *)
From Coq Require Import ZArith Reals List Bool Arith Lia Lra.
From Verif Require Import Base ExprModel MathSpec VarModel ExprReal ExprXR VarSpec NumModel ExitModel SolverModel SqpModel IpmModel RestoreModel PosX ProblemModel ProblemSpec ProbSolveModel ProbSolveSpec ProbSolveHist
  LagrSpec IpmShape RestoreProofs ProbSolveKkt2 OcpModel OcpSpec OcpEx OcpSolveSpec OcpSolve OcpSolveEx.
Import ListNotations.
Local Open Scope nat_scope.

(** C86, direct transcription: after SUCCESS, every entry of every state after the first is within the tolerance of the
    Runge-Kutta (or user's discrete) update of the state before. Partial: the solver's multipliers must be numbers, and
    the problem smooth where the solve starts and ends. *)
Theorem C86_transcription_partial :
  forall (U : Type) (E : env Xn) (o : options Xn) t, solve_ok E -> est_ok E -> o_tol o = Fin t -> (0 < t)%R ->
  forall sp y, prob_smooth sp (se_val (sp_se sp)) -> prob_smooth sp (point sp y) -> succeeded (U := U) E o sp y ->
  forall ns ni f F, computes ns ni f F -> forall dt N tm ty sp0 g0 oc g1 sp1, sync g0 sp0 ->
  did (ocp_make ns ni dt N f ty tm DIRECT_TRANSCRIPTION) g0 sp0 oc g1 sp1 -> later (handles oc) sp1 sp ->
  exists xs us hs, shows_inputs (sp_se sp) (point sp y) oc us hs /\ shows_states (sp_se sp) (point sp y) oc xs /\ steps_ok tm dt N hs /\
    forall k, k < N -> next_state_upto (within t) ty F (time_at hs k) (xs k) (us k) (hs k) (xs (k + 1)).
Proof. exact (@solved_transcription). Qed.
Print Assumptions C86_transcription_partial.

(** C86, direct collocation: after SUCCESS, with nonzero timesteps, the slope of the interval's cubic at its midpoint is
    within the tolerance of the dynamics there. Partial as above. *)
Theorem C86_collocation_partial :
  forall (U : Type) (E : env Xn) (o : options Xn) t, solve_ok E -> est_ok E -> o_tol o = Fin t -> (0 < t)%R ->
  forall sp y, prob_smooth sp (se_val (sp_se sp)) -> prob_smooth sp (point sp y) -> succeeded (U := U) E o sp y ->
  forall ns ni f F, computes ns ni f F -> forall dt N tm sp0 g0 oc g1 sp1, sync g0 sp0 ->
  did (ocp_make ns ni dt N f EXPLICIT_ODE tm DIRECT_COLLOCATION) g0 sp0 oc g1 sp1 -> later (handles oc) sp1 sp ->
  exists xs us hs, shows_inputs (sp_se sp) (point sp y) oc us hs /\ shows_states (sp_se sp) (point sp y) oc xs /\ steps_ok tm dt N hs /\
    ((forall k, k < N -> hs k <> 0%R) -> forall k, k < N -> hermite_simpson_upto (within t) F (time_at hs k) (xs k) (xs (k + 1)) (us k) (us (k + 1)) (hs k)).
Proof. exact (@solved_collocation). Qed.
Print Assumptions C86_collocation_partial.

(** C86, single shooting: the states are exactly the trajectory simulated from the first column, whatever the point, the
    further statements and the outcome of solves. *)
Theorem C86_single_shooting :
  forall ns ni f F, computes ns ni f F -> forall dt N tm ty sp0 g0 oc g1 sp1 sp, sync g0 sp0 ->
  did (ocp_make ns ni dt N f ty tm SINGLE_SHOOTING) g0 sp0 oc g1 sp1 -> later (handles oc) sp1 sp ->
  forall rho, exists us hs, shows_inputs (sp_se sp) rho oc us hs /\ steps_ok tm dt N hs /\
    forall xs, column (sp_se sp) rho (o_X oc) 0 (xs 0) -> (shows_states (sp_se sp) rho oc xs <-> forall k, k < N -> next_state ty F (time_at hs k) (xs k) (us k) (hs k) (xs (k + 1))).
Proof. exact later_shooting. Qed.
Print Assumptions C86_single_shooting.

(** C86, constrain_initial_state() and constrain_final_state() with numbers [v]: after SUCCESS the first (last) state is
    within the tolerance of [v]. [a]: the problem when it is called, [b]: just after. Partial as above. *)
Theorem C86_initial_state_partial :
  forall (U : Type) (E : env Xn) (o : options Xn) t, solve_ok E -> est_ok E -> o_tol o = Fin t -> (0 < t)%R ->
  forall sp y, prob_smooth sp (se_val (sp_se sp)) -> prob_smooth sp (point sp y) -> succeeded (U := U) E o sp y ->
  forall ns ni N oc a ga b gb (v : list R), sync ga a -> matrices a oc ns ni N -> length v = ns ->
  did (constrain_initial_state oc (ONums (S := R_ops) ns 1 v)) ga a tt gb b -> later (handles oc) b sp ->
  forall xs, shows_states (sp_se sp) (point sp y) oc xs -> Forall2 (within t) (xs 0) v.
Proof. exact (@solved_initial). Qed.
Print Assumptions C86_initial_state_partial.

Theorem C86_final_state_partial :
  forall (U : Type) (E : env Xn) (o : options Xn) t, solve_ok E -> est_ok E -> o_tol o = Fin t -> (0 < t)%R ->
  forall sp y, prob_smooth sp (se_val (sp_se sp)) -> prob_smooth sp (point sp y) -> succeeded (U := U) E o sp y ->
  forall ns ni N oc a ga b gb (v : list R), sync ga a -> matrices a oc ns ni N -> length v = ns ->
  did (constrain_final_state oc (ONums (S := R_ops) ns 1 v)) ga a tt gb b -> later (handles oc) b sp ->
  forall xs, shows_states (sp_se sp) (point sp y) oc xs -> Forall2 (within t) (xs N) v.
Proof. exact (@solved_final). Qed.
Print Assumptions C86_final_state_partial.

(** C86, set_lower_input_bound() and set_upper_input_bound() with numbers: after SUCCESS no input passes its bound by more
    than the tolerance. Partial as above. *)
Theorem C86_input_bounds_partial :
  forall (U : Type) (E : env Xn) (o : options Xn) t, solve_ok E -> est_ok E -> o_tol o = Fin t -> (0 < t)%R ->
  forall sp y, prob_smooth sp (se_val (sp_se sp)) -> prob_smooth sp (point sp y) -> succeeded (U := U) E o sp y ->
  forall ns ni N (lower : bool) oc a ga b gb (v : list R), sync ga a -> matrices a oc ns ni N -> length v = ni ->
  did ((if lower then set_lower_input_bound else set_upper_input_bound) oc (ONums (S := R_ops) ni 1 v)) ga a tt gb b -> later (handles oc) b sp ->
  forall us hs, shows_inputs (sp_se sp) (point sp y) oc us hs -> forall k, k <= N -> Forall2 (fun x w => if lower then x >= w - t else x <= w + t)%R (us k) v.
Proof. exact (@solved_input_bound). Qed.
Print Assumptions C86_input_bounds_partial.

(** C86, set_min_timestep() and set_max_timestep(). Partial as above. *)
Theorem C86_timesteps_partial :
  forall (U : Type) (E : env Xn) (o : options Xn) t, solve_ok E -> est_ok E -> o_tol o = Fin t -> (0 < t)%R ->
  forall sp y, prob_smooth sp (se_val (sp_se sp)) -> prob_smooth sp (point sp y) -> succeeded (U := U) E o sp y ->
  forall ns ni N (lower : bool) oc a ga b gb (h : R), sync ga a -> matrices a oc ns ni N ->
  did ((if lower then set_min_timestep else set_max_timestep) oc h) ga a tt gb b -> later (handles oc) b sp ->
  forall us hs, shows_inputs (sp_se sp) (point sp y) oc us hs -> forall k, k <= N -> (if lower then hs k >= h - t else hs k <= h + t)%R.
Proof. exact (@solved_timestep). Qed.
Print Assumptions C86_timesteps_partial.

(** Two steps of x + u/2, guessed as 0, 1, 3 under inputs 2, 4: solve() ends in SUCCESS at these states. *)
Example C86_case : exists sp1 sp y, did (ocp_make 1 1 (1 / 2)%R 2 integrator DISCRETE FIXED DIRECT_TRANSCRIPTION) (mkGen 0 0 []) spec_empty ride (mkGen 16 2 ride_code) sp1 /\
  later (handles ride) sp1 sp /\ prob_smooth sp (se_val (sp_se sp)) /\ prob_smooth sp (point sp y) /\
  (forall (U : Type) (u : U) (E : env Xn) (o : options Xn) t, o_tol o = Fin t -> (0 < t)%R -> succeeded (U := U) E o sp y) /\
  shows_states (sp_se sp) (point sp y) ride (fun k => nth k [[0%R]; [1%R]; [3%R]] []).
Proof. exact ride_case. Qed.
