(** Properties C52, C53, C54 and the parts of C34, C36, C55, C56 about the interior-point method (interior_point.hpp). *)
From Coq Require Import ZArith QArith Reals List Bool.
From Verif Require Import Base ExprModel ExprReal ExprXR NumModel UtilModel LinR KktModel KktSpec FilterModel ExitModel SolverModel SolverSpec
  SqpModel IpmModel IpmShape IpmSpec IpmProofs RestoreModel RestoreProofs CallbackSpec CallbackProofs PosX PosProofs TermProofs
  SystemSpec SystemProofs BarrierSpec BarrierProofs ShownProofs FinEval OutcomeProofs XQ RunX RunY ExampleProofs.
Import ListNotations.

(** C56 and the status meanings: whatever the problem functions, the clock, the callbacks and the linear solver do, a
    solve that returns performed at most max(1, max_iterations) iterations, each a move [ipm_move] allows, and its
    status means what [ipm_means] says; in particular MAX_ITERATIONS_EXCEEDED and TIMEOUT are reported only when the
    limit respectively the timeout was hit (any scalars). *)
Theorem C56_ipm_partial :
  forall (S : nops) (E : env S) (o : options S) (U : Type) fuel (P : iprob S) (cbs : list (callback S U)) (x : list S) (u : U) clk0 st (fin : istate E (U := U)),
    iprob_ok P -> solve_ok E -> est_ok E -> length x = ip_n P ->
    ipm_solve E o fuel P cbs x u clk0 = Ok (st, fin) ->
    let rst := Some (ipm_restore (U := U) E o fuel P) in
    ipm_means E P o (resto rst) 0 clk0 st fin /\
    (0 <= is_it E fin <= Z.max 1 (o_max o))%Z /\
    exists k p, path (ipm_move E P o (restored rst)) k
        (mkPt x (repeat (s_ofZ S 1) (ip_mi P)) (repeat (s_ofZ S 0) (ip_me P)) (repeat (s_ofZ S 1) (ip_mi P))) p /\
      (Z.of_nat k <= is_it E fin)%Z /\
      (point_of E fin = p \/ st = LOCALLY_INFEASIBLE \/ st = FEASIBILITY_RESTORATION_FAILED).
Proof. exact @ipm_solve_meaning. Qed.
Print Assumptions C56_ipm_partial.
Example C56_ipm_example :
  forall fuel, (2 <= fuel)%nat -> exists st,
    ipm_solve id_env (opts_y 5) fuel in_prob (log_all [fun _ (u : unit) => (u, false)]) [xq 1] (tt, []) 0 = Ok (SUCCESS, st) /\
    is_x _ st = [xq (11 # 10)] /\ is_s _ st = [xq (11 # 10)] /\ is_z _ st = [xq (1 # 100)] /\ is_it _ st = 1%Z /\
    map (fun c => (i_iter (snd (fst c)), i_s (snd (fst c)), i_z (snd (fst c)))) (snd (is_u _ st)) = [(0%Z, [xq 1], [xq 1])].
Proof. exact ipm_run. Qed.

(** C55: the line search ends after at most 25 trial points, from any step size in [0, 1]. *)
Theorem C55_ipm :
  forall (E : env Xn) (P : iprob Xn) (o : options Xn) (c : ictx E) d dphi az (b : R) flt cnt, (0 <= b <= 1)%R ->
    exists r, forall n, (25 <= n)%nat -> ipm_search E P o n c d dphi (Fin b : Xn) az (Fin b : Xn) flt cnt = Ok r.
Proof. exact @isearch_stops. Qed.
Print Assumptions C55_ipm.

(** The whole solve returns: with enough fuel the result no longer depends on the fuel. *)
Theorem C55_ipm_solve :
  forall (E : env Xn) (o : options Xn) (U : Type), solve_ok E -> est_ok E -> pos (o_tol o) ->
    forall (P : iprob Xn) (cbs : list (callback Xn U)) (x : list Xn) (u : U) clk0, iprob_ok P -> pos (sc_f (ip_sc P)) -> length x = ip_n P ->
    settles (fun n => ipm_solve E o n P cbs x u clk0).
Proof. exact @ipm_solve_settles. Qed.
Print Assumptions C55_ipm_solve.

(** C52: every slack shown to a callback is strictly positive, inside restoration too. *)
Theorem C52_slacks :
  forall (E : env Xn) (o : options Xn) (U : Type) fuel (P : iprob Xn) (cbs : list (callback Xn U)) (x : list Xn) (u : U) clk0 st fin,
    solve_ok E -> est_ok E -> pos (o_tol o) -> iprob_ok P -> pos (sc_f (ip_sc P)) -> length x = ip_n P ->
    ipm_solve E o fuel P (log_all cbs) x (u, []) clk0 = Ok (st, fin) ->
    shown_all (S := Xn) (fun i => Forall pos (i_s i)) (snd (is_u E fin)).
Proof. exact @c52_slacks. Qed.
Print Assumptions C52_slacks.

(** C52: so is every inequality multiplier, provided multiplier estimates are never NaN and, if the solve may switch to
    the feasible mode, that the inequality constraints and their Jacobian are finite at finite points. *)
Theorem C52_multipliers_partial :
  forall (E : env Xn) (o : options Xn) (U : Type) fuel (P : iprob Xn) (cbs : list (callback Xn U)) (x : list Xn) (u : U) clk0 st fin,
    solve_ok E -> est_ok E -> est_num E -> pos (o_tol o) -> iprob_ok P -> pos (sc_f (ip_sc P)) -> length x = ip_n P ->
    o_feasible o = false \/ ineq_fin P ->
    ipm_solve E o fuel P (log_all cbs) x (u, []) clk0 = Ok (st, fin) ->
    shown_all (S := Xn) (fun i => Forall pos (i_s i) /\ Forall pos (i_z i)) (snd (is_u E fin)).
Proof. exact @c52_multipliers. Qed.
Print Assumptions C52_multipliers_partial.

(** C53: one update of the barrier parameter; [k] is the floor. *)
Theorem C53_update :
  forall k m t m' t' : R, (0 < k)%R -> (0 < m)%R -> barrier_update k m t m' t' ->
    (Rmin k m <= m' <= m)%R /\ ((m' < m)%R \/ m' = m /\ t' = t) /\ ((m <= k)%R -> m' = m) /\
    ((99 / 100 <= t < 1)%R -> (99 / 100 <= t' < 1)%R).
Proof. exact c53_update. Qed.
Print Assumptions C53_update.
Example C53_update_example : barrier_update (1 / 10) 1 (99 / 100) (1 / 5) (99 / 100).
Proof. exact barrier_case. Qed.

(** Finitely many updates reach the floor. *)
Theorem C53_reaches_floor :
  forall k m : R, (0 < k <= m)%R -> exists J, forall j, (J <= j)%nat -> barrier_after k j m = k.
Proof. exact c53_reaches_floor. Qed.
Print Assumptions C53_reaches_floor.

(** Each iteration performs some number of updates. *)
Theorem C53_iteration :
  forall (E : env Xn) (P : iprob Xn) (o : options Xn) (f t : R), sc_f (ip_sc P) = Fin f -> (0 < f)%R -> o_tol o = Fin t -> (0 < t)%R ->
    forall (U : Type) (cbs : list (callback Xn U)) restore fuel (start : Xn) (st : istate E (U := U)) r (m tau : R),
    is_mu E st = Fin m -> (0 < m)%R -> is_tau E st = Fin tau ->
    ipm_body E P o cbs restore fuel start st = Ok r ->
    exists m' t', is_mu E (state_of r) = Fin m' /\ is_tau E (state_of r) = Fin t' /\ barrier_update (f * t / 10) m tau m' t'.
Proof. exact @c53_body. Qed.
Print Assumptions C53_iteration.

(** At the start of every iteration of a solve with tolerance t <= 1 and cost scale f, the parameter lies between the
    floor f t / 10 and the initial value f / 10, and tau in [0.99, 1). *)
Theorem C53_solve :
  forall (U : Type) (E : env Xn) (P : iprob Xn) (o : options Xn) (cbs : list (callback Xn U)) fuel (x : list Xn) (u : U) clk0 (f t : R) st,
    sc_f (ip_sc P) = Fin f -> (0 < f)%R -> o_tol o = Fin t -> (0 < t <= 1)%R ->
    ipm_visits E P o cbs fuel x u clk0 st ->
    exists m tau, is_mu E st = Fin m /\ is_tau E st = Fin tau /\ (f * t / 10 <= m <= f / 10)%R /\ (99 / 100 <= tau < 1)%R /\
      barrier_update (f * t / 10) (f / 10) (99 / 100) m tau.
Proof. exact @c53_solve. Qed.
Print Assumptions C53_solve.
Example C53_solve_example :
  forall fuel, (2 <= fuel)%nat -> exists st, ipm_visits id_env in_prob (opts_y 5) (log_all [fun _ (u : unit) => (u, false)]) fuel [xq 1] (tt, []) 0 st /\ is_it _ st = 1%Z.
Proof. exact visits_case. Qed.

(** C54: if the linear solver solves the regularized reduced system, the step solves the primal-dual Newton system with
    the same regularization, for data of any size with nonzero slacks. *)
Theorem C54_step :
  forall (E : env Rn) (P : iprob Rn) (delta gamma : R) (H : list (list R)) (c : ictx E),
    c_ok E P c -> mat_dims (S := Rn) (ip_n P) (ip_n P) H = true -> solve_ok E ->
    (forall r, (r < ip_mi P)%nat -> nth r (ix_s E c) 0%R <> 0%R) ->
    let rhs := ipm_rhs E P c in
    let cis := vsub (S := Rn) (ix_ci E c) (ix_s E c) in
    solves (ip_n P) (ip_me P) delta gamma (k_tl (ipm_lhs E P H c)) (k_bl (ipm_lhs E P H c)) (ls_solve (e_lin E) (ix_ls E c) rhs) rhs ->
    let d := ipm_step E c rhs cis in
    newton_kkt (ip_n P) (ip_me P) (ip_mi P) delta gamma H (ix_Ae E c) (ix_Ai E c) (ix_g E c) (ix_ce E c) cis (ix_s E c) (ix_y E c) (ix_z E c) (ix_mu E c)
      (p_x d) (p_s d) (p_y d) (p_z d).
Proof. exact @c54. Qed.
Print Assumptions C54_step.

(** The same for the second-order corrections, with their residuals in place of the constraint values. *)
Theorem C54_correction :
  forall (E : env Rn) (P : iprob Rn) (delta gamma : R) (H : list (list R)) (c : ictx E) (ce cis : list R),
    c_ok E P c -> mat_dims (S := Rn) (ip_n P) (ip_n P) H = true -> solve_ok E ->
    (forall r, (r < ip_mi P)%nat -> nth r (ix_s E c) 0%R <> 0%R) -> length ce = ip_me P -> length cis = ip_mi P ->
    let rhs := ipm_rhs_soc E P c ce cis in
    solves (ip_n P) (ip_me P) delta gamma (k_tl (ipm_lhs E P H c)) (k_bl (ipm_lhs E P H c)) (ls_solve (e_lin E) (ix_ls E c) rhs) rhs ->
    let d := ipm_step E c rhs cis in
    newton_kkt (ip_n P) (ip_me P) (ip_mi P) delta gamma H (ix_Ae E c) (ix_Ai E c) (ix_g E c) ce cis (ix_s E c) (ix_y E c) (ix_z E c) (ix_mu E c)
      (p_x d) (p_s d) (p_y d) (p_z d).
Proof. exact @c54_soc. Qed.
Print Assumptions C54_correction.
Example C54_example :
  let rhs := ipm_rhs c54_env c54_prob c54_ctx in let k := ipm_lhs c54_env c54_prob [[2%R]] c54_ctx in
  c_ok c54_env c54_prob c54_ctx /\ mat_dims (S := Rn) 1 1 [[2%R]] = true /\ solve_ok c54_env /\
  (forall r, (r < 1)%nat -> nth r (ix_s _ c54_ctx) 0%R <> 0%R) /\
  k_tl k = [[3%R]] /\ rhs = [1%R; (-1)%R] /\ solves 1 1 0 0 (k_tl k) (k_bl k) (ls_solve (e_lin c54_env) tt rhs) rhs.
Proof. exact c54_case. Qed.

(** C34: with finite values at the final point, SUCCESS says that the unscaled constraints hold within the tolerance
    and that the unscaled first-order conditions hold within it. *)
Theorem C34_ipm_partial :
  forall (U : Type) (E : env Xn) (o : options Xn) (t : R), solve_ok E -> est_ok E -> o_tol o = Fin t -> (0 < t)%R ->
    forall fuel (P : iprob Xn) (cbs : list (callback Xn U)) (x0 : list Xn) (u : U) clk st (f : R) (de di : list R) (d d' : data) (s y z : list R),
    iprob_ok P -> length x0 = ip_n P -> (0 < ip_mi P)%nat ->
    ipm_solve E o fuel P cbs x0 u clk = Ok (SUCCESS, st) ->
    ip_sc P = fsc f de di -> (0 < f)%R -> length de = ip_me P -> length di = ip_mi P ->
    (forall v, In v de -> (0 < v)%R) -> (forall v, In v di -> (0 < v)%R) ->
    data_ok (ip_n P) (ip_me P) (ip_mi P) d ->
    is_scaled (ip_n P) (ip_me P) (ip_mi P) f (fun i => nth i de 0%R) (fun i => nth i di 0%R) d d' ->
    ip_g P (is_x E st) = fv (D_g d') -> ip_Ae P (is_x E st) = fm (D_Ae d') -> ip_ce P (is_x E st) = fv (D_ce d') ->
    ip_Ai P (is_x E st) = fm (D_Ai d') -> ip_ci P (is_x E st) = fv (D_ci d') ->
    is_s E st = fv s -> is_y E st = fv y -> is_z E st = fv z -> length s = ip_mi P -> length y = ip_me P -> length z = ip_mi P ->
    all_fin (S := Xn) (is_x E st) = true ->
    within (ip_n P) (ip_me P) (ip_mi P) d (fun i => (nth i s 0 / nth i di 0)%R) (fun i => (nth i de 0 * nth i y 0 / f)%R)
      (fun i => (nth i di 0 * nth i z 0 / f)%R) (0 / f)%R t /\
    (forall i, (i < ip_me P)%nat -> (Rabs (nth i (D_ce d) 0) <= t)%R) /\ (forall i, (i < ip_mi P)%nat -> (- t <= nth i (D_ci d) 0)%R).
Proof. exact @c34_ipm. Qed.
Print Assumptions C34_ipm_partial.

(** C36: the callbacks run in registration order in rounds, each complete unless a callback asked to stop; the solve
    ends with CALLBACK_REQUESTED_STOP exactly when that was outside feasibility restoration. *)
Theorem C36_ipm_partial :
  forall (S : nops) (U : Type) (E : env S) (o : options S), solve_ok E -> est_ok E ->
    forall fuel (P : iprob S) (cbs : list (callback S U)) (x : list S) (u : U) clk0 st (fin : istate E (U := U * list (call S))),
    iprob_ok P -> length x = ip_n P -> ipm_solve E o fuel P (log_all cbs) x (u, []) clk0 = Ok (st, fin) ->
    solve_log (length cbs) (ip_n P) (ip_n P + (2 * ip_me P + 2 * ip_mi P)) st (snd (is_u E fin)).
Proof. exact @ipm_callbacks. Qed.
Print Assumptions C36_ipm_partial.
