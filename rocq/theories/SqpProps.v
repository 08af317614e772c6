(** Property C51 and the parts of C34, C36, C55, C56 about the solver for equality-constrained problems (sqp.hpp). *)
From Coq Require Import ZArith QArith Reals List Bool.
From Verif Require Import Base ExprModel ExprReal ExprXR NumModel UtilModel LinR KktModel KktSpec FilterModel ExitModel SolverModel SolverSpec
  SqpModel SqpSpec SqpProofs IpmModel IpmShape RestoreModel RestoreProofs CallbackSpec CallbackProofs PosX TermProofs FinEval OutcomeProofs XQ RunX RunY.
Import ListNotations.

(** C51: whatever the problem functions, the clock and the callbacks do and whatever the linear solver answers (with
    vectors of the right length), a solve that returns performed at most max(1, max_iterations) iterations, each of
    them a move [sqp_move] allows, and its status means what [sqp_means] says (any scalars). *)
Theorem C51_outcome :
  forall (S : nops) (E : env S) (o : options S) (U : Type) fuel (P : sprob S) (cbs : list (callback S U)) (x : list S) (u : U) clk0 st (fin : sstate E (U := U)),
    sprob_ok P -> solve_ok E -> est_ok E -> length x = sp_n P ->
    sqp_solve E o fuel P cbs x u clk0 = Ok (st, fin) ->
    let rst := sqp_restore (U := U) E o fuel P in
    sqp_means E P o (sresto rst) clk0 st fin /\
    (0 <= s_it E fin <= Z.max 1 (o_max o))%Z /\
    exists k p, path (sqp_move E P (srestored rst)) k (x, repeat (s_ofZ S 0) (sp_me P)) p /\
      (Z.of_nat k <= s_it E fin)%Z /\
      ((s_x E fin, s_y E fin) = p \/ st = LOCALLY_INFEASIBLE \/ st = FEASIBILITY_RESTORATION_FAILED).
Proof. exact @sqp_solve_meaning. Qed.
Print Assumptions C51_outcome.

(** It returns: with enough fuel the result no longer depends on the fuel (scalars with NaN and infinities). *)
Theorem C51_terminates :
  forall (E : env Xn) (o : options Xn) (U : Type), solve_ok E -> est_ok E -> pos (o_tol o) ->
    forall (P : sprob Xn) (cbs : list (callback Xn U)), sprob_ok P -> forall (x : list Xn) (u : U) clk0, length x = sp_n P ->
    settles (fun n => sqp_solve E o n P cbs x u clk0).
Proof. exact @sqp_solve_settles. Qed.
Print Assumptions C51_terminates.
Example C51_example :
  forall fuel, (2 <= fuel)%nat -> exists st, sqp_solve (U := unit) eq_env (opts_y 5) fuel (eq_prob (xq 1)) [] [xq 0] tt 0 = Ok (SUCCESS, st) /\ s_x _ st = [xq 1] /\ s_it _ st = 1%Z.
Proof. exact sqp_run. Qed.

(** C34, C51: with finite values at the final point, SUCCESS says that the unscaled constraints hold within the
    tolerance and that the gradient of the Lagrangian vanishes within it, for the unscaled multipliers. *)
Theorem C34_sqp_partial :
  forall (U : Type) (E : env Xn) (o : options Xn) (t : R), solve_ok E -> est_ok E -> o_tol o = Fin t -> (0 < t)%R ->
    forall fuel (P : sprob Xn) (cbs : list (callback Xn U)) (x0 : list Xn) (u : U) clk st (f : R) (de : list R) (d d' : data) (y : list R),
    sprob_ok P -> length x0 = sp_n P -> (0 < sp_me P)%nat ->
    sqp_solve E o fuel P cbs x0 u clk = Ok (SUCCESS, st) ->
    sp_sc P = fsc f de [] -> (0 < f)%R -> length de = sp_me P -> (forall v, In v de -> (0 < v)%R) ->
    data_ok (sp_n P) (sp_me P) 0 d -> is_scaled (sp_n P) (sp_me P) 0 f (fun i => nth i de 0%R) (fun _ => 0%R) d d' ->
    sp_g P (s_x E st) = fv (D_g d') -> sp_Ae P (s_x E st) = fm (D_Ae d') -> sp_ce P (s_x E st) = fv (D_ce d') ->
    s_y E st = fv y -> length y = sp_me P ->
    within_eq (sp_n P) (sp_me P) d (fun i => (nth i de 0 * nth i y 0 / f)%R) t.
Proof. exact @c34_sqp. Qed.
Print Assumptions C34_sqp_partial.

(** A step to a point with a NaN gradient is reported as SUCCESS. *)
Theorem C51_nan_gradient_refuted :
  forall fuel, (2 <= fuel)%nat -> exists st, sqp_solve (U := unit) eq_env (opts_y 5) fuel (eq_prob NaN) [] [xq 0] tt 0 = Ok (SUCCESS, st) /\
    s_x _ st = [xq 1] /\ sp_g (eq_prob NaN) (s_x _ st) = [NaN].
Proof. exact sqp_run_nan. Qed.
Print Assumptions C51_nan_gradient_refuted.

(** C36: the callbacks run in registration order in rounds, each complete unless a callback asked to stop; the solve
    ends with CALLBACK_REQUESTED_STOP exactly when that was outside feasibility restoration. *)
Theorem C36_sqp_partial :
  forall (S : nops) (U : Type) (E : env S) (o : options S), solve_ok E -> est_ok E ->
    forall fuel (P : sprob S) (cbs : list (callback S U)) (x : list S) (u : U) clk0 st (fin : sstate E (U := U * list (call S))),
    sprob_ok P -> length x = sp_n P -> sqp_solve E o fuel P (log_all cbs) x (u, []) clk0 = Ok (st, fin) ->
    solve_log (length cbs) (sp_n P) (sp_n P + 2 * sp_me P) st (snd (s_u E fin)).
Proof. exact @sqp_callbacks. Qed.
Print Assumptions C36_sqp_partial.

(** Inside restoration the callbacks are shown a longer x, and a request to stop there is not reported. *)
Theorem C36_restoration_refuted :
  forall fuel, (25 <= fuel)%nat -> exists st, sqp_solve id_env opts_r fuel stuck (log_all [stop_inner]) [Fin 0%R] (tt, []) 0 = Ok (MAX_ITERATIONS_EXCEEDED, st) /\
    map (fun c => (length (i_x (snd (fst c))), snd c)) (snd (s_u _ st)) = [(1%nat, false); (3%nat, true)].
Proof. exact run_stop. Qed.
Print Assumptions C36_restoration_refuted.

(** C55: the line search ends after at most 25 trial points. *)
Theorem C55_sqp :
  forall (E : env Xn) (P : sprob Xn) (c : sctx E) (d : list Xn * list Xn) (flt : filter Xn) cnt,
    exists r, forall n, (25 <= n)%nat -> sqp_search E P n c d (Fin 1%R : Xn) flt cnt = Ok r.
Proof. exact @ssearch_stops. Qed.
Print Assumptions C55_sqp.

(** C56: an iteration limit hit during restoration is reported as FEASIBILITY_RESTORATION_FAILED. *)
Theorem C56_restoration_refuted :
  forall (U : Type) fuel (u : U), (25 <= fuel)%nat -> exists st flt,
    sqp_solve id_env opts_r fuel stuck [] [Fin 0%R] u 0 = Ok (FEASIBILITY_RESTORATION_FAILED, st) /\
    exists sub b, ipm_from id_env inner opts_r [sqp_fr_callback stuck [Fin 0%R] [Fin 1%R] (fe_sqp (S := Xn) (Fin 0%R) [Fin 0%R]) (Fin b)] None fuel true
      [xq 0; xq (1 # 100000); xq (1 # 100000)] [xq 1; xq 1] [xq 0] [xq 1000; xq 1000] (xq (1 # 100)) 0 (u, flt) 1 = Ok (MAX_ITERATIONS_EXCEEDED, sub).
Proof. exact @run_limit. Qed.
Print Assumptions C56_restoration_refuted.

(** C56: converging in the last iteration allowed is reported as exceeding the limit. *)
Example C56_converged_at_limit :
  forall fuel, (2 <= fuel)%nat -> exists st, sqp_solve (U := unit) eq_env (opts_y 1) fuel (eq_prob (xq 1)) [] [xq 0] tt 0 = Ok (MAX_ITERATIONS_EXCEEDED, st) /\
    s_x _ st = [xq 1] /\ s_it _ st = 1%Z /\ s_ltb Xn (o_tol (opts_y 1)) (s_E _ st) = false.
Proof. exact sqp_run_limit. Qed.
