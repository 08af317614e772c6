(** Properties C80 and C81: the derivatives solve() hands to its solvers, and what SUCCESS means for the problem the user
    wrote.  Arithmetic is exact, with infinities and NaN. *)
From Coq Require Import ZArith Reals List Bool Arith.
From Verif Require Import Base ExprModel MathSpec VarModel ExprReal ExprXR VarSpec Faith FaithX NumModel UtilModel LinR KktSpec BoundsModel SolverModel ExitModel NewtonModel SqpModel IpmModel RestoreModel IpmShape RestoreProofs IpmProofs
  PosX PosProofs ProblemModel ProblemSpec ProbSolveModel ProbSolveSpec ProbSolveHist DiffSpec SmoothSpec LagrSpec ProbSolveKkt ProbSolveKkt2 ProbSolveEx ProbSolveKktEx RunY ProbSolveRun.
Import ListNotations.
Local Open Scope nat_scope.

(** C80, interior point: there are positive factors, one for the cost and one per relation, such that wherever the
    problem is smooth the solver's functions are the user's cost and gaps times these factors, its gradient and
    Jacobians are their first derivatives, and its two Hessians hold in the lower triangle the second derivatives of
    the Lagrangian and of its constraint part, with the multipliers times the same factors. *)
Theorem C80_ipm :
  forall sp p P x0 p1,
    lived sp p -> prepare p = Ok (RanIpm P, x0, p1) -> prob_smooth sp (se_val (sp_se sp)) ->
    exists f de di, sc_f (ip_sc P) = Fin f /\ sc_e (ip_sc P) = map Fin de /\ sc_i (ip_sc P) = map Fin di /\ (0 < f)%R /\
      length de = length (sp_eqs sp) /\ length di = length (sp_ineqs sp) /\ (forall v, In v (de ++ di) -> (0 < v)%R) /\
      forall y : list R, length y = length (sp_dec sp) -> prob_smooth sp (point sp y) ->
        (exists v, cost_is sp (point sp y) v /\ ip_f P (map Fin y) = Fin (f * v)) /\
        are_gaps (sp_eqs sp) de (point sp y) (ip_ce P (map Fin y)) /\ are_gaps (sp_ineqs sp) di (point sp y) (ip_ci P (map Fin y)) /\
        is_gradient sp f (point sp y) (ip_g P (map Fin y)) /\
        is_jacobian sp (sp_eqs sp) de (point sp y) (ip_Ae P (map Fin y)) /\ is_jacobian sp (sp_ineqs sp) di (point sp y) (ip_Ai P (map Fin y)) /\
        forall mu nu : list R, length mu = length (sp_eqs sp) -> length nu = length (sp_ineqs sp) ->
          is_lower_hessian sp (lagrangian sp f (times de mu) (times di nu)) (point sp y) (ip_H P (map Fin y) (map Fin mu) (map Fin nu)) /\
          is_lower_hessian sp (constr_part sp (times de mu) (times di nu)) (point sp y) (ip_Hc P (map Fin y) (map Fin mu) (map Fin nu)).
Proof. exact @c80_ipm. Qed.
Print Assumptions C80_ipm.

(** decision_variable(); minimize(x * x); subject_to(x * x >= x): smooth everywhere and solved by interior point. *)
Example C80_ipm_case : exists sp p P x0 p1, spec_run disc_ops spec_empty = Some (sp, []) /\ lived sp p /\ prepare p = Ok (RanIpm P, x0, p1) /\ forall rho, prob_smooth sp rho.
Proof. exact disc_case. Qed.

(** C80, SQP. *)
Theorem C80_sqp :
  forall sp p P x0 p1,
    lived sp p -> prepare p = Ok (RanSqp P, x0, p1) -> prob_smooth sp (se_val (sp_se sp)) ->
    exists f de, sc_f (sp_sc P) = Fin f /\ sc_e (sp_sc P) = map Fin de /\ sp_ineqs sp = [] /\ (0 < f)%R /\ length de = length (sp_eqs sp) /\ (forall v, In v de -> (0 < v)%R) /\
      forall y : list R, length y = length (sp_dec sp) -> prob_smooth sp (point sp y) ->
        (exists v, cost_is sp (point sp y) v /\ sp_f P (map Fin y) = Fin (f * v)) /\
        are_gaps (sp_eqs sp) de (point sp y) (sp_ce P (map Fin y)) /\
        is_gradient sp f (point sp y) (sp_g P (map Fin y)) /\
        is_jacobian sp (sp_eqs sp) de (point sp y) (sp_Ae P (map Fin y)) /\
        forall mu : list R, length mu = length (sp_eqs sp) ->
          is_lower_hessian sp (lagrangian sp f (times de mu) []) (point sp y) (sp_H P (map Fin y) (map Fin mu)) /\
          is_lower_hessian sp (constr_part sp (times de mu) []) (point sp y) (sp_Hc P (map Fin y) (map Fin mu)).
Proof. exact @c80_sqp. Qed.
Print Assumptions C80_sqp.

(** decision_variable(2); subject_to(x[0] == x[1]). *)
Example C80_sqp_case : exists sp p P x0 p1, spec_run two_ops spec_empty = Some (sp, []) /\ lived sp p /\ prepare p = Ok (RanSqp P, x0, p1) /\ forall rho, prob_smooth sp rho.
Proof. exact two_smooth. Qed.

(** C80, Newton. *)
Theorem C80_newton :
  forall sp p P x0 p1,
    lived sp p -> prepare p = Ok (RanNewton P, x0, p1) -> prob_smooth sp (se_val (sp_se sp)) ->
    exists f, sc_f (np_sc P) = Fin f /\ (0 < f)%R /\ sp_eqs sp = [] /\ sp_ineqs sp = [] /\
      forall y : list R, length y = length (sp_dec sp) -> prob_smooth sp (point sp y) ->
        (exists v, cost_is sp (point sp y) v /\ np_f P (map Fin y) = Fin (f * v)) /\
        is_gradient sp f (point sp y) (np_g P (map Fin y)) /\
        is_lower_hessian sp (scaled_fn f (cost_is sp)) (point sp y) (np_H P (map Fin y)).
Proof. exact @c80_newton. Qed.
Print Assumptions C80_newton.

(** decision_variable(); minimize(x * x). *)
Example C80_newton_case : exists sp p P x0 p1, spec_run square_ops spec_empty = Some (sp, []) /\ lived sp p /\ prepare p = Ok (RanNewton P, x0, p1) /\ forall rho, prob_smooth sp rho.
Proof. exact square_case. Qed.

(** C81, interior point: after SUCCESS, with finite multipliers and slacks and the problem smooth at the final point,
    every relation holds within the tolerance and there are multipliers and positive slacks with which the point is
    stationary and complementary within the tolerance; positive multipliers if no feasible mode is asked for. *)
Theorem C81_ipm_partial :
  forall (U : Type) (E : env Xn) (o : options Xn) (t : R), solve_ok E -> est_ok E -> o_tol o = Fin t -> (0 < t)%R ->
  forall sp p P x0 p1 fuel (all : list (callback Xn U)) u clk fin y,
    lived sp p -> prepare p = Ok (RanIpm P, x0, p1) -> prob_smooth sp (se_val (sp_se sp)) ->
    ipm_solve E o fuel P all x0 u clk = Ok (SUCCESS, fin) -> is_x E fin = map Fin y ->
    all_fin (S := Xn) (is_s E fin) = true -> all_fin (S := Xn) (is_y E fin) = true -> all_fin (S := Xn) (is_z E fin) = true -> prob_smooth sp (point sp y) ->
    List.Forall (nearly t (point sp y)) (sp_eqs sp ++ sp_ineqs sp) /\
    exists lam nu s, nearly_stationary sp t (point sp y) lam nu /\ nearly_complementary sp t (point sp y) nu s /\
      (o_feasible o = false -> est_num E -> forall v, In v nu -> (0 < v)%R).
Proof. exact @c81_ipm. Qed.
Print Assumptions C81_ipm_partial.

(** C81, SQP. *)
Theorem C81_sqp_partial :
  forall (U : Type) (E : env Xn) (o : options Xn) (t : R), solve_ok E -> est_ok E -> o_tol o = Fin t -> (0 < t)%R ->
  forall sp p P x0 p1 fuel (all : list (callback Xn U)) u clk fin y,
    lived sp p -> prepare p = Ok (RanSqp P, x0, p1) -> prob_smooth sp (se_val (sp_se sp)) ->
    sqp_solve E o fuel P all x0 u clk = Ok (SUCCESS, fin) -> s_x E fin = map Fin y -> all_fin (S := Xn) (s_y E fin) = true -> prob_smooth sp (point sp y) ->
    List.Forall (nearly t (point sp y)) (sp_eqs sp ++ sp_ineqs sp) /\ exists lam, nearly_stationary sp t (point sp y) lam [].
Proof. exact @c81_sqp. Qed.
Print Assumptions C81_sqp_partial.

(** C81, Newton: every partial derivative of the cost is within the tolerance of 0. *)
Theorem C81_newton :
  forall (U : Type) (E : env Xn) (o : options Xn) (t : R), solve_ok E -> o_tol o = Fin t -> (0 < t)%R ->
  forall sp p P x0 p1 fuel (all : list (callback Xn U)) u clk fin y,
    lived sp p -> prepare p = Ok (RanNewton P, x0, p1) -> prob_smooth sp (se_val (sp_se sp)) ->
    newton E P all o fuel x0 u clk = Ok (SUCCESS, fin) -> n_x E fin = map Fin y -> prob_smooth sp (point sp y) ->
    forall k, In k (sp_dec sp) -> exists d, pd k (cost_is sp) (point sp y) d /\ (Rabs d <= t)%R.
Proof. exact @c81_newton. Qed.
Print Assumptions C81_newton.

(** x = decision_variable(); x.set_value(1); minimize(x * x): one Newton step ends in SUCCESS at 0. *)
Example C81_newton_case : solve_ok down_env /\ exists sp p P x0 p1, spec_run from1_ops spec_empty = Some (sp, []) /\ lived sp p /\ prepare p = Ok (RanNewton P, x0, p1) /\
  (forall rho, prob_smooth sp rho) /\
  forall fuel, 2 <= fuel -> exists fin, newton (U := unit) down_env P [] (opts_y 5) fuel x0 tt 0 = Ok (SUCCESS, fin) /\ n_x down_env fin = map Fin [0%R].
Proof. exact (conj down_ok (from1_run tt)). Qed.
