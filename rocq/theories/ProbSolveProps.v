(** Properties C31, C33, C34 and C35 for whole programs: a history builds a problem, calls solve(), reads and sets values,
    adds to the problem, solves again ([lived]).  Arithmetic is exact, with infinities and NaN. *)
From Coq Require Import ZArith Reals List Bool Arith.
From Verif Require Import Base ExprModel GraphSpec MathSpec VarModel ExprReal ExprXR VarSpec Faith FaithX NumModel UtilModel BoundsModel SolverModel ExitModel NewtonModel SqpModel IpmModel RestoreModel IpmShape RestoreProofs
  ProblemModel ProblemSpec ProbSolveModel ProbSolveSpec ProbSolveHist ProbSolvePrep ProbSolveLived ProbSolveFinal ProbSolveFacts ProbSolveNone ProbSolveEx.
Import ListNotations.
Local Open Scope nat_scope.

(** C31 with solve() anywhere in the history: the statements run, show right answers, and constraint objects hold one
    elementary constraint per relation. *)
Theorem C31_histories :
  forall sp p l sp' qs,
    lived sp p -> spec_run l sp = Some (sp', qs) ->
    exists p' out, prun (map (pinj (K := X_ops)) l) p = Ok (p', out) /\ Forall2 xanswers qs out /\ lived sp' p' /\
      Forall2 (fun c sc => fst c = fst sc /\ length (snd c) = length (snd sc)) (p_cons p') (sp_cons sp').
Proof. exact @c31_lived. Qed.
Print Assumptions C31_histories.

(** C33, interior point: the solver starts at the decision variables' values; its cost is the user's cost (negated for
    maximize) times a factor; its constraints are the user's relations, one each, times a factor; with finite
    derivatives at the start the cost's factor is positive and the feasible points are those where all relations hold. *)
Theorem C33_ipm_partial :
  forall sp p P x0 p1,
    lived sp p -> prepare p = Ok (RanIpm P, x0, p1) ->
    x0 = map Fin (map (se_val (sp_se sp)) (sp_dec sp)) /\ ip_n P = length (sp_dec sp) /\ ip_me P = length (sp_eqs sp) /\ ip_mi P = length (sp_ineqs sp) /\
    forall y : list R, length y = ip_n P ->
      (forall v, cost_is sp (point sp y) v -> ip_f P (map Fin y) = X_mul (sc_f (ip_sc P)) (Fin v)) /\
      (all_defined (point sp y) (sp_eqs sp) -> exists gs, Forall2 (gap (point sp y)) (sp_eqs sp) gs /\
         ip_ce P (map Fin y) = vmap2 (S := Xn) X_mul (sc_e (ip_sc P)) (map Fin gs)) /\
      (all_defined (point sp y) (sp_ineqs sp) -> exists gs, Forall2 (gap (point sp y)) (sp_ineqs sp) gs /\
         ip_ci P (map Fin y) = vmap2 (S := Xn) X_mul (sc_i (ip_sc P)) (map Fin gs)) /\
      (all_fin (S := Xn) (ip_g P x0) = true -> mat_fin (S := Xn) (ip_Ae P x0) = true -> mat_fin (S := Xn) (ip_Ai P x0) = true ->
       all_defined (point sp y) (sp_eqs sp) -> all_defined (point sp y) (sp_ineqs sp) ->
       (exists f, sc_f (ip_sc P) = Fin f /\ (0 < f)%R) /\
       ((forall i, i < ip_me P -> nth i (ip_ce P (map Fin y)) NaN = Fin 0) /\ (forall i, i < ip_mi P -> X_leb (Fin 0) (nth i (ip_ci P (map Fin y)) NaN) = true) <->
        List.Forall (rel_holds (point sp y)) (sp_eqs sp ++ sp_ineqs sp))).
Proof. exact @c33_ipm. Qed.
Print Assumptions C33_ipm_partial.

(** C33, SQP. *)
Theorem C33_sqp_partial :
  forall sp p P x0 p1,
    lived sp p -> prepare p = Ok (RanSqp P, x0, p1) ->
    x0 = map Fin (map (se_val (sp_se sp)) (sp_dec sp)) /\ sp_n P = length (sp_dec sp) /\ sp_me P = length (sp_eqs sp) /\ sp_ineqs sp = [] /\
    forall y : list R, length y = sp_n P ->
      (forall v, cost_is sp (point sp y) v -> sp_f P (map Fin y) = X_mul (sc_f (sp_sc P)) (Fin v)) /\
      (all_defined (point sp y) (sp_eqs sp) -> exists gs, Forall2 (gap (point sp y)) (sp_eqs sp) gs /\
         sp_ce P (map Fin y) = vmap2 (S := Xn) X_mul (sc_e (sp_sc P)) (map Fin gs)) /\
      (all_fin (S := Xn) (sp_g P x0) = true -> mat_fin (S := Xn) (sp_Ae P x0) = true -> all_defined (point sp y) (sp_eqs sp) ->
       (exists f, sc_f (sp_sc P) = Fin f /\ (0 < f)%R) /\
       ((forall i, i < sp_me P -> nth i (sp_ce P (map Fin y)) NaN = Fin 0) <-> List.Forall (rel_holds (point sp y)) (sp_eqs sp ++ sp_ineqs sp))).
Proof. exact @c33_sqp. Qed.
Print Assumptions C33_sqp_partial.

(** C33, Newton. *)
Theorem C33_newton_partial :
  forall sp p P x0 p1,
    lived sp p -> prepare p = Ok (RanNewton P, x0, p1) ->
    x0 = map Fin (map (se_val (sp_se sp)) (sp_dec sp)) /\ np_n P = length (sp_dec sp) /\ sp_eqs sp = [] /\ sp_ineqs sp = [] /\
    (all_fin (S := Xn) (np_g P x0) = true -> exists f, sc_f (np_sc P) = Fin f /\ (0 < f)%R) /\
    forall (y : list R) v, length y = np_n P -> cost_is sp (point sp y) v -> np_f P (map Fin y) = X_mul (sc_f (np_sc P)) (Fin v).
Proof. exact @c33_newton. Qed.
Print Assumptions C33_newton_partial.

(** A history the SQP theorems apply to: decision_variable(2); subject_to(x[0] == x[1]). *)
Example C33_sqp_case : exists sp p P x0 p1, spec_run two_ops spec_empty = Some (sp, []) /\ lived sp p /\ prepare p = Ok (RanSqp P, x0, p1) /\
  sp_eqs sp = [mkRel CEq (XVar 0) (XVar 1)].
Proof. exact two_case. Qed.

(** C34, SQP: after SUCCESS every relation the user wrote holds at the final point up to the tolerance, if the final
    values, multipliers and derivatives are finite. *)
Theorem C34_solve_sqp_partial :
  forall (U : Type) (E : env Xn) (o : options Xn) (t : R), solve_ok E -> est_ok E -> o_tol o = Fin t -> (0 < t)%R ->
  forall sp p P x0 p1 fuel (all : list (callback Xn U)) u clk fin y,
    lived sp p -> prepare p = Ok (RanSqp P, x0, p1) ->
    sqp_solve E o fuel P all x0 u clk = Ok (SUCCESS, fin) -> s_x E fin = map Fin y ->
    all_fin (S := Xn) (sp_g P (map Fin y)) = true -> mat_fin (S := Xn) (sp_Ae P (map Fin y)) = true -> all_fin (S := Xn) (s_y E fin) = true ->
    all_defined (point sp y) (sp_eqs sp) -> List.Forall (nearly t (point sp y)) (sp_eqs sp ++ sp_ineqs sp).
Proof. exact @c34_solve_sqp. Qed.
Print Assumptions C34_solve_sqp_partial.

(** C34, interior point. *)
Theorem C34_solve_ipm_partial :
  forall (U : Type) (E : env Xn) (o : options Xn) (t : R), solve_ok E -> est_ok E -> o_tol o = Fin t -> (0 < t)%R ->
  forall sp p P x0 p1 fuel (all : list (callback Xn U)) u clk fin y,
    lived sp p -> prepare p = Ok (RanIpm P, x0, p1) ->
    ipm_solve E o fuel P all x0 u clk = Ok (SUCCESS, fin) -> is_x E fin = map Fin y ->
    all_fin (S := Xn) (ip_g P (map Fin y)) = true -> mat_fin (S := Xn) (ip_Ae P (map Fin y)) = true -> mat_fin (S := Xn) (ip_Ai P (map Fin y)) = true ->
    all_fin (S := Xn) (is_s E fin) = true -> all_fin (S := Xn) (is_y E fin) = true -> all_fin (S := Xn) (is_z E fin) = true ->
    all_defined (point sp y) (sp_eqs sp) -> all_defined (point sp y) (sp_ineqs sp) -> List.Forall (nearly t (point sp y)) (sp_eqs sp ++ sp_ineqs sp).
Proof. exact @c34_solve_ipm. Qed.
Print Assumptions C34_solve_ipm_partial.

(** C34 fails for constant constraints: solve() reports SUCCESS though a == 0 is violated by the constant a = 1. *)
Theorem C34_constant_refuted :
  exists sp p r, lived sp p /\ In r (sp_eqs sp) /\ (forall t rho, (t < 1)%R -> ~ nearly t rho r) /\
    forall (U : Type) E o fuel (cbs pcbs : list (callback Xn U)) (u : U) clk, exists p', solve E o fuel cbs pcbs p u clk = Ok (SUCCESS, p').
Proof. exact c34_constant. Qed.
Print Assumptions C34_constant_refuted.

(** C35: which solver runs, and what is left behind: the solver's final point is what value() shows for the decision
    variables, and the problem still is the one the user wrote. *)
Theorem C35_solve :
  forall (U : Type) E o fuel (cbs pcbs : list (callback Xn U)) sp p u clk st p',
    lived sp p -> solve E o fuel cbs pcbs p u clk = Ok (st, p') ->
    exists rn x0 p1 x tf te ti, prepare p = Ok (rn, x0, p1) /\ x0 = map Fin (map (se_val (sp_se sp)) (sp_dec sp)) /\
      cost_type p = Ok tf /\ max_type p (p_eq p) = Ok te /\ max_type p (p_ineq p) = Ok ti /\
      (rn = RanNone <-> constant tf && constant te && constant ti = true) /\
      match rn with
      | RanNone => True
      | RanNewton _ => sp_eqs sp = [] /\ sp_ineqs sp = []
      | RanSqp _ => sp_eqs sp <> [] /\ sp_ineqs sp = []
      | RanIpm _ | RanBounds => sp_ineqs sp <> []
      end /\
      final E o fuel (cbs ++ pcbs) u clk rn x0 st x /\ length x = length (sp_dec sp) /\
      (forall i j k, nth_error (se_exp (sp_se sp)) i = Some (XVar k) -> nth_error (sp_dec sp) j = Some k ->
         exists p2, prun [PH (S := X_ops) (HValue i)] p' = Ok (p2, [PVal (S := X_ops) (nth j x NaN)])) /\
      cost_type p' = Ok tf /\ max_type p' (p_eq p') = Ok te /\ max_type p' (p_ineq p') = Ok ti /\
      length (p_dec p') = length (sp_dec sp) /\ length (p_eq p') = length (sp_eqs sp) /\ length (p_ineq p') = length (sp_ineqs sp) /\
      (forall y, x = map Fin y -> lived (at_point sp y) p').
Proof. exact @c35. Qed.
Print Assumptions C35_solve.

(** C35: no solver runs exactly when the cost and every constraint, each by itself, is of constant type, and then
    neither the cost nor any constraint depends on a variable.  (The history of C34_constant_refuted is such a case.) *)
Theorem C35_no_solver :
  forall sp p rn x0 p1, lived sp p -> prepare p = Ok (rn, x0, p1) ->
    (rn = RanNone <-> forall i, p_f p = Some i \/ In i (p_eq p) \/ In i (p_ineq p) -> exists t, slot_type p i = Ok t /\ (t = NONE \/ t = CONSTANT)) /\
    (rn = RanNone -> forall rho rho',
       (forall v v', cost_is sp rho v -> cost_is sp rho' v' -> v = v') /\
       (forall r v v', In r (sp_eqs sp ++ sp_ineqs sp) -> rel_defined rho r -> rel_defined rho' r -> gap rho r v -> gap rho' r v' -> v = v')).
Proof. exact c35_none. Qed.
Print Assumptions C35_no_solver.
