(** For C87: runs of solve() by one of the two solvers for constrained problems, and by Newton's method, with a log of every call of a callback. *)
From Coq Require Import Reals List Bool.
From Verif Require Import Base ExprModel ExprXR NumModel ExitModel SolverModel SolverSpec NewtonModel SqpModel IpmModel RestoreModel VarSpec ProblemModel ProblemSpec ProbSolveModel ProbSolveSpec ProbSolveHist
  LagrSpec FiniteSpec.
Import ListNotations.

(** The problem is smooth wherever the decision variables are put. *)
Definition smooth_everywhere (sp : spec) : Prop := forall y : list R, length y = length (sp_dec sp) -> prob_smooth sp (point sp y).

(** A solve() of [sp] with callbacks [all] ended in [st] with the decision variables at [x], slacks [s] and multipliers [y] and [z];
    [l] lists the calls of callbacks, feasibility restoration included. *)
Inductive ended {U : Type} (E : env Xn) (o : options Xn) (all : list (callback Xn U)) (sp : spec) : status -> list XR -> list XR -> list XR -> list XR -> list (call Xn) -> Prop :=
| end_sqp p P x0 p1 fuel u clk st fin :
    lived sp p -> prepare p = Ok (RanSqp P, x0, p1) -> sqp_solve E o fuel P (log_all all) x0 (u, []) clk = Ok (st, fin) ->
    ended E o all sp st (s_x E fin) [] (s_y E fin) [] (snd (s_u E fin))
| end_ipm p P x0 p1 fuel u clk st fin :
    lived sp p -> prepare p = Ok (RanIpm P, x0, p1) -> ipm_solve E o fuel P (log_all all) x0 (u, []) clk = Ok (st, fin) ->
    ended E o all sp st (is_x E fin) (is_s E fin) (is_y E fin) (is_z E fin) (snd (is_u E fin)).
Inductive ended_newton {U : Type} (E : env Xn) (o : options Xn) (all : list (callback Xn U)) (sp : spec) : status -> list XR -> list (call Xn) -> Prop :=
| end_newton p P x0 p1 fuel u clk st fin :
    lived sp p -> prepare p = Ok (RanNewton P, x0, p1) -> newton E P (log_all all) o fuel x0 (u, []) clk = Ok (st, fin) ->
    ended_newton E o all sp st (n_x E fin) (snd (n_u E fin)).
