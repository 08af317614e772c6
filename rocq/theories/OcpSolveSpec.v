(** For C86: an OCP among everything else a user does with the problem, and a solve() that ends in SUCCESS. *)
From Coq Require Import Reals List Bool Arith.
From Verif Require Import Base ExprModel ExprXR MathSpec VarModel ExprReal VarSpec NumModel ExitModel SolverModel SqpModel IpmModel ProblemModel ProblemSpec ProbSolveModel ProbSolveSpec ProbSolveHist
  RestoreModel OcpModel OcpSpec.
Import ListNotations.
Local Open Scope R_scope.

(** The Variables in the OCP's matrices. *)
Definition handles (o : ocp) : list nat := v_at (o_X o) ++ v_at (o_U o) ++ v_at (o_DT o).

(** The statement assigns to one of these Variables (x = y or x = number; set_value() is not an assignment). *)
Definition assigns (o : pop R_ops) (l : list nat) : Prop :=
  match o with PH (HAssign i _) | PH (HAssignScalar i _) => In i l | _ => False end.

(** [b] is what [a] becomes by any further statements that do not assign to [l], and any number of solves. *)
Inductive later (l : list nat) : spec -> spec -> Prop :=
| later_now a : later l a a
| later_step a b o c qs : later l a b -> spec_step o b = Some (c, qs) -> ~ assigns o l -> later l a c
| later_solve a b y : later l a b -> later l a (at_point b y).

(** A solve() of the problem [sp] ended in SUCCESS with the decision variables at [y]; the multipliers the solver ended with
    are numbers. *)
Inductive succeeded {U : Type} (E : env Xn) (o : options Xn) (sp : spec) (y : list R) : Prop :=
| succ_sqp p P x0 p1 fuel (all : list (callback Xn U)) u clk fin :
    lived sp p -> prepare p = Ok (RanSqp P, x0, p1) -> sqp_solve E o fuel P all x0 u clk = Ok (SUCCESS, fin) ->
    s_x E fin = map Fin y -> all_fin (S := Xn) (s_y E fin) = true -> succeeded E o sp y
| succ_ipm p P x0 p1 fuel (all : list (callback Xn U)) u clk fin :
    lived sp p -> prepare p = Ok (RanIpm P, x0, p1) -> ipm_solve E o fuel P all x0 u clk = Ok (SUCCESS, fin) ->
    is_x E fin = map Fin y -> all_fin (S := Xn) (is_s E fin) = true -> all_fin (S := Xn) (is_y E fin) = true -> all_fin (S := Xn) (is_z E fin) = true ->
    succeeded E o sp y.

Definition within (t a b : R) : Prop := Rabs (a - b) <= t.
