(** For C96: points far from every solution of the constraints, and answers of feasibility restoration. *)
From Coq Require Import ZArith Reals List Bool.
From Verif Require Import Base ExprModel ExprXR NumModel ExitModel SolverModel SolverSpec SqpModel IpmModel RestoreModel VarSpec ProblemModel ProblemSpec ProbSolveModel ProbSolveSpec LagrSpec ConvexSpec.
Import ListNotations.
Local Open Scope R_scope.

(** Wherever the decision variables satisfy all relations, they are more than [d] away from [y]. *)
Definition farther (sp : spec) (y : list R) (d : R) : Prop := forall rho, can_be sp rho -> feasible sp rho -> d < dist1 sp rho (point sp y).

(** [x] is what feasibility restoration answered LOCALLY_INFEASIBLE with, in a solve() of the program [p]. *)
Inductive by_restoration {U : Type} (E : env Xn) (o : options Xn) (fuel : nat) (p : prog X_ops) (x : list XR) : Prop :=
| by_sqp P x0 p1 cbs a b it uf clk y it' uf' clk' : prepare p = Ok (RanSqp P, x0, p1) ->
    sqp_restore (U := U) E o fuel P cbs a b it uf clk = Ok (LOCALLY_INFEASIBLE, x, y, it', uf', clk') -> by_restoration E o fuel p x
| by_ipm P x0 p1 cbs a s b z mu it uf clk q : prepare p = Ok (RanIpm P, x0, p1) ->
    ipm_restore (U := U) E o fuel P cbs a s b z mu it uf clk = Ok (LOCALLY_INFEASIBLE, q) -> x = ir_x q -> by_restoration E o fuel p x.
