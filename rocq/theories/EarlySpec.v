(** Vocabulary for C84 and C85: points where solve() has nothing left to do, and which answers are possible. *)
From Coq Require Import Reals List.
From Verif Require Import ExprModel MathSpec VarSpec SmoothSpec LagrSpec ExitModel ProblemModel ProblemSpec ProbSolveSpec.
Import ListNotations.
Local Open Scope R_scope.

(** Where the variables are now, the cost is flat and the equalities hold, both within [t]. *)
Definition settled (sp : spec) (t : R) : Prop :=
  (forall k d, In k (sp_dec sp) -> pd k (cost_is sp) (se_val (sp_se sp)) d -> Rabs d <= t) /\
  (forall r g, In r (sp_eqs sp) -> gap (se_val (sp_se sp)) r g -> Rabs g <= t).

(** The answers solve() can give. *)
Definition possible (sp : spec) (s : status) : Prop :=
  match s with
  | SUCCESS | CALLBACK_REQUESTED_STOP | NONFINITE_INITIAL_GUESS | DIVERGING_ITERATES | MAX_ITERATIONS_EXCEEDED | TIMEOUT => True
  | LINE_SEARCH_FAILED => sp_eqs sp = [] /\ sp_ineqs sp = []
  | TOO_FEW_DOFS => (length (sp_dec sp) < length (sp_eqs sp))%nat
  | GLOBALLY_INFEASIBLE => sp_ineqs sp <> []
  | LOCALLY_INFEASIBLE | FACTORIZATION_FAILED | FEASIBILITY_RESTORATION_FAILED => sp_eqs sp <> [] \/ sp_ineqs sp <> []
  end.

(** Where the decision variables are now. *)
Definition now (sp : spec) : list R := map (se_val (sp_se sp)) (sp_dec sp).
