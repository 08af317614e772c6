(** For C100: the second derivative test for convexity. *)
From Coq Require Import Reals List.
From Verif Require Import ExprModel MathSpec VarSpec SmoothSpec ProblemModel ProblemSpec ProbSolveSpec LagrSpec ConvexSpec QuadSpec.
Import ListNotations.
Local Open Scope R_scope.

(** [Q] holds the second partial derivatives of [F] with respect to the decision variables, at [y]. *)
Definition second_at (sp : spec) (F : ufun) (y : list R) (Q : nat -> nat -> R) : Prop :=
  forall i j, (i < size sp)%nat -> (j < size sp)%nat -> pd (nth j (sp_dec sp) 0%nat) (pd (nth i (sp_dec sp) 0%nat) F) (point sp y) (Q i j).
(** Positive semidefinite everywhere; negative semidefinite everywhere; zero everywhere. *)
Definition bends_up (sp : spec) (F : ufun) : Prop := forall y Q, length y = size sp -> second_at sp F y Q -> forall v, 0 <= form (size sp) Q v.
Definition bends_down (sp : spec) (F : ufun) : Prop := forall y Q, length y = size sp -> second_at sp F y Q -> forall v, form (size sp) Q v <= 0.
Definition straight (sp : spec) (F : ufun) : Prop := forall y Q, length y = size sp -> second_at sp F y Q -> forall i j, (i < size sp)%nat -> (j < size sp)%nat -> Q i j = 0.
Definition hessian_test (sp : spec) : Prop :=
  bends_up sp (cost_is sp) /\ (forall r, In r (sp_eqs sp) -> straight sp (gap_fn r)) /\ (forall r, In r (sp_ineqs sp) -> bends_down sp (gap_fn r)).
