(** For C88: convex problems. *)
From Coq Require Import Reals List Bool.
From Verif Require Import ExprModel MathSpec VarSpec SmoothSpec ProblemModel ProblemSpec ProbSolveSpec LagrSpec.
Import ListNotations.
Local Open Scope R_scope.

(** The points the decision variables can be put at: everything else stays as it is. *)
Definition can_be (sp : spec) (rho : nat -> R) : Prop := forall k, ~ In k (sp_dec sp) -> rho k = se_val (sp_se sp) k.
(** The point at fraction [th] of the way from [a] to [b]. *)
Definition between (th : R) (a b : nat -> R) : nat -> R := fun k => (1 - th) * a k + th * b k.
(** Along segments the function lies below (above) its chords. *)
Definition convex_fn (sp : spec) (F : ufun) : Prop := forall a b th va vb v, can_be sp a -> can_be sp b -> 0 <= th <= 1 ->
  F a va -> F b vb -> F (between th a b) v -> v <= (1 - th) * va + th * vb.
Definition concave_fn (sp : spec) (F : ufun) : Prop := forall a b th va vb v, can_be sp a -> can_be sp b -> 0 <= th <= 1 ->
  F a va -> F b vb -> F (between th a b) v -> v >= (1 - th) * va + th * vb.
(** What is minimised is convex, equalities are affine, inequalities bound a concave function from below. *)
Definition convex_problem (sp : spec) : Prop :=
  convex_fn sp (cost_is sp) /\
  (forall r, In r (sp_eqs sp) -> convex_fn sp (gap_fn r) /\ concave_fn sp (gap_fn r)) /\
  (forall r, In r (sp_ineqs sp) -> concave_fn sp (gap_fn r)).
(** Distance in the decision variables, sum of absolute differences. *)
Definition dist1 (sp : spec) (a b : nat -> R) : R := fold_right (fun k s => Rabs (a k - b k) + s) 0 (sp_dec sp).
(** All relations of the problem hold. *)
Definition feasible (sp : spec) (rho : nat -> R) : Prop := List.Forall (rel_holds rho) (sp_eqs sp ++ sp_ineqs sp).
