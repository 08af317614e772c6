(** For C90: what a step of Newton's method achieves. *)
From Coq Require Import ZArith Reals List Bool.
From Verif Require Import Base ExprModel ExprXR MathSpec NumModel SolverModel SolverSpec LinR VarSpec SmoothSpec ProblemModel ProblemSpec ProbSolveSpec LagrSpec LdlModel.
Import ListNotations.
Local Open Scope R_scope.

(** No second derivative of the cost at [y] exceeds 1e12 divided by the number of decision variables. *)
Definition tame (sp : spec) (y : list R) : Prop := forall a b d, In a (sp_dec sp) -> In b (sp_dec sp) -> pd b (pd a (cost_is sp)) (point sp y) d ->
  INR (length (sp_dec sp)) * Rabs d <= 1000000000000.
(** The cost is lower at [y'] than at [y]. *)
Definition lower (sp : spec) (y y' : list R) : Prop := exists v v', cost_is sp (point sp y) v /\ cost_is sp (point sp y') v' /\ v' < v.
(** [g] is the gradient of the cost at [y]. *)
Definition gradient_at (sp : spec) (y g : list R) : Prop := length g = length (sp_dec sp) /\ forall j k, nth_error (sp_dec sp) j = Some k -> pd k (cost_is sp) (point sp y) g.[j].
(** The sum of the partial derivatives' absolute values shrinks by at least a thousandth. *)
Definition flatter (sp : spec) (y y' : list R) : Prop := exists g g', gradient_at sp y g /\ gradient_at sp y' g' /\ sum_abs g' <= 999 / 1000 * sum_abs g.
Definition progress (sp : spec) (y y' : list R) : Prop := lower sp y y' \/ flatter sp y y'.

(** [R] holds between neighbours. *)
Definition chain {A} (R : A -> A -> Prop) (l : list A) : Prop := forall k a b, nth_error l k = Some a -> nth_error l (S k) = Some b -> R a b.
(** A call that showed the point of its iteration. *)
Definition shows_point (ys : list (list R)) (c : call Xn) : Prop := exists k y, i_iter (snd (fst c)) = Z.of_nat k /\ nth_error ys k = Some y /\ i_x (snd (fst c)) = map Fin y.

(** The object was constructed for [n] variables. *)
Definition made_for (n : nat) (l : ldl) : Prop := l_n l = n /\ l_m l = 0%nat /\ l_gmin l = 1 / IZR (10 ^ 10).
