(** For C97: how fast Newton's method converges on uniformly convex costs. *)
From Coq Require Import ZArith Reals List Bool.
From Verif Require Import Base ExprModel ExprXR MathSpec NumModel SolverModel SolverSpec LinR VarSpec SmoothSpec ProblemModel ProblemSpec ProbSolveSpec LagrSpec EarlySpec ConvexSpec QuadSpec DownSpec.
Import ListNotations.
Local Open Scope R_scope.

(** Everywhere and in every direction, the second derivative of the cost is between [m] and [L] (per squared length of the direction). *)
Definition curved (sp : spec) (m L : R) : Prop := forall y Q, length y = size sp ->
  (forall i j, (i < size sp)%nat -> (j < size sp)%nat -> pd (nth j (sp_dec sp) 0%nat) (pd (nth i (sp_dec sp) 0%nat) (cost_is sp)) (point sp y) (Q i j)) ->
  forall v, m * norm_sq (size sp) v <= form (size sp) Q v <= L * norm_sq (size sp) v.
(** What each step multiplies the distance to the optimal cost by, at most. *)
Definition shrink (m L : R) : R := 1 - m * m / (100000000 * L * L).
(** The cost at [y] exceeds any other by at most [q] times what the cost at the start did. *)
Definition within (sp : spec) (q : R) (y : list R) : Prop := forall rho v0 v w, can_be sp rho -> cost_is sp (se_val (sp_se sp)) v0 -> cost_is sp (point sp y) v -> cost_is sp rho w ->
  v - w <= q * (v0 - w).
(** No partial derivative of the cost at [y] exceeds [t]. *)
Definition flat (sp : spec) (t : R) (y : list R) : Prop := forall k d, In k (sp_dec sp) -> pd k (cost_is sp) (point sp y) d -> Rabs d <= t.
(** So many steps are enough to make the slopes small. *)
Definition enough (sp : spec) (m L t : R) (K : nat) : Prop := forall g, gradient_at sp (now sp) g -> L / m * shrink m L ^ K * norm_sq (size sp) (fun i => g.[i]) <= t * t.
(** The start, and everything as low as it, is closer to the origin than the divergence threshold 1e10. *)
Definition near (sp : spec) (m : R) : Prop := forall g, gradient_at sp (now sp) g -> exists r, 0 <= r /\ norm_sq (size sp) (fun i => g.[i]) <= r * r /\
  forall i, (i < size sp)%nat -> Rabs (now sp).[i] + 2 * r / m <= 10000000000.
(** The cost at [y] exceeds any other by at most [e]. *)
Definition nearly_best (sp : spec) (e : R) (y : list R) : Prop := forall rho v w, can_be sp rho -> cost_is sp (point sp y) v -> cost_is sp rho w -> v <= w + e.
