(** For C91: strictly convex quadratic costs under affine equality constraints. *)
From Coq Require Import ZArith Reals List Bool.
From Verif Require Import Base ExprModel ExprXR MathSpec NumModel SolverModel LinR VarSpec SmoothSpec ProblemModel ProblemSpec ProbSolveSpec LagrSpec EarlySpec ConvexSpec QuadSpec.
Import ListNotations.
Local Open Scope R_scope.

(** The rows [A] are independent, measured against [Q]: w' (A Q^-1 A') w >= s |w|^2, written without the inverse. *)
Definition independent (n k : nat) (Q A : nat -> nat -> R) (s : R) : Prop :=
  forall w, exists v, form n Q v + 2 * sumn k (fun l => w l * sumn n (fun j => A l j * v j)) <= - s * norm_sq k w.
(** The linear solver, newly constructed for [n] variables and [k] equalities, solves
    [H A'; A 0] p = r exactly when H is definite and the rows of A are independent, both with modulus 1e-4. *)
Definition exact_on_saddle (E : env Xn) (n k : nat) : Prop := forall H A r,
  length H = n -> (forall w, In w H -> length w = n) -> length A = k -> (forall w, In w A -> length w = n) -> length r = (n + k)%nat ->
  definite n (low H) (1 / 10000) -> independent n k (low H) (ent A) (1 / 10000) ->
  exists ls p, ls_compute (e_lin E) (ls_new (e_lin E) n k false) (mkKkt (S := Xn) (map (map Fin) H) (map (map Fin) A)) = (ls, true) /\
    ls_solve (e_lin E) ls (map Fin r) = map Fin p /\ length p = (n + k)%nat /\
    (forall i, (i < n)%nat -> sumn n (fun j => low H i j * p.[j]) + sumn k (fun l => ent A l i * p.[n + l]) = r.[i]) /\
    (forall l, (l < k)%nat -> sumn n (fun j => ent A l j * p.[j]) = r.[n + l]).

(** The i-th equality constraint says A_i x + e_i = 0. *)
Definition affine (sp : spec) (A : nat -> nat -> R) (e : nat -> R) : Prop :=
  forall i r rho g, nth_error (sp_eqs sp) i = Some r -> can_be sp rho -> gap rho r g -> g = sumn (size sp) (fun j => A i j * coord sp rho j) + e i.
(** The constraints are not so steep at the start that they are scaled. *)
Definition not_scaled (sp : spec) : Prop :=
  forall r k d, In r (sp_eqs sp) -> In k (sp_dec sp) -> pd k (gap_fn r) (se_val (sp_se sp)) d -> Rabs d <= 100.
(** At the start the constraints hold exactly, or their violations sum to more than 1e-4. *)
Definition clear_start (sp : spec) : Prop :=
  forall ge, Forall2 (gap (se_val (sp_se sp))) (sp_eqs sp) ge -> (forall g, In g ge -> g = 0) \/ 1 / 10000 < sum_abs ge.
(** [y] satisfies the equalities and is the one minimiser: wherever else they hold the cost is larger, by at least half the
    modulus times the squared distance. *)
Definition best (sp : spec) (m : R) (y : list R) : Prop :=
  (forall r g, In r (sp_eqs sp) -> gap (point sp y) r g -> g = 0) /\
  forall rho v v', can_be sp rho -> (forall r g, In r (sp_eqs sp) -> gap rho r g -> g = 0) -> cost_is sp (point sp y) v -> cost_is sp rho v' ->
    v + m / 2 * norm_sq (size sp) (fun i => coord sp rho i - coord sp (point sp y) i) <= v'.
