(** For C89: strictly convex quadratic costs. *)
From Coq Require Import ZArith Reals List Bool.
From Verif Require Import Base ExprModel ExprXR MathSpec NumModel SolverModel LinR VarSpec SmoothSpec ProblemModel ProblemSpec ProbSolveSpec LagrSpec ConvexSpec.
Import ListNotations.
Local Open Scope R_scope.

(** The symmetric matrix of which the linear solver reads the lower triangle. *)
Definition low (A : list (list R)) (i j : nat) : R := nth (Nat.min i j) (nth (Nat.max i j) A []) 0.
Definition form (n : nat) (Q : nat -> nat -> R) (v : nat -> R) : R := sumn n (fun i => sumn n (fun j => Q i j * v i * v j)).
Definition norm_sq (n : nat) (v : nat -> R) : R := sumn n (fun i => v i * v i).
(** The linear solver, newly constructed for [n] variables, solves systems exactly when they are definite with modulus 1e-4. *)
Definition exact_on_definite (E : env Xn) (n : nat) : Prop := forall A r,
  length A = n -> (forall w, In w A -> length w = n) -> length r = n ->
  (forall v, 1 / 10000 * norm_sq n v <= form n (low A) v) ->
  exists p, ls_solve (e_lin E) (fst (ls_compute (e_lin E) (ls_new (e_lin E) n 0 false) (mkKkt (S := Xn) (map (map Fin) A) []))) (map Fin r) = map Fin p /\ length p = n /\
    forall i, (i < n)%nat -> sumn n (fun j => low A i j * p.[j]) = r.[i].

(** The value of the i-th decision variable. *)
Definition coord (sp : spec) (rho : nat -> R) (i : nat) : R := rho (nth i (sp_dec sp) 0%nat).
Definition size (sp : spec) : nat := length (sp_dec sp).
(** What is minimised is 1/2 x' Q x + b' x + c. *)
Definition quadratic (sp : spec) (Q : nat -> nat -> R) (b : nat -> R) (c : R) : Prop :=
  (forall i j, Q i j = Q j i) /\
  forall rho v, can_be sp rho -> cost_is sp rho v -> v = 1 / 2 * form (size sp) Q (coord sp rho) + sumn (size sp) (fun i => b i * coord sp rho i) + c.
(** [Q] is definite with modulus [m]. *)
Definition definite (n : nat) (Q : nat -> nat -> R) (m : R) : Prop := forall v, m * norm_sq n v <= form n Q v.
(** The start is not so steep that scaling the cost takes the modulus below 1e-4. *)
Definition not_steep (sp : spec) (m : R) : Prop :=
  1 / 10000 <= m /\ forall k d, In k (sp_dec sp) -> pd k (cost_is sp) (se_val (sp_se sp)) d -> Rabs d <= 1000000 * m.

(** [y] is the one minimiser: elsewhere the cost is larger, by at least half the modulus times the squared distance. *)
Definition minimiser (sp : spec) (m : R) (y : list R) : Prop := forall rho v v', can_be sp rho -> cost_is sp (point sp y) v -> cost_is sp rho v' ->
  v + m / 2 * norm_sq (size sp) (fun i => coord sp rho i - coord sp (point sp y) i) <= v'.
