(** Property C90: Newton's method makes progress at every iteration.

    [tame sp y]: no second derivative of the cost at y exceeds 1e12 divided by the number of decision variables.
    [lower sp y y']: the cost at y' is below the cost at y. [flatter sp y y']: the absolute partial derivatives of the cost
    sum to at most 999/1000 of what they summed to. [with_ldl fl E]: factorization is exact LDL' elimination, inside the
    regularization of C46, with fuel fl for its retries. *)
From Coq Require Import ZArith Reals List Bool Arith.
From Verif Require Import Base ExprModel ExprReal ExprXR VarSpec NumModel ExitModel SolverModel SolverSpec ProblemModel ProblemSpec ProbSolveModel ProbSolveSpec ProbSolveHist
  LagrSpec LinR RunY FiniteUseSpec EarlySpec QuadSpec LdlModel DownSpec DownLin DownUse QuadEx DownEx.
Import ListNotations.
Local Open Scope R_scope.

(** C90: however Newton's method ends, the points visited form a list that begins with the user's values and ends with
    the values written back. From each to the next the cost falls or the gradient shrinks. Every callback saw the point of
    the iteration it was told. *)
Theorem C90_downhill :
  forall (U : Type) fl (E : env Xn) (o : options Xn) t sp (all : list (callback Xn U)) st x l, (40 <= fl)%nat -> o_tol o = Fin t -> 0 < t -> smooth_everywhere sp ->
  ended_newton (with_ldl fl E) o all sp st x l -> exists ys y, nth_error ys 0 = Some (now sp) /\ nth_error ys (length ys - 1) = Some y /\ x = map Fin y /\
    chain (fun y y' => tame sp y -> progress sp y y') ys /\ forall c, In c l -> shows_point ys c.
Proof. exact (@c90). Qed.
Print Assumptions C90_downhill.

(** C90, the steps: whatever symmetric matrix of moderate size the Hessian is, definite or not, regularized factorization
    succeeds, and the step it gives points down the gradient. *)
Theorem C90_direction :
  forall fuel n l A (g : list R), (40 <= fuel)%nat -> made_for n l -> length A = n -> (forall w, In w A -> length w = n) -> length g = n ->
  (forall i j, (i < n)%nat -> (j < n)%nat -> INR n * Rabs (low A i j) <= 1000000000000) ->
  exists p, ls_solve (ldl_lin fuel) (fst (ls_compute (ldl_lin fuel) l (mkKkt (S := Xn) (map (map Fin) A) []))) (map Fin (map Ropp g)) = map Fin p /\ length p = n /\
    ((exists i, (i < n)%nat /\ g.[i] <> 0) -> sumn n (fun i => g.[i] * p.[i]) < 0).
Proof. exact direction_down. Qed.
Print Assumptions C90_direction.

(** minimize(x * x + y * y + x * y) from (1, 2): tame everywhere. *)
Example C90_case : exists sp p l, spec_run bowl_ops spec_empty = Some (sp, []) /\ lived sp p /\ smooth_everywhere sp /\ (forall y, tame sp y) /\ now sp = [1; 2] /\
  ended_newton (U := unit) far_env (opts_y 5) [] sp SUCCESS (map Fin [0; 0]) l.
Proof. exact bowl_down. Qed.
(** At a maximum-like point, with second derivative -1 and gradient 1, the step is negative. *)
Example C90_saddle : exists p, ls_solve (ldl_lin 40) (fst (ls_compute (ldl_lin 40) (ls_new (ldl_lin 40) 1 0 false) (mkKkt (S := Xn) (map (map Fin) [[-1]]) []))) (map Fin (map Ropp [1])) = map Fin p /\ length p = 1%nat /\ p.[0] < 0.
Proof. exact saddle_down. Qed.
