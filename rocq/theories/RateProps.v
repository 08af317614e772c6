(** Property C97: how fast Newton's method converges on uniformly convex costs.

    [curved sp m L]: everywhere and in every direction the second derivative of the cost is between m and L.
    [shrink m L]: 1 - m^2 / (1e8 L^2). [within sp q y]: the cost at y exceeds the optimal one by at most q times what the cost
    at the start did. [flat sp t y]: no partial derivative at y exceeds t. [nearly_best sp e y]: the cost at y exceeds the
    optimal one by at most e. [not_steep sp m]: m is at least 1e-4 and no slope at the start exceeds 1e6 m, which keeps
    the cost scaling and the regularization of C46 idle. [with_ldl fl E]: factorization is exact LDL' elimination. *)
From Coq Require Import ZArith Reals List Bool Arith.
From Verif Require Import Base ExprModel ExprReal ExprXR VarSpec NumModel ExitModel SolverModel SolverSpec ProblemModel ProblemSpec ProbSolveModel ProbSolveSpec ProbSolveHist
  LagrSpec LinR RunY FiniteUseSpec EarlySpec QuadSpec LdlModel DownSpec QuadEx RateSpec RateUse RateEx.
Import ListNotations.
Local Open Scope R_scope.

(** C97: however Newton's method ends, the points visited form a list that begins with the user's values and ends with the
    values written back. After k steps the distance to the optimal cost has shrunk to at most shrink^k of what it was. The
    only ways to end are: small slopes, and a cost as near the optimal one as they imply; an iterate beyond 1e10; a
    callback's request; the iteration limit; the time limit. *)
Theorem C97_rate :
  forall (U : Type) fl (E : env Xn) (o : options Xn) t sp m L, o_tol o = Fin t -> 0 < t -> smooth_everywhere sp -> curved sp m L -> not_steep sp m -> m <= L <= m * 1000000000000000000 ->
  forall (all : list (callback Xn U)) st x l, ended_newton (with_ldl fl E) o all sp st x l ->
  exists ys y, nth_error ys 0 = Some (now sp) /\ nth_error ys (length ys - 1) = Some y /\ x = map Fin y /\ (forall c, In c l -> shows_point ys c) /\
    (forall k a, nth_error ys k = Some a -> length a = size sp /\ within sp (shrink m L ^ k) a) /\
    ((st = SUCCESS /\ flat sp t y /\ nearly_best sp (INR (size sp) * (t * t) / (2 * m)) y) \/
     (st = DIVERGING_ITERATES /\ exists i, (i < size sp)%nat /\ 10000000000 < Rabs y.[i]) \/
     (st = CALLBACK_REQUESTED_STOP /\ all <> []) \/
     (st = MAX_ITERATIONS_EXCEEDED /\ (o_max o <= Z.of_nat (length ys - 1))%Z) \/
     (st = TIMEOUT /\ exists i j, s_ltb Xn (o_timeout o) (s_sub Xn (e_clock (with_ldl fl E) j) (e_clock (with_ldl fl E) i)) = true)).
Proof. exact (@c97). Qed.
Print Assumptions C97_rate.

(** C97, through Problem::solve(): with no constraints, no callbacks, the optimum within reach and limits that allow K steps,
    where K is [enough], solve() returns SUCCESS and the decision variables hold a nearly optimal point. *)
Theorem C97_solve :
  forall (U : Type) fl (E : env Xn) (o : options Xn) t sp m L, o_tol o = Fin t -> 0 < t -> smooth_everywhere sp -> curved sp m L -> not_steep sp m -> m <= L <= m * 1000000000000000000 ->
  forall K fuel p (u : U) clk, lived sp p -> sp_eqs sp = [] -> sp_ineqs sp = [] -> enough sp m L t K -> near sp m -> (60 < fuel)%nat -> (K < fuel)%nat -> (Z.of_nat K < o_max o)%Z ->
  (forall i, s_ltb Xn (o_timeout o) (s_sub Xn (e_clock (with_ldl fl E) i) (e_clock (with_ldl fl E) clk)) = false) ->
  exists p' y, solve (with_ldl fl E) o fuel [] [] p u clk = Ok (SUCCESS, p') /\ lived (at_point sp y) p' /\ length y = size sp /\ flat sp t y /\
    nearly_best sp (INR (size sp) * (t * t) / (2 * m)) y.
Proof. exact (@c97_solve). Qed.
Print Assumptions C97_solve.

(** C97: some number of steps is always enough. *)
Theorem C97_enough : forall sp m L t, smooth_everywhere sp -> 0 < m <= L -> 0 < t -> exists K, enough sp m L t K.
Proof. exact c97_enough. Qed.
Print Assumptions C97_enough.

(** minimize(x * x + cos(x)) from 2: the second derivative 2 - cos(x) is between 1 and 3. The start is not flat; solve() ends
    with SUCCESS where it is. *)
Example C97_case : exists sp p K p' y, spec_run wavy_ops spec_empty = Some (sp, []) /\ lived sp p /\ smooth_everywhere sp /\ curved sp 1 3 /\ not_steep sp 1 /\ enough sp 1 3 (1 / 2) K /\ near sp 1 /\
  now sp = [2] /\ ~ flat sp (1 / 2) (now sp) /\
  solve (U := unit) ldl_env (opts_y (Z.of_nat K + 1)) (K + 61) [] [] p tt 0 = Ok (SUCCESS, p') /\ lived (at_point sp [y]) p' /\ Rabs (2 * y - sin y) <= 1 / 2.
Proof. exact wavy_run. Qed.
