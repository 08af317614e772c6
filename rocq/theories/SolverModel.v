(** What the three solvers share (include/sleipnir/optimization/solver): options, iteration callbacks, the clock,
    the linear solver, and the outer loop.

    Problem functions are functions of the point (simplification: C++ callbacks may keep state; the ones
    Problem::solve() builds are functions of the point, see C18 and C27).  The profilers and the diagnostics printed
    when options.diagnostics is set are left out: they do not touch the iterates.  Matrices are dense lists of rows
    (simplification: the code stores them sparsely), so all_finite looks at every entry.  [int iterations] is an
    unbounded integer. *)
From Coq Require Import ZArith List Bool.
From Verif Require Import Base ExprModel NumModel ExitModel.
Import ListNotations.

Section Solver.
Context {S : nops}.
Infix "<?" := (s_ltb S).

(** options.hpp 13-38 (diagnostics left out). *)
Record options := mkOpt { o_tol : S; o_max : Z; o_timeout : S; o_feasible : bool }.

(** iteration_info.hpp 14-41. *)
Record info := mkInfo {
  i_iter : Z; i_x : list S; i_s : list S; i_y : list S; i_z : list S;
  i_g : list S; i_H : mat (S := S); i_Ae : mat (S := S); i_Ai : mat (S := S) }.

(** std::function<bool(const IterationInfo&)>: reads and writes a state [U] of the user's choice. *)
Definition callback (U : Type) := info -> U -> U * bool.
(** newton.hpp 173-178, sqp.hpp 280-285, interior_point.hpp 413-418. *)
Fixpoint run_callbacks {U} (cbs : list (callback U)) (i : info) (u : U) : U * bool :=
  match cbs with
  | [] => (u, false)
  | cb :: cbs => let '(u, b) := cb i u in if b then (u, true) else run_callbacks cbs i u
  end.

(** The matrix handed to the linear solver: [tl, (bottom-left)^T; bottom-left, 0], of which only the lower triangle
    is read. *)
Record kkt := mkKkt { k_tl : mat (S := S); k_bl : mat (S := S) }.
(** RegularizedLDLT (regularized_ldlt.hpp): construction from the numbers of variables and constraints and whether
    the constraint regularization is forced to zero, compute() with whether info() is Success, solve().  Nothing is
    assumed about it here; C46 and C47 are about it. *)
Record linear := mkLin {
  ls_t : Type;
  ls_new : nat -> nat -> bool -> ls_t;
  ls_compute : ls_t -> kkt -> ls_t * bool;
  ls_solve : ls_t -> list S -> list S }.

(** The world outside the solver: the linear solver, steady_clock (the value of the n-th reading), and the
    factorization used for multiplier estimates. *)
Record env := mkEnv { e_lin : linear; e_clock : nat -> S; e_est : mat (S := S) -> list S -> list S }.

(** newton.hpp 165-168, sqp.hpp 272-275. *)
Definition diverging (x : list S) : bool := (s_ofZ S 10000000000 <? norminf x) || negb (all_fin x).
Definition mat_fin (A : mat (S := S)) : bool := forallb all_fin A.
Definition vneg (v : list S) : list S := map (s_opp S) v.
(** x + a p. *)
Definition vstep (x : list S) (a : S) (p : list S) : list S := vadd x (vscale a p).

(** slp_assert on the sizes of what the problem functions return. *)
Definition mat_dims (r c : nat) (A : mat (S := S)) : bool := Nat.eqb (length A) r && forallb (fun w => Nat.eqb (length w) c) A.
Definition vec_dim (r : nat) (v : list S) : bool := Nat.eqb (length v) r.

(** One pass through a solver's loop body: return a status, or go round again. *)
Inductive pass (St : Type) := Exit (s : status) (st : St) | Next (st : St).
Arguments Exit {St}. Arguments Next {St}.

(** newton.hpp 161-289, sqp.hpp 259-595, interior_point.hpp 382-865: the loop [while (E_0 > tolerance)]. *)
Fixpoint drive {St} (err : St -> S) (tol : S) (body : St -> outcome (pass St)) (fuel : nat) (st : St) : outcome (status * St) :=
  match fuel with
  | O => OutOfFuel
  | Datatypes.S fuel =>
      if tol <? err st then
        let* r := body st in
        match r with Exit s st => Ok (s, st) | Next st => drive err tol body fuel st end
      else Ok (SUCCESS, st)
  end.

(** newton.hpp 276-286, sqp.hpp 582-592, interior_point.hpp 852-862: the limits at the end of an iteration; [it] is
    already incremented.  Also the number of clock readings so far. *)
Definition limits (o : options) (clock : nat -> S) (start : S) (it : Z) (clk : nat) : option status * nat :=
  if Z.leb (o_max o) it then (Some MAX_ITERATIONS_EXCEEDED, clk)
  else (if o_timeout o <? s_sub S (clock clk) start then Some TIMEOUT else None, Datatypes.S clk).
Definition finish {St} (l : option status) (st : St) : pass St :=
  match l with Some s => Exit s st | None => Next st end.

End Solver.
Arguments options : clear implicits.
Arguments info : clear implicits.
Arguments callback : clear implicits.
Arguments linear : clear implicits.
Arguments env : clear implicits.
Arguments kkt : clear implicits.
Arguments Exit {St}. Arguments Next {St}.
