(** C98: a callback that throws ends solve(). *)
From Coq Require Import Reals List.
From Verif Require Import Base ExprModel MathSpec VarModel VarSpec ExprReal ExprXR NumModel SolverModel ExitModel ProblemModel ProblemSpec ProbSolveModel CbModel ProbSolveSpec ProbSolveHist ProbSolveEx ProbSolveKktEx ProbSolveRun RunY QuadEx DownEx CbSpec CbUse CbEx CbEnds.
Import ListNotations.

(** If solve() returns, no callback threw: what a callback does at the calls at which [cbs] would throw is of no
    consequence. *)
Theorem C98_ends {U : Type} (E : env Xn) (o : options Xn) (l : leaves E U) fuel (cbs pcbs cbs' pcbs' : list (tcallback Xn U)) p u clk st p' :
  Forall2 same_unless_thrown cbs cbs' -> Forall2 same_unless_thrown pcbs pcbs' ->
  solve_t E o l fuel cbs pcbs p u clk = Ok (Returned st p') -> solve_t E o l fuel cbs' pcbs' p u clk = Ok (Returned st p').
Proof. exact (@c98_ends U E o l fuel cbs pcbs cbs' pcbs' p u clk st p'). Qed.
Print Assumptions C98_ends.

(** A solve() that returns, and callbacks for which the theorem excludes that: those that always throw may be replaced by any. *)
Example C98_ends_case : same_unless_thrown throwing reading /\ exists sp p fuel clk st p', spec_run bowl_ops spec_empty = Some (sp, []) /\ lived sp p /\
  (forall l, solve_t down_env (opts_y 5) l fuel [reading] [] p [] clk = Ok (Returned st p')).
Proof. exact (conj (fun i x u H => False_ind _ (H eq_refl)) bowl_reads). Qed.
