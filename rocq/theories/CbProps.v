(** C98: callbacks that read the decision variables, and exceptions that leave solve(). *)
From Coq Require Import Reals List.
From Verif Require Import Base ExprModel MathSpec VarModel VarSpec ExprReal ExprXR NumModel SolverModel ExitModel ProblemModel ProblemSpec ProbSolveModel CbModel ProbSolveSpec ProbSolveHist ProbSolveEx ProbSolveKktEx ProbSolveRun RunY QuadEx DownEx EarlySpec CbSpec CbUse CbEx.
Import ListNotations.
Local Open Scope R_scope.

(** At every call of a callback, feasibility restoration included, the decision variables hold the first entries of
    info.x: a callback that reads them does what it would do with info.x, and what the line searches left in them
    ([l]) does not matter. *)
Theorem C98_reads {U : Type} (E : env Xn) (o : options Xn) (l : leaves E U) fuel (cbs pcbs : list (tcallback Xn U)) sp p u clk :
  lived sp p -> Forall never_throws cbs -> Forall never_throws pcbs -> let n := length (sp_dec sp) in
  solve_t E o l fuel cbs pcbs p u clk = returns (solve E o fuel (map (reads_info n) cbs) (map (reads_info n) pcbs) p u clk).
Proof. exact (@c98_reads E o U l fuel cbs pcbs sp p u clk). Qed.
Print Assumptions C98_reads.

(** The same with callbacks that may throw. *)
Theorem C98_same {U : Type} (E : env Xn) (o : options Xn) (l l' : leaves E U) fuel (cbs pcbs cbs' pcbs' : list (tcallback Xn U)) sp p u clk :
  lived sp p -> let n := length (sp_dec sp) in Forall2 (agree n) cbs cbs' -> Forall2 (agree n) pcbs pcbs' ->
  solve_t E o l fuel cbs pcbs p u clk = solve_t E o l' fuel cbs' pcbs' p u clk.
Proof. exact (@c98_same E o U l l' fuel cbs pcbs cbs' pcbs' sp p u clk). Qed.
Print Assumptions C98_same.

(** An exception leaves solve() only if a callback threw it; the decision variables hold the iterate that callback was
    shown, all of it finite; the problem is as it was otherwise, and whatever is proved about histories holds after it. *)
Theorem C98_exception {U : Type} (E : env Xn) (o : options Xn) (l : leaves E U) fuel (cbs pcbs : list (tcallback Xn U)) sp p u clk v p' :
  lived sp p -> solve_t E o l fuel cbs pcbs p u clk = Ok (Raised v p') ->
  exists cb (i : info Xn) u0 y, In cb (cbs ++ pcbs) /\ firstn (length (sp_dec sp)) (i_x i) = map Fin y /\ length y = length (sp_dec sp) /\ cb i (map Fin y) u0 = (v, AThrow) /\
    lived (at_point sp y) p' /\
    forall j k h, nth_error (se_exp (sp_se sp)) h = Some (XVar k) -> nth_error (sp_dec sp) j = Some k ->
      exists p2, prun [PH (S := X_ops) (HValue h)] p' = Ok (p2, [PVal (S := X_ops) (nth j (map Fin y) NaN)]).
Proof. exact (@c98_threw E o U l fuel cbs pcbs sp p u clk v p'). Qed.
Print Assumptions C98_exception.

Example C98_reads_case : never_throws reading /\ exists sp p fuel clk st p', spec_run bowl_ops spec_empty = Some (sp, []) /\ lived sp p /\
  (forall l, solve_t down_env (opts_y 5) l fuel [reading] [] p [] clk = Ok (Returned st p')).
Proof. exact (conj reading_goes bowl_reads). Qed.
Example C98_exception_case : exists sp p fuel clk p', spec_run bowl_ops spec_empty = Some (sp, []) /\ lived sp p /\ now sp = [1; 2] /\
  (forall l, solve_t far_env (opts_y 5) l fuel [throwing] [reading] p [] clk = Ok (Raised [map Fin [1; 2]] p')) /\ lived (at_point sp [1; 2]) p'.
Proof. exact bowl_threw. Qed.
