(** C99: signals that come in during solve(). *)
From Coq Require Import Reals List.
From Verif Require Import Base ExprModel MathSpec VarModel VarSpec ExprReal ExprXR NumModel SolverModel ExitModel ProblemModel ProblemSpec ProbSolveModel ProbSolveHist CbModel ProbSolveKktEx RunY QuadEx DownEx
  PySigModel PySigSpec PySigEx PyDuringSpec PyDuringProofs.
Import ListNotations.
Local Open Scope nat_scope.

(** Problem.solve() ends in the first iteration that begins with a signal pending whose handler raises: it ends as it would
    if something looked for such signals at the beginning of each iteration, and threw at once; with the same problem and
    values after it. *)
Theorem C99_during {W : Type} (E : env Xn) (o : options Xn) (l : leaves E W) (tick : W -> W) (raises : W -> bool) fuel ops cbs pending watch p w clk e :
  registered ops cbs -> awaits raises cbs (fun w => pending w = true) -> keep_on cbs (fun w => pending w = true) -> watches pending watch ->
  py_solve E o l fuel (py_run tick raises PyProblem ops) p w clk = Ok e ->
  exists e', solve_t E o l fuel (watch :: cbs) [signal_cb tick raises] p w clk = Ok e' /\ same_end e e'.
Proof. exact (c99_during E o l tick raises fuel ops cbs pending watch p w clk e). Qed.
Print Assumptions C99_during.

(** A signal that comes in while a callback runs in the first iteration. *)
Example C99_during_case : registered script [counting] /\ awaits late [counting] (fun w => late w = true) /\ keep_on [counting] (fun w => late w = true) /\ watches late guard /\
  exists sp p fuel clk p', spec_run bowl_ops spec_empty = Some (sp, []) /\ lived sp p /\
  forall l, py_solve far_env (opts_y 5) l (S fuel) (py_run idle late PyProblem script) p [] clk = Ok (Raised [0] p').
Proof. exact (conj script_registered (conj late_awaits (conj late_keeps (conj guard_watches bowl_late)))). Qed.
