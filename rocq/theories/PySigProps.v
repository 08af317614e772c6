(** C99: signals during solve() in Python. *)
From Coq Require Import Reals List.
From Verif Require Import Base ExprModel MathSpec VarModel VarSpec ExprReal ExprXR NumModel SolverModel ExitModel ProblemModel ProblemSpec ProbSolveModel ProbSolveHist CbModel ProbSolveKktEx RunY QuadEx DownEx OcpModel OcpSpec OcpEx PySigModel PySigSpec PySigProofs PySigUse PySigEx.
Import ListNotations.
Local Open Scope nat_scope.

(** Ctrl-C stops Problem.solve() before it makes a step, whatever callbacks were added and cleared: if a signal whose
    handler raises has come in, solve() ends within its first iteration, the decision variables keep their values, and
    it returns a status only where the solver or another callback ends it before it looks for signals. *)
Theorem C99_interrupt {W : Type} (E : env Xn) (o : options Xn) (l : leaves E W) (tick : W -> W) (raises : W -> bool) fuel ops cbs held sp p w clk r :
  lived sp p -> prepare p = Ok r -> registered ops cbs -> awaits raises cbs held -> held w ->
  exists e, py_solve E o l (S fuel) (py_run tick raises PyProblem ops) p w clk = Ok e /\ untouched sp (after e) /\
    forall st p', e = Returned st p' -> before_a_step st /\ (st = CALLBACK_REQUESTED_STOP -> asked_stop cbs held).
Proof. exact (c99_interrupt E o l tick raises fuel ops cbs held sp p w clk r). Qed.
Print Assumptions C99_interrupt.

(** Looking for signals does not change the answer: where solve() returns, it returns what it would have if no handler
    had raised. *)
Theorem C99_quiet {W : Type} (E : env Xn) (o : options Xn) (l : leaves E W) (tick : W -> W) (raises : W -> bool) fuel c (ops : list (py_op W)) p w clk st p' :
  py_solve E o l fuel (py_run tick raises c ops) p w clk = Ok (Returned st p') ->
  py_solve E o l fuel (py_run tick (fun _ => false) c ops) p w clk = Ok (Returned st p').
Proof. exact (c99_quiet E o l tick raises fuel c ops p w clk st p' (all_registered ops)). Qed.
Print Assumptions C99_quiet.

(** OCP.solve() cannot be interrupted: OCP.__init__ does not register the check.  An OCP transcribed by single shooting,
    with a signal pending throughout: solve() moves the inputs from (1, 2) to (0, 0) and returns SUCCESS. *)
Theorem C99_ocp_refuted : exists ob g sp p fuel clk p',
  ocp_make 1 1 (1 / 2)%R 1 integrator DISCRETE FIXED SINGLE_SHOOTING (mkGen 0 0 []) = Ok (ob, g) /\ v_at (o_U ob) = [0; 1] /\
  spec_run (g_code g ++ coast_goal) spec_empty = Some (sp, []) /\ lived sp p /\ (se_val (sp_se sp) 0%nat = 1 /\ se_val (sp_se sp) 1%nat = 2)%R /\
  forall l w, py_solve far_env (opts_y 5) l fuel (py_run idle always PyOCP []) p w clk = Ok (Returned SUCCESS p') /\
    forall h, h = 0 \/ h = 1 -> exists p2, prun [PH (S := X_ops) (HValue h)] p' = Ok (p2, [PVal (S := X_ops) (Fin 0%R)]).
Proof. exact c99_ocp. Qed.
Print Assumptions C99_ocp_refuted.

Example C99_interrupt_case : registered script [counting] /\ awaits always [counting] (fun _ => True) /\
  exists sp p fuel clk p', spec_run bowl_ops spec_empty = Some (sp, []) /\ lived sp p /\ (exists r, prepare p = Ok r) /\
  forall l, py_solve far_env (opts_y 5) l (S fuel) (py_run idle always PyProblem script) p [] clk = Ok (Raised [0] p').
Proof. exact (conj script_registered (conj script_awaits bowl_interrupted)). Qed.
