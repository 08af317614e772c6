(** Signals (Ctrl-C) during solve() in the Python bindings: python/cpp/optimization/bind_problem.cpp 24-41 and 145-153,
    python/cpp/optimization/bind_ocp.cpp 26-38.

    [W] is the state of the Python process.  A check of the signals (PyErr_CheckSignals()) runs the handlers of the signals
    that came in, which leads to [tick w], and fails if one of them raises, [raises w].  Simplification: that [W] changes by
    callbacks and checks alone is no loss, because nothing in solve() reads it in between. *)
From Coq Require Import List Bool.
From Verif Require Import Base ExprModel ExprXR NumModel SolverModel ExitModel ProblemModel ProbSolveModel CbModel.
Import ListNotations.

(** The two Python classes with a solve() method. *)
Inductive py_class := PyProblem | PyOCP.

Section PySig.
Context {W : Type}.
Variables (tick : W -> W) (raises : W -> bool).

(** bind_problem.cpp 33-38: throw nb::python_error() if PyErr_CheckSignals() != 0, else return false. *)
Definition signal_cb : tcallback Xn W := fun _ _ w => (tick w, if raises w then AThrow else AGo).

(** problem.hpp 746-750: m_iteration_callbacks and m_persistent_iteration_callbacks. *)
Record py_obj := mkPy { py_cbs : list (tcallback Xn W); py_persistent : list (tcallback Xn W) }.
(** bind_problem.cpp 27-40: Problem.__init__ adds the persistent callback; bind_ocp.cpp 29-38: OCP.__init__ is the
    constructor of the C++ class. *)
Definition py_new (c : py_class) : py_obj := mkPy [] match c with PyProblem => [signal_cb] | PyOCP => [] end.
(** bind_problem.cpp 145-153, problem.hpp 709-714. *)
Inductive py_op := PyAddCallback (cb : tcallback Xn W) | PyClearCallbacks.
Definition py_step (ob : py_obj) (op : py_op) : py_obj :=
  match op with
  | PyAddCallback cb => mkPy (py_cbs ob ++ [cb]) (py_persistent ob)
  | PyClearCallbacks => mkPy [] (py_persistent ob)
  end.
(** The object after its constructor and a sequence of calls. *)
Definition py_run (c : py_class) (ops : list py_op) : py_obj := fold_left py_step ops (py_new c).
(** bind_problem.cpp 70-112: solve(); problem.hpp 324-331: the persistent callbacks come last. *)
Definition py_solve (E : env Xn) (o : options Xn) (l : leaves E W) (fuel : nat) (ob : py_obj) (p : prog X_ops) (w : W) (clk : nat) : outcome (solved W) :=
  solve_t E o l fuel (py_cbs ob) (py_persistent ob) p w clk.
End PySig.
Arguments py_obj : clear implicits.
Arguments py_op : clear implicits.
