(** For C99: signals during solve() in Python. *)
From Coq Require Import Reals List.
From Verif Require Import Base ExprModel VarModel MathSpec VarSpec ExprReal ExprXR NumModel SolverModel ExitModel ProblemModel ProblemSpec CbModel PySigModel.
Import ListNotations.

(** The callbacks a sequence of add_callback() and clear_callbacks() leaves registered: those added since the last clear. *)
Inductive registered {W : Type} : list (py_op W) -> list (tcallback Xn W) -> Prop :=
| reg_nil : registered [] []
| reg_add ops cbs cb : registered ops cbs -> registered (ops ++ [PyAddCallback cb]) (cbs ++ [cb])
| reg_clear ops cbs : registered ops cbs -> registered (ops ++ [PyClearCallbacks]) [].

(** A signal whose handler raises has come in, and stays so until it is checked for: [held] holds of the process. *)
Record awaits {W : Type} (raises : W -> bool) (cbs : list (tcallback Xn W)) (held : W -> Prop) : Prop := {
  aw_raises : forall w, held w -> raises w = true;
  aw_kept : forall cb i x w, In cb cbs -> held w -> held (fst (cb i x w)) }.

(** The statuses which solve() returns without having computed a step. *)
Definition before_a_step (st : status) : Prop :=
  match st with
  | SUCCESS | CALLBACK_REQUESTED_STOP | TOO_FEW_DOFS | LOCALLY_INFEASIBLE | GLOBALLY_INFEASIBLE | NONFINITE_INITIAL_GUESS | DIVERGING_ITERATES => True
  | FACTORIZATION_FAILED | LINE_SEARCH_FAILED | FEASIBILITY_RESTORATION_FAILED | MAX_ITERATIONS_EXCEEDED | TIMEOUT => False
  end.

(** A callback asked for a stop while a signal was pending. *)
Definition asked_stop {W : Type} (cbs : list (tcallback Xn W)) (held : W -> Prop) : Prop := exists cb i x w, In cb cbs /\ held w /\ snd (cb i x w) = AStop.

(** The problem after solve(), however it ended. *)
Definition after {W : Type} (e : solved W) : prog X_ops := match e with Returned _ p => p | Raised _ p => p end.
(** Each decision variable has the value it had. *)
Definition untouched (sp : spec) (p' : prog X_ops) : Prop :=
  forall j k h, nth_error (se_exp (sp_se sp)) h = Some (XVar k) -> nth_error (sp_dec sp) j = Some k ->
    exists p2, prun [PH (S := X_ops) (HValue h)] p' = Ok (p2, [PVal (S := X_ops) (Fin (se_val (sp_se sp) k))]).
