(** For C99: signals that come in during solve(). *)
From Coq Require Import List.
From Verif Require Import Base ExprModel ExprXR NumModel SolverModel ExitModel ProblemModel CbModel.
Import ListNotations.

(** No callback asks for a stop while a signal is pending (the answer would be CALLBACK_REQUESTED_STOP then). *)
Definition keep_on {W : Type} (cbs : list (tcallback Xn W)) (held : W -> Prop) : Prop :=
  forall cb i x w, In cb cbs -> held w -> snd (cb i x w) <> AStop.
(** A callback that looks whether a signal is pending and throws if so. *)
Definition watches {W : Type} (pending : W -> bool) (watch : tcallback Xn W) : Prop :=
  (forall i x w, pending w = false -> watch i x w = (w, AGo)) /\ (forall i x w, pending w = true -> snd (watch i x w) = AThrow).
(** Two ends of solve() with the same problem after them, and the same status if there is one. *)
Definition same_end {W : Type} (e e' : solved W) : Prop :=
  match e, e' with Returned st p, Returned st' p' => st = st' /\ p = p' | Raised _ p, Raised _ p' => p = p' | _, _ => False end.
