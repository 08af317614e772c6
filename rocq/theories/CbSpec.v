(** For C98: callbacks that read the decision variables, and callbacks that throw. *)
From Coq Require Import List.
From Verif Require Import Base ExprModel ExprXR NumModel SolverModel ExitModel ProblemModel CbModel.
Import ListNotations.

(** The callback that, instead of reading the [n] decision variables, takes the first [n] entries of info.x. *)
Definition reads_info {S : nops} {U : Type} (n : nat) (cb : tcallback S U) : callback S U :=
  fun i u => let '(v, a) := cb i (firstn n (i_x i)) u in (v, match a with AStop => true | _ => false end).
Definition never_throws {S : nops} {U : Type} (cb : tcallback S U) : Prop := forall i x u, snd (cb i x u) <> AThrow.
(** Two callbacks that do the same whenever the [n] decision variables hold the first [n] entries of info.x. *)
Definition agree {S : nops} {U : Type} (n : nat) (cb cb' : tcallback S U) : Prop := forall i u, cb i (firstn n (i_x i)) u = cb' i (firstn n (i_x i)) u.
(** A run that returns, as one of the two ways in which solve() can end. *)
Definition returns {U : Type} (m : outcome (status * prog X_ops)) : outcome (solved U) := let* (st, p) := m in Ok (Returned st p).
(** A callback that does what [cb] does wherever [cb] does not throw. *)
Definition same_unless_thrown {S : nops} {U : Type} (cb cb' : tcallback S U) : Prop := forall i x u, snd (cb i x u) <> AThrow -> cb' i x u = cb i x u.
