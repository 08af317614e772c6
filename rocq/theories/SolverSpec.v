(** Specification vocabulary for the solver loops: logs of callback calls, paths of iterates. *)
From Coq Require Import ZArith Reals List Bool.
From Verif Require Import Base ExprModel ExprReal ExprXR NumModel ExitModel SolverModel.
Import ListNotations.

Section Log.
Context {S : nops} {U : Type}.

(** A call of the callback with the given registration number: what it was shown, what it answered. *)
Definition call := (nat * info S * bool)%type.
(** The user's callbacks with a log of their calls. *)
Definition logged (k : nat) (cb : callback S U) : callback S (U * list call) :=
  fun i u => let '(v, b) := cb i (fst u) in ((v, snd u ++ [(k, i, b)]), b).
Fixpoint logged_from (k : nat) (cbs : list (callback S U)) : list (callback S (U * list call)) :=
  match cbs with [] => [] | cb :: cbs => logged k cb :: logged_from (Datatypes.S k) cbs end.
Definition log_all (cbs : list (callback S U)) := logged_from 0 cbs.

(** A round in which all [n] callbacks ran in order and none asked to stop. *)
Definition full_round (n : nat) (i : info S) : list call := map (fun k => (k, i, false)) (seq 0 n).
(** A round in which callback [k] asked to stop: the ones before it ran, the ones after it did not. *)
Definition stopped_round (k : nat) (i : info S) : list call := full_round k i ++ [(k, i, true)].

(** The log of a solve of which callback [k] stopped iteration [last], or which no callback stopped. *)
Definition log_of (n : nat) (infos : list (info S)) (stop : option (nat * info S)) : list call :=
  concat (map (full_round n) infos) ++ match stop with Some (k, i) => stopped_round k i | None => [] end.

(** A sequence of rounds, complete or stopped. *)
Inductive rounds (n : nat) : list call -> Prop :=
| r_nil : rounds n []
| r_full l i : rounds n l -> rounds n (l ++ full_round n i)
| r_stop l k i : rounds n l -> (k < n)%nat -> rounds n (l ++ stopped_round k i).

End Log.
Arguments call : clear implicits.

(** [n] steps of [R] lead from x to y. *)
Inductive path {A} (R : A -> A -> Prop) : nat -> A -> A -> Prop :=
| p_here x : path R 0 x x
| p_step n x y z : path R n x y -> R y z -> path R (Datatypes.S n) x z.
