(** Specification for C36 with feasibility restoration. *)
From Coq Require Import ZArith Reals List Bool.
From Verif Require Import Base ExprModel ExprReal ExprXR NumModel ExitModel SolverModel SolverSpec.
Import ListNotations.

Section Log.
Context {S : nops}.
(** Rounds of [n] callbacks in which a callback that asked to stop was shown something satisfying [inner]. *)
Inductive rounds_but (inner : info S -> Prop) (n : nat) : list (call S) -> Prop :=
| rb_nil : rounds_but inner n []
| rb_full l i : rounds_but inner n l -> rounds_but inner n (l ++ full_round n i)
| rb_stop l k i : rounds_but inner n l -> (k < n)%nat -> inner i -> rounds_but inner n (l ++ stopped_round k i).

(** The calls of a solve over [d] decision variables whose restoration phase has [d'] of them, and which ended with
    status [s]: the solve stopped on request exactly when a callback of the outer loop asked for it. *)
Definition solve_log (n d d' : nat) (s : status) (log : list (call S)) : Prop :=
  (s <> CALLBACK_REQUESTED_STOP -> rounds_but (fun i => length (i_x i) = d') n log) /\
  (s = CALLBACK_REQUESTED_STOP -> exists l k i,
     log = l ++ stopped_round k i /\ rounds_but (fun i => length (i_x i) = d') n l /\ (k < n)%nat /\ length (i_x i) = d).
End Log.
