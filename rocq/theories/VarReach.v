(** Histories: which statements make sense, and the states they lead to. *)
From Coq Require Import ZArith List.
From Verif Require Import Base ExprModel VarModel.
Import ListNotations.

Section Reach.
Context {S : sops}.

(** Every variable a statement mentions exists. *)
Definition in_scope (n : nat) (o : hop S) : Prop :=
  match o with
  | HNew | HConst _ => True
  | HUn _ i | HCopy i | HAssignScalar i _ | HSet i _ | HValue i => i < n
  | HBin _ i j | HAssign i j => i < n /\ j < n
  | HHypot3 i j k => i < n /\ j < n /\ k < n
  end.

(** A history: states reachable by statements whose variables exist. *)
Inductive hreach : henv -> st S -> Prop :=
| hreach_0 : hreach [] (st_empty S)
| hreach_step o e s e' s' out : hreach e s -> in_scope (length e) o -> hstep o e s = Ok (e', s', out) ->
    hreach e' s'.

End Reach.

(** Values observed by a run from the empty program. *)
Definition observes {S : sops} (l : list (hop S)) (out : list S) : Prop :=
  exists e s, hrun l [] (st_empty S) = Ok (e, s, out).
