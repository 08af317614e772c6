(** Specification for C53: the sequence of barrier parameters. *)
From Coq Require Import Reals List.
From Verif Require Import Base ExprModel NumModel SolverModel.
Local Open Scope R_scope.

(** One update: a fifth of the parameter or its power 3/2, whichever is smaller, but not below the floor [k]. *)
Definition next_barrier (k m : R) : R := Rmax k (Rmin (m / 5) (Rpower m (3 / 2))).
(** The parameter after j updates. *)
Definition barrier_after (k : R) (j : nat) (m : R) : R := Nat.iter j (next_barrier k) m.
(** The parameter and the fraction-to-the-boundary factor before and after an iteration: some number of updates, none
    of them at or below the floor. *)
Definition barrier_update (k m t m' t' : R) : Prop :=
  exists j, m' = barrier_after k j m /\ (forall i, (i < j)%nat -> k < barrier_after k i m) /\
    t' = match j with O => t | S _ => Rmax (99 / 100) (1 - m') end.

(** The states at the start of an iteration of a loop. *)
Inductive reaches {S : nops} {St : Type} (err : St -> S) (tol : S) (body : St -> outcome (pass St)) (st0 : St) : St -> Prop :=
| reaches_here : reaches err tol body st0 st0
| reaches_next st st' : reaches err tol body st0 st -> s_ltb S tol (err st) = true -> body st = Ok (Next st') ->
    reaches err tol body st0 st'.

(** The state a pass ends in. *)
Definition state_of {St} (r : pass St) : St := match r with Exit _ st => st | Next st => st end.
