(** Vocabulary for C44, C45: use of one filter. *)
From Coq Require Import ZArith Reals List Bool.
From Verif Require Import ExprModel ExprReal ExprXR NumModel FilterModel.
Import ListNotations.

(** What the solvers do with a filter. *)
Inductive fop (S : nops) := FReset | FTry (cur trial : fentry S) (d a : S).
Arguments FReset {S}.
Arguments FTry {S} cur trial d a.

Definition fstep {S : nops} (f : filter S) (o : fop S) : filter S * bool :=
  match o with FReset => (filter_reset f, false) | FTry cur trial d a => try_add f cur trial d a end.

(** [frun f ops f']: the operations lead from [f] to [f']. *)
Fixpoint frun {S : nops} (f : filter S) (ops : list (fop S)) : filter S :=
  match ops with [] => f | o :: ops => frun (fst (fstep f o)) ops end.

(** [a] is at least as bad as [b] in both respects (IEEE comparisons, so never when a NaN is involved). *)
Definition no_better {S : nops} (a b : fentry S) : Prop :=
  s_leb S (fe_cost b) (fe_cost a) = true /\ s_leb S (fe_viol b) (fe_viol a) = true.

(** Line search use over the reals: the current point of a call is the last point accepted. *)
Inductive linesearch : fentry Rn -> filter Rn -> Prop :=
| ls_new (cur : fentry Rn) (v : R) : (0 <= v)%R -> (0 <= fe_viol cur)%R -> linesearch cur (filter_new (S := Rn) v)
| ls_reset cur f : linesearch cur f -> linesearch cur (filter_reset f)
| ls_reject cur f trial d a f' : linesearch cur f -> try_add f cur trial d a = (f', false) -> linesearch cur f'
| ls_accept cur f (trial : fentry Rn) (d a : R) f' : linesearch cur f -> (0 < a <= 1)%R -> (0 <= fe_viol trial)%R ->
    try_add f cur trial d a = (f', true) -> linesearch trial f'.
