(** Specification vocabulary for C57. *)
From Coq Require Import Reals List.
From Verif Require Import ExprReal NumModel ExitModel MultiModel.
Import ListNotations.
Local Open Scope R_scope.

Definition succeeded {V} (r : mresult Rn V) : Prop := m_status r = SUCCESS.
Definition cost {V} (r : mresult Rn V) : R := m_cost r.

(** The result the documentation promises: the cheapest success, or the cheapest result if none succeeded. *)
Definition best {V} (rs : list (mresult Rn V)) (r : mresult Rn V) : Prop :=
  In r rs /\
  ((exists r', In r' rs /\ succeeded r') -> succeeded r /\ forall r', In r' rs -> succeeded r' -> cost r <= cost r') /\
  ((forall r', In r' rs -> ~ succeeded r') -> forall r', In r' rs -> cost r <= cost r').

(** No failed run is cheaper than a successful one. *)
Definition failures_dearer {V} (rs : list (mresult Rn V)) : Prop :=
  forall a b, In a rs -> In b rs -> succeeded a -> ~ succeeded b -> cost a <= cost b.
