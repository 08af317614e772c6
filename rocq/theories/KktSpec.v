(** Vocabulary for C41, C42, C63: residuals of the KKT conditions over the reals. *)
From Coq Require Import ZArith Reals List Bool.
From Verif Require Import LinR.
Import ListNotations.
Local Open Scope R_scope.

(** Problem data at a point: n variables, me equalities, mi inequalities. *)
Record data := mkData { D_g : list R; D_Ae : list (list R); D_ce : list R; D_Ai : list (list R); D_ci : list R }.
Definition data_ok (n me mi : nat) (d : data) : Prop :=
  length (D_g d) = n /\ wf me n (D_Ae d) /\ length (D_ce d) = me /\ wf mi n (D_Ai d) /\ length (D_ci d) = mi.
(** The j-th component of the gradient of the Lagrangian. *)
Definition stationarity (me mi : nat) (d : data) (y z : nat -> R) (j : nat) : R :=
  (D_g d).[j] - sumn me (fun i => ent (D_Ae d) i j * y i) - sumn mi (fun i => ent (D_Ai d) i j * z i).
(** The factors that excuse large multipliers: max(100, average magnitude) / 100. *)
Definition excuse (sum : R) (count : nat) : R := Rmax 100 (sum / INR count) / 100.
Definition within (n me mi : nat) (d : data) (s y z : nat -> R) (mu t : R) : Prop :=
  let sy := sumn me (fun i => Rabs (y i)) in
  let sz := sumn mi (fun i => Rabs (z i)) in
  (forall j, (j < n)%nat -> Rabs (stationarity me mi d y z j) <= t * excuse (sy + sz) (me + mi)) /\
  (forall i, (i < mi)%nat -> Rabs (s i * z i - mu) <= t * excuse sz mi) /\
  (forall i, (i < me)%nat -> Rabs ((D_ce d).[i]) <= t) /\
  (forall i, (i < mi)%nat -> Rabs ((D_ci d).[i] - s i) <= t).
(** The same without inequality constraints. *)
Definition within_eq (n me : nat) (d : data) (y : nat -> R) (t : R) : Prop :=
  (forall j, (j < n)%nat -> Rabs ((D_g d).[j] - sumn me (fun i => ent (D_Ae d) i j * y i)) <= t * excuse (sumn me (fun i => Rabs (y i))) me) /\
  (forall i, (i < me)%nat -> Rabs ((D_ce d).[i]) <= t).

(** The problem with cost multiplied by f, equality i by de i, inequality i by di i. *)
Definition is_scaled (n me mi : nat) (f : R) (de di : nat -> R) (d d' : data) : Prop :=
  data_ok n me mi d' /\
  (forall j, (j < n)%nat -> (D_g d').[j] = f * (D_g d).[j]) /\
  (forall i, (i < me)%nat -> (D_ce d').[i] = de i * (D_ce d).[i]) /\
  (forall i, (i < mi)%nat -> (D_ci d').[i] = di i * (D_ci d).[i]) /\
  (forall i j, (i < me)%nat -> ent (D_Ae d') i j = de i * ent (D_Ae d) i j) /\
  (forall i j, (i < mi)%nat -> ent (D_Ai d') i j = di i * ent (D_Ai d) i j).

(** C63: squared residual of the stationarity and complementarity equations. *)
Definition sq_residual (n me mi : nat) (d : data) (s : nat -> R) (mu : R) (y z : nat -> R) : R :=
  sumn n (fun j => stationarity me mi d y z j * stationarity me mi d y z j) +
  sumn mi (fun i => (s i * z i - mu) * (s i * z i - mu)).
