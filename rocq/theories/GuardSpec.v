(** Specification vocabulary for C66, C67 and C70. *)
From Coq Require Import ZArith Reals List Lia.
From Verif Require Import ExprReal NumModel GuardModel.
Import ListNotations.

(** Who owns action [a] after a history: the object it was created in, passed on by moves, nobody once released or
    run.  Objects and actions are numbered in order of creation. *)
Definition objects (h : list gop) : nat :=
  length (filter (fun o => match o with GNew | GMove _ => true | _ => false end) h).
Definition actions (h : list gop) : nat := length (filter (fun o => match o with GNew => true | _ => false end) h).
Inductive owner : list gop -> nat -> nat -> Prop :=
| own_new h : owner (h ++ [GNew]) (actions h) (objects h)
| own_moved h i a : owner h a i -> owner (h ++ [GMove i]) a (objects h)
| own_keep h o i a : owner h a i -> o <> GMove i -> o <> GRelease i -> o <> GDestroy i -> owner (h ++ [o]) a i.

(** The same for a scoped profiler: it gives its measurement up when stopped as well as when destroyed.  Read as a
    history of guards, stopping is releasing. *)
Definition as_guard (o : sop) : gop :=
  match o with SNew => GNew | SMove i => GMove i | SStop i => GRelease i | SDestroy i => GDestroy i end.
(** The calls a profiler got for measurement [a]. *)
Definition calls_of (a : nat) (log : list (nat * call)) : list call :=
  map snd (filter (fun e => Nat.eqb (fst e) a) log).

(** Times passed between the last start() and each stop(). *)
Fixpoint durations (start : R) (l : list (pop Rn)) : list R :=
  match l with
  | [] => []
  | PStart t :: l => durations t l
  | PStop t :: l => (t - start)%R :: durations start l
  end.
Fixpoint total_of (l : list R) : R := match l with [] => 0%R | d :: l => (d + total_of l)%R end.
