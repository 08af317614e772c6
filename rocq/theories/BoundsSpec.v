(** Specification vocabulary for C37-C39. *)
From Coq Require Import ZArith Reals List Bool.
From Verif Require Import Base ExprXR BoundsModel.
Import ListNotations.
Local Open Scope R_scope.

(** c(x) >= 0 holds at the real point [x]. *)
Definition satisfied (c : constr) (x : list R) : Prop := exists r, k_value c (map Fin x) = Fin r /\ 0 <= r.

(** A linear constraint whose row stores the single variable [i]. *)
Definition bound_on (c : constr) (i : nat) : Prop := k_linear c = true /\ exists a, k_row c = [(i, a)].

(** c is a * x_i + b with a <> 0, and its row stores that a.  It reads x_i only: the other coordinates may hold
    anything. *)
Definition affine_in (n : nat) (c : constr) (i : nat) (a b : R) : Prop :=
  (i < n)%nat /\ k_row c = [(i, Fin a)] /\ a <> 0 /\
  forall x r, length x = n -> nth_error x i = Some (Fin r) -> k_value c x = Fin (a * r + b).

(** A linear constraint stores several variables, or is affine in the one it stores. *)
Definition proper (n : nat) (c : constr) : Prop :=
  k_linear c = true -> (exists i a b, affine_in n c i a b) \/ (2 <= length (k_row c))%nat.

(** v lies between the bounds. *)
Definition above (l : XR) (v : R) : Prop := match l with Fin l => l <= v | MInf => True | _ => False end.
Definition below (v : R) (u : XR) : Prop := match u with Fin u => v <= u | PInf => True | _ => False end.
Definition inside (b : XR * XR) (v : R) : Prop := above (fst b) v /\ below v (snd b).

(** Strictly between. *)
Definition strictly_above (l : XR) (v : R) : Prop := match l with Fin l => l < v | MInf => True | _ => False end.
Definition strictly_below (v : R) (u : XR) : Prop := match u with Fin u => v < u | PInf => True | _ => False end.

(** A lower bound is not +inf, an upper bound not -inf, and they are ordered. *)
Definition interval (b : XR * XR) : Prop :=
  match b with
  | (Fin l, Fin u) => l <= u
  | (Fin _, PInf) | (MInf, Fin _) | (MInf, PInf) => True
  | _ => False
  end.
(** A point strictly between exists. *)
Definition roomy (b : XR * XR) : Prop := match b with (Fin l, Fin u) => l < u | _ => True end.

(** At least [k] times max(1, |bound|) away from each finite bound. *)
Definition clear (k : R) (b : XR * XR) (v : R) : Prop :=
  (forall l, fst b = Fin l -> l + k * Rmax 1 (Rabs l) <= v) /\ (forall u, snd b = Fin u -> v <= u - k * Rmax 1 (Rabs u)).
