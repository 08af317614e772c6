(** Specification for C49: constraint satisfaction, partial derivatives of functions of a finite point, and the problem
    feasibility restoration poses. *)
From Coq Require Import Reals List Bool.
From Coquelicot Require Import Coquelicot.
From Verif Require Import Base ExprXR NumModel LinR FinEval.
Import ListNotations.
Local Open Scope R_scope.

(** Equality constraints with values [e] and inequality constraints with values [i] hold. *)
Definition satisfied (e i : list XR) : Prop :=
  List.Forall (fun v => v = Fin 0) e /\ List.Forall (fun v => match v with Fin r => 0 <= r | PInf => True | _ => False end) i.

(** [v] with entry [j] replaced. *)
Definition put (v : list R) (j : nat) (t : R) : list R := firstn j v ++ t :: skipn (S j) v.
(** [h] is finite along coordinate [j] through the point [v], and [d] is its derivative there. *)
Definition has_partial (h : list XR -> XR) (v : list R) (j : nat) (d : XR) : Prop :=
  exists F r, (forall t, h (fv (put v j t)) = Fin (F t)) /\ is_derive F (nth j v 0) r /\ d = Fin r.

(** [A] is the Jacobian of [c], both m functions of n variables; [c] is finite at finite points. *)
Definition jacobian_of (n m : nat) (c : list XR -> list XR) (A : list XR -> list (list XR)) : Prop :=
  forall x : list R, length x = n ->
    length (c (fv x)) = m /\ length (A (fv x)) = m /\ (forall r, In r (A (fv x)) -> length r = n) /\
    forall i, (i < m)%nat -> (exists v, nth i (c (fv x)) NaN = Fin v) /\
      forall j, (j < n)%nat -> has_partial (fun w => nth i (c w) NaN) x j (nth j (nth i (A (fv x)) []) NaN).
Definition gradient_of (n : nat) (f : list XR -> XR) (g : list XR -> list XR) : Prop :=
  forall x : list R, length x = n -> length (g (fv x)) = n /\ forall j, (j < n)%nat -> has_partial f x j (nth j (g (fv x)) NaN).

(** The gradient of the Lagrangian f - y ce - z ci, entry [i]. *)
Definition lag_grad (n : nat) (g : list XR -> list XR) (Ae Ai : list XR -> list (list XR)) (y z : list R) (i : nat) (w : list XR) : XR :=
  nth i (vsub (S := Xn) (vsub (S := Xn) (g w) (mtvec (S := Xn) n (Ae w) (fv y))) (mtvec (S := Xn) n (Ai w) (fv z))) NaN.
(** [H] is the Hessian of the Lagrangian. *)
Definition hessian_of (n me mi : nat) (g : list XR -> list XR) (Ae Ai : list XR -> list (list XR))
    (H : list XR -> list XR -> list XR -> list (list XR)) : Prop :=
  forall x y z : list R, length x = n -> length y = me -> length z = mi ->
    forall i j, (i < n)%nat -> (j < n)%nat -> has_partial (lag_grad n g Ae Ai y z i) x j (nth j (nth i (H (fv x) (fv y) (fv z)) []) NaN).

(** min(1, 1 / x^2), which is 1 for x = 0. *)
Definition nearness (x : R) : R := if Rle_dec (x * x) 1 then 1 else / (x * x).
(** The cost: 1000 times the sum of the [k] relaxation variables and zeta / 2 times the weighted squared distance. *)
Definition restoration_cost (n k : nat) (xr : list R) (zeta : R) (v : list R) : R :=
  1000 * sumn k (fun i => nth (n + i) v 0) + zeta / 2 * sumn n (fun j => nearness (nth j xr 0) * (nth j v 0 - nth j xr 0) ^ 2).
(** How far constraint values are from being satisfied. *)
Definition violation (e i : list R) : R := sumn (length e) (fun r => Rabs (nth r e 0)) + sumn (length i) (fun r => Rmax 0 (- nth r i 0)).
