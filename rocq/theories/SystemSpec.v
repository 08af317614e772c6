(** Specification for C54: the primal-dual system of one interior-point iteration, in index form. *)
From Coq Require Import Reals List.
From Verif Require Import LinR.
Import ListNotations.
Local Open Scope R_scope.

(** The symmetric matrix whose lower triangle is A's. *)
Definition sym (A : list (list R)) (i j : nat) : R := if Nat.leb j i then ent A i j else ent A j i.

(** v solves the system with matrix [tl + delta I, bl^T; bl, -gamma I], of which the lower triangle is given. *)
Definition solves (n me : nat) (delta gamma : R) (tl bl : list (list R)) (v b : list R) : Prop :=
  (forall i, (i < n)%nat -> sumn n (fun j => sym tl i j * nth j v 0) + delta * nth i v 0 + sumn me (fun r => ent bl r i * nth (n + r) v 0) = nth i b 0) /\
  (forall r, (r < me)%nat -> sumn n (fun j => ent bl r j * nth j v 0) - gamma * nth (n + r) v 0 = nth (n + r) b 0).

(** A Newton step for the perturbed KKT conditions: g - Ae^T y - Ai^T z = 0, ce = 0, ci - s = 0, s z = mu, with given
    residuals [ce] and [cis] of the second and third; [delta] and [gamma] are the regularization of the Hessian and of
    the equality constraints (both 0 for a Newton step proper). *)
Definition newton_kkt (n me mi : nat) (delta gamma : R) (H : list (list R)) (Ae Ai : list (list R)) (g ce cis s y z : list R) (mu : R) (px ps py pz : list R) : Prop :=
  (forall i, (i < n)%nat ->
     sumn n (fun j => sym H i j * nth j px 0) + delta * nth i px 0 - sumn me (fun r => ent Ae r i * nth r py 0) - sumn mi (fun r => ent Ai r i * nth r pz 0)
     = - (nth i g 0 - sumn me (fun r => ent Ae r i * nth r y 0) - sumn mi (fun r => ent Ai r i * nth r z 0))) /\
  (forall r, (r < me)%nat -> sumn n (fun j => ent Ae r j * nth j px 0) + gamma * nth r py 0 = - nth r ce 0) /\
  (forall r, (r < mi)%nat -> sumn n (fun j => ent Ai r j * nth j px 0) - nth r ps 0 = - nth r cis 0) /\
  (forall r, (r < mi)%nat -> nth r z 0 * nth r ps 0 + nth r s 0 * nth r pz 0 = mu - nth r s 0 * nth r z 0).
