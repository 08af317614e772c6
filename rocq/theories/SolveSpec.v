(** Determinant by cofactor expansion along the first row, and solutions of linear systems. *)
From Coq Require Import ZArith Reals.
From Verif Require Import MatrixSpec.
Open Scope Z_scope.

Fixpoint det (n : nat) (F : Z -> Z -> R) : R :=
  match n with
  | O => 1%R
  | S n' => Rsum n (fun j => ((-1) ^ j * F 0%Z (Z.of_nat j) *
              det n' (fun r c => F (r + 1)%Z (if c <? Z.of_nat j then c else c + 1)%Z))%R)
  end.

(** The n x p matrix [X] solves [F X = G]. *)
Definition solves (n p : Z) (F X G : Z -> Z -> R) : Prop :=
  forall i j, inr n p i j -> Rsum (Z.to_nat n) (fun k => F i (Z.of_nat k) * X (Z.of_nat k) j)%R = G i j.
