(** Scalars and small dense linear algebra as the solvers use them.

    Scalars are an [sops] plus std::isfinite.  Decimal literals such as 1e-4 are exact quotients of integers
    (simplification: the double nearest to the literal is not modelled).  Vectors are lists; sums are taken
    left to right from zero (simplification: Eigen may reassociate sums). *)
From Coq Require Import ZArith Reals List Bool.
From Verif Require Import ExprModel ExprReal ExprXR.
Import ListNotations.

(** A scalar type with std::isfinite. *)
Record nops := mkNops { nbase :> sops; s_finite : nbase -> bool }.
(** The reals, and the reals with infinities and NaN. *)
Definition Rn : nops := mkNops R_ops (fun _ => true).
Definition Xn : nops := mkNops X_ops (fun x => match x with Fin _ => true | _ => false end).

Section Num.
Context {S : nops}.
Notation "0" := (s_ofZ S 0).
Notation "1" := (s_ofZ S 1).
Infix "+" := (s_add S).
Infix "-" := (s_sub S).
Infix "*" := (s_mul S).
Infix "/" := (s_div S).
Infix "<?" := (s_ltb S).

(** The literal m * 10^-k. *)
Definition lit (m : Z) (k : nat) : S := s_div S (s_ofZ S m) (s_ofZ S (Z.pow 10 (Z.of_nat k))).

(** std::max, std::min: the first argument unless the other is larger (smaller). *)
Definition smax (a b : S) : S := if a <? b then b else a.
Definition smin (a b : S) : S := if b <? a then b else a.

(** Eigen reductions and coefficient-wise operations. *)
Definition vsum (v : list S) : S := fold_left (s_add S) v 0.
Definition norm1 (v : list S) : S := vsum (map (s_abs S) v).
Definition norm2 (v : list S) : S := s_sqrt S (vsum (map (fun x => x * x) v)).
(** lpNorm<Infinity>: the largest absolute value, 0 for an empty vector; the running maximum starts from the
    first coefficient (simplification: what Eigen's maxCoeff does with a NaN in a later position is unspecified;
    here it is passed over, while a NaN in first position is the result). *)
Definition norminf (v : list S) : S :=
  match v with [] => 0 | x :: v => fold_left (fun m x => smax m (s_abs S x)) v (s_abs S x) end.
Definition vmap2 (f : S -> S -> S) (a b : list S) : list S := map (fun p => f (fst p) (snd p)) (combine a b).
Definition vadd := vmap2 (s_add S).
(** a - b of vectors. *)
Definition vsub := vmap2 (s_sub S).
(** Scalar times vector. *)
Definition vscale (a : S) (v : list S) : list S := map (s_mul S a) v.
(** a.dot(b). *)
Definition vdot (a b : list S) : S := vsum (vmap2 (s_mul S) a b).
(** allFinite(), all_finite.hpp 14-27. *)
Definition all_fin (v : list S) : bool := forallb (s_finite S) v.

(** Matrices are lists of rows with [n] columns. *)
Definition mat := list (list S).
Definition mvec (A : mat) (x : list S) : list S := map (fun r => vdot r x) A.
(** A^T y. *)
Definition mtvec (n : nat) (A : mat) (y : list S) : list S :=
  fold_left vadd (map (fun p => vscale (snd p) (fst p)) (combine A y)) (repeat 0 n).

End Num.
