(** Specification vocabulary for C68. *)
From Coq Require Import ZArith Reals List.
From Verif Require Import ExprReal NumModel UtilModel.
Import ListNotations.
Local Open Scope Z_scope.

(** Fits a signed 32-bit integer. *)
Definition fits (z : Z) : Prop := - 2 ^ 31 <= z < 2 ^ 31.
Definition string_ok (s : list Z) : Prop := fits (Z.of_nat (length s)).
Definition matrix_ok (m : @csc Rn) : Prop :=
  fits (Z.of_nat (length (concat (c_cols m)))) /\ fits (Z.of_nat (length (c_cols m))) /\
  forall col r v, In col (c_cols m) -> In (r, v) col -> fits (Z.of_nat r).

Inductive sign_is : R -> Z -> Prop :=
| sign_pos v : (0 < v)%R -> sign_is v 1
| sign_neg v : (v < 0)%R -> sign_is v (-1)
| sign_zero : sign_is 0%R 0.

(** [recorded k cols f]: [f] lists the entries of the columns, the first of which has index [k], with their signs. *)
Inductive recorded : Z -> list (list (nat * R)) -> list (Z * Z * Z) -> Prop :=
| rec_nil k : recorded k [] []
| rec_col k cols f : recorded (k + 1) cols f -> recorded k ([] :: cols) f
| rec_entry k r v s col cols f : sign_is v s -> recorded k (col :: cols) f ->
    recorded k (((r, v) :: col) :: cols) ((Z.of_nat r, k, s) :: f).
