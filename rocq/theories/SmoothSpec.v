(** Vocabulary for C80: where what the user wrote is smooth, and partial derivatives of the user's functions. *)
From Coq Require Import ZArith Reals List.
From Coquelicot Require Import Coquelicot.
From Verif Require Import Base ExprModel MathSpec DiffSpec.
Import ListNotations.
Open Scope R_scope.

(** [XSm rho e v]: at the point [rho] the expression has the value [v] and every operation in it is used at a point where
    it is smooth (powers: a positive base, or a constant integer exponent). *)
Inductive XSm (rho : nat -> R) : uexp -> R -> Prop :=
| XSm_var k : XSm rho (XVar k) (rho k)
| XSm_const c : XSm rho (XConst c) c
| XSm_un u e x v : XSm rho e x -> math_un u x v -> regular_un u x -> ~ kink_un u x -> XSm rho (XUn u e) v
| XSm_bin b e f x y v : XSm rho e x -> XSm rho f y -> math_bin b x y v ->
    (regular_bin b x y \/ (b = BPow /\ (exists c, f = XConst c) /\ int_power x y)) -> ~ kink_bin b x y -> XSm rho (XBin b e f) v.

(** A function of the user's variables, as a relation between points and values. *)
Definition ufun := (nat -> R) -> R -> Prop.

(** The partial derivative with respect to variable [k]; it is a function again. *)
Definition pd (k : nat) (F : ufun) : ufun := fun rho d => derivative_at (fun t v => F (upd rho k t) v) (rho k) d.
