(** The real-number instance of the Scalar operations (no rounding, no infinities, no NaN).
    Each entry says which C++ function it stands for. *)
From Coq Require Import ZArith Reals Lra.
From Coquelicot Require Import Coquelicot.
From Verif Require Import ExprModel.
Open Scope R_scope.

Definition R_eqb (x y : R) : bool := if Req_EM_T x y then true else false.
Definition R_ltb (x y : R) : bool := if Rlt_dec x y then true else false.
Definition R_leb (x y : R) : bool := if Rle_dec x y then true else false.

(** cbrt *)
Definition R_cbrt (x : R) : R :=
  if Req_EM_T x 0 then 0 else if Rlt_dec 0 x then Rpower x (1/3) else - Rpower (- x) (1/3).
(** erf *)
Definition R_erf (x : R) : R := 2 / sqrt PI * RInt (fun t => exp (- (t * t))) 0 x.
(** atan2(y, x) *)
Definition R_atan2 (y x : R) : R :=
  if Rlt_dec 0 x then atan (y / x)
  else if Rlt_dec 0 y then PI / 2 - atan (x / y)
  else if Rlt_dec y 0 then - (PI / 2) - atan (x / y)
  else if Rlt_dec x 0 then PI else 0.
(** hypot *)
Definition R_hypot (x y : R) : R := sqrt (x * x + y * y).
(** pow: integer exponents by repeated multiplication, other exponents for nonnegative bases. *)
Definition R_pow (b p : R) : R :=
  if Req_EM_T (IZR (Int_part p)) p then powerRZ b (Int_part p)
  else if Req_EM_T b 0 then 0 else Rpower b p.
Definition R_log10 (x : R) : R := ln x / ln 10.

Definition R_ops : sops := {|
  car := R;
  s_ofZ := IZR;
  s_add := Rplus; s_sub := Rminus; s_mul := Rmult; s_div := Rdiv; s_opp := Ropp;
  s_eqb := R_eqb; s_ltb := R_ltb; s_leb := R_leb;
  s_abs := Rabs; s_acos := acos; s_asin := asin; s_atan := atan; s_atan2 := R_atan2;
  s_cbrt := R_cbrt; s_cos := cos; s_cosh := cosh; s_erf := R_erf; s_exp := exp; s_hypot := R_hypot;
  s_log := ln; s_log10 := R_log10; s_pow := R_pow; s_sin := sin; s_sinh := sinh; s_sqrt := sqrt;
  s_tan := tan; s_tanh := tanh;
  s_pi := PI; s_2isqrtpi := 2 / sqrt PI; s_ln10 := ln 10;
|}.
