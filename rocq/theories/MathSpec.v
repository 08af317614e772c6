(** The mathematics the user writes: operators as functions on the reals with their domains, expression
    trees, and their values.  Nothing here mentions the model of the code except the operator names. *)
From Coq Require Import ZArith Reals List.
From Coquelicot Require Import Coquelicot.
From Verif Require Import ExprModel.
Import ListNotations.
Open Scope R_scope.

(** [math_un u x y]: operator [u] is defined at [x] and has value [y] there. *)
Inductive math_un : uop -> R -> R -> Prop :=
| M_neg x : math_un UNeg x (- x)
| M_abs x : math_un UAbs x (Rabs x)
| M_acos x y : -1 <= x <= 1 -> 0 <= y <= PI -> cos y = x -> math_un UAcos x y
| M_asin x y : -1 <= x <= 1 -> - (PI / 2) <= y <= PI / 2 -> sin y = x -> math_un UAsin x y
| M_atan x y : - (PI / 2) < y < PI / 2 -> tan y = x -> math_un UAtan x y
| M_cbrt x y : y * y * y = x -> math_un UCbrt x y
| M_cos x : math_un UCos x (cos x)
| M_cosh x : math_un UCosh x ((exp x + exp (- x)) / 2)
| M_erf x : math_un UErf x (2 / sqrt PI * RInt (fun t => exp (- (t * t))) 0 x)
| M_exp x : math_un UExp x (exp x)
| M_isnn_1 x : 0 <= x -> math_un UIsNonneg x 1
| M_isnn_0 x : x < 0 -> math_un UIsNonneg x 0
| M_ispos_1 x : 0 < x -> math_un UIsPos x 1
| M_ispos_0 x : x <= 0 -> math_un UIsPos x 0
| M_log x y : exp y = x -> math_un ULog x y
| M_log10 x y : Rpower 10 y = x -> math_un ULog10 x y
| M_sign_p x : 0 < x -> math_un USign x 1
| M_sign_0 : math_un USign 0 0
| M_sign_n x : x < 0 -> math_un USign x (-1)
| M_sin x : math_un USin x (sin x)
| M_sinh x : math_un USinh x ((exp x - exp (- x)) / 2)
| M_sqrt x y : 0 <= y -> y * y = x -> math_un USqrt x y
| M_tan x : cos x <> 0 -> math_un UTan x (sin x / cos x)
| M_tanh x : math_un UTanh x ((exp x - exp (- x)) / (exp x + exp (- x))).

(** Binary operators; atan2 y x is the angle of the point (x, y). *)
Inductive math_bin : bop -> R -> R -> R -> Prop :=
| M_add x y : math_bin BAdd x y (x + y)
| M_sub x y : math_bin BSub x y (x - y)
| M_mul x y : math_bin BMul x y (x * y)
| M_div x y : y <> 0 -> math_bin BDiv x y (x / y)
| M_atan2 y x r a : 0 < r -> - PI < a <= PI -> x = r * cos a -> y = r * sin a -> math_bin BAtan2 y x a
| M_atan2_0 : math_bin BAtan2 0 0 0
| M_hypot x y h : 0 <= h -> h * h = x * x + y * y -> math_bin BHypot x y h
| M_max x y : math_bin BMax x y (Rmax x y)
| M_min x y : math_bin BMin x y (Rmin x y)
| M_pow_pos x y : 0 < x -> math_bin BPow x y (Rpower x y)
| M_pow_zero y : 0 < y -> math_bin BPow 0 y 0
| M_pow_int x z : x <> 0 \/ (0 <= z)%Z -> math_bin BPow x (IZR z) (powerRZ x z).

(** The expression the user wrote, over decision variables numbered by the user. *)
Inductive uexp := XVar (k : nat) | XConst (c : R) | XUn (u : uop) (e : uexp) | XBin (b : bop) (e f : uexp).

(** [XEv rho e v]: at the point [rho] the expression is defined, with value [v]. *)
Inductive XEv (rho : nat -> R) : uexp -> R -> Prop :=
| XEv_var k : XEv rho (XVar k) (rho k)
| XEv_const c : XEv rho (XConst c) c
| XEv_un u e x v : XEv rho e x -> math_un u x v -> XEv rho (XUn u e) v
| XEv_bin b e f x y v : XEv rho e x -> XEv rho f y -> math_bin b x y v -> XEv rho (XBin b e f) v.
