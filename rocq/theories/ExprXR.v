(** The reals extended with infinities and NaN: IEEE 754 special-value rules, without rounding, overflow
    or signed zeros (zero counts as +0).  Instance of the Scalar operations used for C20. *)
From Coq Require Import ZArith Reals Lra Bool.
From Verif Require Import ExprModel ExprReal.
Open Scope R_scope.

Inductive XR := Fin (r : R) | PInf | MInf | NaN.

(** -1, 0 or 1; [None] for NaN. *)
Definition xsgn (x : XR) : option Z :=
  match x with
  | Fin r => Some (if Rlt_dec 0 r then 1%Z else if Rlt_dec r 0 then (-1)%Z else 0%Z)
  | PInf => Some 1%Z | MInf => Some (-1)%Z | NaN => None
  end.
Definition xinf (s : Z) : XR := if (0 <? s)%Z then PInf else if (s <? 0)%Z then MInf else NaN.

Definition X_opp x := match x with Fin r => Fin (- r) | PInf => MInf | MInf => PInf | NaN => NaN end.
Definition X_add x y :=
  match x, y with
  | NaN, _ | _, NaN => NaN
  | Fin a, Fin b => Fin (a + b)
  | PInf, MInf | MInf, PInf => NaN
  | PInf, _ | _, PInf => PInf
  | MInf, _ | _, MInf => MInf
  end.
Definition X_sub x y := X_add x (X_opp y).
Definition X_mul x y :=
  match x, y with
  | Fin a, Fin b => Fin (a * b)
  | _, _ => match xsgn x, xsgn y with Some s, Some t => xinf (s * t) | _, _ => NaN end
  end.
(** Division by the zero (+0). *)
Definition X_div x y :=
  match x, y with
  | NaN, _ | _, NaN => NaN
  | Fin a, Fin b =>
      if Req_EM_T b 0 then match xsgn x with Some s => xinf s | None => NaN end else Fin (a / b)
  | Fin _, _ => Fin 0
  | _, Fin b => match xsgn x with Some s => xinf (if Rlt_dec b 0 then - s else s) | None => NaN end
  | _, _ => NaN
  end.
Definition X_eqb x y :=
  match x, y with Fin a, Fin b => R_eqb a b | PInf, PInf | MInf, MInf => true | _, _ => false end.
Definition X_ltb x y :=
  match x, y with
  | NaN, _ | _, NaN => false
  | Fin a, Fin b => R_ltb a b
  | MInf, MInf => false | MInf, _ => true | _, MInf => false
  | PInf, _ => false | _, PInf => true
  end.
Definition X_leb x y := X_ltb x y || X_eqb x y.

(** A function continuous on the whole line with limits at the infinities. *)
Definition lift (f : R -> R) (m p : XR) (x : XR) : XR :=
  match x with Fin r => Fin (f r) | MInf => m | PInf => p | NaN => NaN end.
(** A function defined where [d] holds. *)
Definition lift_dom (d : R -> bool) (f : R -> R) (p : XR) (x : XR) : XR :=
  match x with Fin r => if d r then Fin (f r) else NaN | PInf => p | _ => NaN end.

Definition in_unit (r : R) : bool := R_leb (-1) r && R_leb r 1.
Definition X_log_of (f : R -> R) (x : XR) : XR :=
  match x with
  | Fin r => if Req_EM_T r 0 then MInf else if Rlt_dec 0 r then Fin (f r) else NaN
  | PInf => PInf | _ => NaN
  end.
Definition X_hypot x y :=
  match x, y with
  | PInf, _ | MInf, _ | _, PInf | _, MInf => PInf
  | NaN, _ | _, NaN => NaN
  | Fin a, Fin b => Fin (R_hypot a b)
  end.
Definition X_atan2 y x :=
  match y, x with
  | NaN, _ | _, NaN => NaN
  | Fin a, Fin b => Fin (R_atan2 a b)
  | Fin _, PInf => Fin 0
  | Fin a, MInf => Fin (if Rlt_dec a 0 then - PI else PI)
  | PInf, Fin _ => Fin (PI / 2) | MInf, Fin _ => Fin (- (PI / 2))
  | PInf, PInf => Fin (PI / 4) | PInf, MInf => Fin (3 * PI / 4)
  | MInf, PInf => Fin (- (PI / 4)) | MInf, MInf => Fin (- (3 * PI / 4))
  end.
Definition is_int (p : R) : bool := R_eqb (IZR (Int_part p)) p.
Definition is_odd (p : R) : bool := is_int p && Z.odd (Int_part p).
Definition X_pow x y :=
  if X_eqb y (Fin 0) then Fin 1
  else if X_eqb x (Fin 1) then Fin 1
  else match x, y with
  | NaN, _ | _, NaN => NaN
  | Fin b, Fin p =>
      if Req_EM_T b 0 then (if Rlt_dec 0 p then Fin 0 else PInf)
      else if Rlt_dec b 0 then (if is_int p then Fin (R_pow b p) else NaN)
      else Fin (R_pow b p)
  | PInf, Fin p => if Rlt_dec 0 p then PInf else Fin 0
  | MInf, Fin p => if Rlt_dec 0 p then (if is_odd p then MInf else PInf) else Fin 0
  | Fin b, PInf => if Rlt_dec (Rabs b) 1 then Fin 0 else if Req_EM_T (Rabs b) 1 then Fin 1 else PInf
  | Fin b, MInf => if Rlt_dec (Rabs b) 1 then PInf else if Req_EM_T (Rabs b) 1 then Fin 1 else Fin 0
  | _, PInf => PInf
  | _, MInf => Fin 0
  end.

Definition X_ops : sops := {|
  car := XR;
  s_ofZ := fun z => Fin (IZR z);
  s_add := X_add; s_sub := X_sub; s_mul := X_mul; s_div := X_div; s_opp := X_opp;
  s_eqb := X_eqb; s_ltb := X_ltb; s_leb := X_leb;
  s_abs := lift Rabs PInf PInf;
  s_acos := lift_dom in_unit acos NaN; s_asin := lift_dom in_unit asin NaN;
  s_atan := lift atan (Fin (- (PI / 2))) (Fin (PI / 2)); s_atan2 := X_atan2;
  s_cbrt := lift R_cbrt MInf PInf; s_cos := lift cos NaN NaN; s_cosh := lift cosh PInf PInf;
  s_erf := lift R_erf (Fin (-1)) (Fin 1); s_exp := lift exp (Fin 0) PInf; s_hypot := X_hypot;
  s_log := X_log_of ln; s_log10 := X_log_of R_log10; s_pow := X_pow; s_sin := lift sin NaN NaN;
  s_sinh := lift sinh MInf PInf; s_sqrt := lift_dom (R_leb 0) sqrt PInf;
  s_tan := lift tan NaN NaN; s_tanh := lift tanh (Fin (-1)) (Fin 1);
  s_pi := Fin PI; s_2isqrtpi := Fin (2 / sqrt PI); s_ln10 := Fin (ln 10);
|}.

Definition is_fin (x : XR) : Prop := exists r, x = Fin r.

(** Operand pairs at which simplification changes the floating-point result. *)
Definition xr_bad (b : bop) (x y : XR) : Prop :=
  match b with
  | BMul => (x = Fin 0 /\ ~ is_fin y) \/ (y = Fin 0 /\ ~ is_fin x)
  | BDiv => x = Fin 0 /\ (y = Fin 0 \/ y = NaN)
  | BPow => x = Fin 0 /\ ~ (exists p, 0 < p /\ y = Fin p) /\ y <> PInf
  | _ => False
  end.
