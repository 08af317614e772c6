(** The scalar type double: IEEE 754 binary64 with round to nearest even, signed zeros, subnormal numbers, overflow,
    infinities and one NaN (simplification: NaN payloads are not told apart), from Flocq.

    Sleipnir instantiates Scalar with double (src/autodiff/*.cpp, src/optimization/**/*.cpp explicit instantiations);
    +, -, *, /, sqrt, fabs, unary minus and the comparisons are the correctly rounded IEEE operations
    (simplification: no contraction into fused multiply-add, no extended precision).  The functions of the
    mathematics library are not specified by IEEE 754 and are a parameter [M]. *)
From Coq Require Import ZArith Bool.
From Flocq Require Import IEEE754.BinarySingleNaN.
From Verif Require Import ExprModel NumModel.

(** binary64 of IEEE 754, the type double: 53 bits, exponents up to 1024. *)
Definition prec := 53%Z.
(** As above. *)
Definition emax := 1024%Z.
(** As above. *)
Definition dbl := binary_float prec emax.
Lemma prec_gt : (0 < prec)%Z. Proof. reflexivity. Qed.
Lemma prec_lt : (prec < emax)%Z. Proof. reflexivity. Qed.
#[global] Instance prec_gt_0 : FLX.Prec_gt_0 prec := prec_gt.
#[global] Instance prec_lt_emax : Prec_lt_emax prec emax := prec_lt.

(** Conversion from an integer, rounded to nearest even. *)
Definition d_ofZ (z : Z) : dbl := binary_normalize prec emax prec_gt_0 prec_lt_emax mode_NE z 0 false.
(** operator+ of double. *)
Definition d_add : dbl -> dbl -> dbl := Bplus mode_NE.
(** operator- of double. *)
Definition d_sub : dbl -> dbl -> dbl := Bminus mode_NE.
(** operator* of double. *)
Definition d_mul : dbl -> dbl -> dbl := Bmult mode_NE.
(** operator/ of double. *)
Definition d_div : dbl -> dbl -> dbl := Bdiv mode_NE.
(** sqrt, which IEEE 754 specifies. *)
Definition d_sqrt : dbl -> dbl := Bsqrt mode_NE.
(** Unary minus of double. *)
Definition d_opp : dbl -> dbl := Bopp.
(** abs of double. *)
Definition d_abs : dbl -> dbl := Babs.
(** operator== of double. *)
Definition d_eqb : dbl -> dbl -> bool := Beqb.
(** operator< of double. *)
Definition d_ltb : dbl -> dbl -> bool := Bltb.
(** operator<= of double. *)
Definition d_leb : dbl -> dbl -> bool := Bleb.

(** The functions of <cmath> that expression.hpp and the filter call, and the constants of <numbers>. *)
Record libm := mkLibm {
  m_acos : dbl -> dbl; m_asin : dbl -> dbl; m_atan : dbl -> dbl; m_atan2 : dbl -> dbl -> dbl; m_cbrt : dbl -> dbl;
  m_cos : dbl -> dbl; m_cosh : dbl -> dbl; m_erf : dbl -> dbl; m_exp : dbl -> dbl; m_hypot : dbl -> dbl -> dbl;
  m_log : dbl -> dbl; m_log10 : dbl -> dbl; m_pow : dbl -> dbl -> dbl; m_sin : dbl -> dbl; m_sinh : dbl -> dbl;
  m_tan : dbl -> dbl; m_tanh : dbl -> dbl; m_pi : dbl; m_2isqrtpi : dbl; m_ln10 : dbl }.

(** Scalar = double, for the code of expression.hpp. *)
Definition D_ops (M : libm) : sops := {|
  car := dbl;
  s_ofZ := d_ofZ;
  s_add := d_add; s_sub := d_sub; s_mul := d_mul; s_div := d_div; s_opp := d_opp;
  s_eqb := d_eqb; s_ltb := d_ltb; s_leb := d_leb;
  s_abs := d_abs; s_acos := m_acos M; s_asin := m_asin M; s_atan := m_atan M; s_atan2 := m_atan2 M; s_cbrt := m_cbrt M;
  s_cos := m_cos M; s_cosh := m_cosh M; s_erf := m_erf M; s_exp := m_exp M; s_hypot := m_hypot M; s_log := m_log M;
  s_log10 := m_log10 M; s_pow := m_pow M; s_sin := m_sin M; s_sinh := m_sinh M; s_sqrt := d_sqrt; s_tan := m_tan M;
  s_tanh := m_tanh M; s_pi := m_pi M; s_2isqrtpi := m_2isqrtpi M; s_ln10 := m_ln10 M |}.
(** std::isfinite. *)
Definition Dn (M : libm) : nops := mkNops (D_ops M) is_finite.
