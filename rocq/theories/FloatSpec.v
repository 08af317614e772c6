(** Vocabulary for the theorems about double-precision arithmetic. *)
From Coq Require Import ZArith Reals List Bool.
From Flocq Require Import Core IEEE754.BinarySingleNaN.
From Verif Require Import FloatModel.
Local Open Scope R_scope.

(** A power of two as a real number. *)
Definition two_to (e : Z) : R := bpow radix2 e.
(** The double nearest to m * 2^e. *)
Definition d_lit (m e : Z) : dbl := binary_normalize prec emax prec_gt_0 prec_lt_emax mode_NE m e false.
(** The double is finite and has the real value r. *)
Definition is_real (x : dbl) (r : R) : Prop := is_finite x = true /\ B2R x = r.
(** v + a w as the code computes it. *)
Definition moved (v a w : dbl) : dbl := d_add v (d_mul a w).
(** The step a cannot be much longer without v + a w dropping below (1 - tau) v: at most a relative 2^-48 and an absolute 2^-1073. *)
Definition stops_at (tau : R) (v w a : dbl) : Prop :=
  w = B754_infinity true \/ (is_finite w = true /\ B2R w < 0 /\ forall b, B2R a * (1 + two_to (-48)) + two_to (-1073) <= b -> b * - B2R w >= tau * B2R v).

(** ** The regularized factorization *)
Definition count_d (f : dbl -> bool) (D : list dbl) : nat := length (List.filter f D).
(** Of the pivots n are above 2^-52, m below -2^-52, and there are no others (a NaN would be another one). *)
Definition pivots (n m : nat) (D : list dbl) : Prop :=
  count_d (d_ltb (d_lit 1 (-52))) D = n /\ count_d (fun x => d_ltb x (d_lit (-1) (-52))) D = m /\ length D = (n + m)%nat.
(** 1e20, exactly. *)
Definition d_1e20 : dbl := d_ofZ (10 ^ 20).

(** ** Scaling *)
Definition entries_of_row (r : nat) (A : list (nat * nat * dbl)) : list dbl := map snd (List.filter (fun e => Nat.eqb (fst (fst e)) r) A).
(** The factor is in (0,1], brings every entry to at most 100 in absolute value, and is 1 or brings some entry to 100, up to a
    relative error of 2^-53. *)
Definition brings_d (f : dbl) (v : list dbl) : Prop :=
  is_finite f = true /\ 0 < B2R f <= 1 /\ (forall x, In x v -> B2R f * Rabs (B2R x) <= 100 * (1 + two_to (-53))) /\
  (B2R f = 1 \/ exists x, In x v /\ 100 * (1 - two_to (-53)) <= B2R f * Rabs (B2R x)).
