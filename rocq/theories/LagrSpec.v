(** Vocabulary for C80 and C81: where the user's problem is smooth, and its Lagrangian. *)
From Coq Require Import Reals List.
From Verif Require Import ExprModel ExprXR MathSpec VarSpec DiffSpec SmoothSpec LinR KktSpec ProblemModel ProblemSpec ProbSolveSpec.
Import ListNotations.
Local Open Scope R_scope.

Definition goal_smooth (sp : spec) (rho : nat -> R) : Prop :=
  match sp_goal sp with None => True | Some (_, x) => exists v, XSm rho x v end.
Definition rel_smooth (rho : nat -> R) (r : urel) : Prop := (exists a, XSm rho (r_l r) a) /\ (exists b, XSm rho (r_r r) b).
Definition all_smooth (rho : nat -> R) (l : list urel) : Prop := List.Forall (rel_smooth rho) l.

(** The function a relation constrains. *)
Definition gap_fn (r : urel) : ufun := fun rho v => gap rho r v.

(** The relation changes with a decision variable, to first order, where the user's variables are now. *)
Definition depends (sp : spec) (r : urel) : Prop := exists k d, In k (sp_dec sp) /\ pd k (gap_fn r) (se_val (sp_se sp)) d /\ d <> 0.

Fixpoint combo (m g : list R) : R := match m, g with a :: m, b :: g => a * b + combo m g | _, _ => 0 end.

(** Componentwise product. *)
Fixpoint times (a b : list R) : list R := match a, b with x :: a, y :: b => x * y :: times a b | _, _ => [] end.

(** [sf] cost - [mu] . equality gaps - [nu] . inequality gaps *)
Definition constr_part (sp : spec) (mu nu : list R) : ufun := fun rho v =>
  exists ge gi, Forall2 (gap rho) (sp_eqs sp) ge /\ Forall2 (gap rho) (sp_ineqs sp) gi /\ v = - combo mu ge - combo nu gi.
Definition lagrangian (sp : spec) (sf : R) (mu nu : list R) : ufun := fun rho v =>
  exists c w, cost_is sp rho c /\ constr_part sp mu nu rho w /\ v = sf * c + w.

(** Everything the user wrote is smooth at the point. *)
Definition prob_smooth (sp : spec) (rho : nat -> R) : Prop :=
  goal_smooth sp rho /\ all_smooth rho (sp_eqs sp) /\ all_smooth rho (sp_ineqs sp).

(** [f] F *)
Definition scaled_fn (f : R) (F : ufun) : ufun := fun rho v => exists w, F rho w /\ v = f * w.

(** Entries of what a solver is given, at the point [rho]: row i belongs to the i-th relation, column j to the j-th
    decision variable. *)
Definition at2 (M : list (list XR)) (i j : nat) : XR := nth j (nth i M []) NaN.
Definition shape (r c : nat) (M : list (list XR)) : Prop := length M = r /\ forall w, In w M -> length w = c.
Definition is_gradient (sp : spec) (f : R) (rho : nat -> R) (g : list XR) : Prop :=
  length g = length (sp_dec sp) /\
  forall j k, nth_error (sp_dec sp) j = Some k -> exists d, nth j g NaN = Fin (f * d) /\ pd k (cost_is sp) rho d.
Definition is_jacobian (sp : spec) (rs : list urel) (ss : list R) (rho : nat -> R) (M : list (list XR)) : Prop :=
  shape (length rs) (length (sp_dec sp)) M /\
  forall i r j k, nth_error rs i = Some r -> nth_error (sp_dec sp) j = Some k ->
    exists d, at2 M i j = Fin (nth i ss 0 * d) /\ pd k (gap_fn r) rho d.
(** The lower triangle holds the second derivatives of [L], the rest is 0. *)
Definition is_lower_hessian (sp : spec) (L : ufun) (rho : nat -> R) (M : list (list XR)) : Prop :=
  shape (length (sp_dec sp)) (length (sp_dec sp)) M /\
  forall i j a b, nth_error (sp_dec sp) i = Some a -> nth_error (sp_dec sp) j = Some b ->
    ((j <= i)%nat -> exists d, at2 M i j = Fin d /\ pd b (pd a L) rho d) /\ ((i < j)%nat -> at2 M i j = Fin 0).
(** The values of the relations' gaps, each multiplied by its factor. *)
Definition are_gaps (rs : list urel) (ss : list R) (rho : nat -> R) (c : list XR) : Prop :=
  exists gs, Forall2 (gap rho) rs gs /\ c = map Fin (times ss gs).

(** *** Approximate KKT points *)
Definition sum_abs (l : list R) : R := sumn (length l) (fun i => Rabs l.[i]).
(** Multipliers [lam] and [nu] make the point stationary within [t], up to the factor that excuses large multipliers. *)
Definition nearly_stationary (sp : spec) (t : R) (rho : nat -> R) (lam nu : list R) : Prop :=
  length lam = length (sp_eqs sp) /\ length nu = length (sp_ineqs sp) /\
  forall k, In k (sp_dec sp) -> exists d, pd k (lagrangian sp 1 lam nu) rho d /\
    Rabs d <= t * excuse (sum_abs lam + sum_abs nu) (length lam + length nu).
(** Positive slacks [s] measure the inequalities within [t] and are complementary to the multipliers within [t]. *)
Definition nearly_complementary (sp : spec) (t : R) (rho : nat -> R) (nu s : list R) : Prop :=
  length s = length (sp_ineqs sp) /\
  forall i r, nth_error (sp_ineqs sp) i = Some r ->
    0 < s.[i] /\ Rabs (s.[i] * nu.[i]) <= t * excuse (sum_abs nu) (length nu) /\ exists g, gap rho r g /\ Rabs (g - s.[i]) <= t.
