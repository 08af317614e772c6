(** What a user can say about solve(), for C33-C35: points, and the problem they wrote. *)
From Coq Require Import Reals List Bool Arith.
From Verif Require Import ExprModel MathSpec VarModel VarSpec ProblemModel ProblemSpec.
Import ListNotations.
Local Open Scope R_scope.

(** The point with decision variable [ks_i] at [x_i] and everything else as in [rho]. *)
Fixpoint place (rho : nat -> R) (ks : list nat) (x : list R) : nat -> R :=
  match ks, x with
  | k :: ks, v :: x => place (upd rho k v) ks x
  | _, _ => rho
  end.

(** The user's point with the Problem's decision variables at [x]. *)
Definition point (sp : spec) (x : list R) : nat -> R := place (se_val (sp_se sp)) (sp_dec sp) x.

(** Cost to be minimised: [v] at [rho]; nothing to minimise counts as 0. *)
Definition cost_is (sp : spec) (rho : nat -> R) (v : R) : Prop :=
  match sp_goal sp with
  | None => v = 0
  | Some (max, x) => no_pow00 rho x /\ exists w, XEv rho x w /\ v = if max then - w else w
  end.

(** How far a relation is from holding: the two sides are equal for 0; otherwise the inequality holds for values
    from 0 up. *)
Definition gap (rho : nat -> R) (r : urel) (v : R) : Prop :=
  exists a b, XEv rho (r_l r) a /\ XEv rho (r_r r) b /\
    v = match r_cmp r with CEq | CGt | CGe => a - b | CLt | CLe => b - a end.

(** Every part of the problem is defined at the point. *)
Definition goal_defined (sp : spec) (rho : nat -> R) : Prop :=
  match sp_goal sp with None => True | Some (_, x) => no_pow00 rho x /\ exists v, XEv rho x v end.
Definition all_defined (rho : nat -> R) (l : list urel) : Prop := List.Forall (rel_defined rho) l.

(** The program after its decision variables have been given the values [x]. *)
Definition at_point (sp : spec) (x : list R) : spec :=
  set_se sp (mkSE (se_exp (sp_se sp)) (se_n (sp_se sp)) (point sp x)).
