(** Specification for C51. *)
From Coq Require Import ZArith Reals List Bool.
From Verif Require Import Base ExprModel ExprReal ExprXR NumModel UtilModel KktModel FilterModel ExitModel SolverModel SolverSpec SqpModel.
Import ListNotations.

Section Sqp.
Context {S : nops}.
Variables (E : env S) (P : sprob S).
Notation n := (sp_n P).

(** Cost and violation of a point; the 1-norm of the KKT conditions; the unscaled error the loop is driven by. *)
Definition sentry_at (x : list S) : fentry S := mkFE (sp_f P x) (norm1 (sp_ce P x)).
Definition serror1_at (x y : list S) : S := s_add S (norm1 (vsub (sp_g P x) (mtvec n (sp_Ae P x) y))) (norm1 (sp_ce P x)).
Definition serror_at (x y : list S) : S := unscaled_sqp (sp_sc P) n (sp_g P x) (sp_Ae P x) (sp_ce P x) y.

(** p is what the linear solver answers, after a successful factorization of the KKT matrix at (x, y), for the gradient
    of the Lagrangian and a given constraint residual. *)
Definition sqp_direction (x y c p q : list S) : Prop :=
  exists ls ls' sol, ls_compute (e_lin E) ls (mkKkt (sp_H P x y) (sp_Ae P x)) = (ls', true) /\
    sol = ls_solve (e_lin E) ls' (vadd (map (s_opp S) (sp_g P x)) (mtvec n (sp_Ae P x) y) ++ map (s_opp S) c) /\
    p = firstn (length x) sol /\ q = map (s_opp S) (skipn (length x) sol).

(** One iteration: a step of size 2^-k accepted by the filter, a full step of a second-order correction accepted by
    the filter, the full step when it reduces the error, or what restoration returned. *)
Inductive sqp_move (restored : list S * list S -> list S * list S -> Prop) : list S * list S -> list S * list S -> Prop :=
| smove_filter x y p q k flt flt' x' y' : sqp_direction x y (sp_ce P x) p q ->
    let a := Nat.iter k (fun a => s_mul S a (lit 5 1)) (s_ofZ S 1) in
    x' = vadd x (vscale a p) -> y' = vadd y (vscale a q) -> s_finite S (sp_f P x') = true -> all_fin (sp_ce P x') = true ->
    try_add flt (sentry_at x) (sentry_at x') (vdot (sp_g P x) p) a = (flt', true) -> sqp_move restored (x, y) (x', y')
| smove_correction x y p0 q0 c p q a flt flt' x' y' : sqp_direction x y (sp_ce P x) p0 q0 -> sqp_direction x y c p q ->
    s_eqb S a (s_ofZ S 1) = true -> x' = vadd x (vscale a p) -> y' = vadd y (vscale a q) ->
    try_add flt (sentry_at x) (sentry_at x') (vdot (sp_g P x) p0) a = (flt', true) -> sqp_move restored (x, y) (x', y')
| smove_error x y p q x' y' : sqp_direction x y (sp_ce P x) p q ->
    x' = vadd x (vscale (s_ofZ S 1) p) -> y' = vadd y (vscale (s_ofZ S 1) q) ->
    s_leb S (serror1_at x' y') (s_mul S (lit 999 3) (serror1_at x y)) = true -> sqp_move restored (x, y) (x', y')
| smove_restored p p' : restored p p' -> sqp_move restored p p'.

(** What each status says about the final point and what happened; [resto s x] says restoration returned s and x. *)
Definition sqp_means {U} (o : options S) (resto : status -> list S -> Prop) (clk0 : nat) (s : status) (st : sstate E (U := U)) : Prop :=
  let x := s_x _ st in let it := s_it _ st in
  match s with
  | SUCCESS => s_ltb S (o_tol o) (serror_at x (s_y _ st)) = false
  | CALLBACK_REQUESTED_STOP => diverging x = false
  | TOO_FEW_DOFS => it = 0%Z /\ (n < sp_me P)%nat
  | NONFINITE_INITIAL_GUESS =>
      it = 0%Z /\ (s_finite S (sp_f P x) = false \/ all_fin (sp_g P x) = false \/ mat_fin (sp_H P x (s_y _ st)) = false \/
                   all_fin (sp_ce P x) = false \/ mat_fin (sp_Ae P x) = false)
  | LOCALLY_INFEASIBLE => eq_infeasible n (sp_Ae P x) (sp_ce P x) = true \/ resto LOCALLY_INFEASIBLE x
  | DIVERGING_ITERATES => diverging x = true
  | FACTORIZATION_FAILED => exists ls, snd (ls_compute (e_lin E) ls (mkKkt (sp_H P x (s_y _ st)) (sp_Ae P x))) = false
  | MAX_ITERATIONS_EXCEEDED => (1 <= it)%Z /\ (o_max o <= it)%Z
  | TIMEOUT => (1 <= it < o_max o)%Z /\
      s_ltb S (o_timeout o) (s_sub S (e_clock E (s_clk _ st - 1)%nat) (e_clock E clk0)) = true
  | FEASIBILITY_RESTORATION_FAILED => resto FEASIBILITY_RESTORATION_FAILED x
  | GLOBALLY_INFEASIBLE | LINE_SEARCH_FAILED => False
  end.
End Sqp.
