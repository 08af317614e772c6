(** Specification for the interior-point method (C51-C56) and for the solver with equality constraints. *)
From Coq Require Import ZArith Reals List Bool.
From Verif Require Import Base ExprModel ExprReal ExprXR NumModel UtilModel KktModel FilterModel ExitModel SolverModel SolverSpec IpmModel.
Import ListNotations.

(** A primal-dual point. *)
Record ipoint (S : nops) := mkPt { pt_x : list S; pt_s : list S; pt_y : list S; pt_z : list S }.
Arguments mkPt {S}. Arguments pt_x {S}. Arguments pt_s {S}. Arguments pt_y {S}. Arguments pt_z {S}.

Section Ipm.
Context {S : nops}.
Variables (E : env S) (P : iprob S) (o : options S).
Notation n := (ip_n P).

(** Cost with barrier and violation of a point. *)
Definition entry_at (mu : S) (x s : list S) : fentry S :=
  mkFE (s_sub S (ip_f P x) (s_mul S mu (vsum (map (s_log S) s))))
       (s_add S (norm1 (ip_ce P x)) (norm1 (vsub (ip_ci P x) s))).
(** The 1-norm of the perturbed KKT conditions at a point. *)
Definition error1_at (mu : S) (p : ipoint S) : S :=
  let x := pt_x p in let s := pt_s p in
  s_add S (s_add S (s_add S (norm1 (vsub (vsub (ip_g P x) (mtvec n (ip_Ae P x) (pt_y p))) (mtvec n (ip_Ai P x) (pt_z p))))
                            (norm1 (vsub (vmul s (pt_z p)) (repeat mu (length s)))))
                   (norm1 (ip_ce P x)))
          (norm1 (vsub (ip_ci P x) s)).
(** The unscaled error the loop is driven by. *)
Definition error_at (p : ipoint S) : S :=
  let x := pt_x p in
  unscaled_ipm (ip_sc P) n (ip_g P x) (ip_Ae P x) (ip_ce P x) (ip_Ai P x) (ip_ci P x) (pt_s p) (pt_y p) (pt_z p) (s_ofZ S 0).

(** The matrix of the linear system at a point: H + A_i^T S^-1 Z A_i (lower triangle of the second term) and A_e. *)
Definition weights (p : ipoint S) : list S := vmul (vinv (pt_s p)) (pt_z p).
Definition condensed (p : ipoint S) : mat (S := S) :=
  map (fun j => map (fun k => if Nat.leb k j
      then vsum (map (fun q => s_mul S (s_mul S (nth j (fst q) (s_ofZ S 0)) (snd q)) (nth k (fst q) (s_ofZ S 0))) (combine (ip_Ai P (pt_x p)) (weights p)))
      else s_ofZ S 0) (seq 0 n)) (seq 0 n).
Definition system_at (p : ipoint S) : kkt S :=
  mkKkt (map (fun r => vadd (fst r) (snd r)) (combine (ip_H P (pt_x p) (pt_y p) (pt_z p)) (condensed p))) (ip_Ae P (pt_x p)).

(** A step in x, s, y and z. *)
Record idir := mkDir { d_x : list S; d_s : list S; d_y : list S; d_z : list S }.
(** The upper part of the right-hand side, -grad f + A_e^T y + A_i^T w. *)
Definition system_rhs (p : ipoint S) (w : list S) : list S :=
  vadd (vadd (map (s_opp S) (ip_g P (pt_x p))) (mtvec n (ip_Ae P (pt_x p)) (pt_y p))) (mtvec n (ip_Ai P (pt_x p)) w).
(** [d] is what follows from the linear solver's answer, after a successful factorization of the system's matrix at [p],
    for a right-hand side with [w] and the constraint residuals [e] and [c]. *)
Definition direction_for (mu : S) (p : ipoint S) (w e c : list S) (d : idir) : Prop :=
  exists ls ls' sol, ls_compute (e_lin E) ls (system_at p) = (ls', true) /\
    sol = ls_solve (e_lin E) ls' (system_rhs p w ++ map (s_opp S) e) /\
    d_x d = firstn (length (pt_x p)) sol /\ d_y d = map (s_opp S) (skipn (length (pt_x p)) sol) /\
    d_s d = vadd c (mvec (ip_Ai P (pt_x p)) (d_x d)) /\
    d_z d = vsub (vsub (vscale mu (vinv (pt_s p))) (pt_z p)) (vmul (weights p) (d_s d)).
(** The Newton step: w = -Z/S c_i + mu/S + z, residuals c_e and c_i - s. *)
Definition ipm_direction (mu : S) (p : ipoint S) (d : idir) : Prop :=
  direction_for mu p (vadd (vadd (vmul (map (s_opp S) (weights p)) (ip_ci P (pt_x p))) (vscale mu (vinv (pt_s p)))) (pt_z p))
    (ip_ce P (pt_x p)) (vsub (ip_ci P (pt_x p)) (pt_s p)) d.
(** A second-order correction with residuals [e] and [c]: w = mu/S - Z/S c. *)
Definition correction_direction (mu : S) (p : ipoint S) (e c : list S) (d : idir) : Prop :=
  direction_for mu p (vsub (vscale mu (vinv (pt_s p))) (vmul (weights p) c)) e c d.
Definition go (v : list S) (a : S) (d : list S) : list S := vadd v (vscale a d).
(** The slope of the cost with barrier along a step. *)
Definition slope (mu : S) (p : ipoint S) (d : idir) : S :=
  s_sub S (vdot (ip_g P (pt_x p)) (d_x d)) (s_mul S mu (vdot (vinv (pt_s p)) (d_s d))).

(** An iteration moves along the Newton step, by 2^-k times the fraction-to-the-boundary step size, to a point the filter
    accepts; along a second-order correction to a point the filter accepts; along the whole Newton step to a point with
    smaller error; or to a point restoration returned.  In the first three cases the inequality multipliers are clamped
    afterwards.  With the feasible-path option and positive inequality constraints the slacks may be set to the new
    constraint values instead. *)
Inductive ipm_move (restored : ipoint S -> ipoint S -> Prop) : ipoint S -> ipoint S -> Prop :=
| move_filter p d mu tau k flt flt' x s y z z' : ipm_direction mu p d ->
    let amax := ftb (pt_s p) (d_s d) tau in let az := ftb (pt_z p) (d_z d) tau in
    let a := Nat.iter k (fun a => s_mul S a (lit 5 1)) amax in
    s_ltb S amax (lit 1 7) = false ->
    x = go (pt_x p) a (d_x d) -> y = go (pt_y p) az (d_y d) -> z = go (pt_z p) az (d_z d) ->
    (s = go (pt_s p) a (d_s d) \/ (o_feasible o = true /\ forallb (s_ltb S (s_ofZ S 0)) (ip_ci P (pt_x p)) = true /\ s = ip_ci P x)) ->
    s_finite S (ip_f P x) = true -> all_fin (ip_ce P x) = true -> all_fin (ip_ci P x) = true ->
    try_add flt (entry_at mu (pt_x p) (pt_s p)) (entry_at mu x s) (slope mu p d) a = (flt', true) ->
    clamp_zs mu s z = Ok z' -> ipm_move restored p (mkPt x s y z')
| move_correction p d0 e c d mu tau a0 flt flt' x s y z z' : ipm_direction mu p d0 -> correction_direction mu p e c d ->
    let a := ftb (pt_s p) (d_s d) tau in let az := ftb (pt_z p) (d_z d) tau in
    x = go (pt_x p) a (d_x d) -> s = go (pt_s p) a (d_s d) -> y = go (pt_y p) az (d_y d) -> z = go (pt_z p) az (d_z d) ->
    try_add flt (entry_at mu (pt_x p) (pt_s p)) (entry_at mu x s) (slope mu p d0) a0 = (flt', true) ->
    clamp_zs mu s z = Ok z' -> ipm_move restored p (mkPt x s y z')
| move_error p d mu tau x s y z z' : ipm_direction mu p d ->
    let amax := ftb (pt_s p) (d_s d) tau in let az := ftb (pt_z p) (d_z d) tau in
    s_ltb S amax (lit 1 7) = false ->
    x = go (pt_x p) amax (d_x d) -> s = go (pt_s p) amax (d_s d) -> y = go (pt_y p) az (d_y d) -> z = go (pt_z p) az (d_z d) ->
    s_leb S (error1_at mu (mkPt x s y z)) (s_mul S (lit 999 3) (error1_at mu p)) = true ->
    clamp_zs mu s z = Ok z' -> ipm_move restored p (mkPt x s y z')
| move_restored p p' : restored p p' -> ipm_move restored p p'.

Definition point_of {U} (st : istate E (U := U)) : ipoint S := mkPt (is_x _ st) (is_s _ st) (is_y _ st) (is_z _ st).

(** What each status says about the final point and what happened. The iteration counter started at [it0], the first
    clock reading was number [clk0]; [resto s x] says restoration returned s and x. *)
Definition ipm_means {U} (resto : status -> list S -> Prop) (it0 : Z) (clk0 : nat) (s : status) (st : istate E (U := U)) : Prop :=
  let x := is_x _ st in let it := is_it _ st in
  match s with
  | SUCCESS => s_ltb S (o_tol o) (error_at (point_of st)) = false
  | CALLBACK_REQUESTED_STOP => diverging x = false /\ diverging (is_s _ st) = false
  | TOO_FEW_DOFS => it = it0 /\ (n < ip_me P)%nat
  | NONFINITE_INITIAL_GUESS =>
      it = it0 /\ (s_finite S (ip_f P x) = false \/ all_fin (ip_g P x) = false \/
                   mat_fin (ip_H P x (is_y _ st) (is_z _ st)) = false \/
                   all_fin (ip_ce P x) = false \/ mat_fin (ip_Ae P x) = false \/ all_fin (ip_ci P x) = false \/ mat_fin (ip_Ai P x) = false)
  | LOCALLY_INFEASIBLE =>
      eq_infeasible n (ip_Ae P x) (ip_ce P x) = true \/ ineq_infeasible n (ip_Ai P x) (ip_ci P x) = true \/ resto LOCALLY_INFEASIBLE x
  | DIVERGING_ITERATES => diverging x = true \/ diverging (is_s _ st) = true
  | FACTORIZATION_FAILED => exists ls, snd (ls_compute (e_lin E) ls (system_at (point_of st))) = false
  | MAX_ITERATIONS_EXCEEDED => (it0 + 1 <= it)%Z /\ (o_max o <= it)%Z
  | TIMEOUT => (it0 + 1 <= it < o_max o)%Z /\
      s_ltb S (o_timeout o) (s_sub S (e_clock E (is_clk _ st - 1)%nat) (e_clock E clk0)) = true
  | FEASIBILITY_RESTORATION_FAILED => resto FEASIBILITY_RESTORATION_FAILED x
  | GLOBALLY_INFEASIBLE | LINE_SEARCH_FAILED => False
  end.
End Ipm.
