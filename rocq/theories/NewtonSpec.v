(** Specification for C50. *)
From Coq Require Import ZArith Reals List Bool.
From Verif Require Import Base ExprModel ExprReal ExprXR NumModel UtilModel KktModel FilterModel ExitModel SolverModel SolverSpec NewtonModel.
Import ListNotations.

Section Newton.
Context {S : nops}.
Variables (E : env S) (P : nprob S).

(** p is what the linear solver answers for H(x) p = -g(x), in some state it can be in. *)
Definition newton_direction (x p : list S) : Prop :=
  exists ls, p = ls_solve (e_lin E) (fst (ls_compute (e_lin E) ls (mkKkt (np_H P x) []))) (map (s_opp S) (np_g P x)).

(** 2^-k *)
Definition half_power (k : nat) : S := Nat.iter k (fun a => s_mul S a (lit 5 1)) (s_ofZ S 1).

(** One accepted step: along the Newton direction with a step size 2^-k to a point of finite cost that the filter
    accepts, or the full step when it reduces the 1-norm of the gradient by the factor 0.999. *)
Definition newton_step (x x' : list S) : Prop :=
  exists p, newton_direction x p /\
    ((exists k flt flt', f_min flt = f_min (filter_new (s_ofZ S 0)) /\ x' = vadd x (vscale (half_power k) p) /\ s_finite S (np_f P x') = true /\
        try_add flt (mkFE (np_f P x) (s_ofZ S 0)) (mkFE (np_f P x') (s_ofZ S 0)) (vdot (np_g P x) p) (half_power k) = (flt', true)) \/
     (x' = vadd x (vscale (s_ofZ S 1) p) /\
        s_leb S (norm1 (np_g P x')) (s_mul S (lit 999 3) (norm1 (np_g P x))) = true)).

(** What each status says about the final point and what happened; [it] iterations were completed, [clk] is the number
    of clock readings, of which the first was number [clk0]. *)
Definition newton_means {U} (o : options S) (clk0 : nat) (s : status) (st : nstate E (U := U)) : Prop :=
  let x := n_x _ st in let it := n_it _ st in
  match s with
  | SUCCESS => s_ltb S (o_tol o) (unscaled_newton (np_sc P) (np_g P x)) = false
  | CALLBACK_REQUESTED_STOP => True (* see C36 *)
  | NONFINITE_INITIAL_GUESS =>
      it = 0%Z /\ (s_finite S (np_f P x) = false \/ (exists v, In v (np_g P x) /\ s_finite S v = false)
                   \/ (exists r v, In r (np_H P x) /\ In v r /\ s_finite S v = false))
  | DIVERGING_ITERATES => s_ltb S (s_ofZ S 10000000000) (norminf x) = true \/ exists v, In v x /\ s_finite S v = false
  | LINE_SEARCH_FAILED =>
      exists p, newton_direction x p /\
        (* the last step size tried, 2^-k, halves to one below the minimum; its point was not accepted, and either its
           cost is not finite or the full step does not reduce the gradient *)
        exists k, s_ltb S (s_mul S (half_power k) (lit 5 1)) (lit 1 20) = true /\
          (s_finite S (np_f P (vadd x (vscale (half_power k) p))) = false \/
           s_leb S (norm1 (np_g P (vadd x (vscale (s_ofZ S 1) p)))) (s_mul S (lit 999 3) (norm1 (np_g P x))) = false)
  | MAX_ITERATIONS_EXCEEDED => (1 <= it)%Z /\ (o_max o <= it)%Z
  | TIMEOUT => (1 <= it < o_max o)%Z /\
      s_ltb S (o_timeout o) (s_sub S (e_clock E (n_clk _ st - 1)%nat) (e_clock E clk0)) = true
  | TOO_FEW_DOFS | LOCALLY_INFEASIBLE | GLOBALLY_INFEASIBLE | FACTORIZATION_FAILED | FEASIBILITY_RESTORATION_FAILED => False
  end.
End Newton.
