(** Property C50 and the parts of C36, C55, C56 about Newton's method (newton.hpp). *)
From Coq Require Import ZArith Reals List Bool.
From Verif Require Import Base ExprModel ExprReal ExprXR NumModel UtilModel KktModel FilterModel ExitModel SolverModel SolverSpec
  NewtonModel NewtonSpec NewtonProofs NewtonXR.
Import ListNotations.

(** C50: whatever the problem functions, the linear solver, the clock and the callbacks do, a solve that returns
    reached its point by at most max(1, max_iterations) accepted steps along Newton directions, and its status means
    what [newton_means] says (any scalars). *)
Theorem C50_outcome :
  forall (S : nops) (E : env S) (P : nprob S) (U : Type) (cbs : list (callback S U)) (o : options S) fuel x0 u clk0 s st,
    newton E P cbs o fuel x0 u clk0 = Ok (s, st) ->
    newton_means E P o clk0 s st /\
    exists k, n_it _ st = Z.of_nat k /\ path (newton_step E P) k x0 (n_x _ st) /\ (Z.of_nat k <= Z.max 1 (o_max o))%Z.
Proof. exact @c50_meaning. Qed.
Print Assumptions C50_outcome.

(** It returns, with scalars that include NaN and infinities and functions that produce them anywhere. *)
Theorem C50_terminates :
  forall (U : Type) (E : env Xn) (P : nprob Xn) (cbs : list (callback Xn U)) (o : options Xn) x0 u clk fuel,
    length (np_g P x0) = np_n P -> mat_dims (np_n P) (np_n P) (np_H P x0) = true ->
    (67 <= fuel)%nat -> (Z.to_nat (o_max o) < fuel)%nat -> exists r, newton E P cbs o fuel x0 u clk = Ok r.
Proof. exact @c50_total. Qed.
Print Assumptions C50_terminates.

(** Over the reals SUCCESS says every entry of the unscaled gradient is within the tolerance. *)
Theorem C50_success_partial :
  forall (U : Type) (E : env Rn) (P : nprob Rn) (cbs : list (callback Rn U)) (o : options Rn) fuel x0 u clk st,
    (0 < sc_f (np_sc P))%R -> newton E P cbs o fuel x0 u clk = Ok (SUCCESS, st) ->
    forall v : R, In v (np_g P (n_x _ st)) -> (Rabs (v / sc_f (np_sc P)) <= o_tol o)%R.
Proof. exact @c50_success. Qed.
Print Assumptions C50_success_partial.

(** Over the reals each accepted step goes along the Newton direction and, if that is a descent direction, decreases
    the cost by the Armijo amount or is the full step and shrinks the gradient. *)
Theorem C50_step_partial :
  forall (E : env Rn) (P : nprob Rn) (x x' : list R), newton_step E P x x' ->
    exists p, newton_direction E P x p /\
     ((exists k, x' = vadd (S := Rn) x (vscale (S := Rn) (/ 2 ^ k)%R p) /\
        ((vdot (S := Rn) (np_g P x) p < 0)%R ->
          (np_f P x' <= np_f P x + 1 / 100000000 * / 2 ^ k * vdot (S := Rn) (np_g P x) p)%R)) \/
      (x' = vadd (S := Rn) x (vscale (S := Rn) 1%R p) /\
        (norm1 (S := Rn) (np_g P x') <= 999 / 1000 * norm1 (S := Rn) (np_g P x))%R)).
Proof. exact c50_descent. Qed.
Print Assumptions C50_step_partial.
Example C50_example :
  exists st, newton (U := unit) sq_env sq_prob [] (mkOpt (S := Rn) (1 / 100)%R 10 5%R false) 3 [1%R] tt 0 = Ok (SUCCESS, st) /\ n_x _ st = [0%R].
Proof. exact sq_run. Qed.

(** A step to a point with a NaN gradient is reported as SUCCESS. *)
Theorem C50_nan_gradient_refuted :
  exists st, newton (U := unit) one_env nan_prob [] (opts1 100) 3 [Fin 0%R] tt 0 = Ok (SUCCESS, st) /\
    n_x _ st = [Fin 1%R] /\ np_g nan_prob (n_x _ st) = [NaN].
Proof. exact c50_nan. Qed.
Print Assumptions C50_nan_gradient_refuted.

(** The full step taken when the line search fails may land where the cost is NaN. *)
Theorem C50_nonfinite_cost_refuted :
  forall fuel, (68 <= fuel)%nat -> exists st, newton (U := unit) one_env hole_prob [] (opts1 100) fuel [Fin 0%R] tt 0 = Ok (SUCCESS, st) /\
    n_x _ st = [Fin 1%R] /\ np_f hole_prob (n_x _ st) = NaN.
Proof. exact c50_hole. Qed.
Print Assumptions C50_nonfinite_cost_refuted.

(** C36 for Newton's method: the callbacks run in registration order, in complete rounds numbered 0, 1, 2, ..., each
    seeing the gradient and Hessian of the point it is shown; the solve reports CALLBACK_REQUESTED_STOP exactly when a
    callback asked to stop, and nothing runs after that. *)
Theorem C36_newton :
  forall (S : nops) (U : Type) (E : env S) (P : nprob S) (cbs : list (callback S U)) (o : options S) fuel x0 u clk0 s st,
    newton E P (log_all cbs) o fuel x0 (u, []) clk0 = Ok (s, st) ->
    exists infos stop, snd (n_u _ st) = log_of (length cbs) infos stop /\
      map i_iter infos = map Z.of_nat (seq 0 (length infos)) /\
      (s = CALLBACK_REQUESTED_STOP <-> stop <> None) /\
      (forall k i, stop = Some (k, i) -> (k < length cbs)%nat /\ i_iter i = Z.of_nat (length infos)) /\
      (forall i, In i infos \/ (exists k, stop = Some (k, i)) -> i_g i = np_g P (i_x i) /\ i_H i = np_H P (i_x i)).
Proof. exact @c36_newton. Qed.
Print Assumptions C36_newton.
Example C36_newton_example :
  exists st, newton (U := unit * list (call Xn)) one_env nan_prob (log_all [fun _ u => (u, false); fun _ u => (u, true)]) (opts1 100) 3 [Fin 0%R] (tt, []) 0 = Ok (CALLBACK_REQUESTED_STOP, st)
    /\ map (fun c => (fst (fst c), snd c)) (snd (n_u _ st)) = [(0%nat, false); (1%nat, true)].
Proof. exact stop_run. Qed.

(** C55 for Newton's method: the line search ends after at most 67 trial points. *)
Theorem C55_newton :
  forall (P : nprob Xn) x f g p d flt fuel, (67 <= fuel)%nat ->
    exists r, newton_search P fuel x f g p d (Fin 1%R : Xn) flt = Ok r.
Proof. exact c55_newton. Qed.
Print Assumptions C55_newton.

(** C56: a limit of 0 iterations still runs one. *)
Theorem C56_zero_refuted :
  exists st, newton (U := unit) one_env nan_prob [] (opts1 0) 3 [Fin 0%R] tt 0 = Ok (MAX_ITERATIONS_EXCEEDED, st) /\
    n_it _ st = 1%Z /\ n_x _ st = [Fin 1%R].
Proof. exact c56_zero. Qed.
Print Assumptions C56_zero_refuted.
