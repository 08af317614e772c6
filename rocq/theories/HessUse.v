(** Proofs for C100, with solve(). *)
From Coq Require Import ZArith Reals List Bool Arith Lia Lra.
From Verif Require Import Base ExprModel ExprReal ExprXR VarSpec NumModel ExitModel SolverModel SolverSpec IpmShape RestoreProofs PosX KktSpec ProblemModel ProblemSpec ProbSolveModel ProbSolveSpec
  ProbSolveHist ProbSolveKkt LagrSpec ProbSolveRun RunY FinEval SmoothGraph XArith NewtonModel LinR SmoothSpec SmoothUser PathDeriv ProbEarly FiniteSpec FiniteUseSpec FiniteUse ConvexSpec ConvexUse QuadSpec QuadProofs QuadUse DownUse RateCost RateUse HessSpec HessProofs.
Import ListNotations.
Local Open Scope R_scope.

Lemma c100_test sp p : lived sp p -> smooth_everywhere sp -> (convex_problem sp <-> hessian_test sp).
Proof. intros Lv Sm. exact (hess_iff sp Sm (quad_nodup sp p Lv)). Qed.
Lemma c100_global (U : Type) (E : env Xn) (o : options Xn) t : solve_ok E -> o_tol o = Fin t -> 0 < t ->
  forall sp, smooth_everywhere sp -> hessian_test sp -> est_ok E -> lin_fin E -> est_fin E ->
  forall (all : list (callback Xn U)) x s m z l, ended E o all sp SUCCESS x s m z l ->
  exists y, x = map Fin y /\ exists lam nu sl, nearly_stationary sp t (point sp y) lam nu /\ nearly_complementary sp t (point sp y) nu sl /\ (forall v, In v nu -> 0 < v) /\
    forall rho v v', can_be sp rho -> feasible sp rho -> cost_is sp (point sp y) v -> cost_is sp rho v' ->
      v <= v' + t * (excuse (sum_abs lam + sum_abs nu) (length lam + length nu) * dist1 sp rho (point sp y) + sum_abs lam + sum_abs nu + INR (length nu) * excuse (sum_abs nu) (length nu)).
Proof.
  intros So To Pt sp Sm H Eo Lf Ef all x s m z l En. assert (C : convex_problem sp) by (destruct En as [p ? ? ? ? ? ? ? ? Lv|p ? ? ? ? ? ? ? ? Lv]; exact (proj2 (c100_test sp p Lv Sm) H)).
  exact (c88 E o t So To Pt sp Sm C Eo Lf Ef all x s m z l En).
Qed.
Lemma c100_newton (U : Type) (E : env Xn) (o : options Xn) t : solve_ok E -> o_tol o = Fin t -> 0 < t ->
  forall sp, smooth_everywhere sp -> hessian_test sp -> lin_fin_any E ->
  forall (all : list (callback Xn U)) x l, ended_newton E o all sp SUCCESS x l ->
  exists y, x = map Fin y /\ forall rho v v', can_be sp rho -> cost_is sp (point sp y) v -> cost_is sp rho v' -> v <= v' + t * dist1 sp rho (point sp y).
Proof.
  intros So To Pt sp Sm H Lf all x l En. assert (C : convex_problem sp) by (destruct En as [p ? ? ? ? ? ? ? ? Lv]; exact (proj2 (c100_test sp p Lv Sm) H)).
  exact (c88_newton E o t So To Pt sp Sm C Lf all x l En).
Qed.

(** What Newton's method is given. *)
Lemma newton_form sp p P x0 p1 : lived sp p -> smooth_everywhere sp -> prepare p = Ok (RanNewton P, x0, p1) -> sp_eqs sp = [] /\ sp_ineqs sp = [] /\ exists f, 0 < f /\
  forall y, length y = size sp -> exists A Q, np_H P (map Fin y) = map (map Fin) A /\ second_at sp (cost_is sp) y Q /\ forall v, form (size sp) (low A) v = f * form (size sp) Q v.
Proof.
  intros Lv Sm H. destruct (c80_newton sp p P x0 p1 Lv H (start_everywhere sp Sm)) as (f & _ & Pf & Qe & Qi & K). split; [exact Qe|]. split; [exact Qi|]. exists f. split; [exact Pf|]. intros y Ly.
  destruct (K y Ly (Sm y Ly)) as (_ & _ & Hh). pose proof (hess_fin _ _ _ _ Hh) as Fh. destruct Hh as ((S1 & S2) & Hh).
  assert (exists A, np_H P (map Fin y) = fm A) as (A & EA).
  { clear - Fh. induction (np_H P (map Fin y)) as [|w M IH]; [exists []; reflexivity|]. inversion Fh as [|? ? F1 F2]; subst. destruct (IH F2) as (A & ->). destruct (vfin_real _ F1) as (r & ->). exists (r :: A). reflexivity. }
  rewrite EA in *. unfold fm in S1, S2, Hh. rewrite map_length in S1.
  destruct (cdn_derive sp _ (proj1 (Sm y Ly))) as (M & [_ _ Bs] & D). set (Q := fun i j => M (unit (nth i (sp_dec sp) 0%nat)) (unit (nth j (sp_dec sp) 0%nat))).
  assert (PQ : forall i j, pd (nth j (sp_dec sp) 0%nat) (pd (nth i (sp_dec sp) 0%nat) (cost_is sp)) (point sp y) (Q i j)) by (intros i j; apply pd_cnum2; [exact (proj1 (Sm y Ly))|exact D]).
  assert (Kk : forall i j, (i < size sp)%nat -> (j <= i)%nat -> nth j (nth i A []) 0 = f * Q i j).
  { intros i j Li Lj. assert (Lj' : (j < size sp)%nat) by lia. destruct (Hh i j _ _ (nth_error_of (sp_dec sp) i 0%nat Li) (nth_error_of (sp_dec sp) j 0%nat Lj')) as [Hh1 _]. destruct (Hh1 Lj) as (d & Ed & Pd).
    apply pd_unscale2 in Pd; [|lra]. assert (d / f = Q i j) as <-. { refine (pd_fun _ _ _ _ _ _ Pd (PQ i j)). intros r v w. apply pd_fun. intros r' v' w'. apply cost_det. }
    replace (f * (d / f)) with d by (field; lra).
    unfold at2 in Ed. rewrite (nth_map_lt fv A i [] []) in Ed by (rewrite S1; exact Li). unfold fv in Ed. rewrite (nth_map_lt Fin _ j 0 NaN) in Ed; [injection Ed as Ed; exact Ed|].
    specialize (S2 (fv (nth i A [])) (in_map fv _ _ (nth_In A [] ltac:(rewrite S1; exact Li)))). rewrite fv_len in S2. rewrite S2. exact Lj'. }
  exists A, Q. split; [reflexivity|]. split; [intros i j _ _; apply PQ|].
  intros v. rewrite <- form_scale. apply form_ext. intros i j Li Lj. unfold low. destruct (Nat.le_ge_cases j i) as [C|C].
  + rewrite (Nat.min_r i j C), (Nat.max_l i j C). apply Kk; lia.
  + rewrite (Nat.min_l i j C), (Nat.max_r i j C). rewrite Kk by lia. f_equal. apply Bs.
Qed.
Lemma c100_computed sp p P x0 p1 : lived sp p -> smooth_everywhere sp -> prepare p = Ok (RanNewton P, x0, p1) ->
  (convex_problem sp <-> forall y, length y = size sp -> exists A, np_H P (map Fin y) = map (map Fin) A /\ forall v, 0 <= form (size sp) (low A) v).
Proof.
  intros Lv Sm H. destruct (newton_form sp p P x0 p1 Lv Sm H) as (Qe & Qi & f & Pf & K). rewrite (c100_test sp p Lv Sm). split.
  - intros (B & _) y Ly. destruct (K y Ly) as (A & Q & EA & HQ & HF). exists A. split; [exact EA|]. intros v. rewrite HF. apply Rmult_le_pos; [lra|]. exact (B y Q Ly HQ v).
  - intros B. split; [|rewrite Qe, Qi; split; intros r []]. intros y Q' Ly HQ' v. destruct (K y Ly) as (A & Q & EA & HQ & HF). destruct (B y Ly) as (A' & EA' & HA). rewrite EA in EA'.
    assert (A' = A) as ->. { apply (f_equal (map (map X_pr))) in EA'. change (map (map X_pr) (fm A) = map (map X_pr) (fm A')) in EA'. rewrite !pr_fm in EA'. symmetry. exact EA'. }
    rewrite (form_ext (size sp) Q' Q v (cost_second_fun sp y Q' Q HQ' HQ)). specialize (HA v). rewrite HF in HA. apply Rmult_le_reg_l with f; [exact Pf|]. rewrite Rmult_0_r. exact HA.
Qed.
