(** Corollaries and concrete cases for C53 and C54. *)
From Coq Require Import ZArith QArith Reals List Bool Lia Lra.
From Verif Require Import Base ExprModel ExprReal ExprXR NumModel UtilModel KktModel FilterModel FilterProofs ExitModel SolverModel SolverSpec SolverProofs
  NewtonModel SqpModel IpmModel RestoreModel LinR IpmShape XArith XQ PosX SystemSpec SystemProofs BarrierSpec BarrierProofs ShownProofs RunX RunY.
Import ListNotations.
Local Open Scope R_scope.

(** What [ipm] (interior_point.hpp) starts its loop from, and the states at the start of its iterations. *)
Definition ipm_visits {U} (E : env Xn) (P : iprob Xn) (o : options Xn) (cbs : list (callback Xn U)) fuel (x : list Xn) (u : U) clk0 : istate E (U := U) -> Prop :=
  reaches (is_E E) (o_tol o) (ipm_body E P o cbs (Some (ipm_restore E o fuel P)) fuel (e_clock E clk0))
    (ipm_init E P false x (repeat (s_ofZ Xn 1) (ip_mi P)) (repeat (s_ofZ Xn 0) (ip_me P)) (repeat (s_ofZ Xn 1) (ip_mi P))
       (s_mul Xn (lit 1 1) (sc_f (ip_sc P))) 0%Z u clk0).

Lemma c53_solve {U} (E : env Xn) (P : iprob Xn) (o : options Xn) (cbs : list (callback Xn U)) fuel x u clk0 f t st :
  sc_f (ip_sc P) = Fin f -> 0 < f -> o_tol o = Fin t -> 0 < t <= 1 ->
  ipm_visits E P o cbs fuel x u clk0 st ->
  exists m tau, is_mu _ st = Fin m /\ is_tau _ st = Fin tau /\ f * t / 10 <= m <= f / 10 /\ 99 / 100 <= tau < 1 /\
    barrier_update (f * t / 10) (f / 10) (99 / 100) m tau.
Proof.
  intros Sf Pf Ot Pt V.
  assert (M : s_mul Xn (lit 1 1) (sc_f (ip_sc P)) = Fin (f / 10)).
  { rewrite Sf, xlit, xmul. change (IZR (10 ^ Z.of_nat 1)) with 10. f_equal. lra. }
  assert (T : tau_min (S := Xn) = Fin (99 / 100)). { unfold tau_min. rewrite xlit. change (IZR (10 ^ Z.of_nat 2)) with 100. reflexivity. }
  unfold ipm_visits in V. eapply (c53_history E P o f t) with (m := f / 10) (tau := 99 / 100) in V; auto; try lra.
  destruct V as (m & tau & H1 & H2 & H3 & H4 & H5). exists m, tau. repeat split; try tauto; try lra.
  rewrite Rmin_left in H4; [lra|]. nra.
Qed.

(** The iteration of [ipm_run] leads to a second loop head. *)
Lemma visits_case fuel : (2 <= fuel)%nat -> exists st, ipm_visits id_env in_prob (opts_y 5) (log_all [fun _ (u : unit) => (u, false)]) fuel [xq 1] (tt, []) 0 st /\ is_it _ st = 1%Z.
Proof.
  intros L. destruct fuel as [|fuel]; [lia|].
  destruct (in_body (unit * list (call Xn)) (log_all [fun _ (u : unit) => (u, false)]) (tt, []) (tt, [(0%nat, ipm_info id_env (ist0 _ (tt, @nil (call Xn))), false)]) 5
    (Some (ipm_restore id_env (opts_y 5) (S fuel) in_prob)) fuel) as (flt & B); [reflexivity|].
  unfold ipm_end in B. cbv zeta in B. set (e := unscaled_ipm _ _ _ _ _ _ _ _ _ _ _) in B.
  assert (Ee : e = xq (11 # 1000)). { subst e. unfold unscaled_ipm, is_identity, kkt_ipm, s_factor, rows_of, s_max, in_prob, hd1. qeval. reflexivity. }
  clearbody e. subst e. replace (s_ltb Xn (o_tol (opts_y 5)) (xq (11 # 1000))) with false in B by (symmetry; cbn [opts_y o_tol]; qeval; reflexivity).
  cbn [obind] in B. change (limits (opts_y 5) _ _ _ _) with (@None status, 2%nat) in B. cbn [finish] in B.
  eexists. split.
  - unfold ipm_visits. replace (s_mul Xn (lit 1 1) (sc_f (ip_sc in_prob))) with (xq (1 # 10)) by (symmetry; unfold in_prob; qeval; reflexivity).
    change (repeat (s_ofZ Xn 1) (ip_mi in_prob)) with [s_ofZ Xn 1]. change (repeat (s_ofZ Xn 0) (ip_me in_prob)) with (@nil Xn). rewrite q_ofZ. change (inject_Z 1) with 1%Q.
    change (ipm_init id_env in_prob false _ _ _ _ _ _ (tt, []) 0) with (ist0 (unit * list (call Xn)) (tt, [])).
    eapply reaches_next; [apply reaches_here| |exact B].
    rewrite ist0_eq. cbn [is_E opts_y o_tol]. qeval. reflexivity.
  - reflexivity.
Qed.

Lemma barrier_case : barrier_update (1 / 10) 1 (99 / 100) (1 / 5) (99 / 100).
Proof.
  assert (H : next_barrier (1 / 10) 1 = 1 / 5).
  { unfold next_barrier. unfold Rpower. rewrite ln_1, Rmult_0_r, exp_0. rewrite Rmin_left by lra. rewrite Rmax_right by lra. lra. }
  exists 1%nat. unfold barrier_after. change (Nat.iter 1 (next_barrier (1 / 10)) 1) with (next_barrier (1 / 10) 1). rewrite H. split; [reflexivity|]. split.
  - intros i Hi. replace i with 0%nat by lia. change (Nat.iter 0 _ 1) with 1. lra.
  - rewrite Rmax_left; lra.
Qed.

(** n = 1 with one equality and one inequality: everything 1, H = 2; the reduced matrix is 3, 1; 1, 0 and the
    right-hand side (1, -1), so the solution is (-1, 4). *)
Definition c54_lin : linear Rn := mkLin (S := Rn) unit (fun _ _ _ => tt) (fun _ _ => (tt, true))
  (fun _ b => match b with [_; _] => [-1; 4] | _ => b end).
Definition c54_env : env Rn := mkEnv (S := Rn) c54_lin (fun _ => 0) (fun _ b => b).
Definition c54_prob : iprob Rn :=
  mkIP (S := Rn) 1 1 1 (fun _ => 0) (fun _ => [1]) (fun _ _ _ => [[2]]) (fun _ _ _ => [[2]]) (fun _ => [1]) (fun _ => [[1]])
    (fun _ => [1]) (fun _ => [[1]]) (mkSc (S := Rn) 1 [1] [1]).
Definition c54_ctx : ictx c54_env := mkIX (S := Rn) c54_env [0] [1] [1] [1] 0 [1] [1] [[1]] [1] [[1]] 1 (99 / 100) tt.
Lemma c54_case :
  let rhs := ipm_rhs c54_env c54_prob c54_ctx in let k := ipm_lhs c54_env c54_prob [[2]] c54_ctx in
  c_ok c54_env c54_prob c54_ctx /\ mat_dims (S := Rn) 1 1 [[2]] = true /\ solve_ok c54_env /\
  (forall r, (r < 1)%nat -> nth r (ix_s _ c54_ctx) 0 <> 0) /\
  k_tl k = [[3]] /\ rhs = [1; -1] /\ solves 1 1 0 0 (k_tl k) (k_bl k) (ls_solve (e_lin c54_env) tt rhs) rhs.
Proof.
  cbv zeta. assert (A : k_tl (ipm_lhs c54_env c54_prob [[2]] c54_ctx) = [[3]]).
  { unfold ipm_lhs. cbn. repeat f_equal. rr. field. }
  assert (B : ipm_rhs c54_env c54_prob c54_ctx = [1; -1]).
  { unfold ipm_rhs. cbn. repeat f_equal; rr; field. }
  split; [unfold c_ok; cbn; repeat split; reflexivity|]. split; [reflexivity|]. split.
  { intros ls b. cbn. destruct b as [|? [|? [|? ?]]]; reflexivity. }
  split. { intros r L. replace r with 0%nat by lia. cbn. lra. }
  split; [exact A|]. split; [exact B|]. rewrite A, B. cbn [ls_solve c54_env e_lin c54_lin k_bl ipm_lhs c54_ctx ix_Ae].
  split; intros r L; replace r with 0%nat by lia; unfold sym, ent; cbn; lra.
Qed.
