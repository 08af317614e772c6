(** Concrete successful runs of the SQP and interior-point solvers. *)
From Coq Require Import ZArith QArith Reals List Bool Lia Lra.
From Verif Require Import Base ExprModel ExprReal ExprXR NumModel UtilModel KktModel FilterModel FilterProofs ExitModel SolverModel SolverSpec SolverProofs
  NewtonModel SqpModel IpmModel RestoreModel XArith XQ TermProofs RunX.
Import ListNotations.
Local Open Scope R_scope.

(** min x^2/2 subject to x = 1 from x = 0; the linear solver answers (1, -1), the solution of its first system. *)
Definition eq_env : env Xn := mkEnv (S := Xn) (mkLin (S := Xn) unit (fun _ _ _ => tt) (fun _ _ => (tt, true)) (fun _ _ => [xq 1; xq (-1)])) (fun _ => xq 0) (fun _ b => b).
Definition hd1 (x : list XR) : XR := match x with [v] => v | _ => NaN end.
(** [G] is the gradient away from 0: 1 at x = 1 for the cost above. *)
Definition eq_prob (G : XR) : sprob Xn :=
  mkSP (S := Xn) 1 1 (fun x => s_mul Xn (s_mul Xn (xq (1 # 2)) (hd1 x)) (hd1 x)) (fun x => [if s_eqb Xn (hd1 x) (xq 0) then xq 0 else G]) (fun _ _ => [[xq 1]]) (fun _ _ => [[xq 0]])
    (fun x => [s_sub Xn (hd1 x) (xq 1)]) (fun _ => [[xq 1]]) (mkSc (S := Xn) (xq 1) [xq 1] []).
Definition opts_y (m : Z) : options Xn := mkOpt (S := Xn) (xq (1 # 2)) m PInf false.

Lemma add_ok (f : filter Xn) c t d a : s_finite Xn (fe_cost t) = true -> s_ltb Xn (f_max f) (fe_viol t) = false -> f_entries f = [] ->
  (switching c d a = true -> armijo c t d a = true) -> sufficient c t a = true -> exists f', try_add f c t d a = (f', true).
Proof.
  intros H1 H2 H3 H4 H5. unfold try_add. rewrite H1, H2, H5. cbn [negb orb]. unfold in_filter. rewrite H3. cbn [existsb].
  destruct (switching c d a); [rewrite H4 by reflexivity|]; rewrite ?andb_true_r, ?andb_false_r; cbn [negb andb orb]; try destruct (s_leb Xn _ _); cbn [negb andb orb]; eexists; reflexivity.
Qed.

Section Sqp.
Variables (U : Type) (cbs : list (callback Xn U)) (u0 u1 : U) (m : Z) (G : XR).
Definition sst0 : sstate eq_env (U := U) := sqp_init eq_env (eq_prob G) [xq 0] [xq 0] u0 0.
Lemma sst0_eq : sst0 = mkS (S := Xn) eq_env [xq 0] [xq 0] (xq 0) [xq 0] [[xq 1]] [xq (-1)] [[xq 1]] (xq 1) (mkF (S := Xn) (xq (1 # 10000)) (xq 10000) [] false) 0%Z 0%Z u0 tt 1%nat.
Proof.
  assert (HG : sp_g (eq_prob G) [xq 0] = [xq 0]). { unfold eq_prob, hd1. cbn [sp_g]. qeval. reflexivity. }
  unfold sst0, sqp_init. rewrite HG. f_equal; try reflexivity.
  - unfold eq_prob. cbn [sp_f]. unfold hd1. qeval. reflexivity.
  - unfold eq_prob. cbn [sp_ce]. unfold hd1. qeval. reflexivity.
  - unfold unscaled_sqp, is_identity, kkt_sqp, s_factor, rows_of, s_max, eq_prob, hd1. qeval. reflexivity.
  - unfold filter_new, eq_prob, hd1. qeval. reflexivity.
Qed.
Lemma eq_suff : sufficient (S := Xn) (mkFE (S := Xn) (xq 0) (xq 1)) (mkFE (S := Xn) (xq (1 # 2)) (xq 0)) (xq 1) = true.
Proof.
  destruct (q_pow_le1 1 (Q2R (3 # 2))) as (r & (R1 & R2) & R3); [reflexivity|reflexivity|unfold Q2R; cbn; lra|].
  unfold sufficient. apply orb_true_intro. right. unfold margin. cbn [fe_viol fe_cost]. unfold g_constraint. qeval.
  change (s_pow _ _ _) with (s_pow Xn (xq 1) (Fin (Q2R (3 # 2)))). rewrite R3.
  change (s_leb Xn (Fin (Q2R 0)) (Fin ((Q2R 1 - r * Q2R (1 # 100000)) * Q2R 1)) = true). apply xleb. unfold Q2R. cbn [Qnum Qden]. nra.
Qed.
Lemma eq_trial : sqp_trial (eq_prob G) [xq 0] [xq 0] (xq 1) ([xq 1], [xq 1]) = mkST (S := Xn) [xq 1] [xq 1] (xq (1 # 2)) [xq 0].
Proof. unfold sqp_trial, eq_prob, hd1. qeval. reflexivity. Qed.
Lemma eq_body rst fuel : run_callbacks cbs (sqp_info eq_env sst0) u0 = (u1, false) ->
  exists flt, sqp_body eq_env (eq_prob G) (opts_y m) cbs rst (Datatypes.S fuel) (xq 0 : Xn) sst0 =
    Ok (sqp_end eq_env (eq_prob G) (opts_y m) (xq 0 : Xn) [xq 1] [xq 1] (xq (1 # 2)) [xq 0] flt 0%Z 0%Z u1 tt 1).
Proof.
  intros C. unfold sqp_body. set (b := eq_infeasible _ _ _). assert (B : b = false).
  { subst b. rewrite sst0_eq. cbn [s_Ae s_ce]. unfold eq_infeasible, norm2. qeval. rewrite !(q_sqrt _ 1) by reflexivity. qeval. reflexivity. }
  rewrite B. change (s_x eq_env sst0) with [xq 0]. replace (diverging (S := Xn) [xq 0]) with false by (symmetry; unfold diverging; qeval; reflexivity).
  change (s_u eq_env sst0) with u0. rewrite C. change (ls_compute (e_lin eq_env) _ _) with (tt, true). cbn [negb]. cbv zeta.
  set (d := sqp_dir _ _ _ _). assert (D : d = ([xq 1], [xq 1])). { subst d. unfold sqp_dir. qeval. reflexivity. } clearbody d. subst d.
  rewrite q_ofZ. change (inject_Z 1) with 1%Q. cbn [sqp_search]. cbv zeta. change (sx_x eq_env _) with [xq 0]. change (sx_y eq_env _) with [xq 0].
  rewrite eq_trial. cbn [st_f st_ce st_x st_y].
  match goal with |- context [if ?b then _ else _] => replace b with false by (symmetry; qeval; reflexivity) end.
  match goal with |- context [try_add ?f ?c ?t ?d ?a] => assert (T : exists flt, try_add f c t d a = (flt, true)) end.
  { rewrite sst0_eq. unfold sqp_ctx. cbn [s_flt s_cnt sx_cur sx_d s_f s_ce s_g fst s_x s_y]. unfold st_entry, fe_sqp. cbn [st_f st_ce].
    replace (norm1 (S := Xn) [xq 0]) with (xq 0) by (qeval; reflexivity). replace (norm1 (S := Xn) [xq (-1)]) with (xq 1) by (qeval; reflexivity).
    apply add_ok; cbn [fe_cost fe_viol f_max f_entries]; [qeval; reflexivity|qeval; reflexivity|reflexivity| |exact eq_suff].
    unfold switching. replace (s_ltb Xn _ _) with false; [discriminate|]. qeval. reflexivity. }
  destruct T as (flt & T). exists flt. rewrite T. cbn [obind sf_t sf_a sf_flt sf_cnt st_x st_y st_f st_ce].
  replace (s_eqb Xn (xq 1) (xq 1)) with true by (qeval; reflexivity). reflexivity.
Qed.
Lemma eq_start fuel : sqp_solve eq_env (opts_y m) fuel (eq_prob G) cbs [xq 0] u0 0 =
  drive (s_E eq_env) (xq (1 # 2) : Xn) (sqp_body eq_env (eq_prob G) (opts_y m) cbs (sqp_restore eq_env (opts_y m) fuel (eq_prob G)) fuel (xq 0 : Xn)) fuel sst0.
Proof.
  unfold sqp_solve, sqp, sqp_from. cbv zeta. change (repeat (s_ofZ Xn 0) (sp_me (eq_prob G))) with [s_ofZ Xn 0]. rewrite q_ofZ. change (inject_Z 0) with 0%Q.
  change (sqp_init eq_env (eq_prob G) _ _ u0 0) with sst0. set (d := drive _ _ _ _ _). rewrite sst0_eq. cbn [s_g s_H s_ce s_Ae s_f].
  match goal with |- context [oassert ?b _] => replace b with true by reflexivity end. cbn [oassert].
  match goal with |- context [Nat.ltb ?p ?q] => replace (Nat.ltb p q) with false by reflexivity end.
  match goal with |- context [if ?b then _ else _] => replace b with false by (symmetry; qeval; reflexivity) end. reflexivity.
Qed.
End Sqp.

Lemma eq_E1 : unscaled_sqp (S := Xn) (sp_sc (eq_prob (xq 1))) 1 [xq 1] [[xq 1]] [xq 0] [xq 1] = xq 0.
Proof. unfold unscaled_sqp, is_identity, kkt_sqp, s_factor, rows_of, s_max, eq_prob, hd1. qeval. reflexivity. Qed.
Lemma eq_g1 : sp_g (eq_prob (xq 1)) [xq 1] = [xq 1].
Proof. unfold eq_prob, hd1. cbn [sp_g]. qeval. reflexivity. Qed.
Lemma sqp_run fuel : (2 <= fuel)%nat -> exists st, sqp_solve (U := unit) eq_env (opts_y 5) fuel (eq_prob (xq 1)) [] [xq 0] tt 0 = Ok (SUCCESS, st) /\ s_x _ st = [xq 1] /\ s_it _ st = 1%Z.
Proof.
  intros L. rewrite eq_start. destruct fuel as [|fuel]; [lia|]. destruct (eq_body unit [] tt tt 5 (xq 1) (sqp_restore eq_env (opts_y 5) (S fuel) (eq_prob (xq 1))) fuel) as (flt & B); [reflexivity|].
  destruct fuel as [|fuel]; [lia|]. cbn [drive]. rewrite B. replace (s_ltb Xn (xq (1 # 2)) (s_E eq_env (sst0 unit tt (xq 1)))) with true by (rewrite sst0_eq; cbn [s_E]; qeval; reflexivity).
  unfold sqp_end. change (limits (opts_y 5) _ _ _ _) with (@None status, 2%nat). cbn [finish obind drive s_E].
  rewrite eq_g1. change (unscaled_sqp _ _ _ _ _ _) with (unscaled_sqp (S := Xn) (sp_sc (eq_prob (xq 1))) 1 [xq 1] [[xq 1]] [xq 0] [xq 1]). rewrite eq_E1.
  replace (s_ltb Xn (xq (1 # 2)) (xq 0)) with false by (symmetry; qeval; reflexivity). eexists. split; [reflexivity|]. split; reflexivity.
Qed.
(** With a limit of one iteration the same run converges and is reported as MAX_ITERATIONS_EXCEEDED. *)
Lemma sqp_run_limit fuel : (2 <= fuel)%nat -> exists st, sqp_solve (U := unit) eq_env (opts_y 1) fuel (eq_prob (xq 1)) [] [xq 0] tt 0 = Ok (MAX_ITERATIONS_EXCEEDED, st) /\
  s_x _ st = [xq 1] /\ s_it _ st = 1%Z /\ s_ltb Xn (o_tol (opts_y 1)) (s_E _ st) = false.
Proof.
  intros L. rewrite eq_start. destruct fuel as [|fuel]; [lia|]. destruct (eq_body unit [] tt tt 1 (xq 1) (sqp_restore eq_env (opts_y 1) (S fuel) (eq_prob (xq 1))) fuel) as (flt & B); [reflexivity|].
  cbn [drive]. rewrite B. replace (s_ltb Xn (xq (1 # 2)) (s_E eq_env (sst0 unit tt (xq 1)))) with true by (rewrite sst0_eq; cbn [s_E]; qeval; reflexivity).
  unfold sqp_end. change (limits (opts_y 1) _ _ _ _) with (Some MAX_ITERATIONS_EXCEEDED, 1%nat). cbn [finish obind]. eexists. split; [reflexivity|]. split; [reflexivity|]. split; [reflexivity|].
  cbn [s_E]. rewrite eq_g1. change (unscaled_sqp _ _ _ _ _ _) with (unscaled_sqp (S := Xn) (sp_sc (eq_prob (xq 1))) 1 [xq 1] [[xq 1]] [xq 0] [xq 1]). rewrite eq_E1. cbn [opts_y o_tol]. qeval. reflexivity.
Qed.

(** A gradient that is not a number at x = 1 makes the error not a number, which is not greater than the tolerance. *)
Lemma sqp_run_nan fuel : (2 <= fuel)%nat -> exists st, sqp_solve (U := unit) eq_env (opts_y 5) fuel (eq_prob NaN) [] [xq 0] tt 0 = Ok (SUCCESS, st) /\
  s_x _ st = [xq 1] /\ sp_g (eq_prob NaN) (s_x _ st) = [NaN].
Proof.
  intros L. rewrite eq_start. destruct fuel as [|fuel]; [lia|]. destruct (eq_body unit [] tt tt 5 NaN (sqp_restore eq_env (opts_y 5) (S fuel) (eq_prob NaN)) fuel) as (flt & B); [reflexivity|].
  destruct fuel as [|fuel]; [lia|]. cbn [drive]. rewrite B. replace (s_ltb Xn (xq (1 # 2)) (s_E eq_env (sst0 unit tt NaN))) with true by (rewrite sst0_eq; cbn [s_E]; qeval; reflexivity).
  unfold sqp_end. change (limits (opts_y 5) _ _ _ _) with (@None status, 2%nat). cbn [finish obind drive s_E].
  assert (G : sp_g (eq_prob NaN) [xq 1] = [NaN]). { unfold eq_prob, hd1. qeval. reflexivity. }
  set (e := unscaled_sqp _ _ _ _ _ _). assert (Ee : e = NaN). { subst e. rewrite G. unfold unscaled_sqp, is_identity, kkt_sqp, s_factor, rows_of, s_max. qeval. reflexivity. }
  clearbody e. subst e. cbn [obind]. replace (s_ltb Xn (xq (1 # 2)) NaN) with false by reflexivity. eexists. split; [reflexivity|]. split; [reflexivity|exact G].
Qed.

(** min 0 subject to x >= 0 from x = 1; the linear solver answers with its right-hand side, the solution of the 1 x 1
    system with matrix z / s = 1. *)
Definition in_prob : iprob Xn :=
  mkIP (S := Xn) 1 0 1 (fun _ => xq 0) (fun _ => [xq 0]) (fun _ _ _ => [[xq 0]]) (fun _ _ _ => [[xq 0]]) (fun _ => []) (fun _ => [])
    (fun x => [hd1 x]) (fun _ => [[xq 1]]) (mkSc (S := Xn) (xq 1) [] [xq 1]).

Section Ipm.
Variables (U : Type) (cbs : list (callback Xn U)) (u0 u1 : U) (m : Z).
Definition ist0 : istate id_env (U := U) := ipm_init id_env in_prob false [xq 1] [xq 1] [] [xq 1] (xq (1 # 10)) 0%Z u0 0.
Lemma ist0_eq : ist0 = mkI (S := Xn) id_env [xq 1] [xq 1] [] [xq 1] (xq 0) [xq 0] [[xq 0]] [] [] [xq 1] [[xq 1]] (xq 1) (xq (1 # 10)) (xq (99 # 100))
  (mkF (S := Xn) (xq (1 # 10000)) (xq 10000) [] false) 0%Z 0%Z u0 tt 1%nat.
Proof.
  unfold ist0, ipm_init. set (e := unscaled_ipm _ _ _ _ _ _ _ _ _ _ _). set (t := tau_min). set (f := filter_new _).
  assert (He : e = xq 1). { subst e. unfold unscaled_ipm, is_identity, kkt_ipm, s_factor, rows_of, s_max, in_prob, hd1. qeval. reflexivity. }
  assert (Ht : t = xq (99 # 100)). { subst t. unfold tau_min. qeval. reflexivity. }
  assert (Hf : f = mkF (S := Xn) (xq (1 # 10000)) (xq 10000) [] false). { subst f. unfold filter_new, in_prob, hd1. qeval. reflexivity. }
  clearbody e t f. subst. reflexivity.
Qed.
Lemma in_step : let c := ipm_ctx id_env ist0 tt in
  ipm_step id_env c (ipm_rhs id_env in_prob c) (vsub (is_ci id_env ist0) (is_s id_env ist0)) = mkStep (S := Xn) [xq (1 # 10)] [xq (1 # 10)] [] [xq (-1)].
Proof.
  cbv zeta. rewrite ist0_eq. unfold ipm_step, ipm_rhs, ipm_ctx. cbn [is_x is_s is_y is_z is_f is_g is_ce is_Ae is_ci is_Ai is_mu is_tau ix_x ix_s ix_y ix_z ix_f ix_g ix_ce ix_Ae ix_ci ix_Ai ix_mu ix_tau].
  unfold sigma, vinv. qeval. reflexivity.
Qed.
Lemma in_trial : let c := ipm_ctx id_env ist0 tt in
  ipm_trial_main id_env in_prob (opts_y m) c (mkStep (S := Xn) [xq (1 # 10)] [xq (1 # 10)] [] [xq (-1)]) (xq 1) (xq (99 # 100)) =
  mkIT (S := Xn) [xq (11 # 10)] [xq (11 # 10)] [] [xq (1 # 100)] (xq 0) [] [xq (11 # 10)].
Proof.
  cbv zeta. rewrite ist0_eq. unfold ipm_trial_main. cbn [opts_y o_feasible andb]. unfold ipm_trial, ipm_ctx, in_prob, hd1. qeval. reflexivity.
Qed.
Lemma in_cost : exists r, 1 / 100 < r /\ fe_cost (fe_ipm (S := Xn) (xq 0) [xq (11 # 10)] [] [xq (11 # 10)] (xq (1 # 10))) = Fin (- r / 10).
Proof.
  exists (ln (Q2R (11 # 10))). split.
  - assert (H : Q2R (11 # 10) = 11 / 10) by (unfold Q2R; cbn; lra). rewrite H. rewrite <- (ln_exp (1 / 100)). apply ln_increasing; [apply exp_pos|].
    assert (K : exp (- (1 / 100)) > 1 + - (1 / 100)) by (apply exp_ineq1; lra). rewrite exp_Ropp in K.
    assert (P : 0 < exp (1 / 100)) by apply exp_pos. apply Rmult_gt_compat_r with (r := exp (1 / 100)) in K; [|exact P]. rewrite Rinv_l in K by lra. lra.
  - unfold fe_ipm. cbn [fe_cost]. cbn [map]. change (vsum (S := Xn) [s_log Xn (xq (11 # 10))]) with (s_add Xn (s_ofZ Xn 0) (s_log Xn (xq (11 # 10)))).
    rewrite q_log by reflexivity. rewrite q_ofZ. unfold xq. change (Fin (Q2R 0 - Q2R (1 # 10) * (Q2R (inject_Z 0) + ln (Q2R (11 # 10)))) = Fin (- ln (Q2R (11 # 10)) / 10)).
    f_equal. set (l := ln _). unfold Q2R. cbn. lra.
Qed.
Lemma in_suff : let t := fe_ipm (S := Xn) (xq 0) [xq (11 # 10)] [] [xq (11 # 10)] (xq (1 # 10)) in let c := fe_ipm (S := Xn) (xq 0) [xq 1] [] [xq 1] (xq (1 # 10)) in
  sufficient c t (xq 1) = true /\ armijo c t (xq (-1 # 100)) (xq 1) = true /\ s_finite Xn (fe_cost t) = true /\ fe_viol t = xq 0 /\ fe_viol c = xq 0.
Proof.
  cbv zeta. destruct in_cost as (r & R1 & R2).
  assert (C : fe_cost (fe_ipm (S := Xn) (xq 0) [xq 1] [] [xq 1] (xq (1 # 10))) = xq 0).
  { unfold fe_ipm. cbn [fe_cost]. cbn [map]. change (vsum (S := Xn) [s_log Xn (xq 1)]) with (s_add Xn (s_ofZ Xn 0) (s_log Xn (xq 1))).
    rewrite q_log by reflexivity. replace (ln (Q2R 1)) with 0 by (symmetry; replace (Q2R 1) with 1 by (unfold Q2R; cbn; lra); apply ln_1). qeval. reflexivity. }
  assert (V1 : fe_viol (fe_ipm (S := Xn) (xq 0) [xq (11 # 10)] [] [xq (11 # 10)] (xq (1 # 10))) = xq 0) by (unfold fe_ipm; cbn [fe_viol]; qeval; reflexivity).
  assert (V2 : fe_viol (fe_ipm (S := Xn) (xq 0) [xq 1] [] [xq 1] (xq (1 # 10))) = xq 0) by (unfold fe_ipm; cbn [fe_viol]; qeval; reflexivity).
  destruct (q_pow_le1 1 (Q2R (3 # 2))) as (q & (Q1 & Q2) & Q3); [reflexivity|reflexivity|unfold Q2R; cbn; lra|].
  split; [|split; [|split; [|split; assumption]]].
  - unfold sufficient. apply orb_true_intro. left. unfold margin. cbn [fe_viol fe_cost]. rewrite R2, C, V2. unfold g_cost. qeval.
    change (s_pow _ _ _) with (s_pow Xn (xq 1) (Fin (Q2R (3 # 2)))). rewrite Q3.
    change (s_leb Xn (Fin (- r / 10)) (Fin (Q2R 0 - q * Q2R (1 # 100000000) * Q2R 0)) = true). apply xleb. unfold Q2R. cbn [Qnum Qden]. lra.
  - unfold armijo. rewrite R2, C. qeval. unfold xq. apply xleb. unfold Q2R. cbn [Qnum Qden]. lra.
  - rewrite R2. reflexivity.
Qed.
Lemma in_body rst fuel : run_callbacks cbs (ipm_info id_env ist0) u0 = (u1, false) ->
  exists flt, ipm_body id_env in_prob (opts_y m) cbs rst (Datatypes.S fuel) (Fin 0 : Xn) ist0 =
    ipm_end id_env in_prob (opts_y m) (Datatypes.S fuel) (Fin 0 : Xn) [xq (11 # 10)] [xq (11 # 10)] [] [xq (1 # 100)] (xq 0) [] [xq (11 # 10)]
      (xq (1 # 10)) (xq (99 # 100)) flt 0%Z 0%Z u1 tt 1.
Proof.
  intros C. unfold ipm_body. set (b1 := eq_infeasible _ _ _). set (b2 := ineq_infeasible _ _ _). set (b3 := diverging _ || diverging _).
  assert (B1 : b1 = false) by reflexivity.
  assert (B2 : b2 = false). { subst b2. rewrite ist0_eq. cbn [is_Ai is_ci]. unfold ineq_infeasible, norm2. qeval. rewrite !(q_sqrt _ 0) by reflexivity. qeval. reflexivity. }
  assert (B3 : b3 = false). { subst b3. rewrite ist0_eq. cbn [is_x is_s]. unfold diverging. qeval. reflexivity. }
  rewrite B1, B2, B3. change (is_u id_env ist0) with u0. rewrite C. change (ls_compute (e_lin id_env) _ _) with (tt, true). cbn [negb]. cbv zeta.
  rewrite in_step. cbn [p_x p_s p_y p_z].
  set (am := ftb (is_s id_env ist0) _ _). assert (A : am = xq 1). { subst am. rewrite ist0_eq. cbn [is_s is_tau]. unfold ftb. qeval. reflexivity. } clearbody am. subst am.
  set (az := ftb (is_z id_env ist0) _ _). assert (A : az = xq (99 # 100)). { subst az. rewrite ist0_eq. cbn [is_z is_tau]. unfold ftb. qeval. reflexivity. } clearbody az. subst az.
  set (dphi := s_sub Xn _ _). assert (D : dphi = xq (-1 # 100)). { subst dphi. rewrite ist0_eq. cbn [is_g is_mu is_s]. unfold vinv. qeval. reflexivity. }
  clearbody dphi. subst dphi. cbn [ipm_search]. cbv zeta. rewrite in_trial. cbn [it_f it_ce it_ci it_s it_x it_y it_z].
  match goal with |- context [if ?b then _ else _] => replace b with false by (symmetry; qeval; reflexivity) end.
  match goal with |- context [try_add ?f ?c ?t ?d ?a] => assert (T : exists flt, try_add f c t d a = (flt, true)) end.
  { rewrite ist0_eq. unfold it_entry, ix_cur, ipm_ctx. cbn [is_flt is_f is_s is_ce is_ci is_mu ix_f ix_s ix_ce ix_ci ix_mu it_f it_s it_ce it_ci].
    destruct in_suff as (S1 & S2 & S3 & S4 & S5). apply add_ok; auto. rewrite S4. cbn [f_max]. qeval. reflexivity. }
  destruct T as (flt & T). exists flt. rewrite T. cbn [obind if_t if_a if_flt if_cnt it_x it_s it_y it_z it_f it_ce it_ci].
  match goal with |- context [if ?b then None else _] => replace b with false by (symmetry; unfold amin; qeval; reflexivity) end.
  replace (s_eqb Xn (xq 1) (xq 1)) with true by (qeval; reflexivity).
  rewrite ist0_eq. cbn [is_mu is_tau is_it is_clk is_cnt].
  set (cz := clamp_zs _ _ _). assert (Z : cz = Ok [xq (1 # 100)]). { subst cz. unfold clamp_zs, clamp_z, clamp, kappa_sigma. qeval. reflexivity. }
  clearbody cz. subst cz. reflexivity.
Qed.
End Ipm.

Lemma ipm_run_start {U} (cbs : list (callback Xn U)) u0 m fuel : ipm_solve id_env (opts_y m) fuel in_prob cbs [xq 1] u0 0 =
  drive (is_E id_env) (xq (1 # 2) : Xn) (ipm_body id_env in_prob (opts_y m) cbs (Some (ipm_restore id_env (opts_y m) fuel in_prob)) fuel (Fin 0 : Xn)) fuel (ist0 U u0).
Proof.
  unfold ipm_solve, ipm, ipm_from. cbv zeta. change (repeat (s_ofZ Xn 1) (ip_mi in_prob)) with [s_ofZ Xn 1]. change (repeat (s_ofZ Xn 0) (ip_me in_prob)) with (@nil Xn).
  rewrite q_ofZ. change (inject_Z 1) with 1%Q. replace (s_mul Xn (lit (S := Xn) 1 1) (sc_f (ip_sc in_prob))) with (xq (1 # 10)) by (symmetry; unfold in_prob; qeval; reflexivity).
  change (ipm_init id_env in_prob false _ _ _ _ _ _ u0 0) with (ist0 U u0). set (d := drive _ _ _ _ _). rewrite ist0_eq. cbn [is_g is_H is_ce is_Ae is_ci is_Ai is_f].
  match goal with |- context [oassert ?b _] => replace b with true by reflexivity end. cbn [oassert].
  match goal with |- context [Nat.ltb ?p ?q] => replace (Nat.ltb p q) with false by reflexivity end.
  match goal with |- context [if ?b then _ else _] => replace b with false by (symmetry; qeval; reflexivity) end. reflexivity.
Qed.
Lemma ipm_run fuel : (2 <= fuel)%nat -> exists st,
  ipm_solve id_env (opts_y 5) fuel in_prob (log_all [fun _ (u : unit) => (u, false)]) [xq 1] (tt, []) 0 = Ok (SUCCESS, st) /\
  is_x _ st = [xq (11 # 10)] /\ is_s _ st = [xq (11 # 10)] /\ is_z _ st = [xq (1 # 100)] /\ is_it _ st = 1%Z /\
  map (fun c => (i_iter (snd (fst c)), i_s (snd (fst c)), i_z (snd (fst c)))) (snd (is_u _ st)) = [(0%Z, [xq 1], [xq 1])].
Proof.
  intros L. rewrite ipm_run_start. destruct fuel as [|fuel]; [lia|].
  destruct (in_body (unit * list (call Xn)) (log_all [fun _ (u : unit) => (u, false)]) (tt, []) (tt, [(0%nat, ipm_info id_env (ist0 _ (tt, @nil (call Xn))), false)]) 5
    (Some (ipm_restore id_env (opts_y 5) (S fuel) in_prob)) fuel) as (flt & B); [reflexivity|].
  destruct fuel as [|fuel]; [lia|]. cbn [drive]. rewrite B. replace (s_ltb Xn (xq (1 # 2)) (is_E id_env (ist0 _ _))) with true by (rewrite ist0_eq; cbn [is_E]; qeval; reflexivity).
  unfold ipm_end. cbv zeta. set (e := unscaled_ipm _ _ _ _ _ _ _ _ _ _ _).
  assert (Ee : e = xq (11 # 1000)). { subst e. unfold unscaled_ipm, is_identity, kkt_ipm, s_factor, rows_of, s_max, in_prob, hd1. qeval. reflexivity. }
  clearbody e. subst e. replace (s_ltb Xn (o_tol (opts_y 5)) (xq (11 # 1000))) with false by (symmetry; cbn [opts_y o_tol]; qeval; reflexivity).
  cbn [obind]. change (limits (opts_y 5) _ _ _ _) with (@None status, 2%nat). cbn [finish obind drive is_E].
  replace (s_ltb Xn (xq (1 # 2)) (xq (11 # 1000))) with false by (symmetry; qeval; reflexivity). eexists. split; [reflexivity|].
  repeat (split; [reflexivity|]). cbn [is_u snd map fst]. rewrite ist0_eq. reflexivity.
Qed.
