(** Concrete runs of the solvers with equality and inequality constraints. *)
From Coq Require Import ZArith QArith Reals List Bool Lia Lra.
From Verif Require Import Base ExprModel ExprReal ExprXR NumModel UtilModel KktModel FilterModel FilterProofs ExitModel SolverModel SolverSpec SolverProofs
  NewtonModel SqpModel IpmModel RestoreModel XArith XQ TermProofs.
Import ListNotations.
Local Open Scope R_scope.

(** A linear solver that answers with the right-hand side, a clock that stands still. *)
Definition id_lin : linear Xn := mkLin (S := Xn) unit (fun _ _ _ => tt) (fun _ _ => (tt, true)) (fun _ b => b).
Definition id_env : env Xn := mkEnv (S := Xn) id_lin (fun _ => Fin 0) (fun _ b => b).

(** f(x) = x for x >= 0 and undefined for x < 0, with an equality constraint 0 = 0 that does not depend on x.  The
    right-hand side (-1, 0) of its Newton system at 0 is also the solution, with any regularization of the constraint. *)
Definition stuck_f (x : list XR) : XR := match x with [v] => if s_ltb Xn v (Fin 0) then NaN else v | _ => NaN end.
Definition stuck : sprob Xn :=
  mkSP (S := Xn) 1 1 stuck_f (fun _ => [Fin 1]) (fun _ _ => [[Fin 1]]) (fun _ _ => [[Fin 0]]) (fun _ => [Fin 0]) (fun _ => [[Fin 0]])
    (mkSc (S := Xn) (Fin 1) [Fin 1] []).
Definition opts_r : options Xn := mkOpt (S := Xn) (Fin (1 / 10)) 1 PInf false.

(** Every step from 0 leaves the domain of f. *)
Lemma stuck_trial (y : list XR) (q : list XR) a : 0 < a -> sp_f stuck (st_x (sqp_trial stuck [Fin 0] y (Fin a) ([Fin (-1)], q))) = NaN.
Proof.
  intros H. unfold sqp_trial, vstep, vadd, vscale, vmap2. cbn -[R_ltb stuck_f]. unfold stuck_f. rewrite xltb. replace (R_ltb _ _) with true; [reflexivity|].
  symmetry. apply R_ltb_true. lra.
Qed.
Lemma stuck_search c q : sx_x id_env c = [Fin 0] -> forall fuel a flt cnt r, 0 < a ->
  sqp_search id_env stuck fuel c ([Fin (-1)], q) (Fin a : Xn) flt cnt = Ok r -> sf_t r = None /\ sf_flt r = flt /\ sf_cnt r = cnt /\ exists b, 0 < b /\ sf_a r = Fin b.
Proof.
  intros X. induction fuel as [|fuel IH]; intros a flt cnt r A H; [discriminate|]. cbn [sqp_search] in H. cbv zeta in H. rewrite X in H.
  assert (F : s_finite Xn (st_f (sqp_trial stuck [Fin 0] (sx_y id_env c) (Fin a : Xn) ([Fin (-1)], q))) = false)
    by (change (s_finite Xn (sp_f stuck (st_x (sqp_trial stuck [Fin 0] (sx_y id_env c) (Fin a) ([Fin (-1)], q)))) = false); rewrite stuck_trial by auto; reflexivity).
  rewrite F in H. cbn [negb orb] in H. rewrite xhalve in H. destruct (s_ltb Xn _ _).
  - injection H as <-. cbn [sf_t sf_flt sf_cnt sf_a]. repeat split; auto. exists (a / 2). split; [lra|reflexivity].
  - apply IH in H; auto. lra.
Qed.

Section Run.
Context {U : Type}.
Variables (cbs : list (callback Xn U)) (u0 u1 : U).
Lemma stuck_E : unscaled_sqp (S := Xn) (sp_sc stuck) 1 [Fin 1] [[Fin 0]] [Fin 0] [Fin 0] = xq 1.
Proof. unfold unscaled_sqp, is_identity, kkt_sqp, s_factor, rows_of, s_max. qeval. reflexivity. Qed.

Lemma stuck_start : fr_sqp_start (S := Xn) opts_r stuck [Fin 0] = ([xq 0; xq (1 # 100000); xq (1 # 100000)], [xq 1000; xq 1000], xq (1 # 100)).
Proof.
  unfold fr_sqp_start, compute_p_n, p_n, fr_rho. qeval. rewrite (q_sqrt _ (1 # 100)) by reflexivity. qeval.  reflexivity.
Qed.
Definition inner : iprob Xn := fr_sqp_prob stuck [Fin 0] (s_sqrt Xn (xq (1 # 100))).
Notation x1 := [xq 0; xq (1 # 100000); xq (1 # 100000)].
Lemma inner_g : ip_g inner x1 = [xq 0; xq 1000; xq 1000].
Proof.
  unfold inner, fr_sqp_prob. rewrite (q_sqrt _ (1 # 10)) by reflexivity. cbn [ip_g]. unfold fr_grad, fr_rho, fr_D. qeval. reflexivity.
Qed.
Lemma inner_ce : ip_ce inner x1 = [xq 0]. Proof. unfold inner. cbn [ip_ce fr_sqp_prob]. unfold fr_ce. qeval. reflexivity. Qed.
Lemma inner_ci : ip_ci inner x1 = [xq (1 # 100000); xq (1 # 100000)]. Proof. reflexivity. Qed.
Lemma inner_Ae : ip_Ae inner x1 = [[xq 0; xq (-1); xq 1]]. Proof. unfold inner. cbn [ip_Ae fr_sqp_prob]. unfold fr_Ae, unit_row. qeval. reflexivity. Qed.
Lemma inner_Ai : ip_Ai inner x1 = [[xq 0; xq 1; xq 0]; [xq 0; xq 0; xq 1]]. Proof. unfold inner. cbn [ip_Ai fr_sqp_prob]. unfold fr_bounds, unit_row. qeval. reflexivity. Qed.
Lemma inner_H y z : ip_H inner x1 y z = [[xq (1#10); xq 0; xq 0]; [xq 0; xq 0; xq 0]; [xq 0; xq 0; xq 0]].
Proof. unfold inner, fr_sqp_prob. rewrite (q_sqrt _ (1 # 10)) by reflexivity. cbn [ip_H]. unfold diag_in, sparse_resize, zeros, madd, unit_row, fr_D. qeval. reflexivity. Qed.
Lemma inner_E : unscaled_ipm (S := Xn) (ip_sc inner) 3 [xq 0; xq 1000; xq 1000] [[xq 0; xq (-1); xq 1]] [xq 0] [[xq 0; xq 1; xq 0]; [xq 0; xq 0; xq 1]]
   [xq (1 # 100000); xq (1 # 100000)] [xq 1; xq 1] [xq 0] [xq 1000; xq 1000] (xq 0) = xq 100.
Proof.
  unfold unscaled_ipm, is_identity, kkt_ipm, s_factor, rows_of, s_max. qeval. reflexivity.
Qed.
Lemma stuck_f0 : sp_f stuck [Fin 0] = Fin 0.
Proof. cbn [stuck sp_f]. unfold stuck_f. rewrite xltb. replace (R_ltb 0 0) with false; [reflexivity|]. symmetry. apply R_ltb_false. lra. Qed.
Lemma stuck_eq : eq_infeasible (S := Xn) 1 [[Fin 0]] [Fin 0] = false.
Proof. unfold eq_infeasible, norm2. qeval. rewrite !(q_sqrt _ 0) by reflexivity. qeval. reflexivity. Qed.
Lemma div0 : diverging (S := Xn) [Fin 0] = false. Proof. unfold diverging. qeval. reflexivity. Qed.

Lemma outer_body rst fuel : (25 <= fuel)%nat -> run_callbacks cbs (sqp_info id_env (sqp_init id_env stuck [Fin 0] [Fin 0] u0 0)) u0 = (u1, false) ->
  exists b flt, 0 < b /\ sqp_body id_env stuck opts_r cbs rst fuel (Fin 0 : Xn) (sqp_init id_env stuck [Fin 0] [Fin 0] u0 0) =
    let* (((((status, x), y), it), uf), clk) := rst (map lift_cb cbs ++ [sqp_fr_callback stuck [Fin 0] [Fin 1] (fe_sqp (S := Xn) (Fin 0) [Fin 0]) (Fin b)]) [Fin 0] [Fin 0] 0%Z (u1, flt) 1%nat in
    if is_success status then Ok (sqp_end id_env stuck opts_r (Fin 0 : Xn) x y (sp_f stuck x) (sp_ce stuck x) (snd uf) 0%Z it (fst uf) tt clk)
    else Ok (Exit status (s_set id_env (sqp_init id_env stuck [Fin 0] [Fin 0] u0 0) x y (snd uf) 0%Z it (fst uf) tt clk)).
Proof.
  intros L C. unfold sqp_body. set (st := sqp_init _ _ _ _ _ _) in *.
  change (eq_infeasible (sp_n stuck) (s_Ae id_env st) (s_ce id_env st)) with (eq_infeasible (S := Xn) 1 [[Fin 0]] [Fin 0]). rewrite stuck_eq.
  change (s_x id_env st) with [Fin 0]. rewrite div0. change (s_u id_env st) with u0. rewrite C.
  change (ls_compute (e_lin id_env) _ _) with (tt, true). cbn [negb]. cbv zeta.
  set (d := sqp_dir _ _ _ _). assert (D : d = ([Fin (-1)], [Fin 0])).
  { subst d. unfold sqp_dir, sqp_rhs. subst st. unfold sqp_init. cbn [s_g s_Ae s_y s_ce]. qeval. reflexivity. }
  clearbody d. subst d. change (s_ofZ Xn 1) with (Fin 1).
  destruct (ssearch_stops id_env stuck (sqp_ctx id_env stuck st tt ([Fin (-1)], [Fin 0])) ([Fin (-1)], [Fin 0]) (s_flt id_env st) (s_cnt id_env st)) as (r & K).
  specialize (K fuel L). pose proof K as K'. apply stuck_search in K'; [|reflexivity|lra]. destruct K' as (R1 & R2 & R3 & b & Pb & R4).
  exists b, (s_flt id_env st). split; [exact Pb|]. rewrite K. cbn [obind]. rewrite R1, R2, R3, R4. rewrite stuck_f0. reflexivity.
Qed.

Variable cbsF : list (callback Xn (U * filter Xn)).
Definition state0 uf : istate id_env (U := U * filter Xn) :=
  ipm_init id_env inner true x1 [xq 1; xq 1] [xq 0] [xq 1000; xq 1000] (xq (1 # 100)) 0%Z uf 1.
Lemma state0_eq uf : state0 uf = mkI (S := Xn) id_env x1 [xq 1; xq 1] [xq 0] [xq 1000; xq 1000] (xq (1 # 50)) [xq 0; xq 1000; xq 1000]
  [[xq (1#10); xq 0; xq 0]; [xq 0; xq 0; xq 0]; [xq 0; xq 0; xq 0]] [xq 0] [[xq 0; xq (-1); xq 1]] [xq (1 # 100000); xq (1 # 100000)]
  [[xq 0; xq 1; xq 0]; [xq 0; xq 0; xq 1]] (xq 100) (xq (1 # 100)) (xq (99 # 100)) (mkF (S := Xn) (xq (99999 # 500000000)) (xq (99999 # 5)) [] false) 0%Z 0%Z uf tt 2%nat.
Proof.
  unfold state0, ipm_init. rewrite inner_g, inner_ce, inner_ci, inner_Ae, inner_Ai, inner_H.
  f_equal; try reflexivity.
  - unfold inner, fr_sqp_prob. rewrite (q_sqrt _ (1 # 10)) by reflexivity. cbn [ip_f]. unfold fr_cost, fr_rho, fr_D. qeval. reflexivity.
  - rewrite q_ofZ. exact inner_E.
  - unfold tau_min. qeval. reflexivity.
  - unfold filter_new. qeval. reflexivity.
Qed.
Lemma from_eq fuel uf : ipm_from id_env inner opts_r cbsF None fuel true x1 [xq 1; xq 1] [xq 0] [xq 1000; xq 1000] (xq (1 # 100)) 0%Z uf 1 =
  drive (is_E id_env) (o_tol opts_r) (ipm_body id_env inner opts_r cbsF None fuel (Fin 0 : Xn)) fuel (state0 uf).
Proof.
  unfold ipm_from. cbv zeta.
  change (ipm_init id_env inner true _ _ _ _ _ _ uf 1) with (state0 uf). set (d := drive _ _ _ _ _).
  rewrite state0_eq. cbn [is_f is_g is_H is_ce is_Ae is_ci is_Ai].
  match goal with |- context [oassert ?b _] => replace b with true by reflexivity end. cbn [oassert].
  match goal with |- context [Nat.ltb ?p ?q] => replace (Nat.ltb p q) with false by reflexivity end.
  match goal with |- context [if ?b then _ else _] => replace b with false end; [|qeval; reflexivity].
  reflexivity.
Qed.
Lemma restore_eq fuel uf : sqp_restore id_env opts_r fuel stuck cbsF [Fin 0] [Fin 0] 0%Z uf 1 =
  let* (status, st) := drive (is_E id_env) (o_tol opts_r) (ipm_body id_env inner opts_r cbsF None fuel (Fin 0 : Xn)) fuel (state0 uf) in
  let x := segment (is_x id_env st) 0 1 in
  let y := match status with CALLBACK_REQUESTED_STOP => estimate_sqp (e_est id_env) (sp_g stuck x) (sp_Ae stuck x) | _ => [Fin 0] end in
  Ok (fr_status status, x, y, is_it id_env st, is_u id_env st, is_clk id_env st).
Proof.
  unfold sqp_restore. rewrite stuck_start. cbv iota.
  change (repeat (s_ofZ Xn 1) (2 * sp_me stuck)) with [s_ofZ Xn 1; s_ofZ Xn 1]. change (repeat (s_ofZ Xn 0) (sp_me stuck)) with [s_ofZ Xn 0]. rewrite !q_ofZ.
  change (inject_Z 1) with 1%Q. change (inject_Z 0) with 0%Q. fold inner. 
  change (ipm_from id_env inner opts_r cbsF None fuel true _ _ _ _ _ _ uf 1) with
    (ipm_from id_env inner opts_r cbsF None fuel true x1 [xq 1; xq 1] [xq 0] [xq 1000; xq 1000] (xq (1 # 100)) 0%Z uf 1).
  rewrite from_eq. reflexivity.
Qed.
Lemma inner_checks uf fuel :
  ipm_body id_env inner opts_r cbsF None fuel (Fin 0 : Xn) (state0 uf) =
    let '(u, stop) := run_callbacks cbsF (ipm_info id_env (state0 uf)) uf in
    if stop then Ok (Exit CALLBACK_REQUESTED_STOP (i_quit id_env (state0 uf) (is_flt id_env (state0 uf)) 0%Z u tt))
    else
        let st := state0 uf in
        let ls := tt in
        let c := ipm_ctx id_env st ls in
        let d := ipm_step id_env c (ipm_rhs id_env inner c) (vsub (is_ci id_env st) (is_s id_env st)) in
        let amax := ftb (is_s id_env st) (p_s d) (is_tau id_env st) in
        let az := ftb (is_z id_env st) (p_z d) (is_tau id_env st) in
        let dphi := s_sub Xn (vdot (is_g id_env st) (p_x d)) (s_mul Xn (is_mu id_env st) (vdot (vinv (is_s id_env st)) (p_s d))) in
        let* r := ipm_search id_env inner opts_r fuel c d dphi amax az amax (is_flt id_env st) (is_cnt id_env st) in
        match (if s_ltb Xn amax amin then None else if_t r) with
        | None => Ok (Exit FEASIBILITY_RESTORATION_FAILED (i_quit id_env st (if_flt r) (if_cnt r) u ls))
        | Some t =>
            let cnt := if s_eqb Xn (if_a r) amax then 0%Z else if_cnt r in
            let* z := clamp_zs (is_mu id_env st) (it_s t) (it_z t) in
            ipm_end id_env inner opts_r fuel (Fin 0 : Xn) (it_x t) (it_s t) (it_y t) z (it_f t) (it_ce t) (it_ci t)
              (is_mu id_env st) (is_tau id_env st) (if_flt r) cnt (is_it id_env st) u ls (is_clk id_env st)
        end.
Proof.
  unfold ipm_body. set (b1 := eq_infeasible _ _ _). set (b2 := ineq_infeasible _ _ _). set (b3 := diverging _ || diverging _).
  assert (B1 : b1 = false). { subst b1. rewrite state0_eq. cbn [is_Ae is_ce]. unfold eq_infeasible, norm2. qeval. rewrite !(q_sqrt _ 0) by reflexivity. qeval. reflexivity. }
  assert (B2 : b2 = false). { subst b2. rewrite state0_eq. cbn [is_Ai is_ci]. unfold ineq_infeasible, norm2. qeval. rewrite !(q_sqrt _ 0) by reflexivity. qeval. reflexivity. }
  assert (B3 : b3 = false). { subst b3. rewrite state0_eq. cbn [is_x is_s]. unfold diverging. qeval. reflexivity. }
  rewrite B1, B2, B3. change (is_u id_env (state0 uf)) with uf. destruct (run_callbacks cbsF (ipm_info id_env (state0 uf)) uf) as [u []]; reflexivity.
Qed.
End Run.

(** A callback that asks to stop when it sees more than one variable, as happens during feasibility restoration. *)
Definition stop_inner : callback Xn unit := fun i u => (u, Nat.ltb 1 (length (i_x i))).
Lemma outer_start {U} (cbs : list (callback Xn U)) u fuel : sqp_solve id_env opts_r fuel stuck cbs [Fin 0] u 0 =
  drive (s_E id_env) (o_tol opts_r) (sqp_body id_env stuck opts_r cbs (sqp_restore id_env opts_r fuel stuck) fuel (Fin 0 : Xn)) fuel
    (sqp_init id_env stuck [Fin 0] [Fin 0] u 0).
Proof.
  unfold sqp_solve, sqp, sqp_from. cbv zeta. change (repeat (s_ofZ Xn 0) (sp_me stuck)) with [Fin 0]. set (d := drive _ _ _ _ _).
  unfold sqp_init. cbn [s_g s_H s_ce s_Ae s_f].
  match goal with |- context [oassert ?b _] => replace b with true by reflexivity end. cbn [oassert].
  match goal with |- context [Nat.ltb ?p ?q] => replace (Nat.ltb p q) with false by reflexivity end.
  change (s_finite Xn (sp_f stuck [Fin 0])) with (s_finite Xn (sp_f stuck [Fin 0])).
  replace (s_finite Xn (sp_f stuck _)) with true by (change (true = s_finite Xn (sp_f stuck [Fin 0])); rewrite stuck_f0; reflexivity).
  reflexivity.
Qed.
Lemma tol_lt0 {U} (u : U) : s_ltb Xn (o_tol opts_r) (s_E id_env (sqp_init id_env stuck [Fin 0] [Fin 0] u 0)) = true.
Proof.
  unfold sqp_init. cbn [s_E]. change (unscaled_sqp _ _ _ _ _ _) with (unscaled_sqp (S := Xn) (sp_sc stuck) 1 [Fin 1] [[Fin 0]] [Fin 0] [Fin 0]).
  rewrite stuck_E. qeval. reflexivity.
Qed.
Lemma tol_lt1 {U} (uf : U * filter Xn) : s_ltb Xn (o_tol opts_r) (is_E id_env (state0 uf)) = true.
Proof. rewrite state0_eq. cbn [is_E]. qeval. reflexivity. Qed.

Lemma run_stop fuel : (25 <= fuel)%nat -> exists st,
  sqp_solve id_env opts_r fuel stuck (log_all [stop_inner]) [Fin 0] (tt, []) 0 = Ok (MAX_ITERATIONS_EXCEEDED, st) /\
  map (fun c => (length (i_x (snd (fst c))), snd c)) (snd (s_u id_env st)) = [(1%nat, false); (3%nat, true)].
Proof.
  intros L. rewrite outer_start. destruct fuel as [|fuel]; [lia|]. cbn [drive]. rewrite tol_lt0.
  destruct (outer_body (log_all [stop_inner]) (tt, []) (tt, [(0%nat, sqp_info id_env (sqp_init id_env stuck [Fin 0] [Fin 0] (tt, @nil (call Xn)) 0), false)])
              (sqp_restore id_env opts_r (Datatypes.S fuel) stuck) (Datatypes.S fuel) L) as (b & flt & Pb & B); [reflexivity|].
  rewrite B. clear B. rewrite restore_eq. cbn [drive]. rewrite tol_lt1, inner_checks.
  set (uf := ((tt, _), flt)). cbn [log_all logged_from map List.app].
  set (fr := sqp_fr_callback _ _ _ _ _). cbn [run_callbacks]. unfold lift_cb at 1, logged at 1. unfold stop_inner at 1.
  replace (Nat.ltb 1 (length (i_x (ipm_info id_env (state0 uf))))) with true by reflexivity. cbv iota beta. cbn [obind fr_status is_success].
  unfold sqp_end. change (limits opts_r _ _ _ _) with (Some MAX_ITERATIONS_EXCEEDED, 2%nat). cbn [finish]. cbv iota beta. eexists. split; reflexivity.
Qed.

Lemma inner_step {U} (uf : U * filter Xn) : let c := ipm_ctx id_env (state0 uf) tt in
  ipm_step id_env c (ipm_rhs id_env inner c) (vsub (is_ci id_env (state0 uf)) (is_s id_env (state0 uf))) =
  mkStep (S := Xn) [xq 0; xq 0; xq 0] [xq (-99999 # 100000); xq (-99999 # 100000)] [xq 0] [xq 0; xq 0].
Proof.
  cbv zeta. rewrite state0_eq. unfold ipm_step, ipm_rhs, ipm_ctx. cbn [is_x is_s is_y is_z is_f is_g is_ce is_Ae is_ci is_Ai is_mu is_tau ix_x ix_s ix_y ix_z ix_f ix_g ix_ce ix_Ae ix_ci ix_Ai ix_mu ix_tau].
  unfold sigma, vinv. qeval. reflexivity.
Qed.
Lemma inner_amax : ftb (S := Xn) [xq 1; xq 1] [xq (-99999 # 100000); xq (-99999 # 100000)] (xq (99 # 100)) = xq (11000 # 11111).
Proof. unfold ftb. qeval. reflexivity. Qed.
Lemma inner_az : ftb (S := Xn) [xq 1000; xq 1000] [xq 0; xq 0] (xq (99 # 100)) = xq 1.
Proof. unfold ftb. qeval. reflexivity. Qed.
Notation x1 := [xq 0; xq (1 # 100000); xq (1 # 100000)].
Notation dB := (mkStep (S := Xn) [xq 0; xq 0; xq 0] [xq (-99999 # 100000); xq (-99999 # 100000)] [xq 0] [xq 0; xq 0]).
Lemma inner_trial {U} (uf : U * filter Xn) : let c := ipm_ctx id_env (state0 uf) tt in
  ipm_trial_main id_env inner opts_r c dB (xq (11000 # 11111)) (xq 1) =
  mkIT (S := Xn) x1 [xq (1 # 100); xq (1 # 100)] [xq 0] [xq 1000; xq 1000] (xq (1 # 50)) [xq 0] [xq (1 # 100000); xq (1 # 100000)].
Proof.
  cbv zeta. rewrite state0_eq. unfold ipm_trial_main. cbn [opts_r o_feasible andb]. unfold ipm_trial, ipm_ctx. cbn [is_x is_s is_y is_z ix_x ix_s ix_y ix_z p_x p_s p_y p_z].
  set (tx := vstep (S := Xn) _ _ [xq 0; xq 0; xq 0]). assert (T : tx = x1). { subst tx. qeval. reflexivity. } clearbody tx. subst tx.
  cbv zeta. rewrite inner_ce, inner_ci. f_equal.
  - qeval. reflexivity.
  - qeval. reflexivity.
  - qeval. reflexivity.
  - unfold inner, fr_sqp_prob. rewrite (q_sqrt _ (1 # 10)) by reflexivity. cbn [ip_f]. unfold fr_cost, fr_rho, fr_D. qeval. reflexivity.
Qed.
Definition curB : fentry Xn := fe_ipm (S := Xn) (xq (1 # 50)) [xq 1; xq 1] [xq 0] [xq (1 # 100000); xq (1 # 100000)] (xq (1 # 100)).
Definition triB : fentry Xn := fe_ipm (S := Xn) (xq (1 # 50)) [xq (1 # 100); xq (1 # 100)] [xq 0] [xq (1 # 100000); xq (1 # 100000)] (xq (1 # 100)).
Lemma triB_viol : fe_viol triB = xq (999 # 50000). Proof. unfold triB, fe_ipm. cbn [fe_viol]. qeval. reflexivity. Qed.
Lemma curB_viol : fe_viol curB = xq (99999 # 50000). Proof. unfold curB, fe_ipm. cbn [fe_viol]. qeval. reflexivity. Qed.
Lemma triB_cost : s_finite Xn (fe_cost triB) = true.
Proof. unfold triB, fe_ipm. cbn [fe_cost]. qcbn. rewrite q_log by reflexivity. reflexivity. Qed.
Lemma suffB : sufficient curB triB (xq (11000 # 11111)) = true.
Proof.
  destruct (q_pow_le1 (11000 # 11111) (Q2R (3 # 2))) as (r & (R1 & R2) & R3); [reflexivity|reflexivity|unfold Q2R; cbn; lra|].
  unfold sufficient. apply orb_true_intro. right. unfold margin. cbn [fe_viol fe_cost]. rewrite triB_viol, curB_viol. unfold g_constraint. qeval.
  change (s_pow _ _ _) with (s_pow Xn (xq (11000 # 11111)) (Fin (Q2R (3 # 2)))). rewrite R3.
  change (s_leb Xn (Fin (Q2R (999 # 50000))) (Fin ((Q2R 1 - r * Q2R (1 # 100000)) * Q2R (99999 # 50000))) = true).
  apply xleb. unfold Q2R. cbn [Qnum Qden]. nra.
Qed.
Lemma stepB {U} (uf : U * filter Xn) : let c := ipm_ctx id_env (state0 uf) tt in
  try_add (is_flt id_env (state0 uf)) curB triB (xq (99999 # 5000000)) (xq (11000 # 11111)) =
  (filter_add (is_flt id_env (state0 uf)) (margin curB (xq (11000 # 11111))), true).
Proof.
  cbv zeta. unfold try_add. rewrite triB_cost, suffB. rewrite state0_eq. cbn [is_flt f_max f_min]. rewrite triB_viol, curB_viol.
  assert (W : switching curB (xq (99999 # 5000000)) (xq (11000 # 11111)) = false). { unfold switching. rewrite q_ofZ, q_ltb. reflexivity. }
  rewrite W. rewrite q_ltb, q_leb. reflexivity.
Qed.
Lemma innerB {U} fuel (u : U) (cbsF : list (callback Xn (U * filter Xn))) uf uf' : run_callbacks cbsF (ipm_info id_env (state0 uf)) uf = (uf', false) ->
  exists st, ipm_body id_env inner opts_r cbsF None (Datatypes.S fuel) (Fin 0 : Xn) (state0 uf) = Ok (Exit MAX_ITERATIONS_EXCEEDED st).
Proof.
  intros C. rewrite inner_checks, C. cbv iota zeta. rewrite inner_step. cbn [p_x p_s p_y p_z].
  replace (is_s id_env (state0 uf)) with (repeat (xq 1) 2) by (rewrite state0_eq; reflexivity). replace (is_tau id_env (state0 uf)) with (xq (99 # 100)) by (rewrite state0_eq; reflexivity).
  cbn [repeat]. rewrite inner_amax.
  replace (is_z id_env (state0 uf)) with (repeat (xq 1000) 2) by (rewrite state0_eq; reflexivity). cbn [repeat]. rewrite inner_az.
  set (dphi := s_sub Xn _ _). assert (D : dphi = xq (99999 # 5000000)). { subst dphi. rewrite state0_eq. cbn [is_g is_mu]. unfold vinv. qeval. reflexivity. }
  clearbody dphi. subst dphi. cbn [ipm_search]. cbv zeta. rewrite inner_trial. cbn [it_f it_ce it_ci it_s it_x it_y it_z].
  match goal with |- context [if ?b then _ else _] => replace b with false by (symmetry; qeval; reflexivity) end.
  change (it_entry _ _) with (it_entry (S := Xn) (is_mu id_env (state0 uf)) (mkIT (S := Xn) x1 [xq (1 # 100); xq (1 # 100)] [xq 0] [xq 1000; xq 1000] (xq (1 # 50)) [xq 0] [xq (1 # 100000); xq (1 # 100000)])).
  replace (it_entry _ _) with triB by (rewrite state0_eq; reflexivity).
  replace (ix_cur _ _) with curB by (rewrite state0_eq; reflexivity).
  rewrite stepB. cbn [obind if_t if_flt if_a if_cnt it_s it_z it_x it_y it_f it_ce it_ci].
  match goal with |- context [if ?b then None else _] => replace b with false by (symmetry; unfold amin; qeval; reflexivity) end.
  replace (is_mu id_env (state0 uf)) with (xq (1 # 100)) by (rewrite state0_eq; reflexivity).
  set (cz := clamp_zs _ _ _). assert (Z : cz = Ok [xq 1000; xq 1000]). { subst cz. unfold clamp_zs, clamp_z, clamp, kappa_sigma. qeval. reflexivity. }
  clearbody cz. subst cz. cbn [obind]. unfold ipm_end. cbv zeta.
  match goal with |- context [obind ?m _] => assert (Q : exists v, m = Ok v) end.
  { assert (M : s_ltb Xn (mu_min inner opts_r) (xq (1 # 100)) = false). { unfold mu_min. qeval. reflexivity. }
    destruct (s_ltb Xn (o_tol _) _); [|eexists; reflexivity]. cbn [barrier]. rewrite M. eexists. reflexivity. }
  destruct Q as ([[m t] f] & ->). cbn [obind]. change (limits opts_r _ _ _ _) with (Some MAX_ITERATIONS_EXCEEDED, 2%nat). eexists. reflexivity.
Qed.

Lemma run_limit {U} fuel (u : U) : (25 <= fuel)%nat -> exists st flt,
  sqp_solve id_env opts_r fuel stuck (@nil (callback Xn U)) [Fin 0] u 0%nat = Ok (FEASIBILITY_RESTORATION_FAILED, st) /\ exists sub b, ipm_from id_env inner opts_r [sqp_fr_callback stuck [Fin 0] [Fin 1] (fe_sqp (S := Xn) (Fin 0) [Fin 0]) (Fin b)] None fuel true
    x1 [xq 1; xq 1] [xq 0] [xq 1000; xq 1000] (xq (1 # 100)) 0%Z (u, flt) 1 = Ok (MAX_ITERATIONS_EXCEEDED, sub).
Proof.
  intros L. rewrite outer_start. destruct fuel as [|fuel]; [lia|]. cbn [drive]. rewrite tol_lt0.
  destruct (outer_body [] u u (sqp_restore id_env opts_r (Datatypes.S fuel) stuck) (Datatypes.S fuel) L) as (b & flt & Pb & B); [reflexivity|].
  rewrite B. clear B. cbn [map List.app]. set (fr := sqp_fr_callback _ _ _ _ _).
  assert (C : run_callbacks [fr] (ipm_info id_env (state0 (u, flt))) (u, flt) = ((u, flt), false)).
  { cbn [run_callbacks]. replace (fr _ _) with ((u, flt), false); [reflexivity|]. subst fr. unfold sqp_fr_callback.
    match goal with |- context [if ?b then _ else _] => replace b with false; [reflexivity|] end. symmetry.
    rewrite state0_eq. unfold ipm_info, fe_sqp. cbn [fe_viol]. qeval. reflexivity. }
  destruct (innerB fuel u [fr] (u, flt) (u, flt) C) as (sub & I).
  exists (s_set id_env (sqp_init id_env stuck [Fin 0] [Fin 0] u 0) (segment (is_x id_env sub) 0 1) [Fin 0] (snd (is_u id_env sub)) 0%Z (is_it id_env sub)
           (fst (is_u id_env sub)) tt (is_clk id_env sub)), flt.
  assert (D : drive (is_E id_env) (o_tol opts_r) (ipm_body id_env inner opts_r [fr] None (S fuel) (Fin 0 : Xn)) (S fuel) (state0 (u, flt)) = Ok (MAX_ITERATIONS_EXCEEDED, sub)).
  { cbn [drive]. rewrite tol_lt1, I. reflexivity. }
  split.
  - rewrite restore_eq, D. reflexivity.
  - exists sub, b. fold fr. rewrite <- D. apply from_eq.
Qed.
