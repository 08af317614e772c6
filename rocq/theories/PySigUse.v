(** C99 for solve(). *)
From Coq Require Import ZArith Reals List Bool Arith Lia.
From Verif Require Import Base ExprModel GraphSpec GraphProofs ExprInv VarModel VarReach VarProofs ExprReal ExprXR MathSpec MathProofs VarSpec Faith FaithX HistProofs JacModel JacProofs JacReach JacHist JacSame NumModel UtilModel UtilSpec ScaleProofs LinR KktModel KktSpec KktProofs BoundsModel ExitModel SolverModel SolverSpec SolverProofs NewtonModel NewtonSpec NewtonProofs SqpModel SqpSpec SqpProofs IpmModel IpmShape IpmSpec IpmProofs RestoreModel RestoreProofs PosX PosProofs OutcomeProofs XArith FilterModel FilterProofs FinEval ProblemModel ProblemSpec ProblemInv ProblemProofs ProblemProofs2 ProblemProofs3 ProblemProofs4 ProbSolveModel ProbSolveInv ProbSolveEval ProbSolveSpec ProbSolveProofs ProbSolvePrep ProbSolveHist ProbSolveEnd ProbSolveLived ProbSolveFinal ProbSolveFacts DiffSpec SmoothSpec SmoothGraph SmoothUser LagrSpec ProbSolveMade ProbSolveDeriv ProbSolveDims ProbSolveKkt ProbSolveKkt2 OcpModel OcpSpec OcpSolveSpec OcpSolve FiniteSpec FiniteI FiniteR FiniteS FiniteN FiniteUseSpec CbModel CbSpec CbProofs.
From Verif Require Import ProbSolveTotal ProbTotalEx ProbSolveKktEx RunY ProbSolveRun EarlySpec CbUse PySigModel PySigSpec PySigProofs.
Import ListNotations.
Local Open Scope nat_scope.

Section Obj.
Context {W : Type}.
Variables (tick : W -> W) (raises : W -> bool).
Lemma run_last c ops op : py_run tick raises c (ops ++ [op]) = py_step (py_run tick raises c ops) op.
Proof. unfold py_run. rewrite fold_left_app. reflexivity. Qed.
Lemma run_registered c ops cbs : registered ops cbs -> py_run tick raises c ops = mkPy cbs (py_persistent (py_new tick raises c)).
Proof. induction 1 as [|ops cbs cb R IH|ops cbs R IH]; [reflexivity| |]; rewrite run_last, IH; reflexivity. Qed.
Lemma awaits_stuck cbs held : awaits raises cbs held -> stuck (asked_stop cbs held) held (cbs ++ [signal_cb tick raises]).
Proof.
  intros [A K] i x. induction cbs as [|cb cbs IH]; intros w Hw; cbn [app run_t].
  - unfold signal_cb. rewrite (A w Hw). exact I.
  - pose proof (K cb i x w (or_introl eq_refl) Hw) as Hk. destruct (cb i x w) as [v []] eqn:Q; [| |exact I].
    + cbn [fst] in Hk. assert (K' : forall cb i x w, In cb cbs -> held w -> held (fst (cb i x w))) by (intros cb' i' x' w' Hin; apply K; right; exact Hin).
      specialize (IH K' v Hk). destruct (snd (run_t (cbs ++ _) i x v)); [exact IH| |exact I]. destruct IH as (cb' & i' & x' & w' & Hin & R). exists cb', i', x', w'. split; [right; exact Hin|exact R].
    + exists cb, i, x, w. split; [left; reflexivity|]. split; [exact Hw|]. rewrite Q. reflexivity.
Qed.
Lemma signal_calmer cbs : calmer (cbs ++ [signal_cb tick raises]) (cbs ++ [signal_cb tick (fun _ => false)]).
Proof.
  intros i x u. rewrite !run_app. destruct (run_t cbs i x u) as [v []]; auto. cbn [run_t]. unfold signal_cb. destruct (raises v); [intros []; reflexivity|reflexivity].
Qed.
End Obj.

(** The dimensions solve() asserts are right. *)
Lemma asserted sp p rn x0 p1 : lived sp p -> prepare p = Ok (rn, x0, p1) ->
  match rn with
  | RanNewton P => vec_dim (np_n P) (np_g P x0) && mat_dims (np_n P) (np_n P) (np_H P x0) = true
  | RanSqp P => (let y := repeat (s_ofZ Xn 0) (sp_me P) in vec_dim (sp_n P) (sp_g P x0) && mat_dims (sp_n P) (sp_n P) (sp_H P x0 y) && vec_dim (sp_me P) (sp_ce P x0) && mat_dims (sp_me P) (sp_n P) (sp_Ae P x0)) = true
  | RanIpm P => forall (U : Type) (E : env Xn) (u : U) clk, (let st := ipm_init E P false x0 (repeat (s_ofZ Xn 1) (ip_mi P)) (repeat (s_ofZ Xn 0) (ip_me P)) (repeat (s_ofZ Xn 1) (ip_mi P)) (s_mul Xn (lit (S := Xn) 1 1) (sc_f (ip_sc P))) 0%Z u clk in
           vec_dim (ip_n P) (is_g E st) && mat_dims (ip_n P) (ip_n P) (is_H E st) && vec_dim (ip_me P) (is_ce E st)
           && mat_dims (ip_me P) (ip_n P) (is_Ae E st) && vec_dim (ip_mi P) (is_ci E st) && mat_dims (ip_mi P) (ip_n P) (is_Ai E st)) = true
  | _ => True
  end.
Proof.
  intros Lv Hp. destruct env_total as (E1 & E2 & E3). destruct (ProbSolveTotal.solve_returns (U := Datatypes.unit) down_env (opts_y 5) E1 E2 E3 [] [] sp p tt 0 rn x0 p1 Lv Hp) as (N & st & p' & H).
  specialize (H N (le_n N)). unfold solve in H. rewrite Hp in H. cbn [obind app] in H. destruct rn as [|P|P|P|]; try exact I.
  - unfold newton, newton_init in H. cbv zeta in H. cbn [n_g n_H n_f] in H. destruct (vec_dim _ _ && _); [reflexivity|exfalso; revert H; unfold oassert, obind; discriminate].
  - unfold sqp_solve, sqp, sqp_from, sqp_init in H. cbv zeta in *. cbn [s_g s_H s_f s_ce s_Ae] in H. destruct (_ && mat_dims (sp_me P) _ _); [reflexivity|exfalso; revert H; unfold oassert, obind; discriminate].
  - intros U E u clk. unfold ipm_solve, ipm, ipm_from, ipm_init in *. cbv zeta in *. cbn [is_g is_H is_f is_ce is_Ae is_ci is_Ai] in *.
    destruct (_ && mat_dims (ip_mi P) _ _); [reflexivity|exfalso; revert H; unfold oassert, obind; discriminate].
Qed.

Lemma link_untouched sp p1 : pinv p1 -> plink sp p1 -> untouched sp p1.
Proof.
  intros Ip Lp j k h Hh Hj. assert (Hs : spec_run [PH (HValue (S := R_ops) h)] sp = Some (sp, [QVal (XVar k, se_val (sp_se sp))])).
  { cbn [spec_run spec_step sstep]. rewrite Hh. destruct sp; reflexivity. }
  destruct (spec_run_ok (SK := X_ops) _ _ _ _ _ Lp Hs) as (p' & out & E & _ & A). inversion A as [|q o qs os Q1 Q2]; subst. inversion Q2; subst. destruct o as [w|w]; try contradiction Q1.
  exists p'. cbn [map] in E. 
  assert (X : xanswers (QVal (XVar k, se_val (sp_se sp))) (PVal (S := X_ops) w)) by exact Q1. cbn in X. rewrite <- (X I _ (XEv_var _ k)). exact E.
Qed.
Lemma back_untouched sp p1 p' : pinv p1 -> plink sp p1 -> write_back p1 (map Fin (map (se_val (sp_se sp)) (sp_dec sp))) = Ok p' -> untouched sp p'.
Proof.
  intros Ip Lp W j k h Hh Hj. destruct (read_back sp p1 p' _ h j k Ip Lp W Hh Hj) as (p2 & H). exists p2. rewrite H. f_equal. f_equal. f_equal. f_equal.
  apply nth_error_nth. rewrite !nth_error_map, Hj. reflexivity.
Qed.

Section Use.
Context {W : Type}.
Variables (E : env Xn) (o : options Xn) (l : leaves E W) (tick : W -> W) (raises : W -> bool).

Lemma ending_stays {St} stop sp p1 (xs : St -> list XR) r (x : list XR) n : x = map Fin (map (se_val (sp_se sp)) (sp_dec sp)) -> n = length (sp_dec sp) -> pinv p1 -> plink sp p1 ->
  stays (S := Xn) (U := W) stop xs x (firstn n x) r -> exists e, ending p1 xs (Ok r) = Ok e /\ untouched sp (after e) /\ forall st p', e = Returned st p' -> early stop st.
Proof.
  intros Ex0 -> I1 L1 H. assert (Fn : firstn (length (sp_dec sp)) x = x) by (rewrite Ex0; apply firstn_all2; rewrite !map_length; apply le_n).
  destruct (write_total sp p1 x I1 L1) as (p' & Hw). { rewrite Ex0, !map_length. symmetry. exact (dec_len (S := Xn) sp p1 L1). }
  assert (Un : untouched sp p') by (apply (back_untouched sp p1 p' I1 L1); rewrite <- Ex0; exact Hw). unfold ending. cbn [obind]. destruct r as [[st fin]|u c]; cbn [stays] in H.
  - destruct H as [Ex B]. rewrite Ex, Hw. eexists. split; [reflexivity|]. split; [exact Un|]. intros st' p2 Q. injection Q as <- <-. exact B.
  - rewrite H, Fn, Hw. eexists. split; [reflexivity|]. split; [exact Un|discriminate].
Qed.
Lemma c99_interrupt fuel ops cbs held sp p w clk r : lived sp p -> prepare p = Ok r -> registered ops cbs -> awaits raises cbs held -> held w ->
  exists e, py_solve E o l (Datatypes.S fuel) (py_run tick raises PyProblem ops) p w clk = Ok e /\ untouched sp (after e) /\ forall st p', e = Returned st p' -> before_a_step st /\ (st = CALLBACK_REQUESTED_STOP -> asked_stop cbs held).
Proof.
  intros Lv Hp Rg Aw Hw. destruct r as [[rn x0] p1]. pose proof (asserted sp p rn x0 p1 Lv Hp) as D. destruct (prepared sp p rn x0 p1 Lv Hp) as (En & I1 & L1).
  destruct (lived_ok _ _ Lv) as [Ip Lp]. destruct (prepare_inv sp p _ x0 p1 Ip Lp Hp) as (_ & _ & E0 & _). pose proof (awaits_stuck tick raises cbs held Aw) as St.
  unfold py_solve. rewrite (run_registered tick raises PyProblem ops cbs Rg). cbn [py_cbs py_persistent py_new]. unfold solve_t. rewrite Hp. cbn [obind]. destruct rn as [|P|P|P|].
  - eexists. split; [reflexivity|]. split; [exact (link_untouched sp p1 I1 L1)|]. intros st p' Q. injection Q as <- <-. split; [exact I|discriminate].
  - destruct (newton_stuck E o P _ (l_newton E W l) fuel x0 w clk x0 held _ St Hw D) as (r & -> & S1). exact (ending_stays (asked_stop cbs held) sp p1 _ r x0 _ E0 En I1 L1 S1).
  - destruct (sqp_stuck E o P _ (l_sqp E W l) (sqp_restore_t E o (l_fr _ _ l) (Datatypes.S fuel) P) fuel x0 w clk x0 held _ St Hw D) as (r & Hr & S1). unfold sqp_solve_t. rewrite Hr. exact (ending_stays (asked_stop cbs held) sp p1 _ r x0 _ E0 En I1 L1 S1).
  - specialize (D W E w clk). destruct (ipm_stuck E o P _ (l_ipm E W l) (Some (ipm_restore_t E o (l_fr _ _ l) (Datatypes.S fuel) P)) fuel false x0 (repeat (s_ofZ Xn 1) (ip_mi P)) (repeat (s_ofZ Xn 0) (ip_me P)) (repeat (s_ofZ Xn 1) (ip_mi P))
      (s_mul Xn (lit (S := Xn) 1 1) (sc_f (ip_sc P))) 0%Z w clk x0 held _ St Hw D) as (r & Hr & S1).
    unfold ipm_solve_t. rewrite Hr. exact (ending_stays (asked_stop cbs held) sp p1 _ r x0 _ E0 En I1 L1 S1).
  - eexists. split; [reflexivity|]. split; [exact (link_untouched sp p1 I1 L1)|]. intros st p' Q. injection Q as <- <-. split; [exact I|discriminate].
Qed.

Lemma ending_upto {St} p1 (xs : St -> list XR) (m m' : outcome (res (S := Xn) W (status * St))) st p' : upto m m' -> ending p1 xs m = Ok (Returned st p') -> ending p1 xs m' = Ok (Returned st p').
Proof.
  intros U H. unfold ending in *. destruct m as [[a|v c]| | |]; cbn [obind] in H; try discriminate H.
  - rewrite (U a eq_refl). cbn [obind]. exact H.
  - destruct (write_back p1 c); discriminate H.
Qed.
Lemma c99_quiet fuel c ops p w clk st p' : (exists cbs, registered ops cbs) -> py_solve E o l fuel (py_run tick raises c ops) p w clk = Ok (Returned st p') ->
  py_solve E o l fuel (py_run tick (fun _ => false) c ops) p w clk = Ok (Returned st p').
Proof.
  intros [cbs Rg]. unfold py_solve. rewrite !(run_registered _ _ c ops cbs Rg). cbn [py_cbs py_persistent]. destruct c; cbn [py_new py_persistent]; [|exact (fun H => H)].
  unfold solve_t. pose proof (signal_calmer tick raises cbs) as C. destruct (prepare p) as [[[rn x0] p1]| | |]; cbn [obind]; try discriminate. destruct rn as [|P|P|P|]; [exact (fun H => H)| | | |exact (fun H => H)].
  - apply ending_upto. apply newton_upto. exact C.
  - apply ending_upto. apply sqp_solve_upto. exact C.
  - apply ending_upto. apply ipm_solve_upto. exact C.
Qed.
Lemma all_registered (ops : list (py_op W)) : exists cbs, registered ops cbs.
Proof. induction ops as [|op ops (cbs & IH)] using rev_ind; [exists []; constructor|]. destruct op as [cb|]; eexists; econstructor; exact IH. Qed.
End Use.
