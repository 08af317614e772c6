(** Programs for C80 and C81: when solve() reaches the interior-point method, and concrete cases. *)
From Coq Require Import ZArith Reals List Bool Arith Lia Lra.
From Verif Require Import Base ExprModel GraphSpec GraphProofs ExprInv VarModel VarReach VarProofs ExprReal ExprXR MathSpec MathProofs VarSpec Faith FaithX HistProofs
  JacModel JacProofs JacReach JacHist JacSame NumModel UtilModel UtilSpec ScaleProofs LinR KktModel KktSpec KktProofs BoundsModel ExitModel SolverModel SolverSpec SolverProofs NewtonModel
  SqpModel SqpSpec SqpProofs IpmModel IpmShape IpmSpec IpmProofs RestoreModel RestoreProofs PosX OutcomeProofs
  FinEval ProblemModel ProblemSpec ProblemInv ProblemProofs ProblemProofs2 ProblemProofs3 ProblemProofs4 ProbSolveModel ProbSolveInv ProbSolveEval ProbSolveSpec ProbSolveProofs ProbSolvePrep
  ProbSolveHist ProbSolveEnd ProbSolveLived ProbSolveFinal ProbSolveFacts ProbSolveEx DiffSpec SmoothSpec SmoothGraph SmoothUser LagrSpec.
Import ListNotations.
Local Open Scope nat_scope.

(** Inequalities that are not of linear type are no bounds. *)
Lemma constrs_nonlinear p q Ai l : (forall i, In i l -> exists ty, slot_type p i = Ok ty /\ ty <> LINEAR) -> forall r, exists cs,
  constrs_of p q Ai r l = Ok cs /\ List.Forall (fun c => k_linear c = false) cs.
Proof.
  induction l as [|i l IH]; intros H r; [exists []; split; [reflexivity|constructor]|]. destruct (H i (or_introl eq_refl)) as (ty & E & N).
  destruct (IH (fun j I => H j (or_intror I)) (Datatypes.S r)) as (cs & Ec & F). cbn [constrs_of]. unfold constr_of at 1. rewrite E. cbn [obind]. rewrite Ec. cbn [obind].
  eexists. split; [reflexivity|]. constructor; [|exact F]. cbn [k_linear]. destruct ty; try reflexivity. congruence.
Qed.
Lemma bounds_nonlinear x cs : List.Forall (fun c => k_linear c = false) cs -> forall k s, exists s', bounds_loop x k cs s = Ok s' /\ b_conflicts s' = b_conflicts s.
Proof.
  induction 1 as [|c cs H _ IH]; intros k s; [exists s; split; reflexivity|]. cbn [bounds_loop]. unfold bounds_step. rewrite H. cbn [negb obind].
  match goal with |- context [bounds_loop x (Datatypes.S k) cs ?s1] => destruct (IH (Datatypes.S k) s1) as (s' & E & C) end. exists s'. split; [exact E|exact C].
Qed.

Lemma prepare_nonlinear sp p : lived sp p -> (forall i, In i (p_ineq p) -> exists ty, slot_type p i = Ok ty /\ ty <> LINEAR) ->
  exists rn x0 p1, prepare p = Ok (rn, x0, p1) /\ rn <> RanBounds.
Proof.
  intros Lv Hn. destruct (lived_ok _ _ Lv) as [Ip Lp].
  destruct (sp_ineqs sp) as [|r0 rs0] eqn:Es.
  { destruct (prepare_total sp p Lv Es) as (rn & x0 & p1 & Hp). exists rn, x0, p1. split; [exact Hp|]. intros ->.
    destruct (solve_picks sp p _ x0 p1 Lv Hp) as (? & ? & ? & _ & _ & _ & _ & M). congruence. }
  destruct (read_dec (S := X_ops) (FS := faith_X) sp p Ip Lp) as (e & s & Hr & I1 & L1).
  unfold prepare. rewrite Hr. cbn [obind]. set (x := map inj (map (se_val (sp_se sp)) (sp_dec sp))) in *. set (p' := set_mem p e s) in *.
  assert (Htf : exists tf, cost_type p' = Ok tf).
  { unfold cost_type. destruct (p_f p') as [i|] eqn:Ef; [|eexists; reflexivity]. apply slot_type_ok; [exact I1|]. apply (i_f _ I1), Ef. }
  destruct Htf as (tf & Etf). destruct (max_type_ok p' (p_eq p') I1 (i_eq _ I1)) as (te & Ete). destruct (max_type_ok p' (p_ineq p') I1 (i_ineq _ I1)) as (ti & Eti).
  change (match p_f p' with Some i => slot_type p' i | None => Ok NONE end) with (cost_type p').
  rewrite Etf, Ete, Eti. cbn [obind]. destruct (_ && _ && _); [eexists _, _, _; split; [reflexivity|discriminate]|].
  assert (Lx : length x = length (p_dec p')) by (unfold x; rewrite !map_length; symmetry; exact (dec_len (S := Xn) sp p' L1)).
  destruct (no_rels sp p' L1) as [_ K]. assert (Ni : p_ineq p' <> []) by (rewrite K, Es; discriminate). change (p_dec p) with (p_dec p').
  destruct (ipm_ready (S := Xn) p' I1) as (nodes & t & q & Hs & D & Rd).
  assert (Hs' : ipm_setup (S := Xn) p' (e, [], s) = Ok (t, q)) by exact Hs.
  assert (HAi : t_Ai t < length (qobjs q)) by (eapply made_lt; [|apply (rd_Ai _ _ _ _ _ Rd)]; [exact I|reflexivity]).
  assert (HAe : t_Ae t < length (qobjs q)) by (eapply made_lt; [|apply (rd_Ae _ _ _ _ _ Rd)]; [exact I|discriminate]).
  destruct (jget_mat_ok (S := Xn) (t_Ai t) q (rd_reach _ _ _ _ _ Rd) HAi) as (Am & HAm). change (jget_mat (S := Xn) (t_Ai t) q = Ok Am) in HAm.
  destruct (i_dec _ Ip) as (nodes' & D' & _). destruct (read_mem _ nodes' (p_env p) (p_st p) _ e s (i_reach _ Ip) D' Hr) as [Kp Np].
  assert (Hn' : forall i, In i (p_ineq p') -> exists ty, slot_type p' i = Ok ty /\ ty <> LINEAR).
  { intros i Hi. destruct (Hn i Hi) as (ty & E & N). exists ty. split; [|exact N]. apply slot_type_kept; assumption. }
  destruct (constrs_nonlinear p' q Am (p_ineq p') Hn' 0) as (cs & Ecs & Fcs). destruct (bounds_nonlinear x cs Fcs 0 (bounds_init (length x))) as (b & Eb & Cb).
  destruct (g_at_ok (S := Xn) KIpm p' nodes t q Rd D x Lx) as (g & Hg). change (g_at (S := Xn) (length (p_dec p')) t q x = Ok g) in Hg.
  destruct (A_at_ok (S := Xn) KIpm p' nodes t q Rd D (t_Ae t) (length (t_ce t)) x Lx HAe) as (Ae & HA). change (A_at (S := Xn) (length (p_dec p')) t q (t_Ae t) (length (t_ce t)) x = Ok Ae) in HA.
  destruct (A_at_ok (S := Xn) KIpm p' nodes t q Rd D (t_Ai t) (length (t_ci t)) x Lx HAi) as (Ai & HB). change (A_at (S := Xn) (length (p_dec p')) t q (t_Ai t) (length (t_ci t)) x = Ok Ai) in HB.
  assert (Eb' : get_bounds x cs = Ok b) by exact Eb.
  assert (G : (let* (t, q) := ipm_setup (S := Xn) p' (e, [], s) in let* Ai := jget_mat (S := Xn) (t_Ai t) q in let* cs := constrs_of p' q Ai 0 (p_ineq p') in let* b := get_bounds x cs in
     match b_conflicts b with _ :: _ => Ok (RanBounds, x, p') | [] => let* P := ipm_problem (S := Xn) (length (p_dec p')) t q x in Ok (RanIpm P, x, p') end) =
     Ok (RanIpm (ipm_prob (S := Xn) (length (p_dec p')) t q (scaling_ipm g (length (t_ce t)) Ae (length (t_ci t)) Ai)), x, p')).
  { rewrite Hs'. cbn [obind]. rewrite HAm. cbn [obind]. rewrite Ecs. cbn [obind]. rewrite Eb'. cbn [obind]. rewrite Cb. cbn [bounds_init b_conflicts].
    unfold ipm_problem. rewrite Hg. cbn [obind]. rewrite HA. cbn [obind]. rewrite HB. reflexivity. }
  match type of G with _ = Ok (?r, _, _) => exists r, x, p' end. split; [|discriminate].
  destruct (p_eq p') as [|d0 ds0]; (destruct (p_ineq p') as [|i0 is0] eqn:Ei; [contradiction|]); exact G.
Qed.

(** auto x = problem.decision_variable(); problem.minimize(x * x); *)
Definition square_ops : list (pop R_ops) := [PDecision 1 1; PH (HBin BMul 0 0); PMinimize 1].
Lemma square_spec : exists sp, spec_run square_ops spec_empty = Some (sp, []) /\ sp_dec sp = [0]%nat /\ sp_goal sp = Some (false, XBin BMul (XVar 0) (XVar 0)) /\ sp_eqs sp = [] /\ sp_ineqs sp = [].
Proof. eexists. split; [reflexivity|repeat split]. Qed.
Lemma square_types : match prun (map (pinj (K := X_ops)) square_ops) (prog_empty X_ops) with
  Ok (p, []) => cost_type p = Ok QUADRATIC /\ max_type p (p_eq p) = Ok NONE /\ max_type p (p_ineq p) = Ok NONE | _ => False end.
Proof. vm_compute. auto. Qed.
Lemma square_smooth sp rho : sp_goal sp = Some (false, XBin BMul (XVar 0) (XVar 0)) -> sp_eqs sp = [] -> sp_ineqs sp = [] -> prob_smooth sp rho.
Proof.
  intros G E I0. unfold prob_smooth, goal_smooth, all_smooth. rewrite G, E, I0. split; [|split; constructor]. eexists. econstructor; [constructor|constructor|constructor|left; exact I|intros []].
Qed.
Lemma square_case : exists sp p P x0 p1, spec_run square_ops spec_empty = Some (sp, []) /\ lived sp p /\ prepare p = Ok (RanNewton P, x0, p1) /\ forall rho, prob_smooth sp rho.
Proof.
  destruct square_spec as (sp & Hs & _ & Eg & Es & Ei). pose proof square_types as T.
  destruct (c31_lived _ _ _ _ _ lived_start Hs) as (p & out & Hr & A & Lv & _). rewrite Hr in T. inversion A; subst. destruct T as (T1 & T2 & T3).
  destruct (prepare_total sp p Lv Ei) as (rn & x0 & p1 & Hp).
  destruct (solve_picks sp p rn x0 p1 Lv Hp) as (tf & te & ti & F1 & F2 & F3 & C & M). rewrite T1 in F1. rewrite T2 in F2. rewrite T3 in F3. injection F1 as <-. injection F2 as <-. injection F3 as <-.
  destruct rn as [|P|P|P|].
  - destruct C as [C _]. specialize (C eq_refl). discriminate.
  - exists sp, p, P, x0, p1. split; [exact Hs|]. split; [exact Lv|]. split; [exact Hp|]. intros rho. apply square_smooth; assumption.
  - rewrite Es in M. destruct M. congruence.
  - rewrite Ei in M. congruence.
  - rewrite Ei in M. congruence.
Qed.

Lemma two_smooth : exists sp p P x0 p1, spec_run two_ops spec_empty = Some (sp, []) /\ lived sp p /\ prepare p = Ok (RanSqp P, x0, p1) /\ forall rho, prob_smooth sp rho.
Proof.
  destruct two_case as (sp & p & P & x0 & p1 & Hs & Lv & Hp & Es). exists sp, p, P, x0, p1. split; [exact Hs|]. split; [exact Lv|]. split; [exact Hp|]. intros rho.
  pose proof two_spec as (sp' & Hs' & _ & _ & Ei). rewrite Hs in Hs'. injection Hs' as <-.
  assert (Eg : sp_goal sp = None). { assert (Q : exists s, spec_run two_ops spec_empty = Some (s, []) /\ sp_goal s = None) by (eexists; split; reflexivity). destruct Q as (s & Q1 & Q2). rewrite Hs in Q1. injection Q1 as <-. exact Q2. }
  unfold prob_smooth, goal_smooth, all_smooth. rewrite Eg, Es, Ei. split; [exact I|]. split; [|constructor]. constructor; [|constructor]. split; eexists; constructor.
Qed.

(** auto x = problem.decision_variable(); problem.minimize(x * x); problem.subject_to(x * x >= x); *)
Definition disc_ops : list (pop R_ops) := [PDecision 1 1; PH (HBin BMul 0 0); PMinimize 1; PCompare CGe (OVar 1) (OVar 0); PSubject 0].
Lemma disc_spec : exists sp, spec_run disc_ops spec_empty = Some (sp, []) /\ sp_goal sp = Some (false, XBin BMul (XVar 0) (XVar 0)) /\ sp_eqs sp = [] /\
  sp_ineqs sp = [mkRel CGe (XBin BMul (XVar 0) (XVar 0)) (XVar 0)].
Proof. eexists. split; [reflexivity|repeat split]. Qed.
Lemma disc_types : match prun (map (pinj (K := X_ops)) disc_ops) (prog_empty X_ops) with
  Ok (p, []) => cost_type p = Ok QUADRATIC /\ (forall i, In i (p_ineq p) -> slot_type p i = Ok QUADRATIC) | _ => False end.
Proof. vm_compute. split; [reflexivity|]. intros i [<-|[]]. reflexivity. Qed.
Lemma disc_smooth sp rho : sp_goal sp = Some (false, XBin BMul (XVar 0) (XVar 0)) -> sp_eqs sp = [] -> sp_ineqs sp = [mkRel CGe (XBin BMul (XVar 0) (XVar 0)) (XVar 0)] -> prob_smooth sp rho.
Proof.
  intros G E I0. unfold prob_smooth, goal_smooth, all_smooth. rewrite G, E, I0.
  assert (Q : exists v, XSm rho (XBin BMul (XVar 0) (XVar 0)) v) by (eexists; econstructor; [constructor|constructor|constructor|left; exact I|intros []]).
  split; [exact Q|]. split; [constructor|]. constructor; [|constructor]. split; [exact Q|eexists; constructor].
Qed.
Lemma disc_case : exists sp p P x0 p1, spec_run disc_ops spec_empty = Some (sp, []) /\ lived sp p /\ prepare p = Ok (RanIpm P, x0, p1) /\ forall rho, prob_smooth sp rho.
Proof.
  destruct disc_spec as (sp & Hs & Eg & Es & Ei). pose proof disc_types as T.
  destruct (c31_lived _ _ _ _ _ lived_start Hs) as (p & out & Hr & A & Lv & _). rewrite Hr in T. inversion A; subst. destruct T as (T1 & T3).
  destruct (prepare_nonlinear sp p Lv) as (rn & x0 & p1 & Hp & Nb). { intros i Hi. exists QUADRATIC. split; [apply T3, Hi|discriminate]. }
  destruct (solve_picks sp p rn x0 p1 Lv Hp) as (tf & te & ti & F1 & F2 & F3 & C & M). rewrite T1 in F1. injection F1 as <-.
  destruct rn as [|P|P|P|].
  - destruct C as [C _]. specialize (C eq_refl). discriminate.
  - rewrite Ei in M. destruct M. congruence.
  - rewrite Ei in M. destruct M. congruence.
  - exists sp, p, P, x0, p1. split; [exact Hs|]. split; [exact Lv|]. split; [exact Hp|]. intros rho. apply disc_smooth; assumption.
  - congruence.
Qed.
