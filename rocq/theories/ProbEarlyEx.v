(** Solving again after SUCCESS, and programs for C84 and C85. *)
From Coq Require Import ZArith Reals List Bool Arith Lia Lra.
From Verif Require Import Base ExprModel GraphSpec GraphProofs ExprInv VarModel VarReach VarProofs ExprReal ExprXR MathSpec MathProofs VarSpec Faith FaithX HistProofs
  JacModel JacProofs JacReach JacHist JacSame NumModel UtilModel UtilSpec ScaleProofs LinR KktModel KktSpec KktProofs BoundsModel ExitModel SolverModel SolverSpec SolverProofs NewtonModel NewtonSpec NewtonProofs
  SqpModel SqpSpec SqpProofs IpmModel IpmShape IpmSpec IpmProofs RestoreModel RestoreProofs PosX PosProofs OutcomeProofs XArith FilterModel FilterProofs
  FinEval ProblemModel ProblemSpec ProblemInv ProblemProofs ProblemProofs2 ProblemProofs3 ProblemProofs4 ProbSolveModel ProbSolveInv ProbSolveEval ProbSolveSpec ProbSolveProofs ProbSolvePrep
  ProbSolveHist ProbSolveEnd ProbSolveLived ProbSolveFinal ProbSolveFacts ProbSolveEx DiffSpec SmoothSpec SmoothGraph SmoothUser LagrSpec ProbSolveMade ProbSolveDeriv ProbSolveDims ProbSolveKkt ProbSolveKkt2 ProbSolveKktEx RunY ProbSolveRun
  ProbSolveTotal ProbTotalEx EarlySpec ProbSolveBounds ProbEarly ProbEarly2.
Import ListNotations.
Local Open Scope nat_scope.

Lemma solve_again {U} (E : env Xn) (o : options Xn) fuel (cbs pcbs : list (callback Xn U)) sp p u clk p' t P x0 p1 y :
  solve_ok E -> o_tol o = Fin t -> (0 < t)%R -> lived sp p -> prepare p = Ok (RanNewton P, x0, p1) -> prob_smooth sp (se_val (sp_se sp)) ->
  solve E o fuel cbs pcbs p u clk = Ok (SUCCESS, p') -> final E o fuel (cbs ++ pcbs) u clk (RanNewton P) x0 SUCCESS (map Fin y) -> prob_smooth sp (point sp y) ->
  lived (at_point sp y) p' /\
  exists p'', forall (V : Type) (E' : env Xn) (o' : options Xn) (cbs' pcbs' : list (callback Xn V)) n v clk', o_tol o' = Fin t -> 1 <= n ->
    solve E' o' n cbs' pcbs' p' v clk' = Ok (SUCCESS, p'') /\ lived (at_point (at_point sp y) (now (at_point sp y))) p''.
Proof.
  intros Hs Ht Pt Lv Hp Sm H Fi Sy.
  destruct (c35 E o fuel cbs pcbs sp p u clk _ _ Lv H) as (rn' & x0' & p1' & x & tf' & te' & ti' & Hp' & _ & _ & _ & _ & _ & _ & Fi' & _ & _ & _ & _ & _ & _ & _ & _ & Li).
  rewrite Hp in Hp'. injection Hp' as <- <- <-. destruct Fi as (fin & Hn & Ef). destruct Fi' as (fin' & Hn' & Ef'). rewrite Hn in Hn'. injection Hn' as <-.
  pose proof (Li y (eq_trans Ef' (eq_sym Ef))) as Lv'. split; [exact Lv'|].
  destruct (solve_picks sp p _ x0 p1 Lv Hp) as (tf & te & ti & _ & _ & _ & _ & Ee & Ei).
  apply warm_start; auto.
  - cbn [at_point set_se sp_eqs sp_dec]. rewrite Ee. cbn. lia.
  - split.
    + intros k d Hk Pd. destruct (c81_newton E o t Hs Ht Pt sp p P x0 p1 fuel _ u clk fin y Lv Hp Sm Hn (eq_sym Ef) Sy k Hk) as (d' & Pd' & Hd).
      replace d with d'; [exact Hd|]. apply (pd_fun k (cost_is sp) (point sp y) d' d (fun rho a b => cost_det sp rho a b) Pd' Pd).
    + intros r g Hr. cbn [at_point set_se sp_eqs] in Hr. rewrite Ee in Hr. destruct Hr.
Qed.

(** *** Programs *)
Lemma square_settled : exists sp p P x0 p1, spec_run square_ops spec_empty = Some (sp, []) /\ lived sp p /\ prepare p = Ok (RanNewton P, x0, p1) /\
  prob_smooth sp (se_val (sp_se sp)) /\ sp_ineqs sp = [] /\ length (sp_eqs sp) <= length (sp_dec sp) /\ forall t, (0 < t)%R -> settled sp t.
Proof.
  destruct square_case as (sp & p & P & x0 & p1 & Hs & Lv & Hp & Sm). destruct square_spec as (sp' & Hs' & Ed & Eg & Ee & Ei). rewrite Hs in Hs'. injection Hs' as <-.
  assert (V0 : se_val (sp_se sp) 0 = 0%R). { assert (Q : exists s, spec_run square_ops spec_empty = Some (s, []) /\ se_val (sp_se s) 0 = 0%R) by (eexists; split; reflexivity). destruct Q as (s & Q1 & Q2). rewrite Hs in Q1. injection Q1 as <-. exact Q2. }
  exists sp, p, P, x0, p1. split; [exact Hs|]. split; [exact Lv|]. split; [exact Hp|]. split; [apply Sm|]. split; [exact Ei|]. split; [rewrite Ee; cbn; lia|].
  intros t Ht. split.
  - intros k d Hk Pd. rewrite Ed in Hk. destruct Hk as [<-|[]]. apply (square_pd sp _ _ Eg) in Pd. rewrite V0 in Pd. subst d. rewrite Rmult_0_r, Rabs_R0. lra.
  - intros r g Hr. rewrite Ee in Hr. destruct Hr.
Qed.

Lemma two_settled : exists sp p P x0 p1, spec_run two_ops spec_empty = Some (sp, []) /\ lived sp p /\ prepare p = Ok (RanSqp P, x0, p1) /\
  prob_smooth sp (se_val (sp_se sp)) /\ sp_ineqs sp = [] /\ length (sp_eqs sp) <= length (sp_dec sp) /\ forall t, (0 < t)%R -> settled sp t.
Proof.
  destruct two_smooth as (sp & p & P & x0 & p1 & Hs & Lv & Hp & Sm). destruct two_spec as (sp' & Hs' & Ed & Ee & Ei). rewrite Hs in Hs'. injection Hs' as <-.
  assert (Q : sp_goal sp = None /\ se_val (sp_se sp) 0 = 0%R /\ se_val (sp_se sp) 1 = 0%R).
  { assert (Q : exists s, spec_run two_ops spec_empty = Some (s, []) /\ sp_goal s = None /\ se_val (sp_se s) 0 = 0%R /\ se_val (sp_se s) 1 = 0%R) by (eexists; split; [reflexivity|repeat split]). destruct Q as (s & Q1 & Q2). rewrite Hs in Q1. injection Q1 as <-. exact Q2. }
  destruct Q as (Eg & V0 & V1).
  exists sp, p, P, x0, p1. split; [exact Hs|]. split; [exact Lv|]. split; [exact Hp|]. split; [apply Sm|]. split; [exact Ei|]. split; [rewrite Ee, Ed; cbn; lia|].
  intros t Ht. split.
  - intros k d Hk Pd. replace d with 0%R; [rewrite Rabs_R0; lra|]. symmetry. apply (pd_fun k (cost_is sp) _ d 0%R (fun rho a b => cost_det sp rho a b) Pd). exists (fun _ => 0%R). split.
    + apply Hierarchy.filter_forall. intros a. unfold cost_is. rewrite Eg. reflexivity.
    + apply (@Derive.is_derive_const Hierarchy.R_AbsRing Hierarchy.R_NormedModule).
  - intros r g Hr Hg. rewrite Ee in Hr. destruct Hr as [<-|[]]. destruct Hg as (a & b & A & B & ->). cbn in A, B |- *. inversion A; inversion B; subst. rewrite V0, V1. rewrite Rminus_0_r, Rabs_R0. lra.
Qed.

(** auto x = problem.decision_variable(); Variable a, b; problem.subject_to(x == a); problem.subject_to(x == b); *)
Definition over_ops : list (pop R_ops) := [PDecision 1 1; PH HNew; PH HNew; PCompare CEq (OVar 0) (OVar 1); PCompare CEq (OVar 0) (OVar 2); PSubject 0; PSubject 1].
Lemma over_spec : exists sp, spec_run over_ops spec_empty = Some (sp, []) /\ sp_dec sp = [0] /\ sp_goal sp = None /\ length (sp_eqs sp) = 2 /\ sp_ineqs sp = [].
Proof. eexists. split; [reflexivity|repeat split]. Qed.
Lemma over_types : match prun (map (pinj (K := X_ops)) over_ops) (prog_empty X_ops) with
  Ok (p, []) => max_type p (p_eq p) = Ok LINEAR | _ => False end.
Proof. vm_compute. reflexivity. Qed.
Lemma over_case : exists sp p, spec_run over_ops spec_empty = Some (sp, []) /\ lived sp p /\ length (sp_dec sp) < length (sp_eqs sp) /\
  exists N p', forall n, N <= n -> solve (U := unit) down_env (opts_y 5) n [] [] p tt 0 = Ok (TOO_FEW_DOFS, p').
Proof.
  destruct over_spec as (sp & Hs & Ed & Eg & Ee & Ei). pose proof over_types as T.
  destruct (c31_lived _ _ _ _ _ lived_start Hs) as (p & out & Hr & A & Lv & _). rewrite Hr in T. inversion A; subst.
  destruct (prepare_total sp p Lv Ei) as (rn & x0 & p1 & Hp). destruct env_total as (E1 & E2 & E3).
  destruct (solve_returns (U := unit) down_env (opts_y 5) E1 E2 E3 [] [] sp p tt 0 rn x0 p1 Lv Hp) as (N & st & p' & Hn).
  assert (Lt : length (sp_dec sp) < length (sp_eqs sp)) by (rewrite Ed, Ee; cbn; lia).
  exists sp, p. split; [exact Hs|]. split; [exact Lv|]. split; [exact Lt|]. exists N, p'. intros n Ln. rewrite (Hn n Ln). do 2 f_equal.
  destruct (solve_picks sp p rn x0 p1 Lv Hp) as (tf & te & ti & F1 & F2 & F3 & C & M). rewrite T in F2. injection F2 as <-.
  destruct (solve_overdetermined (U := unit) down_env (opts_y 5) N [] [] sp p tt 0 st p' Lv Lt (Hn N (le_n _))) as [[Q|[Q|(Q & x0' & p1' & Q')]] _].
  - exact Q.
  - exfalso. pose proof (solve_possible (U := unit) down_env (opts_y 5) E1 E2 N [] [] sp p tt 0 st p' Lv (Hn N (le_n _))) as W. rewrite Q in W. exact (W Ei).
  - exfalso. rewrite Hp in Q'. injection Q' as -> _ _. destruct C as [C _]. specialize (C eq_refl). apply andb_prop in C as [C _]. apply andb_prop in C as [_ C]. discriminate C.
Qed.

Lemma again_case : exists sp p P x0 p1 p', spec_run from1_ops spec_empty = Some (sp, []) /\ lived sp p /\ prepare p = Ok (RanNewton P, x0, p1) /\
  (forall rho, prob_smooth sp rho) /\ solve (U := unit) down_env (opts_y 5) 2 [] [] p tt 0 = Ok (SUCCESS, p') /\
  final (U := unit) down_env (opts_y 5) 2 [] tt 0 (RanNewton P) x0 SUCCESS (map Fin [0%R]).
Proof.
  destruct (from1_run tt) as (sp & p & P & x0 & p1 & Hs & Lv & Hp & Sm & Hn). destruct (Hn 2 (le_n _)) as (fin & Hf & Ex).
  destruct (lived_ok _ _ Lv) as [Ip Lp]. destruct (prepare_inv sp p _ x0 p1 Ip Lp Hp) as (I1 & L1 & _).
  destruct from1_spec as (sp' & Hs' & Ed & _). rewrite Hs in Hs'. injection Hs' as <-.
  assert (Lx : length (map Fin [0%R]) = length (p_dec p1)). { transitivity (length (sp_dec sp)); [rewrite Ed; reflexivity|]. symmetry. exact (dec_len (S := Xn) sp p1 L1). }
  destruct (write_total sp p1 _ I1 L1 Lx) as (p' & Hw).
  exists sp, p, P, x0, p1, p'. split; [exact Hs|]. split; [exact Lv|]. split; [exact Hp|]. split; [exact Sm|]. split.
  - unfold solve. rewrite Hp. cbn [obind app]. rewrite Hf. cbn [obind]. rewrite Ex, Hw. reflexivity.
  - exists fin. split; [exact Hf|]. symmetry. exact Ex.
Qed.
