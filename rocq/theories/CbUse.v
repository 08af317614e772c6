(** C98 for solve(). *)
From Coq Require Import ZArith Reals List Bool Arith Lia.
From Verif Require Import Base ExprModel GraphSpec GraphProofs ExprInv VarModel VarReach VarProofs ExprReal ExprXR MathSpec MathProofs VarSpec Faith FaithX HistProofs JacModel JacProofs JacReach JacHist JacSame NumModel UtilModel UtilSpec ScaleProofs LinR KktModel KktSpec KktProofs BoundsModel ExitModel SolverModel SolverSpec SolverProofs NewtonModel NewtonSpec NewtonProofs SqpModel SqpSpec SqpProofs IpmModel IpmShape IpmSpec IpmProofs RestoreModel RestoreProofs PosX PosProofs OutcomeProofs XArith FilterModel FilterProofs FinEval ProblemModel ProblemSpec ProblemInv ProblemProofs ProblemProofs2 ProblemProofs3 ProblemProofs4 ProbSolveModel ProbSolveInv ProbSolveEval ProbSolveSpec ProbSolveProofs ProbSolvePrep ProbSolveHist ProbSolveEnd ProbSolveLived ProbSolveFinal ProbSolveFacts DiffSpec SmoothSpec SmoothGraph SmoothUser LagrSpec ProbSolveMade ProbSolveDeriv ProbSolveDims ProbSolveKkt ProbSolveKkt2 OcpModel OcpSpec OcpSolveSpec OcpSolve FiniteSpec FiniteI FiniteR FiniteS FiniteN FiniteUseSpec CbModel CbSpec CbProofs.
Import ListNotations.
Local Open Scope nat_scope.

Lemma agree_all {U} n (cbs cbs' pcbs pcbs' : list (tcallback Xn U)) : Forall2 (agree n) cbs cbs' -> Forall2 (agree n) pcbs pcbs' -> Forall2 (agree n) (cbs ++ pcbs) (cbs' ++ pcbs').
Proof. apply Forall2_app. Qed.

Section Use.
Variables (E : env Xn) (o : options Xn).
Context {U : Type}.

(** The problem solve() hands to a solver has as many variables as there are decision variables. *)
Lemma prepared sp p rn x0 p1 : lived sp p -> prepare p = Ok (rn, x0, p1) ->
  match rn with RanNewton P => np_n P = length (sp_dec sp) | RanSqp P => sp_n P = length (sp_dec sp) | RanIpm P => ip_n P = length (sp_dec sp) | _ => True end /\
  pinv p1 /\ plink sp p1.
Proof.
  intros Lv Hp. destruct (lived_ok _ _ Lv) as [Ip Lp]. destruct (prepare_inv sp p rn x0 p1 Ip Lp Hp) as (I1 & L1 & _ & _ & (tf & te & ti & _ & _ & _ & _ & M)).
  split; [|split; assumption]. pose proof (dec_len (S := Xn) sp p1 L1) as Ld. rewrite <- Ld. destruct rn as [|P|P|P|]; auto.
  - destruct M as (_ & _ & G). destruct G as (? & ? & ? & ? & _ & _ & _ & ->). reflexivity.
  - destruct M as (_ & _ & G). destruct G as (? & ? & ? & ? & ? & _ & _ & _ & _ & ->). reflexivity.
  - destruct M as (_ & G). destruct G as (? & ? & ? & ? & ? & ? & _ & _ & _ & _ & _ & ->). reflexivity.
Qed.

Lemma c98_same (l l' : leaves E U) fuel cbs pcbs cbs' pcbs' sp p u clk : lived sp p -> let n := length (sp_dec sp) in Forall2 (agree n) cbs cbs' -> Forall2 (agree n) pcbs pcbs' ->
  solve_t E o l fuel cbs pcbs p u clk = solve_t E o l' fuel cbs' pcbs' p u clk.
Proof.
  intros Lv n F1 F2. pose proof (agree_all _ _ _ _ _ F1 F2) as F. unfold solve_t. destruct (prepare p) as [[[rn x0] p1]| | |] eqn:Hp; cbn [obind]; [|reflexivity..].
  destruct (prepared sp p rn x0 p1 Lv Hp) as (En & _ & _). destruct rn as [|P|P|P|]; [reflexivity| | | |reflexivity]; unfold n in F; rewrite <- En in F.
  - rewrite (newton_same E o P _ _ (l_newton E U l) (l_newton E U l') F fuel x0 u clk x0 x0). reflexivity.
  - rewrite (sqp_solve_same E o l l' fuel P _ _ x0 u clk x0 x0 F). reflexivity.
  - rewrite (ipm_solve_same E o l l' fuel P _ _ x0 u clk x0 x0 F). reflexivity.
Qed.

Lemma agree_info n (cbs : list (tcallback Xn U)) : Forall never_throws cbs -> Forall2 (agree n) cbs (map own_t (map (reads_info n) cbs)).
Proof.
  induction 1 as [|cb cbs Nt F IH]; cbn [map]; constructor; [|exact IH]. intros i u. unfold own_t, reads_info. specialize (Nt i (firstn n (i_x i)) u).
  destruct (cb i (firstn n (i_x i)) u) as [v []]; [reflexivity|reflexivity|]. contradiction Nt. reflexivity.
Qed.
Lemma solve_own (l : leaves E U) fuel cbs pcbs p u clk : solve_t E o l fuel (map own_t cbs) (map own_t pcbs) p u clk = returns (solve E o fuel cbs pcbs p u clk).
Proof.
  unfold solve_t, solve. rewrite <- map_app. destruct (prepare p) as [[[rn x0] p1]| | |]; cbn [obind]; [|reflexivity..]. destruct rn as [|P|P|P|]; [reflexivity| | | |reflexivity].
  - rewrite newton_own. destruct (newton _ _ _ _ _ _ _ _) as [[st fin]| | |]; [|reflexivity..]. cbn [rdone ending obind]. destruct (write_back _ _); reflexivity.
  - rewrite sqp_solve_own. destruct (sqp_solve _ _ _ _ _ _ _ _) as [[st fin]| | |]; [|reflexivity..]. cbn [rdone ending obind]. destruct (write_back _ _); reflexivity.
  - rewrite ipm_solve_own. destruct (ipm_solve _ _ _ _ _ _ _ _) as [[st fin]| | |]; [|reflexivity..]. cbn [rdone ending obind]. destruct (write_back _ _); reflexivity.
Qed.
Lemma c98_reads (l : leaves E U) fuel cbs pcbs sp p u clk : lived sp p -> Forall never_throws cbs -> Forall never_throws pcbs -> let n := length (sp_dec sp) in
  solve_t E o l fuel cbs pcbs p u clk = returns (solve E o fuel (map (reads_info n) cbs) (map (reads_info n) pcbs) p u clk).
Proof. intros Lv N1 N2 n. rewrite (c98_same l l fuel cbs pcbs _ _ sp p u clk Lv (agree_info n _ N1) (agree_info n _ N2)). apply solve_own. Qed.

Lemma not_diverging (x : list XR) : diverging (S := Xn) x = false -> exists y, x = map Fin y.
Proof.
  unfold diverging. rewrite orb_false_iff. intros [_ H]. apply negb_false_iff in H. unfold all_fin in H. induction x as [|v x IH]; [exists []; reflexivity|].
  cbn [forallb] in H. apply andb_true_iff in H. destruct H as [H1 H2]. destruct (IH H2) as (y & ->). destruct v as [r| | |]; try discriminate. exists (r :: y). reflexivity.
Qed.
Lemma c98_threw (l : leaves E U) fuel cbs pcbs sp p u clk v p' : lived sp p -> solve_t E o l fuel cbs pcbs p u clk = Ok (Raised v p') ->
  exists cb (i : info Xn) u0 y, In cb (cbs ++ pcbs) /\ firstn (length (sp_dec sp)) (i_x i) = map Fin y /\ length y = length (sp_dec sp) /\ cb i (map Fin y) u0 = (v, AThrow) /\
    lived (at_point sp y) p' /\
    forall j k h, nth_error (se_exp (sp_se sp)) h = Some (XVar k) -> nth_error (sp_dec sp) j = Some k ->
      exists p2, prun [PH (S := X_ops) (HValue h)] p' = Ok (p2, [PVal (S := X_ops) (nth j (map Fin y) NaN)]).
Proof.
  intros Lv H. destruct (raised_cases _ _ _ _ _ _ _ _ _ _ _ H) as (rn & x0 & p1 & x & Hp & Hw & R). destruct (prepared sp p rn x0 p1 Lv Hp) as (En & I1 & L1).
  assert (T : threw (length (sp_dec sp)) (cbs ++ pcbs) v x).
  { destruct rn as [|P|P|P|]; try contradiction; rewrite <- En.
    - eapply newton_threw. exact R.
    - eapply sqp_solve_threw. exact R.
    - eapply ipm_solve_threw. exact R. }
  destruct T as (cb & i & u0 & Hin & Ex & D & Hc). apply not_diverging in D. destruct D as (y0 & Ey). change (i_x i) with (i_x (S := Xn) i) in Ey. rewrite Ey, firstn_map in Ex.
  destruct (write_ok sp p1 p' x I1 L1 Hw) as (Lx & I2 & _). set (y := firstn (length (sp_dec sp)) y0) in *. subst x.
  assert (Ly : length y = length (sp_dec sp)) by (rewrite <- Lx; symmetry; apply map_length).
  exists cb, i, u0, y. split; [exact Hin|]. split; [rewrite Ey, firstn_map; reflexivity|]. split; [exact Ly|]. split; [exact Hc|]. split.
  - pose proof (write_link sp p1 p' y I1 L1 Hw) as L2. destruct (read_dec (S := X_ops) (FS := faith_X) _ p' I2 L2) as (e3 & s3 & Hr3 & _).
    eapply lived_threw; [exact Lv|exact H|]. rewrite Hr3. f_equal. f_equal. f_equal. change (@inj X_ops faith_X) with Fin. f_equal.
    cbn [at_point set_se sp_se se_val sp_dec]. unfold point. apply place_read; [exact (dec_nodup sp p1 I1 L1)|exact Ly].
  - intros j k h Hh Hj. exact (read_back sp p1 p' (map Fin y) h j k I1 L1 Hw Hh Hj).
Qed.
End Use.
