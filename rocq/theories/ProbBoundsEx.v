(** The answers of solve() for C83, and a concrete case. *)
From Coq Require Import ZArith Reals List Bool Arith Lia Lra.
From Coquelicot Require Import Coquelicot.
From Verif Require Import Base ExprModel GraphSpec GraphProofs VarModel VarReach VarProofs ExprReal ExprXR MathSpec MathProofs VarSpec Faith FaithX HistProofs
  JacModel JacProofs JacReach JacHist JacSame NumModel UtilModel UtilSpec ScaleProofs LinR KktModel KktSpec KktProofs BoundsModel BoundsSpec BoundsProofs ExitModel SolverModel
  SolverSpec SolverProofs NewtonModel NewtonSpec NewtonProofs SqpModel SqpSpec SqpProofs IpmModel IpmShape IpmSpec IpmProofs RestoreModel RestoreProofs PosX
  XArith FinEval ProblemModel ProblemSpec ProblemInv ProblemProofs ProblemProofs2 ProblemProofs3 ProblemProofs4 ProbSolveModel ProbSolveInv ProbSolveEval ProbSolveSpec ProbSolveProofs ProbSolvePrep
  ProbSolveHist ProbSolveEnd ProbSolveLived ProbSolveFinal ProbSolveFacts DiffSpec SmoothSpec SmoothGraph SmoothUser LagrSpec ProbSolveMade ProbSolveDeriv ProbSolveDims ProbSolveKkt ProbSolveTotal ExprInv LinearX ProbSolveBounds ProbBounds.
Import ListNotations.
Local Open Scope nat_scope.

Lemma solve_infeasible {U : Type} (E : env Xn) (o : options Xn) : solve_ok E -> est_ok E ->
  forall fuel (cbs pcbs : list (callback Xn U)) sp p u clk p',
    lived sp p -> all_smooth (se_val (sp_se sp)) (sp_ineqs sp) -> solve E o fuel cbs pcbs p u clk = Ok (GLOBALLY_INFEASIBLE, p') ->
    forall y, length y = length (sp_dec sp) -> ~ (all_defined (point sp y) (sp_ineqs sp) /\ List.Forall (rel_holds (point sp y)) (sp_ineqs sp)).
Proof.
  intros Ho He fuel cbs pcbs sp p u clk p' Lv Hs H. destruct (solve_cases _ _ _ _ _ _ _ _ _ _ H) as (rn & x0 & p1 & x & Hp & Fi & _).
  destruct (lived_ok _ _ Lv) as [Ip Lp]. pose proof Hp as Hp'. destruct (prepare_inv sp p rn x0 p1 Ip Lp Hp') as (I1 & L1 & Ex & _ & (tf & te & ti & _ & _ & _ & _ & M)).
  assert (Lx : length x0 = length (p_dec p1)). { rewrite Ex, !map_length. symmetry. exact (dec_len (S := Xn) sp p1 L1). }
  destruct rn as [|P|P|P|]; cbn [final] in Fi.
  - exfalso. destruct Fi as [Fi _]. discriminate.
  - exfalso. destruct Fi as (fin & Hn & _). apply c50_meaning in Hn as (Hm & _). exact Hm.
  - exfalso. destruct Fi as (fin & Hn & _). destruct M as (_ & Ei & G).
    assert (En : sp_n P = length (p_dec p1)) by (pose proof G as G'; destruct G' as (? & ? & ? & ? & ? & _ & _ & _ & _ & ->); reflexivity).
    destruct (sqp_meaning sp p1 x0 P I1 L1 G) as (Pk & _). apply sqp_solve_meaning in Hn as (Hm & _); auto. exact (eq_trans Lx (eq_sym En)).
  - exfalso. destruct Fi as (fin & Hn & _). destruct M as (_ & G).
    assert (En : ip_n P = length (p_dec p1)) by (pose proof G as G'; destruct G' as (? & ? & ? & ? & ? & ? & _ & _ & _ & _ & _ & ->); reflexivity).
    destruct (ipm_meaning sp p1 x0 P I1 L1 G) as (Pk & _). apply ipm_solve_meaning in Hn as (Hm & _); auto. exact (eq_trans Lx (eq_sym En)).
  - exact (infeasible sp p x0 p1 Lv Hs Hp).
Qed.

Lemma solve_returns_linear {U : Type} (E : env Xn) (o : options Xn) : solve_ok E -> est_ok E -> pos (o_tol o) ->
  forall (cbs pcbs : list (callback Xn U)) sp p u clk,
    lived sp p -> all_smooth (se_val (sp_se sp)) (sp_ineqs sp) ->
    (forall k i r, nth_error (p_ineq p) k = Some i -> nth_error (sp_ineqs sp) k = Some r -> slot_type p i = Ok LINEAR -> depends sp r) ->
    exists N st p', forall n, N <= n -> solve E o n cbs pcbs p u clk = Ok (st, p').
Proof.
  intros Hs He Ht cbs pcbs sp p u clk Lv Sm Dp. destruct (prepare_linear sp p Lv Sm Dp) as (rn & x0 & p1 & Hp).
  exact (solve_returns E o Hs He Ht cbs pcbs sp p u clk rn x0 p1 Lv Hp).
Qed.

(** auto x = problem.decision_variable(); Variable a; Variable b; a.set_value(c);
    problem.subject_to(x >= a); problem.subject_to(x <= b); *)
Definition box_ops (c : R) : list (pop R_ops) :=
  [PDecision 1 1; PH HNew; PH HNew; PH (HSet (S := R_ops) 1 c); PCompare CGe (OVar 0) (OVar 1); PCompare CLe (OVar 0) (OVar 2); PSubject 0; PSubject 1].
Lemma box_spec c : exists sp, spec_run (box_ops c) spec_empty = Some (sp, []) /\ sp_dec sp = [0] /\ sp_goal sp = None /\ sp_eqs sp = [] /\
  sp_ineqs sp = [mkRel CGe (XVar 0) (XVar 1); mkRel CLe (XVar 0) (XVar 2)] /\ se_val (sp_se sp) 1 = c /\ se_val (sp_se sp) 2 = 0%R.
Proof. eexists. split; [reflexivity|repeat split]. Qed.
Lemma box_types c : match prun (map (pinj (K := X_ops)) (box_ops c)) (prog_empty X_ops) with
  Ok (p, []) => cost_type p = Ok NONE /\ length (p_ineq p) = 2 /\ forall k i, nth_error (p_ineq p) k = Some i -> slot_type p i = Ok LINEAR | _ => False end.
Proof. vm_compute. split; [reflexivity|]. split; [reflexivity|]. intros [|[|[|?]]] i H; injection H as <- || discriminate; reflexivity. Qed.
Lemma box_depends sp : sp_dec sp = [0] -> depends sp (mkRel CGe (XVar 0) (XVar 1)) /\ depends sp (mkRel CLe (XVar 0) (XVar 2)).
Proof.
  intros Ed. split.
  - exists 0, 1%R. split; [rewrite Ed; left; reflexivity|]. split; [|lra]. exists (fun t => (t - se_val (sp_se sp) 1)%R). split.
    + apply filter_forall. intros t. exists t, (se_val (sp_se sp) 1). cbn. split; [exact (XEv_var (ExprModel.upd (se_val (sp_se sp)) 0 t) 0)|]. split; [exact (XEv_var (ExprModel.upd (se_val (sp_se sp)) 0 t) 1)|reflexivity].
    + auto_derive; [exact I|lra].
  - exists 0, (-1)%R. split; [rewrite Ed; left; reflexivity|]. split; [|lra]. exists (fun t => (se_val (sp_se sp) 2 - t)%R). split.
    + apply filter_forall. intros t. exists t, (se_val (sp_se sp) 2). cbn. split; [exact (XEv_var (ExprModel.upd (se_val (sp_se sp)) 0 t) 0)|]. split; [exact (XEv_var (ExprModel.upd (se_val (sp_se sp)) 0 t) 2)|reflexivity].
    + auto_derive; [exact I|lra].
Qed.

Lemma box_case c : exists sp p, spec_run (box_ops c) spec_empty = Some (sp, []) /\ lived sp p /\ all_smooth (se_val (sp_se sp)) (sp_ineqs sp) /\
  (forall i, In i (p_ineq p) -> slot_type p i = Ok LINEAR) /\ List.Forall (depends sp) (sp_ineqs sp) /\
  exists rn x0 p1, prepare p = Ok (rn, x0, p1) /\ ((0 < c)%R -> rn = RanBounds).
Proof.
  destruct (box_spec c) as (sp & Hs & Ed & Eg & Ee & Ei & V1 & V2). pose proof (box_types c) as T.
  destruct (c31_lived _ _ _ _ _ lived_start Hs) as (p & out & Hr & A & Lv & _). rewrite Hr in T. inversion A; subst. destruct T as (T1 & T2 & T3).
  destruct (box_depends sp Ed) as [D1 D2].
  assert (Sm : all_smooth (se_val (sp_se sp)) (sp_ineqs sp)). { rewrite Ei. repeat constructor; cbn [r_l r_r]; eexists; constructor. }
  assert (Fd : List.Forall (depends sp) (sp_ineqs sp)) by (rewrite Ei; repeat constructor; assumption).
  exists sp, p. split; [exact Hs|]. split; [exact Lv|]. split; [exact Sm|].
  split. { intros i Hi. destruct (In_nth_error _ _ Hi) as (k & Ek). exact (T3 k i Ek). }
  split; [exact Fd|].
  destruct (prepare_linear sp p Lv Sm) as (rn & x0 & p1 & Hp). { intros k i r _ Er _. rewrite List.Forall_forall in Fd. apply Fd. eapply nth_error_In; eauto. }
  exists rn, x0, p1. split; [exact Hp|]. intros Hc.
  clear Hr A Hs. destruct (p_ineq p) as [|i [|j [|? ?]]] eqn:Ep; try discriminate T2.
  refine (one_variable sp p 0 rn x0 p1 Lv Sm Ed _ Hp 0 1 i j _ _ _ _ _ _ (T3 0 i eq_refl) (T3 1 j eq_refl) D1 D2 _); rewrite ?Ep, ?Ei; try reflexivity.
  - destruct (solve_picks sp p rn x0 p1 Lv Hp) as (tf & te & ti & F1 & F2 & F3 & C & M). destruct rn as [|P|P|P|]; cbn; auto.
    + destruct C as [C _]. specialize (C eq_refl). rewrite Ep in F3. cbn in F3. pose proof (T3 0 i eq_refl) as Q1. pose proof (T3 1 j eq_refl) as Q2. unfold max_type in F3. cbn in F3. rewrite Q1 in F3. cbn [obind] in F3. rewrite Q2 in F3. cbn in F3. injection F3 as <-. destruct tf, te; discriminate.
    + rewrite Ei in M. destruct M. discriminate.
    + rewrite Ei in M. destruct M. discriminate.
  - intros y Ly. destruct y as [|a [|? ?]]; try discriminate.
    assert (P0 : point sp [a] 0 = a) by (unfold point; rewrite Ed; reflexivity).
    assert (P1 : point sp [a] 1 = se_val (sp_se sp) 1) by (unfold point; rewrite Ed; reflexivity).
    assert (P2 : point sp [a] 2 = 0%R) by (unfold point; rewrite Ed; exact V2).
    split; [|split].
    + split; (split; [constructor|eexists; constructor]).
    + split; (split; [constructor|eexists; constructor]).
    + intros [(u & v & X1 & X2 & K1) (u' & v' & X3 & X4 & K2)]. cbn in *. inversion X1; inversion X2; inversion X3; inversion X4; subst. rewrite P0 in *. rewrite P1 in *. rewrite P2 in *. lra.
Qed.
