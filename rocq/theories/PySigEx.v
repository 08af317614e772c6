(** Cases for C99: the bowl of C89 as a Problem, and as the cost of an OCP transcribed by single shooting. *)
From Coq Require Import ZArith QArith Reals List Bool Arith Lia Lra.
From Verif Require Import Base XArith XQ ExprModel MathSpec VarModel VarSpec ExprReal ExprXR Faith FaithX HistProofs NumModel UtilModel ExitModel SolverModel SolverSpec SolverProofs NewtonModel IpmShape RestoreModel RestoreProofs SmoothSpec ProblemModel ProblemSpec
  ProbSolveModel ProbSolveSpec ProbSolveHist ProbSolveEnd ProbSolveLived ProbSolvePrep ProbSolveTotal ProbTotalEx ProbSolveFacts LagrSpec ProbSolveKkt2 ProbSolveEx ProbSolveKktEx RunY ProbSolveRun SmoothUser SmoothGraph FiniteUseSpec FiniteUse EarlySpec ProbEarly ConvexSpec LinR QuadSpec QuadProofs QuadUse LdlModel LdlProofs QuadEx DownSpec DownLin DownUse DownEx
  OcpModel OcpSpec OcpEx CbModel CbSpec CbProofs CbUse CbEx PySigModel PySigSpec PySigProofs PySigUse.
Import ListNotations.
Local Open Scope nat_scope.

(** ** Newton's method does not depend on callbacks that let it go on *)
Section Deaf.
Context {S : nops}.
Variables (E : env S) (o : options S) (P : nprob S).
Context {V : Type}.
Definition but_u {U} (st : nstate E (U := U)) (v : V) : nstate E (U := V) :=
  mkN E (n_x E st) (n_f E st) (n_g E st) (n_H E st) (n_E E st) (n_flt E st) (n_it E st) v (n_ls E st) (n_clk E st).
Lemma drive_deaf {U} (cbs : list (tcallback S V)) left fuel0 start : (forall i x v, snd (run_t cbs i x v) = AGo) ->
  forall fuel (st : nstate E (U := U)) v cur s fin, drive (n_E E) (o_tol o) (newton_body E P [] o fuel0 start) fuel st = Ok (s, fin) ->
    exists v', drive_t (n_E E) (o_tol o) (newton_body_t E o P cbs left fuel0 start) fuel (but_u st v) cur = Ok (Done (s, but_u fin v')).
Proof.
  intros D. induction fuel as [|fuel IH]; intros st v cur s fin H; [discriminate H|]. cbn [drive drive_t] in *. change (n_E E (but_u st v)) with (n_E E st).
  destruct (s_ltb S _ _); [|injection H as <- <-; exists v; reflexivity].
  unfold newton_body in H. unfold newton_body_t at 1. cbn [run_callbacks] in H. change (n_x E (but_u st v)) with (n_x E st). destruct (diverging _); [injection H as <- <-; exists v; reflexivity|].
  match goal with |- context [run_t cbs ?i ?x ?u] => pose proof (D i x u) as Q; destruct (run_t cbs i x u) as [v1 a] end. cbn [snd] in Q. subst a. cbv zeta in H.
  change (n_g E (but_u st v)) with (n_g E st). change (n_f E (but_u st v)) with (n_f E st). change (n_H E (but_u st v)) with (n_H E st). change (n_ls E (but_u st v)) with (n_ls E st).
  change (n_flt E (but_u st v)) with (n_flt E st). change (n_it E (but_u st v)) with (n_it E st). change (n_clk E (but_u st v)) with (n_clk E st). cbv zeta.
  destruct (newton_search P fuel0 _ _ _ _ _ _ _) as [[x f a flt|flt]| | |]; cbn [obind] in H; try discriminate H.
  - destruct (limits _ _ _ _ _) as [l clk]. cbn [obind rbind]. destruct l as [l|]; cbn [SolverModel.finish with_cur rbind obind] in *.
    + injection H as <- <-. exists v1. reflexivity.
    + match type of H with drive _ _ _ _ ?st1 = _ => destruct (IH st1 v1 (evals (np_n P) x [true; true] (left (but_u st v))) s fin H) as (v' & H') end. exists v'. exact H'.
  - injection H as <- <-. exists v1. reflexivity.
Qed.
Lemma newton_deaf {U} (cbs : list (tcallback S V)) left fuel x (u : U) v clk cur s fin : (forall i x v, snd (run_t cbs i x v) = AGo) -> newton E P [] o fuel x u clk = Ok (s, fin) ->
  exists fin', newton_t E o P cbs left fuel x v clk cur = Ok (Done (s, fin')) /\ n_x E fin' = n_x E fin.
Proof.
  intros D H. unfold newton in H. unfold newton_t. cbv zeta in *. unfold newton_init in *. cbn [n_g n_H n_f] in *.
  destruct (_ && _); [|discriminate H]. cbn [oassert] in *. destruct (_ || _); [injection H as <- <-; eexists; split; reflexivity|].
  destruct (drive_deaf cbs left fuel (e_clock E clk) D fuel _ v (evals (np_n P) x [true; true; true] cur) s fin H) as (v' & H'). eexists. split; [exact H'|reflexivity].
Qed.
End Deaf.

(** ** An optimal control problem without constraints *)
Definition coast : ocp := mkOcp 1 (mkM 1 2 [4; 5]) (mkM 1 2 [0; 1]) (mkM 1 2 [2; 3]).
Definition coast_code : list (pop R_ops) :=
  [PDecision 1 2; PH HNew; PH HNew; PH (HAssignScalar (S := R_ops) 2 (1 / 2)%R); PH (HAssignScalar (S := R_ops) 3 (1 / 2)%R); PH HNew; PH HNew; PH (HConst (S := R_ops) 0%R);
   PH (HBin BMul 2 0); PH (HBin BAdd 4 7); PH (HCopy 8); PH (HAssign 5 9); PH (HBin BAdd 6 2)].
Lemma coast_made : ocp_make 1 1 (1 / 2)%R 1 integrator DISCRETE FIXED SINGLE_SHOOTING (mkGen 0 0 []) = Ok (coast, mkGen 11 0 coast_code).
Proof. reflexivity. Qed.
(** minimize(U(0,0) * U(0,0) + U(0,1) * U(0,1) + U(0,0) * U(0,1)) from U = (1, 2). *)
Definition coast_goal : list (pop R_ops) :=
  [PH (HSet (S := R_ops) 0 1%R); PH (HSet (S := R_ops) 1 2%R); PH (HBin BMul 0 0); PH (HBin BMul 1 1); PH (HBin BMul 0 1); PH (HBin BAdd 11 12); PH (HBin BAdd 14 13); PMinimize 15].
Definition coast_at (h a b : R) : list (pop R_ops) :=
  [PDecision 1 2; PH HNew; PH HNew; PH (HAssignScalar (S := R_ops) 2 h); PH (HAssignScalar (S := R_ops) 3 h); PH HNew; PH HNew; PH (HConst (S := R_ops) 0%R);
   PH (HBin BMul 2 0); PH (HBin BAdd 4 7); PH (HCopy 8); PH (HAssign 5 9); PH (HBin BAdd 6 2);
   PH (HSet (S := R_ops) 0 a); PH (HSet (S := R_ops) 1 b); PH (HBin BMul 0 0); PH (HBin BMul 1 1); PH (HBin BMul 0 1); PH (HBin BAdd 11 12); PH (HBin BAdd 14 13); PMinimize 15].
Lemma coast_spec_at h a b : exists sp, spec_run (coast_at h a b) spec_empty = Some (sp, []) /\ sp_dec sp = [0; 1] /\ sp_goal sp = Some (false, bowl) /\ sp_eqs sp = [] /\ sp_ineqs sp = [] /\
  se_val (sp_se sp) 0 = a /\ se_val (sp_se sp) 1 = b /\ nth_error (se_exp (sp_se sp)) 0 = Some (XVar 0) /\ nth_error (se_exp (sp_se sp)) 1 = Some (XVar 1).
Proof. eexists. split; [vm_compute; reflexivity|repeat split]. Qed.

(** A process in which a handler raises at every check. *)
Definition always : list nat -> bool := fun _ => true.
Definition idle : list nat -> list nat := fun w => w.

Lemma run_moves ops sp : spec_run ops spec_empty = Some (sp, []) -> sp_dec sp = [0; 1] -> sp_goal sp = Some (false, bowl) -> sp_eqs sp = [] -> sp_ineqs sp = [] ->
  se_val (sp_se sp) 0 = 1%R -> se_val (sp_se sp) 1 = 2%R -> nth_error (se_exp (sp_se sp)) 0 = Some (XVar 0) -> nth_error (se_exp (sp_se sp)) 1 = Some (XVar 1) ->
  exists p fuel clk p', lived sp p /\ forall l w, solve_t (U := list nat) far_env (opts_y 5) l fuel [] [] p w clk = Ok (Returned SUCCESS p') /\
    forall h, h = 0 \/ h = 1 -> exists p2, prun [PH (S := X_ops) (HValue h)] p' = Ok (p2, [PVal (S := X_ops) (Fin 0)]).
Proof.
  intros Hs Ed Eg Es Ei V0 V1 N0 N1. destruct (bowl_like ops sp 40 Hs Ed Eg Es Ei V0 V1) as (p0 & _ & Sm & _ & _ & _ & _ & _ & _ & _ & N & lg & H).
  remember SUCCESS as st eqn:Est. remember (map Fin [0; 0]%R) as x eqn:Ex. destruct H as [p P x0 p1 fuel u clk s fin Lv Hp H]. subst s. fold far_env in H.
  destruct (prepared sp p _ x0 p1 Lv Hp) as (En & I1 & L1).
  destruct (write_total sp p1 (map Fin [0; 0]%R) I1 L1) as (p' & W). { pose proof (ProbSolveProofs.dec_len (S := Xn) sp p1 L1) as Dl. rewrite Ed in Dl. exact (eq_sym Dl). }
  exists p, fuel, clk, p'. split; [exact Lv|]. intros l w. split.
  - unfold solve_t. rewrite Hp. cbn [obind app].
    destruct (newton_deaf far_env (opts_y 5) P (@nil (tcallback Xn (list nat))) (l_newton _ _ l) fuel x0 _ w clk x0 SUCCESS fin (fun _ _ _ => eq_refl) H) as (fin' & Hn & Ef).
    rewrite Hn. unfold ending. cbn [obind]. change (n_x far_env fin') with (n_x (with_ldl 40 down_env) fin') in *. 
    assert (W' : write_back p1 (n_x (with_ldl 40 down_env) fin') = Ok p'). { rewrite <- Ex in W. rewrite <- W. f_equal. exact Ef. }
    rewrite W'. reflexivity.
  - intros h [->| ->].
    + exact (read_back sp p1 p' (map Fin [0; 0]%R) 0 0 0 I1 L1 W N0 ltac:(rewrite Ed; reflexivity)).
    + exact (read_back sp p1 p' (map Fin [0; 0]%R) 1 1 1 I1 L1 W N1 ltac:(rewrite Ed; reflexivity)).
Qed.

Lemma c99_ocp : exists ob g sp p fuel clk p',
  ocp_make 1 1 (1 / 2)%R 1 integrator DISCRETE FIXED SINGLE_SHOOTING (mkGen 0 0 []) = Ok (ob, g) /\ v_at (o_U ob) = [0; 1] /\
  spec_run (g_code g ++ coast_goal) spec_empty = Some (sp, []) /\ lived sp p /\ (se_val (sp_se sp) 0 = 1 /\ se_val (sp_se sp) 1 = 2)%R /\
  forall l w, py_solve far_env (opts_y 5) l fuel (py_run idle always PyOCP []) p w clk = Ok (Returned SUCCESS p') /\
    forall h, h = 0 \/ h = 1 -> exists p2, prun [PH (S := X_ops) (HValue h)] p' = Ok (p2, [PVal (S := X_ops) (Fin 0)]).
Proof.
  destruct (coast_spec_at (1 / 2)%R 1%R 2%R) as (sp & Hs & Ed & Eg & Es & Ei & V0 & V1 & N0 & N1).
  destruct (run_moves (coast_at (1 / 2)%R 1%R 2%R) sp Hs Ed Eg Es Ei V0 V1 N0 N1) as (p & fuel & clk & p' & Lv & R).
  exists coast, (mkGen 11 0 coast_code), sp, p, fuel, clk, p'. split; [exact coast_made|]. split; [reflexivity|]. split; [exact Hs|]. split; [exact Lv|]. split; [auto|]. exact R.
Qed.

(** As a Problem, with a callback that is cleared, one that counts its calls, and a signal before the start. *)
Definition counting : tcallback Xn (list nat) := fun _ _ w => (length w :: w, AGo).
Definition stopping : tcallback Xn (list nat) := fun _ _ w => (w, AStop).
Definition script : list (py_op (list nat)) := [PyAddCallback stopping; PyClearCallbacks; PyAddCallback counting].
Lemma script_registered : registered script [counting].
Proof. exact (reg_add [PyAddCallback stopping; PyClearCallbacks] [] counting (reg_clear [PyAddCallback stopping] [stopping] (reg_add [] [] stopping reg_nil))). Qed.
Lemma script_awaits : awaits always [counting] (fun _ => True).
Proof. split; auto. Qed.
Lemma bowl_interrupted : exists sp p fuel clk p', spec_run bowl_ops spec_empty = Some (sp, []) /\ lived sp p /\ (exists r, prepare p = Ok r) /\
  forall l, py_solve far_env (opts_y 5) l (S fuel) (py_run idle always PyProblem script) p [] clk = Ok (Raised [0] p').
Proof.
  destruct bowl_spec as (sp & Hs & Ed & Eg & Es & Ei & V0 & V1). destruct (bowl_like bowl_ops sp 40 Hs Ed Eg Es Ei V0 V1) as (p0 & _ & Sm & _ & _ & _ & _ & _ & _ & _ & N & lg & H).
  remember SUCCESS as st eqn:Est. remember (map Fin [0; 0]%R) as x eqn:Ex. destruct H as [p P x0 p1 fuel u clk s fin Lv Hp H]. subst s. fold far_env in H.
  destruct (prepared sp p _ x0 p1 Lv Hp) as (En & I1 & L1). destruct (lived_ok _ _ Lv) as [Ip Lp]. destruct (prepare_inv sp p _ x0 p1 Ip Lp Hp) as (_ & _ & E0 & _).
  assert (X0 : x0 = map Fin [1; 2]%R) by (rewrite E0; unfold now in N; rewrite N; reflexivity).
  assert (Ne : n_x far_env fin <> x0).
  { change (n_x far_env fin) with (n_x (with_ldl 40 down_env) fin). rewrite Ex, X0. intros Q. apply (f_equal (fun l => nth 1 l NaN)) in Q. cbn in Q. injection Q as Q. lra. }
  destruct (write_total sp p1 (map Fin [1; 2]%R) I1 L1) as (p' & W). { pose proof (ProbSolveProofs.dec_len (S := Xn) sp p1 L1) as Dl. rewrite Ed in Dl. exact (eq_sym Dl). }
  destruct fuel as [|fuel]. { exfalso. unfold newton in H. cbv zeta in H. destruct (_ && _); [|discriminate H]. cbn [oassert] in H. destruct (_ || _); discriminate H. }
  exists sp, p, fuel, clk, p'. split; [exact Hs|]. split; [exact Lv|]. split; [eexists; exact Hp|]. intros l. unfold py_solve. rewrite (run_registered idle always PyProblem script [counting] script_registered).
  cbn [py_cbs py_persistent py_new]. unfold solve_t. rewrite Hp. cbn [obind].
  assert (Hc : newton_t far_env (opts_y 5) P ([counting] ++ [signal_cb idle always]) (l_newton _ _ l) (S fuel) x0 [] clk x0 = Ok (Thrown (S := Xn) [0] (firstn (np_n P) x0))).
  { clear Lv Hp I1 L1 W. unfold newton in H. unfold newton_t. cbv zeta in *. unfold newton_init in *. cbn [n_g n_H n_f] in *.
    destruct (_ && _); [|discriminate H]. cbn [oassert] in *. destruct (_ || _); [discriminate H|]. rewrite evals_true by (left; reflexivity).
    cbn [drive drive_t n_E] in *. destruct (s_ltb Xn _ _).
    2:{ injection H as <-. contradiction Ne. reflexivity. }
    unfold newton_body in H. unfold newton_body_t. cbn [n_x] in *. destruct (diverging (S := Xn) x0); [discriminate H|]. reflexivity. }
  rewrite Hc. unfold ending. cbn [obind].
  assert (W' : write_back p1 (firstn (np_n P) x0) = Ok p') by (rewrite En, Ed, X0; exact W). rewrite W'. reflexivity.
Qed.
