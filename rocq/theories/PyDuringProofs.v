(** Signals that come in during solve(): solve() ends in the first iteration that begins with one pending. *)
From Coq Require Import ZArith Reals List Bool Lia Lra.
From Verif Require Import Base ExprModel MathSpec VarModel VarSpec ExprReal ExprXR NumModel UtilModel KktModel FilterModel ExitModel SolverModel SolverProofs NewtonModel SqpModel IpmModel RestoreModel
  ProblemModel ProblemSpec ProbSolveModel ProbSolveSpec ProbSolveHist ProbSolveLived ProbSolvePrep ProbSolveEnd ProbSolveTotal ProbSolveKktEx RunY ProbSolveRun EarlySpec ProbEarly LdlModel LdlProofs QuadEx DownSpec DownLin DownUse DownEx CbModel CbSpec CbProofs CbUse
  PySigModel PySigSpec PySigProofs PySigUse PySigEx PyDuringSpec.
Import ListNotations.
Local Open Scope nat_scope.

Section During.
Context {S : nops}.

(** Runs that end alike: with the same answer, or with an exception at the same iterate. *)
Definition alike {U A} (m m' : outcome (res (S := S) U A)) : Prop :=
  match m with Ok (Done a) => m' = Ok (Done a) | Ok (Thrown _ c) => exists u', m' = Ok (Thrown u' c) | _ => True end.
Definition sooner {U} (cbs cbs' : list (tcallback S U)) : Prop := forall i x u,
  match snd (run_t cbs i x u) with AThrow => snd (run_t cbs' i x u) = AThrow | _ => run_t cbs' i x u = run_t cbs i x u end.
Lemma alike_refl {U A} (m : outcome (res U A)) : alike m m.
Proof. destruct m as [[a|u c]| | |]; cbn; eauto. Qed.
Lemma alike_bind {U A B} (m m' : outcome (res U A)) (f f' : A -> outcome (res U B)) : alike m m' -> (forall a, alike (f a) (f' a)) -> alike (rbind m f) (rbind m' f').
Proof.
  intros H K. destruct m as [[a|u c]| | |]; cbn [alike] in H; try exact I; [subst m'; apply K|]. destruct H as (u' & ->). cbn. eauto.
Qed.
Lemma alike_forget {U A} (m m' : outcome (res (U * filter S) A)) : alike m m' -> alike (forget m) (forget m').
Proof. intros H. destruct m as [[a|u c]| | |]; cbn [alike] in H; try exact I; [subst m'; reflexivity|]. destruct H as (u' & ->). cbn. eauto. Qed.
Lemma alike_obind {U A B} (m : outcome A) (f f' : A -> outcome (res U B)) : (forall a, alike (f a) (f' a)) -> alike (obind m f) (obind m f').
Proof. intros H. destruct m; cbn [obind]; [apply H|apply alike_refl..]. Qed.
Lemma alike_assert {U A} b (m m' : outcome (res U A)) : alike m m' -> alike (oassert b m) (oassert b m').
Proof. intros H. destruct b; [exact H|apply alike_refl]. Qed.
Lemma sooner_lift {U} (cbs cbs' : list (tcallback S U)) own : sooner cbs cbs' -> sooner (map lift_t cbs ++ [own]) (map lift_t cbs' ++ [own]).
Proof.
  intros C i x u. rewrite !run_app, !run_lift. specialize (C i x (fst u)). destruct (run_t cbs i x (fst u)) as [v r]. cbn [snd] in C.
  destruct (run_t cbs' i x (fst u)) as [v' r']. destruct r; cbn [snd] in C |- *.
  - injection C as -> ->. destruct (snd (run_t [own] i x (v, snd u))) eqn:Q; auto.
  - injection C as -> ->. reflexivity.
  - subst r'. reflexivity.
Qed.
Lemma drive_alike {U St} err tol body body' fuel : (forall (st : St) cur, alike (U := U) (body st cur) (body' st cur)) ->
  forall st cur, alike (drive_t err tol body fuel st cur) (drive_t err tol body' fuel st cur).
Proof.
  intros H. induction fuel as [|fuel IH]; intros st cur; [apply alike_refl|]. cbn [drive_t]. destruct (s_ltb S _ _); [|apply alike_refl].
  apply alike_bind; [apply H|]. intros [s [st1 c]|[st1 c]]; [apply alike_refl|apply IH].
Qed.

Variables (E : env S) (o : options S).
Lemma newton_alike {U} P (cbs cbs' : list (tcallback S U)) left fuel x u clk cur : sooner cbs cbs' -> alike (newton_t E o P cbs left fuel x u clk cur) (newton_t E o P cbs' left fuel x u clk cur).
Proof.
  intros C. unfold newton_t. cbv zeta. apply alike_assert. destruct (_ || _); [apply alike_refl|]. apply drive_alike. clear cur. intros st cur. unfold newton_body_t.
  destruct (diverging _); [apply alike_refl|]. specialize (C (newton_info E st) cur (n_u E st)). destruct (run_t cbs _ _ _) as [v []]; cbn [snd] in C.
  - rewrite C. apply alike_refl.
  - rewrite C. apply alike_refl.
  - destruct (run_t cbs' _ _ _) as [v' r']. cbn [snd] in C. subst r'. cbn. eauto.
Qed.
Section Ipm.
Context {U : Type}.
Notation trestorer := (list (tcallback S (U * filter S)) -> list S -> list S -> list S -> list S -> S -> Z -> U * filter S -> nat -> list S ->
  outcome (res (S := S) (U * filter S) (status * irestored S U))).
Lemma ipm_alike P w (cbs cbs' : list (tcallback S U)) left (restore restore' : option trestorer) fuel infr x s y z mu it u clk cur : sooner cbs cbs' ->
  match restore, restore' with
  | None, None => True
  | Some r, Some r' => forall cs cs' a1 a2 a3 a4 a5 a6 a7 a8 a9, sooner cs cs' -> alike (r cs a1 a2 a3 a4 a5 a6 a7 a8 a9) (r' cs' a1 a2 a3 a4 a5 a6 a7 a8 a9)
  | _, _ => False
  end ->
  alike (ipm_from_t E o P w cbs left restore fuel infr x s y z mu it u clk cur) (ipm_from_t E o P w cbs' left restore' fuel infr x s y z mu it u clk cur).
Proof.
  intros C R. unfold ipm_from_t. cbv zeta. apply alike_assert. destruct (Nat.ltb _ _); [apply alike_refl|]. destruct (_ || _); [apply alike_refl|]. apply drive_alike. clear cur. intros st cur. unfold ipm_body_t. cbv zeta.
  destruct (eq_infeasible _ _ _); [apply alike_refl|]. destruct (ineq_infeasible _ _ _); [apply alike_refl|]. destruct (_ || _); [apply alike_refl|].
  pose proof (C (ipm_info E st) cur (is_u E st)) as C1. destruct (run_t cbs _ _ _) as [v []]; cbn [snd] in C1.
  2:{ rewrite C1. apply alike_refl. }
  2:{ destruct (run_t cbs' _ _ _) as [v' r']. cbn [snd] in C1. subst r'. cbn. eauto. }
  rewrite C1. destruct (ls_compute _ _ _) as [ls []]; cbn [negb]; [|apply alike_refl].
  apply alike_obind. intros r. destruct (if s_ltb S _ _ then None else if_t r) as [t|]; [apply alike_refl|].
  destruct restore as [rst|], restore' as [rst'|]; try contradiction; [|apply alike_refl].
  apply alike_bind; [|intros a; apply alike_refl]. apply alike_forget. apply R. apply sooner_lift. exact C.
Qed.
End Ipm.
Lemma ipm_restore_alike {U} left fuel P cs cs' x s y z mu it (uf : U * filter S) clk cur : sooner cs cs' ->
  alike (ipm_restore_t E o left fuel P cs x s y z mu it uf clk cur) (ipm_restore_t E o left fuel P cs' x s y z mu it uf clk cur).
Proof.
  intros C. unfold ipm_restore_t. cbv zeta. destruct (fr_ipm_start P x s mu) as [[[frx frs] frz] frmu]. apply alike_bind; [|intros a; apply alike_refl].
  apply ipm_alike; [exact C|exact I].
Qed.
Lemma ipm_solve_alike {U} (l : leaves E U) fuel P cbs cbs' x u clk cur : sooner cbs cbs' -> alike (ipm_solve_t E o l fuel P cbs x u clk cur) (ipm_solve_t E o l fuel P cbs' x u clk cur).
Proof. intros C. unfold ipm_solve_t. apply ipm_alike; [exact C|]. intros. apply ipm_restore_alike. assumption. Qed.
Lemma sqp_restore_alike {U} left fuel P cs cs' x y it (uf : U * filter S) clk cur : sooner cs cs' ->
  alike (sqp_restore_t E o left fuel P cs x y it uf clk cur) (sqp_restore_t E o left fuel P cs' x y it uf clk cur).
Proof.
  intros C. unfold sqp_restore_t. cbv zeta. destruct (fr_sqp_start o P x) as [[frx frz] mu]. apply alike_bind; [|intros a; apply alike_refl].
  apply ipm_alike; [exact C|exact I].
Qed.
Lemma sqp_solve_alike {U} (l : leaves E U) fuel P cbs cbs' x u clk cur : sooner cbs cbs' -> alike (sqp_solve_t E o l fuel P cbs x u clk cur) (sqp_solve_t E o l fuel P cbs' x u clk cur).
Proof.
  intros C. unfold sqp_solve_t, sqp_t. cbv zeta. apply alike_assert. destruct (Nat.ltb _ _); [apply alike_refl|]. destruct (_ || _); [apply alike_refl|]. apply drive_alike. clear cur. intros st cur. unfold sqp_body_t. cbv zeta.
  destruct (eq_infeasible _ _ _); [apply alike_refl|]. destruct (diverging _); [apply alike_refl|].
  pose proof (C (sqp_info E st) cur (s_u E st)) as C1. destruct (run_t cbs _ _ _) as [v []]; cbn [snd] in C1.
  2:{ rewrite C1. apply alike_refl. }
  2:{ destruct (run_t cbs' _ _ _) as [v' r']. cbn [snd] in C1. subst r'. cbn. eauto. }
  rewrite C1. destruct (ls_compute _ _ _) as [ls []]; cbn [negb]; [|apply alike_refl].
  apply alike_obind. intros r. destruct (sf_t r) as [t|]; [apply alike_refl|].
  apply alike_bind; [|intros a; apply alike_refl]. apply alike_forget. apply sqp_restore_alike. apply sooner_lift. exact C.
Qed.
End During.

Section Use.
Context {W : Type}.
Variables (E : env Xn) (o : options Xn) (l : leaves E W) (tick : W -> W) (raises : W -> bool).

Lemma held_throws cbs held : awaits raises cbs held -> keep_on cbs held -> forall i x w, held w -> snd (run_t (cbs ++ [signal_cb tick raises]) i x w) = AThrow.
Proof.
  intros [A K] G i x. induction cbs as [|cb cbs IH]; intros w Hw; cbn [app run_t].
  - unfold signal_cb. rewrite (A w Hw). reflexivity.
  - pose proof (K cb i x w (or_introl eq_refl) Hw) as Hk. pose proof (G cb i x w (or_introl eq_refl) Hw) as Hg. destruct (cb i x w) as [v []]; cbn [fst snd] in *; [|contradiction Hg; reflexivity|reflexivity].
    apply IH; [intros cb' i' x' w' Hin; apply K; right; exact Hin|intros cb' i' x' w' Hin; apply G; right; exact Hin|exact Hk].
Qed.
Lemma watched_sooner cbs (pending : W -> bool) watch : awaits raises cbs (fun w => pending w = true) -> keep_on cbs (fun w => pending w = true) -> watches pending watch ->
  sooner (cbs ++ [signal_cb tick raises]) ((watch :: cbs) ++ [signal_cb tick raises]).
Proof.
  intros A G [W1 W2] i x w. cbn [app run_t]. destruct (pending w) eqn:Q.
  - rewrite (held_throws cbs _ A G i x w Q). pose proof (W2 i x w Q) as T. destruct (watch i x w) as [v r]. cbn [snd] in T. subst r. reflexivity.
  - rewrite (W1 i x w Q). destruct (run_t (cbs ++ _) i x w) as [v []]; reflexivity.
Qed.
Lemma ending_alike {St} p1 (xs : St -> list XR) (m m' : outcome (res (S := Xn) W (status * St))) e : alike m m' -> ending p1 xs m = Ok e -> exists e', ending p1 xs m' = Ok e' /\ same_end e e'.
Proof.
  intros U H. unfold ending in *. destruct m as [[[st a]|v c]| | |]; cbn [obind alike] in *; try discriminate H.
  - subst m'. cbn [obind]. exists e. split; [exact H|]. destruct (write_back p1 (xs a)); try discriminate H. injection H as <-. split; reflexivity.
  - destruct U as (u' & ->). cbn [obind]. destruct (write_back p1 c) as [p'| | |]; try discriminate H. injection H as <-. eexists. split; [reflexivity|]. reflexivity.
Qed.
Lemma c99_during fuel ops cbs pending watch p w clk e : registered ops cbs ->
  awaits raises cbs (fun w => pending w = true) -> keep_on cbs (fun w => pending w = true) -> watches pending watch ->
  py_solve E o l fuel (py_run tick raises PyProblem ops) p w clk = Ok e ->
  exists e', solve_t E o l fuel (watch :: cbs) [signal_cb tick raises] p w clk = Ok e' /\ same_end e e'.
Proof.
  intros Rg A G Wt. unfold py_solve. rewrite (run_registered tick raises PyProblem ops cbs Rg). cbn [py_cbs py_persistent py_new].
  unfold solve_t. pose proof (watched_sooner cbs pending watch A G Wt) as C. cbn [app] in C. destruct (prepare p) as [[[rn x0] p1]| | |]; cbn [obind]; try discriminate. destruct rn as [|P|P|P|].
  - intros H. exists e. split; [exact H|]. injection H as <-. split; reflexivity.
  - apply ending_alike. apply newton_alike. exact C.
  - apply ending_alike. apply sqp_solve_alike. exact C.
  - apply ending_alike. apply ipm_solve_alike. exact C.
  - intros H. exists e. split; [exact H|]. injection H as <-. split; reflexivity.
Qed.
End Use.

(** ** A signal that comes in while the counting callback runs for the first time *)
Definition late : list nat -> bool := fun w => negb (Nat.eqb (length w) 0).
Definition guard : tcallback Xn (list nat) := fun _ _ w => (w, if late w then AThrow else AGo).
Lemma late_awaits : awaits late [counting] (fun w => late w = true).
Proof. split; [auto|]. intros cb i x w [<-|[]] _. reflexivity. Qed.
Lemma late_keeps : keep_on [counting] (fun w => late w = true).
Proof. intros cb i x w [<-|[]] _. discriminate. Qed.
Lemma guard_watches : watches late guard.
Proof. split; intros i x w H; unfold guard; rewrite H; reflexivity. Qed.
Lemma bowl_late : exists sp p fuel clk p', spec_run bowl_ops spec_empty = Some (sp, []) /\ lived sp p /\
  forall l, py_solve far_env (opts_y 5) l (S fuel) (py_run idle late PyProblem script) p [] clk = Ok (Raised [0] p').
Proof.
  destruct bowl_spec as (sp & Hs & Ed & Eg & Es & Ei & V0 & V1). destruct (bowl_like bowl_ops sp 40 Hs Ed Eg Es Ei V0 V1) as (p0 & _ & Sm & _ & _ & _ & _ & _ & _ & _ & N & lg & H).
  remember SUCCESS as st eqn:Est. remember (map Fin [0; 0]%R) as x eqn:Ex. destruct H as [p P x0 p1 fuel u clk s fin Lv Hp H]. subst s. fold far_env in H.
  destruct (prepared sp p _ x0 p1 Lv Hp) as (En & I1 & L1). destruct (lived_ok _ _ Lv) as [Ip Lp]. destruct (prepare_inv sp p _ x0 p1 Ip Lp Hp) as (_ & _ & E0 & _).
  assert (X0 : x0 = map Fin [1; 2]%R) by (rewrite E0; unfold now in N; rewrite N; reflexivity).
  assert (Ne : n_x far_env fin <> x0).
  { change (n_x far_env fin) with (n_x (with_ldl 40 down_env) fin). rewrite Ex, X0. intros Q. apply (f_equal (fun l => nth 1 l NaN)) in Q. cbn in Q. injection Q as Q. lra. }
  destruct (write_total sp p1 (map Fin [1; 2]%R) I1 L1) as (p' & W). { pose proof (ProbSolveProofs.dec_len (S := Xn) sp p1 L1) as Dl. rewrite Ed in Dl. exact (eq_sym Dl). }
  destruct fuel as [|fuel]. { exfalso. unfold newton in H. cbv zeta in H. destruct (_ && _); [|discriminate H]. cbn [oassert] in H. destruct (_ || _); discriminate H. }
  exists sp, p, fuel, clk, p'. split; [exact Hs|]. split; [exact Lv|]. intros l. unfold py_solve. rewrite (run_registered idle late PyProblem script [counting] script_registered).
  cbn [py_cbs py_persistent py_new]. unfold solve_t. rewrite Hp. cbn [obind].
  assert (Hc : newton_t far_env (opts_y 5) P ([counting] ++ [signal_cb idle late]) (l_newton _ _ l) (S fuel) x0 [] clk x0 = Ok (Thrown (S := Xn) [0] (firstn (np_n P) x0))).
  { clear Lv Hp I1 L1 W. unfold newton in H. unfold newton_t. cbv zeta in *. unfold newton_init in *. cbn [n_g n_H n_f] in *.
    destruct (_ && _); [|discriminate H]. cbn [oassert] in *. destruct (_ || _); [discriminate H|]. rewrite evals_true by (left; reflexivity).
    cbn [drive drive_t n_E] in *. destruct (s_ltb Xn _ _).
    2:{ injection H as <-. contradiction Ne. reflexivity. }
    unfold newton_body in H. unfold newton_body_t. cbn [n_x] in *. destruct (diverging (S := Xn) x0); [discriminate H|]. reflexivity. }
  rewrite Hc. unfold ending. cbn [obind].
  assert (W' : write_back p1 (firstn (np_n P) x0) = Ok p') by (rewrite En, Ed, X0; exact W). rewrite W'. reflexivity.
Qed.
