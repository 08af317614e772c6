(** Proofs for C87 at the level of solve(). *)
From Coq Require Import ZArith Reals List Bool Arith Lia Lra.
From Verif Require Import Base ExprModel GraphSpec GraphProofs ExprInv VarModel VarReach VarProofs ExprReal ExprXR MathSpec MathProofs VarSpec Faith FaithX HistProofs
  JacModel JacProofs JacReach JacHist JacSame NumModel UtilModel UtilSpec ScaleProofs LinR KktModel KktSpec KktProofs BoundsModel ExitModel SolverModel SolverSpec SolverProofs NewtonModel NewtonSpec NewtonProofs
  SqpModel SqpSpec SqpProofs IpmModel IpmShape IpmSpec IpmProofs RestoreModel RestoreProofs PosX PosProofs OutcomeProofs XArith FilterModel FilterProofs
  FinEval ProblemModel ProblemSpec ProblemInv ProblemProofs ProblemProofs2 ProblemProofs3 ProblemProofs4 ProbSolveModel ProbSolveInv ProbSolveEval ProbSolveSpec ProbSolveProofs ProbSolvePrep
  ProbSolveHist ProbSolveEnd ProbSolveLived ProbSolveFinal ProbSolveFacts DiffSpec SmoothSpec SmoothGraph SmoothUser LagrSpec ProbSolveMade ProbSolveDeriv ProbSolveDims ProbSolveKkt ProbSolveKkt2
  OcpModel OcpSpec OcpSolveSpec OcpSolve FiniteSpec FiniteI FiniteR FiniteS FiniteN FiniteUseSpec.
Import ListNotations.
Local Open Scope nat_scope.

Lemma vfin_real v : vfin v -> exists r, v = map Fin r.
Proof. intros H. apply fin_list. apply all_fin_Forall. exact H. Qed.
Lemma vfin_map r : vfin (map Fin r). Proof. unfold vfin. rewrite List.Forall_map. apply List.Forall_forall. intros; reflexivity. Qed.
Lemma mfin_real A : mfin A <-> mat_fin (S := Xn) A = true. Proof. symmetry. apply mat_fin_Forall. Qed.
Lemma start_everywhere sp : smooth_everywhere sp -> prob_smooth sp (se_val (sp_se sp)).
Proof. intros H. eapply smooth_ext; [|apply (H (map (se_val (sp_se sp)) (sp_dec sp))); apply map_length]. intros k. apply place_same. Qed.
Lemma grad_fin sp f rho g : is_gradient sp f rho g -> vfin g.
Proof. intros H. apply grad_real in H as (r & -> & _). apply vfin_map. Qed.
Lemma jac_fin sp rs ss rho M r n : is_jacobian sp rs ss rho M -> r = length rs -> n = length (sp_dec sp) -> mat_dims (S := Xn) r n M = true -> mfin M.
Proof. intros H -> -> D. destruct (jac_real _ _ _ _ _ H D) as (A & -> & _). unfold fm, mfin. rewrite List.Forall_map. apply List.Forall_forall. intros v _. apply vfin_map. Qed.
Lemma hess_fin sp L rho M : is_lower_hessian sp L rho M -> mfin M.
Proof.
  intros ((L1 & L2) & H). apply List.Forall_forall. intros w I. apply (In_nth _ _ []) in I as (i & Hi & <-). apply all_fin_Forall, all_fin_nth. intros j Hj.
  rewrite (L2 (nth i M [])) in Hj by (apply nth_In; exact Hi). destruct (nth_some (sp_dec sp) i) as (a & Ea); [lia|]. destruct (nth_some (sp_dec sp) j Hj) as (b & Eb).
  destruct (H i j a b Ea Eb) as [H1 H2]. destruct (le_lt_dec j i) as [C|C]; [destruct (H1 C) as (d & Ed & _); eauto|exists 0%R; exact (H2 C)].
Qed.

Section Given.
Variables (sp : spec) (p : prog X_ops).
Hypothesis Lv : lived sp p.
Hypothesis Sm : smooth_everywhere sp.

Lemma ipm_gives P x0 p1 : prepare p = Ok (RanIpm P, x0, p1) -> iprob_ok P /\ fin_ipm P /\ pos (sc_f (ip_sc P)) /\ length x0 = ip_n P /\ vfin x0.
Proof.
  intros H. destruct (c80_ipm sp p P x0 p1 Lv H (start_everywhere sp Sm)) as (f & de & di & E1 & E2 & E3 & Pf & Lde & Ldi & Pd & K).
  destruct (lived_ok _ _ Lv) as [Ip Lp]. destruct (prepare_inv sp p _ x0 p1 Ip Lp H) as (I1 & L1 & E0 & _ & Pk).
  destruct Pk as (tf & te & ti & _ & _ & _ & _ & Ni & Gv). destruct (ipm_meaning sp p1 x0 P I1 L1 Gv) as (Pok & (En & Ee & Ei) & _ & _ & _).
  split; [exact Pok|]. split; [|split; [rewrite E1; exists f; auto|split; [rewrite E0, !map_length; symmetry; exact En|rewrite E0; apply vfin_map]]].
  intros x Lx Fx. destruct (Pok x Lx) as (_ & _ & _ & DA & DB). apply vfin_real in Fx as (y & ->). rewrite map_length in Lx. assert (Ly : length y = length (sp_dec sp)) by exact (eq_trans Lx En).
  destruct (K y Ly (Sm y Ly)) as ((v & _ & Ev) & (ge & _ & Ec) & (gi & _ & Ed) & G & J & J' & Hh). rewrite Ev, Ec, Ed.
  split; [reflexivity|]. split; [exact (grad_fin _ _ _ _ G)|]. split; [apply vfin_map|]. split; [exact (jac_fin _ _ _ _ _ _ _ J Ee En DA)|]. split; [apply vfin_map|]. split; [exact (jac_fin _ _ _ _ _ _ _ J' Ei En DB)|].
  intros mu nu Lm Ln Fm Fn. apply vfin_real in Fm as (m & ->), Fn as (n & ->). rewrite map_length in Lm, Ln. exact (hess_fin _ _ _ _ (proj1 (Hh m n (eq_trans Lm Ee) (eq_trans Ln Ei)))).
Qed.
Lemma sqp_gives P x0 p1 : prepare p = Ok (RanSqp P, x0, p1) -> sprob_ok P /\ fin_sqp P /\ length x0 = sp_n P /\ vfin x0.
Proof.
  intros H. destruct (c80_sqp sp p P x0 p1 Lv H (start_everywhere sp Sm)) as (f & de & E1 & E2 & E3 & Pf & Lde & Pd & K).
  destruct (lived_ok _ _ Lv) as [Ip Lp]. destruct (prepare_inv sp p _ x0 p1 Ip Lp H) as (I1 & L1 & E0 & _ & Pk).
  destruct Pk as (tf & te & ti & _ & _ & _ & _ & Nq & Ni & Gv). destruct (sqp_meaning sp p1 x0 P I1 L1 Gv) as (Pok & En & Ee & _).
  split; [exact Pok|]. split; [|split; [rewrite E0, !map_length; symmetry; exact En|rewrite E0; apply vfin_map]].
  intros x Lx Fx. destruct (Pok x Lx) as (_ & _ & DA). apply vfin_real in Fx as (y & ->). rewrite map_length in Lx. assert (Ly : length y = length (sp_dec sp)) by exact (eq_trans Lx En).
  destruct (K y Ly (Sm y Ly)) as ((v & _ & Ev) & (ge & _ & Ec) & G & J & Hh). rewrite Ev, Ec.
  split; [reflexivity|]. split; [exact (grad_fin _ _ _ _ G)|]. split; [apply vfin_map|]. split; [exact (jac_fin _ _ _ _ _ _ _ J Ee En DA)|].
  intros mu Lm Fm. apply vfin_real in Fm as (m & ->). rewrite map_length in Lm. exact (hess_fin _ _ _ _ (proj1 (Hh m (eq_trans Lm Ee)))).
Qed.
Lemma newton_gives P x0 p1 : prepare p = Ok (RanNewton P, x0, p1) -> (forall x, length x = np_n P -> length (np_g P x) = np_n P) /\ fin_newton P /\ length x0 = np_n P /\ vfin x0.
Proof.
  intros H. destruct (c80_newton sp p P x0 p1 Lv H (start_everywhere sp Sm)) as (f & E1 & Pf & _ & _ & K).
  destruct (lived_ok _ _ Lv) as [Ip Lp]. destruct (prepare_inv sp p _ x0 p1 Ip Lp H) as (I1 & L1 & E0 & _ & Pk).
  destruct Pk as (tf & te & ti & _ & _ & _ & _ & Nq & Ni & Gv). destruct (newton_meaning sp p1 x0 P I1 L1 Gv) as (En & Lg & _).
  split; [exact Lg|]. split; [|split; [rewrite E0, !map_length; symmetry; exact En|rewrite E0; apply vfin_map]].
  intros x Lx Fx. apply vfin_real in Fx as (y & ->). rewrite map_length in Lx. assert (Ly : length y = length (sp_dec sp)) by exact (eq_trans Lx En).
  destruct (K y Ly (Sm y Ly)) as (_ & G & Hh). split; [exact (grad_fin _ _ _ _ G)|exact (hess_fin _ _ _ _ Hh)].
Qed.
End Given.

Lemma place_twice ks : forall rho rho' (y z : list R), length y = length ks -> length z = length ks -> (forall k, ~ In k ks -> rho k = rho' k) -> forall k, place rho ks z k = place rho' ks z k.
Proof.
  induction ks as [|a ks IH]; intros rho rho' [|b y] [|c z] Ly Lz H k; cbn in *; try lia; [apply H; auto|].
  apply (IH _ _ y z); [lia|lia|]. intros j Hj. destruct (Nat.eq_dec j a) as [->|Ne]; [rewrite !upd_eq; reflexivity|rewrite !upd_ne by exact Ne; apply H; intros [->|Q]; auto].
Qed.
Lemma place_out ks : forall rho y k, ~ In k ks -> place rho ks y k = rho k.
Proof. induction ks as [|a ks IH]; intros rho [|b y] k H; cbn in *; auto. rewrite IH by auto. apply upd_ne. intros ->. auto. Qed.
Lemma c87_again sp y : smooth_everywhere sp -> length y = length (sp_dec sp) -> smooth_everywhere (at_point sp y).
Proof.
  intros H Ly z Lz. assert (Q : prob_smooth sp (point (at_point sp y) z)); [|exact Q].
  eapply smooth_ext; [|exact (H z Lz)]. intros k. unfold point at 1 2. cbn [at_point set_se sp_se se_val sp_dec]. apply (place_twice _ _ _ y z Ly Lz). intros j Hj. symmetry. apply place_out, Hj.
Qed.

Definition logv {U} (w : U * list (call Xn)) : Prop := List.Forall (fun c => shownf (snd (fst c))) (snd w).
Lemma log_keeps {U} k (all : list (callback Xn U)) i w : shownf i -> logv w -> logv (fst (run_callbacks (logged_from k all) i w)).
Proof.
  revert k w. induction all as [|cb all IH]; intros k w Sh H; cbn [logged_from run_callbacks]; [exact H|]. unfold logged at 1. destruct (cb i (fst w)) as [v b].
  assert (Q : logv (v, snd w ++ [(k, i, b)])) by (apply List.Forall_app; split; [exact H|constructor; [exact Sh|constructor]]).
  destruct b; [exact Q|apply IH; assumption].
Qed.

Section Use.
Context {U : Type}.
Variables (E : env Xn) (o : options Xn) (t : R).
Hypothesis Hs : solve_ok E.
Hypothesis Ht : o_tol o = Fin t.
Hypothesis Pt : (0 < t)%R.
Variable sp : spec.
Hypothesis Sm : smooth_everywhere sp.

Lemma tol_pos : pos (o_tol o). Proof. exists t. auto. Qed.
Lemma c87_newton (all : list (callback Xn U)) st x l : lin_fin_any E -> ended_newton E o all sp st x l -> vfin x /\ List.Forall (fun c => shownf (snd (fst c))) l.
Proof.
  intros Hl [p P x0 p1 fuel u clk s fin Lv Hp H]. destruct (newton_gives sp p Lv Sm P x0 p1 Hp) as (Lg & Ff & Lx & Fx).
  destruct (newton_fin E P o (log_all all) Ff Hl Hs Lg logv (fun i w Sh Lw => log_keeps 0 all i w Sh Lw) fuel x0 (u, []) clk s fin Lx Fx (List.Forall_nil _) H) as [A B]. split; [exact B|exact A].
Qed.
Hypothesis He : est_ok E.
Hypothesis Hl : lin_fin E.
Hypothesis Hf0 : est_fin E.
Lemma c87_numbers (all : list (callback Xn U)) st x s y z l : ended E o all sp st x s y z l -> good x s y z /\ List.Forall (fun c => shownf (snd (fst c))) l.
Proof.
  intros [p P x0 p1 fuel u clk s' fin Lv Hp H|p P x0 p1 fuel u clk s' fin Lv Hp H].
  - destruct (sqp_gives sp p Lv Sm P x0 p1 Hp) as (Ok & Ff & Lx & Fx).
    destruct (sqp_solve_fin E o Hl Hs He Hf0 tol_pos logv fuel P (log_all all) x0 (u, []) clk s' fin Ok Ff Lx Fx (fun i w Sh Lw => log_keeps 0 all i w Sh Lw) (List.Forall_nil _) H) as (A & B & C).
    split; [|exact A]. split; [exact B|]. split; [constructor|]. split; [exact C|constructor].
  - destruct (ipm_gives sp p Lv Sm P x0 p1 Hp) as (Ok & Ff & Ps & Lx & Fx).
    destruct (ipm_solve_fin E o Hl Hs He Hf0 tol_pos logv fuel P (log_all all) x0 (u, []) clk s' fin Ok Ff Ps Lx Fx (fun i w Sh Lw => log_keeps 0 all i w Sh Lw) (List.Forall_nil _) H) as (A & B).
    split; [exact B|exact A].
Qed.
Lemma c87_solve (cbs pcbs : list (callback Xn U)) fuel p u clk st p' : (sp_eqs sp = [] -> sp_ineqs sp = [] -> lin_fin_any E) -> lived sp p -> solve E o fuel cbs pcbs p u clk = Ok (st, p') ->
  exists y, length y = length (sp_dec sp) /\ lived (at_point sp y) p' /\
    forall i j k, nth_error (se_exp (sp_se sp)) i = Some (XVar k) -> nth_error (sp_dec sp) j = Some k ->
      exists v p2, nth_error y j = Some v /\ prun [PH (S := X_ops) (HValue i)] p' = Ok (p2, [PVal (S := X_ops) (Fin v)]).
Proof.
  intros Hn Lv H. destruct (c35 E o _ _ _ _ _ _ _ _ _ Lv H) as (rn & x0 & p1 & x & tf & te & ti & Hp & E0 & _ & _ & _ & _ & Pk & Hf & Lx & Rd & _ & _ & _ & _ & _ & _ & K).
  assert (Fx : vfin x).
  { destruct rn as [|P|P|P|].
    - destruct Hf as [_ ->]. rewrite E0. apply vfin_map.
    - destruct Hf as (fin & Hf & ->). destruct Pk as [P1 P2]. destruct (newton_gives sp p Lv Sm P x0 p1 Hp) as (Lg & Ff & Lx' & Fx).
      apply (newton_fin E P o (cbs ++ pcbs) Ff (Hn P1 P2) Hs Lg (fun _ => True) (fun _ _ _ _ => I) fuel x0 u clk st fin Lx' Fx I Hf).
    - destruct Hf as (fin & Hf & ->). destruct (sqp_gives sp p Lv Sm P x0 p1 Hp) as (Ok & Ff & Lx' & Fx).
      apply (sqp_solve_fin E o Hl Hs He Hf0 tol_pos (fun _ => True) fuel P (cbs ++ pcbs) x0 u clk st fin Ok Ff Lx' Fx (fun _ _ _ _ => I) I Hf).
    - destruct Hf as (fin & Hf & ->). destruct (ipm_gives sp p Lv Sm P x0 p1 Hp) as (Ok & Ff & Ps & Lx' & Fx).
      apply (ipm_solve_fin E o Hl Hs He Hf0 tol_pos (fun _ => True) fuel P (cbs ++ pcbs) x0 u clk st fin Ok Ff Ps Lx' Fx (fun _ _ _ _ => I) I Hf).
    - destruct Hf as [_ ->]. rewrite E0. apply vfin_map. }
  apply vfin_real in Fx as (y & ->). rewrite map_length in Lx. exists y. split; [exact Lx|]. split; [apply K; reflexivity|].
  intros i j k Hi Hj. destruct (nth_some y j) as (v & Hv); [rewrite Lx; apply nth_error_Some; congruence|]. destruct (Rd i j k Hi Hj) as (p2 & Hr). exists v, p2. split; [exact Hv|]. rewrite Hr. do 3 f_equal. f_equal. apply nth_fin. exact Hv.
Qed.
Lemma fin_b v : vfin v -> all_fin (S := Xn) v = true. Proof. intros. apply all_fin_Forall. assumption. Qed.
Lemma ended_len (all : list (callback Xn U)) x s y z l : ended E o all sp SUCCESS x s y z l -> length x = length (sp_dec sp).
Proof.
  intros H. remember SUCCESS as st eqn:Es. destruct H as [p P x0 p1 fuel u clk s' fin Lv Hp H|p P x0 p1 fuel u clk s' fin Lv Hp H]; subst s';
    destruct (lived_ok _ _ Lv) as [Ip Lp]; destruct (prepare_inv sp p _ x0 p1 Ip Lp Hp) as (I1 & L1 & E0 & _ & Pk).
  - destruct Pk as (tf & te & ti & _ & _ & _ & _ & Nq & Ni & Gv). destruct (sqp_meaning sp p1 x0 P I1 L1 Gv) as (Pok & En & _).
    assert (Lx : length x0 = sp_n P) by (rewrite E0, !map_length; symmetry; exact En). destruct (sqp_success E o Hs He _ _ _ _ _ _ _ Pok Lx H) as (_ & _ & Lf & _). exact (eq_trans Lf En).
  - destruct Pk as (tf & te & ti & _ & _ & _ & _ & Ni & Gv). destruct (ipm_meaning sp p1 x0 P I1 L1 Gv) as (Pok & (En & _) & _).
    assert (Lx : length x0 = ip_n P) by (rewrite E0, !map_length; symmetry; exact En). destruct (ipm_success E o Hs He _ _ _ _ _ _ _ Pok Lx H) as (_ & _ & _ & Lf & _). exact (eq_trans Lf En).
Qed.
Lemma c87_succeeded (all : list (callback Xn U)) x s m z l : ended E o all sp SUCCESS x s m z l ->
  exists y, x = map Fin y /\ prob_smooth sp (se_val (sp_se sp)) /\ prob_smooth sp (point sp y) /\ succeeded (U := U * list (call Xn)) E o sp y.
Proof.
  intros H. pose proof (c87_numbers _ _ _ _ _ _ _ H) as [(Fx & Ps & Fm & Pz) _]. pose proof (ended_len _ _ _ _ _ _ H) as L. apply vfin_real in Fx as (y & ->). rewrite map_length in L.
  exists y. split; [reflexivity|]. split; [apply start_everywhere, Sm|]. split; [apply Sm, L|].
  remember SUCCESS as st eqn:Es. remember (map Fin y) as x eqn:Ex. destruct H as [p P x0 p1 fuel u clk s' fin Lv Hp H|p P x0 p1 fuel u clk s' fin Lv Hp H]; subst s'.
  - eapply succ_sqp; [exact Lv|exact Hp|exact H|exact Ex|apply fin_b, Fm].
  - eapply succ_ipm; [exact Lv|exact Hp|exact H|exact Ex|apply fin_b, f_pos, Ps|apply fin_b, Fm|apply fin_b, f_pos, Pz].
Qed.
Lemma c87_kkt (all : list (callback Xn U)) x s m z l : ended E o all sp SUCCESS x s m z l ->
  exists y, x = map Fin y /\ List.Forall (nearly t (point sp y)) (sp_eqs sp ++ sp_ineqs sp) /\
    exists lam nu sl, nearly_stationary sp t (point sp y) lam nu /\ nearly_complementary sp t (point sp y) nu sl /\ forall v, In v nu -> (0 < v)%R.
Proof.
  intros H. pose proof (c87_numbers _ _ _ _ _ _ _ H) as [(Fx & Ps & Fm & Pz) _]. pose proof (ended_len _ _ _ _ _ _ H) as L. apply vfin_real in Fx as (y & ->). rewrite map_length in L.
  exists y. split; [reflexivity|]. pose proof (start_everywhere sp Sm) as S0. pose proof (Sm y L) as S1.
  remember SUCCESS as st eqn:Es. remember (map Fin y) as x eqn:Ex. destruct H as [p P x0 p1 fuel u clk s' fin Lv Hp H|p P x0 p1 fuel u clk s' fin Lv Hp H]; subst s'.
  - destruct (c81_sqp E o t Hs He Ht Pt sp p P x0 p1 fuel _ _ clk fin y Lv Hp S0 H Ex (fin_b _ Fm) S1) as (A & lam & B). split; [exact A|]. exists lam, [], []. split; [exact B|]. split; [|intros v []].
    destruct (c80_sqp sp p P x0 p1 Lv Hp S0) as (_ & _ & _ & _ & Ei & _). unfold nearly_complementary. rewrite Ei. split; [reflexivity|]. intros [|i] r Q; discriminate Q.
  - destruct (c81_ipm_z E o t Hs He Ht Pt sp p P x0 p1 fuel _ _ clk fin y Lv Hp S0 H Ex (fin_b _ (f_pos _ Ps)) (fin_b _ Fm) (fin_b _ (f_pos _ Pz)) S1) as (A & lam & nu & sl & B1 & B2 & B3).
    split; [exact A|]. exists lam, nu, sl. split; [exact B1|]. split; [exact B2|exact (B3 Pz)].
Qed.

(** OCPs. *)
Context (ns ni : nat) (f : dyn) (F : dynamics) (C : computes ns ni f F) (dt : R) (N : nat) (tm : timestep).
Lemma c87_transcription (all : list (callback Xn U)) x s m z l ty sp0 g0 oc g1 sp1 : ended E o all sp SUCCESS x s m z l -> sync g0 sp0 -> did (ocp_make ns ni dt N f ty tm DIRECT_TRANSCRIPTION) g0 sp0 oc g1 sp1 -> later (handles oc) sp1 sp ->
  exists y, x = map Fin y /\ exists xs us hs, shows_inputs (sp_se sp) (point sp y) oc us hs /\ shows_states (sp_se sp) (point sp y) oc xs /\ steps_ok tm dt N hs /\
    forall k, k < N -> next_state_upto (within t) ty F (time_at hs k) (xs k) (us k) (hs k) (xs (k + 1)).
Proof.
  intros H Sy D L. destruct (c87_succeeded _ _ _ _ _ _ H) as (y & -> & S0 & S1 & Su). exists y. split; [reflexivity|].
  exact (solved_transcription E o t Hs He Ht Pt sp y S0 S1 Su ns ni f F C dt N tm ty sp0 g0 oc g1 sp1 Sy D L).
Qed.
Lemma c87_collocation (all : list (callback Xn U)) x s m z l sp0 g0 oc g1 sp1 : ended E o all sp SUCCESS x s m z l -> sync g0 sp0 -> did (ocp_make ns ni dt N f EXPLICIT_ODE tm DIRECT_COLLOCATION) g0 sp0 oc g1 sp1 -> later (handles oc) sp1 sp ->
  exists y, x = map Fin y /\ exists xs us hs, shows_inputs (sp_se sp) (point sp y) oc us hs /\ shows_states (sp_se sp) (point sp y) oc xs /\ steps_ok tm dt N hs /\
    ((forall k, k < N -> hs k <> 0%R) -> forall k, k < N -> hermite_simpson_upto (within t) F (time_at hs k) (xs k) (xs (k + 1)) (us k) (us (k + 1)) (hs k)).
Proof.
  intros H Sy D L. destruct (c87_succeeded _ _ _ _ _ _ H) as (y & -> & S0 & S1 & Su). exists y. split; [reflexivity|].
  exact (solved_collocation E o t Hs He Ht Pt sp y S0 S1 Su ns ni f F C dt N tm sp0 g0 oc g1 sp1 Sy D L).
Qed.
Lemma c87_initial (all : list (callback Xn U)) x s m z l oc a ga b gb (v : list R) : ended E o all sp SUCCESS x s m z l -> sync ga a -> matrices a oc ns ni N -> length v = ns ->
  did (constrain_initial_state oc (ONums (S := R_ops) ns 1 v)) ga a tt gb b -> later (handles oc) b sp ->
  exists y, x = map Fin y /\ forall xs, shows_states (sp_se sp) (point sp y) oc xs -> Forall2 (within t) (xs 0) v.
Proof.
  intros H Sy M Lv D L. destruct (c87_succeeded _ _ _ _ _ _ H) as (y & -> & S0 & S1 & Su). exists y. split; [reflexivity|].
  exact (solved_initial E o t Hs He Ht Pt sp y S0 S1 Su ns ni N oc a ga b gb v Sy M Lv D L).
Qed.
Lemma c87_final (all : list (callback Xn U)) x s m z l oc a ga b gb (v : list R) : ended E o all sp SUCCESS x s m z l -> sync ga a -> matrices a oc ns ni N -> length v = ns ->
  did (constrain_final_state oc (ONums (S := R_ops) ns 1 v)) ga a tt gb b -> later (handles oc) b sp ->
  exists y, x = map Fin y /\ forall xs, shows_states (sp_se sp) (point sp y) oc xs -> Forall2 (within t) (xs N) v.
Proof.
  intros H Sy M Lv D L. destruct (c87_succeeded _ _ _ _ _ _ H) as (y & -> & S0 & S1 & Su). exists y. split; [reflexivity|].
  exact (solved_final E o t Hs He Ht Pt sp y S0 S1 Su ns ni N oc a ga b gb v Sy M Lv D L).
Qed.
Lemma c87_input_bound (all : list (callback Xn U)) x s m z l (lower : bool) oc a ga b gb (v : list R) : ended E o all sp SUCCESS x s m z l -> sync ga a -> matrices a oc ns ni N -> length v = ni ->
  did ((if lower then set_lower_input_bound else set_upper_input_bound) oc (ONums (S := R_ops) ni 1 v)) ga a tt gb b -> later (handles oc) b sp ->
  exists y, x = map Fin y /\ forall us hs, shows_inputs (sp_se sp) (point sp y) oc us hs -> forall k, k <= N -> Forall2 (fun x w => if lower then x >= w - t else x <= w + t)%R (us k) v.
Proof.
  intros H Sy M Lv D L. destruct (c87_succeeded _ _ _ _ _ _ H) as (y & -> & S0 & S1 & Su). exists y. split; [reflexivity|].
  exact (solved_input_bound E o t Hs He Ht Pt sp y S0 S1 Su ns ni N lower oc a ga b gb v Sy M Lv D L).
Qed.
Lemma c87_timestep (all : list (callback Xn U)) x s m z l (lower : bool) oc a ga b gb (h : R) : ended E o all sp SUCCESS x s m z l -> sync ga a -> matrices a oc ns ni N ->
  did ((if lower then set_min_timestep else set_max_timestep) oc h) ga a tt gb b -> later (handles oc) b sp ->
  exists y, x = map Fin y /\ forall us hs, shows_inputs (sp_se sp) (point sp y) oc us hs -> forall k, k <= N -> (if lower then hs k >= h - t else hs k <= h + t)%R.
Proof.
  intros H Sy M D L. destruct (c87_succeeded _ _ _ _ _ _ H) as (y & -> & S0 & S1 & Su). exists y. split; [reflexivity|].
  exact (solved_timestep E o t Hs He Ht Pt sp y S0 S1 Su ns ni N lower oc a ga b gb h Sy M D L).
Qed.
End Use.
