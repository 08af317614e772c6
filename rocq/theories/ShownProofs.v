(** Proofs for C52 and C53 about what callbacks are shown and about whole runs. *)
From Coq Require Import ZArith Reals List Bool Lia Lra.
From Verif Require Import Base ExprModel ExprReal ExprXR NumModel UtilModel KktModel FilterModel FilterProofs ExitModel SolverModel SolverSpec SolverProofs
  NewtonModel NewtonProofs SqpModel IpmModel IpmShape IpmSpec IpmProofs RestoreModel RestoreProofs XArith PosX PosProofs BarrierSpec BarrierProofs.
Import ListNotations.

(** Every call in the log was shown something satisfying Q. *)
Definition shown_all {S : nops} (Q : info S -> Prop) (log : list (call S)) : Prop := List.Forall (fun c => Q (snd (fst c))) log.
Lemma full_round_shown {S : nops} (Q : info S -> Prop) n i : Q i -> shown_all Q (full_round n i).
Proof. intros H. unfold shown_all, full_round. rewrite List.Forall_map. apply List.Forall_forall. auto. Qed.
Lemma log_shown {S : nops} {U} (Q : info S -> Prop) (cbs : list (callback S U)) i u : Q i -> shown_all Q (snd u) ->
  shown_all Q (snd (fst (run_callbacks (log_all cbs) i u))).
Proof.
  intros H A. destruct u as [u l]. destruct (run_callbacks _ _ _) as [[u' l'] b] eqn:R. cbn [fst snd] in *. unfold log_all in R. destruct b.
  - apply logged_true in R. destruct R as [_ (j & Lj & ->)]. apply List.Forall_app. split; [exact A|]. unfold stopped_round.
    apply List.Forall_app. split; [apply full_round_shown; exact H|]. constructor; [exact H|constructor].
  - apply logged_false in R. destruct R as [_ ->]. apply List.Forall_app. split; [exact A|apply full_round_shown; exact H].
Qed.

Lemma c52_slacks (E : env Xn) (o : options Xn) U fuel (P : iprob Xn) (cbs : list (callback Xn U)) x u clk0 st fin :
  solve_ok E -> est_ok E -> pos (o_tol o) -> iprob_ok P -> pos (sc_f (ip_sc P)) -> length x = ip_n P ->
  ipm_solve E o fuel P (log_all cbs) x (u, []) clk0 = Ok (st, fin) ->
  shown_all (S := Xn) (fun i => List.Forall pos (i_s i)) (snd (is_u _ fin)).
Proof.
  intros Hs He Ht Hp Hf Lx H.
  refine (proj1 (ipm_solve_pos E o False Hs He Ht _ (fun u => shown_all (fun i : info Xn => List.Forall pos (i_s i)) (snd u)) fuel P (log_all cbs) x (u, []) clk0 st fin Hp _ Hf Lx _ _ H));
    try contradiction.
  - intros i v [[S _] _] V. apply log_shown; auto.
  - constructor.
Qed.
Lemma c52_multipliers (E : env Xn) (o : options Xn) U fuel (P : iprob Xn) (cbs : list (callback Xn U)) x u clk0 st fin :
  solve_ok E -> est_ok E -> est_num E -> pos (o_tol o) -> iprob_ok P -> pos (sc_f (ip_sc P)) -> length x = ip_n P ->
  o_feasible o = false \/ ineq_fin P ->
  ipm_solve E o fuel P (log_all cbs) x (u, []) clk0 = Ok (st, fin) ->
  shown_all (S := Xn) (fun i => List.Forall pos (i_s i) /\ List.Forall pos (i_z i)) (snd (is_u _ fin)).
Proof.
  intros Hs He Hn Ht Hp Hf Lx Fe H.
  refine (proj1 (ipm_solve_pos E o True Hs He Ht _ (fun u => shown_all (fun i : info Xn => List.Forall pos (i_s i) /\ List.Forall pos (i_z i)) (snd u)) fuel P (log_all cbs) x (u, []) clk0 st fin Hp _ Hf Lx _ _ H));
    auto.
  - intros i v [[S Z] _] V. apply log_shown; auto.
  - constructor.
Qed.

Local Open Scope R_scope.
Lemma c53_history (E : env Xn) (P : iprob Xn) (o : options Xn) f t U (cbs : list (callback Xn U)) restore fuel start (st0 st : istate E (U := U)) m tau :
  sc_f (ip_sc P) = Fin f -> 0 < f -> o_tol o = Fin t -> 0 < t -> is_mu _ st0 = Fin m -> 0 < m -> is_tau _ st0 = Fin tau -> 99 / 100 <= tau < 1 ->
  reaches (is_E E) (o_tol o) (ipm_body E P o cbs restore fuel start) st0 st ->
  exists m' t', is_mu _ st = Fin m' /\ is_tau _ st = Fin t' /\ barrier_update (f * t / 10) m tau m' t' /\
    Rmin (f * t / 10) m <= m' <= m /\ 99 / 100 <= t' < 1.
Proof.
  intros Hf Pf Ht Pt Hm Pm Ha Ra H.
  destruct (c53_run E P o f t Hf Pf Ht Pt cbs restore fuel start st0 st m tau Hm Pm Ha H) as (m' & t' & A & B & C).
  exists m', t'. split; [exact A|]. split; [exact B|]. split; [exact C|].
  destruct (c53_update (f * t / 10) m tau m' t') as (D1 & D2 & D3 & D4); auto.
  assert (0 < f * t) by (apply Rmult_lt_0_compat; auto). lra.
Qed.
