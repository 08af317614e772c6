(** Cases for C82. *)
From Coq Require Import ZArith Reals List Bool Lra.
From Verif Require Import Base ExprModel ExprReal ExprXR NumModel ExitModel SolverModel IpmShape RestoreModel RestoreProofs PosX ProblemModel ProblemSpec ProbSolveModel ProbSolveSpec
  ProbSolveHist ProbSolveLived ProbSolveFacts ProbSolveEx ProbSolveKktEx RunY ProbSolveRun ProbSolveTotal.
Import ListNotations.
Local Open Scope nat_scope.

Lemma solve_returns_nonlinear {U : Type} (E : env Xn) (o : options Xn) : solve_ok E -> est_ok E -> pos (o_tol o) ->
  forall (cbs pcbs : list (callback Xn U)) sp p u clk,
    lived sp p -> (forall i, In i (p_ineq p) -> exists ty, slot_type p i = Ok ty /\ ty <> LINEAR) ->
    exists N st p', forall n, N <= n -> solve E o n cbs pcbs p u clk = Ok (st, p').
Proof.
  intros Hs He Ht cbs pcbs sp p u clk Lv Hn. destruct (prepare_nonlinear sp p Lv Hn) as (rn & x0 & p1 & Hp & _).
  exact (solve_returns E o Hs He Ht cbs pcbs sp p u clk rn x0 p1 Lv Hp).
Qed.

Lemma disc_total : exists sp p, spec_run disc_ops spec_empty = Some (sp, []) /\ lived sp p /\ p_ineq p <> [] /\ (forall i, In i (p_ineq p) -> exists ty, slot_type p i = Ok ty /\ ty <> LINEAR) /\
  exists P x0 p1, prepare p = Ok (RanIpm P, x0, p1).
Proof.
  destruct disc_spec as (sp & Hs & Eg & Es & Ei). pose proof disc_types as T.
  destruct (c31_lived _ _ _ _ _ lived_start Hs) as (p & out & Hr & A & Lv & _). rewrite Hr in T. inversion A; subst. destruct T as (T1 & T3).
  assert (Hn : forall i, In i (p_ineq p) -> exists ty, slot_type p i = Ok ty /\ ty <> LINEAR). { intros i Hi. exists QUADRATIC. split; [apply T3, Hi|discriminate]. }
  exists sp, p. split; [exact Hs|]. split; [exact Lv|].
  destruct (prepare_nonlinear sp p Lv Hn) as (rn & x0 & p1 & Hp & Nb).
  destruct (solve_picks sp p rn x0 p1 Lv Hp) as (tf & te & ti & F1 & F2 & F3 & C & M). rewrite T1 in F1. injection F1 as <-.
  split. { intros Q. rewrite Q in F3. destruct rn as [|P|P|P|].
    - destruct C as [C _]. specialize (C eq_refl). discriminate.
    - rewrite Ei in M. destruct M. congruence.
    - rewrite Ei in M. destruct M. congruence.
    - destruct (lived_ok _ _ Lv) as [Ip Lp]. pose proof (ProbSolvePrep.prepare_inv sp p _ x0 p1 Ip Lp Hp) as (_ & _ & _ & (e & s & ->) & (? & ? & ? & _ & _ & _ & _ & N & _)). apply N. exact Q.
    - congruence. }
  split; [exact Hn|]. destruct rn as [|P|P|P|].
  - destruct C as [C _]. specialize (C eq_refl). discriminate.
  - rewrite Ei in M. destruct M. congruence.
  - rewrite Ei in M. destruct M. congruence.
  - exists P, x0, p1. exact Hp.
  - congruence.
Qed.
Lemma env_total : solve_ok down_env /\ est_ok down_env /\ pos (o_tol (opts_y 5)).
Proof. split; [exact down_ok|]. split; [intros A r; cbn; try reflexivity; try apply repeat_length|]. eexists. split; [reflexivity|]. lra. Qed.
