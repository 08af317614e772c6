(** Proofs for C36: the rounds of callbacks in the SQP and interior-point solvers. *)
From Coq Require Import ZArith List Bool Lia.
From Verif Require Import Base ExprModel NumModel UtilModel KktModel FilterModel FilterProofs ExitModel SolverModel SolverSpec SolverProofs
  NewtonModel NewtonProofs SqpModel SqpSpec SqpProofs IpmModel IpmShape IpmSpec IpmProofs RestoreModel RestoreProofs UserProofs CallbackSpec.
Import ListNotations.

Section Callbacks.
Context {S : nops} {U : Type}.
Variable cbs : list (callback S U).
Variables (d d' : nat).
Notation inner := (fun i : info S => length (i_x i) = d').
Definition going (u : U * list (call S)) : Prop := rounds_but inner (length cbs) (snd u).
Definition stopped (u : U * list (call S)) : Prop := exists l k i,
  snd u = l ++ stopped_round k i /\ rounds_but inner (length cbs) l /\ (k < length cbs)%nat /\ length (i_x i) = d.

Lemma run_going i u u' : going u -> run_callbacks (log_all cbs) i u = (u', false) -> going u'.
Proof.
  destruct u as [u l], u' as [u' l']. unfold going, log_all. cbn [snd]. intros G H. apply logged_false in H. destruct H as [_ ->].
  apply (rb_full _ _ _ i). exact G.
Qed.
Lemma run_stopped i u u' : length (i_x i) = d -> going u -> run_callbacks (log_all cbs) i u = (u', true) -> stopped u'.
Proof.
  destruct u as [u l], u' as [u' l']. unfold going, stopped, log_all. cbn [snd]. intros L G H. apply logged_true in H.
  destruct H as [_ (j & Lj & ->)]. exists l, j, i. split; [reflexivity|]. auto.
Qed.
Lemma run_inner : keeping inner going (log_all cbs).
Proof.
  intros i u L G. destruct (run_callbacks _ _ _) as [u' b] eqn:R. cbn [fst]. destruct b; [|eapply run_going; eauto].
  destruct u as [u l], u' as [u' l']. unfold going, log_all in *. cbn [snd] in *. apply logged_true in R.
  destruct R as [_ (j & Lj & ->)]. apply (rb_stop _ _ _ j i); auto.
Qed.
End Callbacks.

Section Solve.
Context {S : nops} {U : Type}.
Variables (E : env S) (o : options S).
Hypothesis Hs : solve_ok E.
Hypothesis He : est_ok E.
Lemma sqp_callbacks fuel (P : sprob S) (cbs : list (callback S U)) x u clk0 st fin : sprob_ok P -> length x = sp_n P ->
  sqp_solve E o fuel P (log_all cbs) x (u, []) clk0 = Ok (st, fin) ->
  solve_log (length cbs) (sp_n P) (sp_n P + 2 * sp_me P) st (snd (s_u _ fin)).
Proof.
  intros Hp Lx H. unfold sqp_solve, sqp in H.
  eapply sqp_user with (V := going cbs (sp_n P + 2 * sp_me P)) (VE := stopped cbs (sp_n P) (sp_n P + 2 * sp_me P))
     (Qf := fun i => length (i_x i) = (sp_n P + 2 * sp_me P)%nat) (Qm := fun i => length (i_x i) = sp_n P) in H; auto.
  - destruct H as [H1 H2]. split; [exact H2|exact H1].
  - apply sqp_restore_ok; auto.
  - intros i u0 u1 Q. apply run_going.
  - intros i u0 u1 Q. apply run_stopped; auto.
  - apply run_inner.
  - apply sqp_restore_user; auto.
  - apply repeat_length.
  - constructor.
Qed.
Lemma ipm_callbacks fuel (P : iprob S) (cbs : list (callback S U)) x u clk0 st fin : iprob_ok P -> length x = ip_n P ->
  ipm_solve E o fuel P (log_all cbs) x (u, []) clk0 = Ok (st, fin) ->
  solve_log (length cbs) (ip_n P) (ip_n P + (2 * ip_me P + 2 * ip_mi P)) st (snd (is_u _ fin)).
Proof.
  intros Hp Lx H. unfold ipm_solve, ipm in H.
  eapply ipm_user with (V := going cbs (ip_n P + (2 * ip_me P + 2 * ip_mi P))) (VE := stopped cbs (ip_n P) (ip_n P + (2 * ip_me P + 2 * ip_mi P)))
     (Qf := fun i => length (i_x i) = (ip_n P + (2 * ip_me P + 2 * ip_mi P))%nat) in H; auto.
  - destruct H as [H1 H2]. split; [exact H2|exact H1].
  - intros rst Q. injection Q as <-. apply ipm_restore_ok; auto.
  - intros i u0 u1 Q. apply run_going.
  - intros i u0 u1 Q. apply run_stopped; auto.
  - apply run_inner.
  - intros rst Q. injection Q as <-. apply ipm_restore_user; auto.
  - unfold pt_ok. cbn [pt_x pt_s pt_y pt_z]. rewrite !repeat_length. auto.
  - constructor.
Qed.
End Solve.
