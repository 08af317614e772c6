(** Cases for C90: the bowl of C89; a system whose matrix is indefinite. *)
From Coq Require Import ZArith QArith Reals List Bool Arith Lia Lra.
From Verif Require Import Base XArith XQ ExprModel MathSpec VarModel VarSpec ExprReal ExprXR Faith FaithX HistProofs NumModel UtilModel ExitModel SolverModel SolverSpec NewtonModel IpmShape RestoreModel RestoreProofs SmoothSpec ProblemModel ProblemSpec
  ProbSolveModel ProbSolveSpec ProbSolveHist LagrSpec ProbSolveKkt2 ProbSolveEx ProbSolveKktEx RunY ProbSolveRun SmoothUser SmoothGraph FiniteUseSpec FiniteUse EarlySpec ProbEarly ConvexSpec LinR QuadSpec QuadProofs QuadUse LdlModel LdlProofs QuadEx DownSpec DownLin DownUse.
Import ListNotations.
Local Open Scope R_scope.

Lemma point_can sp y : can_be sp (point sp y).
Proof. intros k Hk. unfold point. apply place_before. exact Hk. Qed.
Lemma bowl_tame sp p y : lived sp p -> smooth_everywhere sp -> quadratic sp bowl_Q (fun _ => 0) 0 -> length (sp_dec sp) = 2%nat -> tame sp y.
Proof.
  intros Lv Sm Qd L2 a b d Ia Ib H. apply (In_nth _ _ 0%nat) in Ia as (i & Li & <-). apply (In_nth _ _ 0%nat) in Ib as (j & Lj & <-).
  assert (d = 1 * bowl_Q i j) as ->.
  { apply (pd2_cost sp bowl_Q (fun _ => 0) 0 Sm Qd (quad_nodup sp p Lv) 1 (point sp y) i j d Li Lj (point_can sp y)).
    destruct H as (g & L & D). exists g. split; [|exact D]. revert L. apply Hierarchy.filter_imp. intros t (h & L & D'). exists h. split; [|exact D']. revert L. apply Hierarchy.filter_imp. intros s C. exists (h s). split; [exact C|lra]. }
  rewrite L2. cbn [INR]. rewrite Rmult_1_l. unfold bowl_Q. destruct (Nat.eqb i j); rewrite Rabs_pos_eq; lra.
Qed.
Definition far_env : env Xn := with_ldl 40 down_env.
Lemma bowl_down : exists sp p l, spec_run bowl_ops spec_empty = Some (sp, []) /\ lived sp p /\ smooth_everywhere sp /\ (forall y, tame sp y) /\ now sp = [1; 2] /\
  ended_newton (U := unit) far_env (opts_y 5) [] sp SUCCESS (map Fin [0; 0]) l.
Proof.
  destruct (bowl_run_with 40) as (sp & p & A & B & C & D & D' & Qd & _ & _ & _ & _ & N & l & H). exists sp, p, l. repeat (split; [assumption|]). split; [|split; [exact N|exact H]].
  intros y. apply (bowl_tame sp p y B C Qd). rewrite <- (now_len sp), N. reflexivity.
Qed.

(** The matrix [[-1]]: the Newton step would go uphill. *)
Lemma saddle_down : exists p, ls_solve (ldl_lin 40) (fst (ls_compute (ldl_lin 40) (ls_new (ldl_lin 40) 1 0 false) (mkKkt (S := Xn) (map (map Fin) [[-1]]) []))) (map Fin (map Ropp [1])) = map Fin p /\ length p = 1%nat /\ p.[0] < 0.
Proof.
  destruct (direction_down 40 1 (ls_new (ldl_lin 40) 1 0 false) [[-1]] [1]) as (p & H & L & D).
  - lia.
  - apply made_new.
  - reflexivity.
  - intros w [<-|[]]. reflexivity.
  - reflexivity.
  - intros i j Li Lj. destruct i, j; try lia. unfold low. cbn. rewrite Rabs_left by lra. lra.
  - exists p. split; [exact H|]. split; [exact L|]. assert (K : exists i, (i < 1)%nat /\ [1].[i] <> 0) by (exists 0%nat; split; [lia|cbn; lra]). specialize (D K). cbn in D. lra.
Qed.
