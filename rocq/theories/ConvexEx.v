(** Cases for C88. *)
From Coq Require Import ZArith Reals List Bool Arith Lia Lra.
From Verif Require Import Base ExprModel MathSpec VarModel VarSpec ExprReal ExprXR NumModel ExitModel SolverModel SolverSpec NewtonModel SqpModel IpmShape RestoreModel RestoreProofs PosX SmoothSpec ProblemModel ProblemSpec
  ProbSolveModel ProbSolveSpec ProbSolveHist LagrSpec ProbSolveEx ProbSolveKktEx RunY ProbSolveRun ProbTotalEx OcpModel OcpSpec OcpEx OcpSolveSpec OcpSolveEx FiniteSpec FiniteUseSpec FiniteEx ConvexSpec.
Import ListNotations.
Local Open Scope R_scope.

(** minimize(x * x) from 1, solved by Newton's method. *)
Lemma square_convex : exists sp x l, spec_run from1_ops spec_empty = Some (sp, []) /\ smooth_everywhere sp /\ convex_problem sp /\ ended_newton (U := unit) down_env (opts_y 5) [] sp SUCCESS x l.
Proof.
  destruct (from1_run (U := unit * list (call Xn)) (tt, [])) as (sp & p & P & x0 & p1 & Hs & Lv & Hp & Sm & R). destruct (R 2%nat (le_n _)) as (fin & H & _).
  destruct from1_spec as (sp' & Hs' & Ed & Eg & Ee & Ei & _). rewrite Hs in Hs'. injection Hs' as <-.
  exists sp. do 2 eexists. split; [exact Hs|]. split; [intros y _; apply Sm|]. split; [|eapply end_newton; [exact Lv|exact Hp|exact H]].
  split; [|rewrite Ee, Ei; split; intros r []].
  intros a b th va vb v _ _ T A B C. rewrite (square_cost_fun sp _ _ _ Eg A (square_cost sp _ Eg)), (square_cost_fun sp _ _ _ Eg B (square_cost sp _ Eg)), (square_cost_fun sp _ _ _ Eg C (square_cost sp _ Eg)).
  unfold between. set (p0 := a 0%nat). set (q0 := b 0%nat). assert (0 <= th * (1 - th) * ((p0 - q0) * (p0 - q0))) by (apply Rmult_le_pos; [apply Rmult_le_pos; lra|apply Rle_0_sqr]). lra.
Qed.
(** The OCP of C86, solved by SQP. *)
Lemma ride_convex : exists sp x y l, smooth_everywhere sp /\ convex_problem sp /\ sp_eqs sp <> [] /\ ended (U := unit) down_env (opts_y 5) [] sp SUCCESS x [] y [] l.
Proof.
  destruct ride_runs as (sp1 & sp & p & P & x0 & p1 & D & L & Sm & (Eg & Ei & Ee) & Lv & Hp & R & V).
  destruct (proj2 (proj2 env_total)) as (t & Ht & Pt). destruct (R (unit * list (call Xn))%type (tt, []) down_env (opts_y 5) t Ht Pt) as (fin & H & _).
  exists sp. do 3 eexists. split; [intros y _; apply Sm|]. split; [|split; [|eapply end_sqp; [exact Lv|exact Hp|exact H]]].
  - split; [|split].
    + intros a b th va vb v _ _ T A B C. unfold cost_is in *. rewrite Eg in *. subst. lra.
    + intros r Hr. destruct (Ee r Hr) as (i & j & k & ->). split; intros a b th va vb v _ _ T A B C; apply ride_gap in A, B, C; subst; unfold between; lra.
    + rewrite Ei. intros r [].
  - intros Q. destruct (ProbSolveFacts.solve_picks sp p _ x0 p1 Lv Hp) as (tf & te & ti & F1 & F2 & F3 & C & M). apply (proj1 M), Q.
Qed.
