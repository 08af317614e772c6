(** Concrete programs for C33-C35. *)
From Coq Require Import ZArith Reals List Bool Arith Lia Lra.
From Verif Require Import Base ExprModel GraphSpec MathSpec VarModel ExprReal ExprXR VarSpec Faith FaithX NumModel SolverModel ExitModel ProblemModel ProblemSpec ProblemProofs3
  ProbSolveModel ProbSolveSpec ProbSolveHist ProbSolvePrep ProbSolveLived ProbSolveFacts.
Import ListNotations.

Lemma eqb10 : R_eqb 1 0 = false. Proof. unfold R_eqb. destruct (Req_EM_T 1 0); [lra|reflexivity]. Qed.
Lemma eqb00 : R_eqb 0 0 = true. Proof. unfold R_eqb. destruct (Req_EM_T 0 0); [reflexivity|lra]. Qed.
Ltac go := repeat (progress (unfold pbind, pret, sub_at, oelem, pnew, ebind, eret, is_constant, e_bin, e_sub, ptype, pval, copies, is_const, hvar, upd, pcons; cbn -[R_eqb prepare])).

(** Variable a(1); problem.subject_to(a == 0); *)
Definition const_ops : list (pop R_ops) := [PH (HConst (S := R_ops) 1%R); PCompare CEq (OVar 0) (ONum (S := R_ops) 0%R); PSubject 0].
Lemma const_run : exists p x0 p1, prun (map (pinj (K := X_ops)) const_ops) (prog_empty X_ops) = Ok (p, []) /\ prepare p = Ok (RanNone, x0, p1).
Proof.
  eexists _, _, _. unfold const_ops. go. rewrite eqb10. go. rewrite eqb00. go. split; [reflexivity|]. vm_compute. reflexivity.
Qed.
Lemma const_spec : exists sp, spec_run const_ops spec_empty = Some (sp, []) /\ sp_eqs sp = [mkRel CEq (XConst 1) (XConst 0)] /\ sp_ineqs sp = [].
Proof. eexists. split; [reflexivity|split; reflexivity]. Qed.

Lemma c34_constant : exists sp p r, lived sp p /\ In r (sp_eqs sp) /\ (forall t rho, (t < 1)%R -> ~ nearly t rho r) /\
  forall (U : Type) E o fuel (cbs pcbs : list (callback Xn U)) (u : U) clk, exists p', solve E o fuel cbs pcbs p u clk = Ok (SUCCESS, p').
Proof.
  destruct const_spec as (sp & Hs & Es & _). destruct const_run as (p & x0 & p1 & Hr & Hp).
  destruct (c31_lived _ _ _ _ _ lived_start Hs) as (p' & out & Hr' & _ & Lv & _). rewrite Hr in Hr'. injection Hr' as <- <-.
  exists sp, p, (mkRel CEq (XConst 1) (XConst 0)). split; [exact Lv|]. split; [rewrite Es; left; reflexivity|]. split.
  - intros t rho Ht (a & b & A & B & H). cbn in A, B, H. inversion A; subst. inversion B; subst. rewrite Rminus_0_r, Rabs_R1 in H. lra.
  - intros U E o fuel cbs pcbs u clk. exists p1. unfold solve. rewrite Hp. reflexivity.
Qed.

(** auto x = problem.decision_variable(2); problem.subject_to(x[0] == x[1]); *)
Definition two_ops : list (pop R_ops) := [PDecision 2 1; PCompare CEq (OVar 0) (OVar 1); PSubject 0].
Lemma two_spec : exists sp, spec_run two_ops spec_empty = Some (sp, []) /\ sp_dec sp = [0; 1]%nat /\ sp_eqs sp = [mkRel CEq (XVar 0) (XVar 1)] /\ sp_ineqs sp = [].
Proof. eexists. split; [reflexivity|repeat split]. Qed.
Lemma two_types : match prun (map (pinj (K := X_ops)) two_ops) (prog_empty X_ops) with
  Ok (p, []) => cost_type p = Ok NONE /\ max_type p (p_eq p) = Ok LINEAR /\ max_type p (p_ineq p) = Ok NONE | _ => False end.
Proof. vm_compute. auto. Qed.
Lemma two_case : exists sp p P x0 p1, spec_run two_ops spec_empty = Some (sp, []) /\ lived sp p /\ prepare p = Ok (RanSqp P, x0, p1) /\ sp_eqs sp = [mkRel CEq (XVar 0) (XVar 1)].
Proof.
  destruct two_spec as (sp & Hs & _ & Es & Ei). pose proof two_types as T.
  destruct (c31_lived _ _ _ _ _ lived_start Hs) as (p & out & Hr & A & Lv & _). rewrite Hr in T. inversion A; subst. destruct T as (T1 & T2 & T3).
  destruct (prepare_total sp p Lv Ei) as (rn & x0 & p1 & Hp).
  destruct (solve_picks sp p rn x0 p1 Lv Hp) as (tf & te & ti & F1 & F2 & F3 & C & M). rewrite T1 in F1. rewrite T2 in F2. rewrite T3 in F3. injection F1 as <-. injection F2 as <-. injection F3 as <-.
  destruct rn as [|P|P|P|].
  - destruct C as [C _]. specialize (C eq_refl). discriminate.
  - destruct M as [M _]. rewrite Es in M. discriminate.
  - exists sp, p, P, x0, p1. auto.
  - rewrite Ei in M. congruence.
  - rewrite Ei in M. congruence.
Qed.
