(** A solve() that returns met no exception. *)
From Coq Require Import ZArith List Bool.
From Verif Require Import Base ExprModel ExprXR NumModel SolverModel ExitModel ProblemModel ProbSolveModel CbModel CbSpec PySigModel PySigSpec PySigProofs PySigUse.
Import ListNotations.

Lemma calmer_all {S : nops} {U} (cbs cbs' : list (tcallback S U)) : Forall2 same_unless_thrown cbs cbs' -> calmer cbs cbs'.
Proof.
  intros F i x. induction F as [|cb cb' cbs cbs' A F IH]; intros u H; [reflexivity|]. cbn [run_t] in *. specialize (A i x u). destruct (cb i x u) as [v a]. cbn [snd] in A. destruct a.
  - rewrite A by discriminate. apply IH. exact H.
  - rewrite A by discriminate. reflexivity.
  - contradiction H. reflexivity.
Qed.
Lemma c98_ends {U} (E : env Xn) (o : options Xn) (l : leaves E U) fuel cbs pcbs cbs' pcbs' p u clk st p' : Forall2 same_unless_thrown cbs cbs' -> Forall2 same_unless_thrown pcbs pcbs' ->
  solve_t E o l fuel cbs pcbs p u clk = Ok (Returned st p') -> solve_t E o l fuel cbs' pcbs' p u clk = Ok (Returned st p').
Proof.
  intros F1 F2. pose proof (calmer_all _ _ (Forall2_app F1 F2)) as C. unfold solve_t. destruct (prepare p) as [[[rn x0] p1]| | |]; cbn [obind]; try discriminate.
  destruct rn as [|P|P|P|]; [exact (fun H => H)| | | |exact (fun H => H)]; apply ending_upto.
  - apply newton_upto. exact C.
  - apply sqp_solve_upto. exact C.
  - apply ipm_solve_upto. exact C.
Qed.
