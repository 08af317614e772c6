(** Cases for C87. *)
From Coq Require Import ZArith Reals List Bool Arith Lia Lra.
From Verif Require Import Base ExprModel GraphSpec GraphProofs ExprInv VarModel VarReach VarProofs ExprReal ExprXR MathSpec MathProofs VarSpec Faith FaithX NumModel ExitModel SolverModel SolverSpec NewtonModel SqpModel IpmModel
  IpmShape RestoreModel RestoreProofs PosX XArith ProblemModel ProblemSpec ProbSolveModel ProbSolveSpec ProbSolveHist ProbSolveLived ProbSolvePrep ProbSolveFacts ProbSolveFinal DiffSpec LagrSpec ProblemInv ProblemProofs ProblemProofs2 ProblemProofs3 ProblemProofs4 ProbSolveInv ProbSolveProofs ProbSolveKkt ProbSolveEx
  ProbSolveKktEx RunY ProbSolveRun ProbSolveTotal ProbTotalEx ProbEarly ProbEarlyEx OcpModel OcpSpec OcpEx OcpSolveSpec OcpSolve OcpSolveEx FiniteSpec FiniteUseSpec FiniteUse.
Import ListNotations.
Local Open Scope nat_scope.

Lemma down_fin : lin_fin down_env /\ lin_fin_any down_env /\ est_fin down_env.
Proof.
  assert (Q : forall b : list XR, vfin (map (fun _ => Fin (-1)) b)) by (intros b; unfold vfin; rewrite List.Forall_map; apply List.Forall_forall; intros; reflexivity).
  split; [|split].
  - intros ls K ls' _ _ _ b _. apply Q.
  - intros ls K _ _ b _. apply Q.
  - intros A r _ H. exact H.
Qed.
Lemma x0_len sp p rn x0 p1 : lived sp p -> prepare p = Ok (rn, x0, p1) -> length x0 = length (p_dec p1) /\ pinv p1 /\ plink sp p1.
Proof.
  intros Lv Hp. destruct (lived_ok _ _ Lv) as [Ip Lp]. destruct (prepare_inv sp p rn x0 p1 Ip Lp Hp) as (I1 & L1 & Ex & _). split; [|split; assumption].
  rewrite Ex, !map_length. symmetry. exact (dec_len (S := Xn) sp p1 L1).
Qed.
(** Interior point on minimize(x * x) subject to x * x >= x. *)
Lemma disc_ends (all : list (callback Xn unit)) : exists sp st x s y z l, spec_run disc_ops spec_empty = Some (sp, []) /\ smooth_everywhere sp /\ sp_ineqs sp <> [] /\ ended down_env (opts_y 5) all sp st x s y z l.
Proof.
  destruct disc_case as (sp & p & P & x0 & p1 & Hs & Lv & Hp & Sm). destruct env_total as (H1 & H2 & H3). destruct (x0_len _ _ _ _ _ Lv Hp) as (Lx & I1 & L1).
  destruct (lived_ok _ _ Lv) as [Ip Lp]. destruct (prepare_inv sp p _ x0 p1 Ip Lp Hp) as (_ & _ & _ & _ & (tf & te & ti & _ & _ & _ & _ & Ni & G)).
  assert (En : ip_n P = length (p_dec p1)) by (destruct G as (? & ? & ? & ? & ? & ? & _ & _ & _ & _ & _ & ->); reflexivity).
  destruct (ProbSolveTotal.ipm_gives down_env (opts_y 5) H1 H2 H3 sp p1 x0 P (log_all all) (tt, []) 0 I1 L1 G) as (N & [st fin] & K & _); [exact (eq_trans Lx (eq_sym En))|].
  destruct disc_spec as (sp' & Hs' & _ & _ & Ei). rewrite Hs in Hs'. injection Hs' as <-.
  exists sp, st. do 5 eexists. split; [exact Hs|]. split; [intros y _; apply Sm|]. split; [rewrite Ei; discriminate|]. eapply end_ipm; [exact Lv|exact Hp|exact (K N (le_n _))].
Qed.
(** Newton on minimize(x * x). *)
Lemma square_ends (all : list (callback Xn unit)) : exists sp st x l, spec_run square_ops spec_empty = Some (sp, []) /\ smooth_everywhere sp /\ ended_newton down_env (opts_y 5) all sp st x l.
Proof.
  destruct square_case as (sp & p & P & x0 & p1 & Hs & Lv & Hp & Sm). destruct env_total as (H1 & H2 & H3). destruct (x0_len _ _ _ _ _ Lv Hp) as (Lx & I1 & L1).
  destruct (lived_ok _ _ Lv) as [Ip Lp]. destruct (prepare_inv sp p _ x0 p1 Ip Lp Hp) as (_ & _ & _ & _ & (tf & te & ti & _ & _ & _ & _ & _ & _ & G)).
  assert (En : np_n P = length (p_dec p1)) by (destruct G as (? & ? & ? & ? & _ & _ & _ & ->); reflexivity).
  destruct (ProbSolveTotal.newton_gives down_env (opts_y 5) H1 sp p1 x0 P (log_all all) (tt, []) 0 I1 L1 G) as (N & [st fin] & K & _); [exact (eq_trans Lx (eq_sym En))|].
  exists sp, st. do 2 eexists. split; [exact Hs|]. split; [intros y _; apply Sm|]. eapply end_newton; [exact Lv|exact Hp|exact (K N (le_n _))].
Qed.
(** SQP succeeds on the OCP of C86. *)
Lemma ride_ends : exists sp1 sp, did (ocp_make 1 1 (1 / 2)%R 2 integrator DISCRETE FIXED DIRECT_TRANSCRIPTION) (mkGen 0 0 []) spec_empty ride (mkGen 16 2 ride_code) sp1 /\
  later (handles ride) sp1 sp /\ smooth_everywhere sp /\
  exists x y l, ended (U := unit) down_env (opts_y 5) [] sp SUCCESS x [] y [] l.
Proof.
  destruct ride_runs as (sp1 & sp & p & P & x0 & p1 & D & L & Sm & _ & Lv & Hp & R & V). exists sp1, sp. split; [exact D|]. split; [exact L|]. split; [intros y _; apply Sm|].
  destruct (proj2 (proj2 env_total)) as (t & Ht & Pt). destruct (R (unit * list (call Xn))%type (tt, []) down_env (opts_y 5) t Ht Pt) as (fin & H & _). do 3 eexists. eapply end_sqp; [exact Lv|exact Hp|exact H].
Qed.
