(** A case for C97: minimize(x * x + cos(x)) from 2, whose second derivative 2 - cos(x) is between 1 and 3. *)
From Coq Require Import ZArith QArith Reals List Bool Arith Lia Lra FunctionalExtensionality.
From Coquelicot Require Import Hierarchy Derive AutoDerive.
From Verif Require Import Base XArith XQ ExprModel MathSpec VarModel VarSpec ExprReal ExprXR Faith FaithX HistProofs NumModel ExitModel SolverModel SolverSpec NewtonModel SqpModel IpmShape RestoreModel RestoreProofs DiffSpec SmoothSpec ProblemModel ProblemSpec
  ProbSolveModel ProbSolveSpec ProbSolveHist ProbSolveLived ProbSolvePrep ProbSolveFacts LagrSpec ProbSolveKkt2 ProbSolveEx ProbSolveKktEx RunY ProbSolveRun SmoothUser FiniteUseSpec FiniteUse EarlySpec ProbEarly ConvexSpec LinR QuadSpec QuadProofs QuadUse LdlModel LdlProofs QuadEx DownSpec PathDeriv RateSpec RateUse.
Import ListNotations.
Local Open Scope R_scope.

Definition wavy_ops : list (pop R_ops) := [PDecision 1 1; PH (HSet (S := R_ops) 0 2); PH (HBin BMul 0 0); PH (HUn UCos 0); PH (HBin BAdd 1 2); PMinimize 3].
Definition wavy := XBin BAdd (XBin BMul (XVar 0) (XVar 0)) (XUn UCos (XVar 0)).
Lemma wavy_spec : exists sp, spec_run wavy_ops spec_empty = Some (sp, []) /\ sp_dec sp = [0%nat] /\ sp_goal sp = Some (false, wavy) /\ sp_eqs sp = [] /\ sp_ineqs sp = [] /\ se_val (sp_se sp) 0%nat = 2.
Proof. eexists. split; [reflexivity|repeat split]. Qed.
Lemma wavy_smooth sp rho : sp_goal sp = Some (false, wavy) -> sp_eqs sp = [] -> sp_ineqs sp = [] -> prob_smooth sp rho.
Proof.
  intros G E I0. unfold prob_smooth, goal_smooth, all_smooth. rewrite G, E, I0. split; [|split; constructor]. unfold wavy. eexists.
  econstructor; [econstructor; [constructor|constructor|constructor|left; exact I|intros []]|econstructor; [constructor|constructor|exact I|intros []]|constructor|left; exact I|intros []].
Qed.
Lemma wavy_value rho : XEv rho wavy (rho 0%nat * rho 0%nat + cos (rho 0%nat)).
Proof. eapply XEv_bin; [eapply XEv_bin; [constructor|constructor|constructor]|eapply XEv_un; [constructor|constructor]|constructor]. Qed.
Lemma wavy_cost sp rho : sp_goal sp = Some (false, wavy) -> cost_is sp rho (rho 0%nat * rho 0%nat + cos (rho 0%nat)).
Proof. intros G. unfold cost_is. rewrite G. split; [|exists (rho 0%nat * rho 0%nat + cos (rho 0%nat)); split; [apply wavy_value|reflexivity]]. cbn. repeat split; discriminate. Qed.
Lemma wavy_pd sp rho : sp_goal sp = Some (false, wavy) -> pd 0%nat (cost_is sp) rho (2 * rho 0%nat - sin (rho 0%nat)).
Proof.
  intros G. exists (fun t => t * t + cos t). split; [apply (filter_forall (F := locally _)); intros t; exact (wavy_cost sp (upd rho 0%nat t) G)|]. auto_derive; [exact I|ring].
Qed.
Lemma wavy_pd2 sp rho : sp_goal sp = Some (false, wavy) -> pd 0%nat (pd 0%nat (cost_is sp)) rho (2 - cos (rho 0%nat)).
Proof.
  intros G. exists (fun t => 2 * t - sin t). split; [apply (filter_forall (F := locally _)); intros t; exact (wavy_pd sp (upd rho 0%nat t) G)|]. auto_derive; [exact I|ring].
Qed.
Lemma wavy_curved sp : sp_goal sp = Some (false, wavy) -> sp_dec sp = [0%nat] -> curved sp 1 3.
Proof.
  intros G D y Q Ly HQ v. unfold size in *. rewrite D in *. cbn [length] in *. specialize (HQ 0%nat 0%nat ltac:(lia) ltac:(lia)). cbn [nth] in HQ.
  pose proof (pd_fun _ _ _ _ _ (fun r a b => pd_fun 0%nat (cost_is sp) r a b (fun r v w => cost_det sp r v w)) HQ (wavy_pd2 sp (point sp y) G)) as E.
  unfold form, norm_sq. cbn [sumn]. rewrite E. pose proof (COS_bound (point sp y 0%nat)). assert (0 <= v 0%nat * v 0%nat) by apply Rle_0_sqr. nra.
Qed.
Lemma wavy_run : exists sp p K p' y, spec_run wavy_ops spec_empty = Some (sp, []) /\ lived sp p /\ smooth_everywhere sp /\ curved sp 1 3 /\ not_steep sp 1 /\ enough sp 1 3 (1 / 2) K /\ near sp 1 /\ now sp = [2] /\ ~ flat sp (1 / 2) (now sp) /\
  solve (U := Datatypes.unit) ldl_env (opts_y (Z.of_nat K + 1)) (K + 61) [] [] p tt 0 = Ok (SUCCESS, p') /\ lived (at_point sp [y]) p' /\ Rabs (2 * y - sin y) <= 1 / 2.
Proof.
  destruct wavy_spec as (sp & Hs & Ed & Eg & Es & Ei & V0). destruct (c31_lived _ _ _ _ _ lived_start Hs) as (p & out & Hr & A & Lv & _). clear Hr A.
  assert (Sm : smooth_everywhere sp) by (intros y _; apply wavy_smooth; assumption). pose proof (wavy_curved sp Eg Ed) as Cu.
  assert (En : now sp = [2]) by (unfold now; rewrite Ed; cbn [map]; rewrite V0; reflexivity). assert (Sz : size sp = 1%nat) by (unfold size; rewrite Ed; reflexivity).
  assert (Pd : forall rho k d, In k (sp_dec sp) -> pd k (cost_is sp) rho d -> d = 2 * rho 0%nat - sin (rho 0%nat)).
  { intros rho k d Hk Pd. rewrite Ed in Hk. destruct Hk as [<-|[]]. exact (pd_fun _ _ _ _ _ (fun r v w => cost_det sp r v w) Pd (wavy_pd sp rho Eg)). }
  pose proof (SIN_bound 2) as Sb.
  assert (P0 : point sp (now sp) 0%nat = 2) by (rewrite now_point; exact V0).
  assert (Ns : not_steep sp 1). { split; [lra|]. intros k d Hk Hd. rewrite (Pd _ _ _ Hk Hd), V0. apply Rabs_le. lra. }
  assert (Nr : near sp 1).
  { intros g [Lg Hg]. exists 5. rewrite Sz, En. split; [lra|]. rewrite Ed in Lg. specialize (Hg 0%nat 0%nat ltac:(rewrite Ed; reflexivity)). split.
    - unfold norm_sq. cbn [sumn]. rewrite (Pd _ _ _ ltac:(rewrite Ed; left; reflexivity) Hg), P0. nra.
    - intros i Li. assert (i = 0)%nat as -> by lia. cbn [nth]. rewrite Rabs_pos_eq; lra. }
  destruct (c97_enough sp 1 3 (1 / 2) Sm ltac:(lra) ltac:(lra)) as (K & HK).
  destruct (c97_solve (U := Datatypes.unit) 5 down_env (opts_y (Z.of_nat K + 1)) (1 / 2) sp 1 3) with (K := K) (fuel := (K + 61)%nat) (p := p) (u := tt) (clk := 0%nat) as (p' & y & So & Lp & Ly & Fl & _); auto; try lra; try lia.
  - cbn. lia.
  - destruct y as [|y [|]]; rewrite Sz in Ly; try discriminate. exists sp, p, K, p', y. repeat (split; [assumption|]). split; [|split; [exact So|split; [exact Lp|]]].
    + intros C. specialize (C 0%nat _ ltac:(rewrite Ed; left; reflexivity) (wavy_pd sp (point sp (now sp)) Eg)). rewrite P0 in C. rewrite Rabs_pos_eq in C; lra.
    + specialize (Fl 0%nat _ ltac:(rewrite Ed; left; reflexivity) (wavy_pd sp (point sp [y]) Eg)). unfold point in Fl. rewrite Ed in Fl. cbn [place] in Fl. exact Fl.
Qed.
