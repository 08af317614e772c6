(** Cases for C89: minimize(x * x + y * y + x * y) from (1, 2), with exact LDL' factorization. *)
From Coq Require Import ZArith QArith Reals List Bool Arith Lia Lra.
From Verif Require Import Base XArith XQ ExprModel MathSpec VarModel VarSpec ExprReal ExprXR Faith FaithX HistProofs NumModel ExitModel SolverModel SolverSpec NewtonModel SqpModel IpmShape RestoreModel RestoreProofs SmoothSpec ProblemModel ProblemSpec
  ProbSolveModel ProbSolveSpec ProbSolveHist ProbSolveLived ProbSolvePrep ProbSolveFacts LagrSpec ProbSolveKkt2 ProbSolveNone ProbSolveEx ProbSolveKktEx RunY ProbSolveRun SmoothUser FiniteUseSpec EarlySpec ProbEarly ConvexSpec LinR QuadSpec QuadProofs QuadUse LdlModel LdlProofs.
Import ListNotations.
Local Open Scope R_scope.

Definition bowl_ops : list (pop R_ops) := [PDecision 2 1; PH (HSet (S := R_ops) 0 1); PH (HSet (S := R_ops) 1 2); PH (HBin BMul 0 0); PH (HBin BMul 1 1); PH (HBin BMul 0 1); PH (HBin BAdd 2 3); PH (HBin BAdd 5 4); PMinimize 6].
Definition bowl := XBin BAdd (XBin BAdd (XBin BMul (XVar 0) (XVar 0)) (XBin BMul (XVar 1) (XVar 1))) (XBin BMul (XVar 0) (XVar 1)).
Lemma bowl_spec : exists sp, spec_run bowl_ops spec_empty = Some (sp, []) /\ sp_dec sp = [0; 1]%nat /\ sp_goal sp = Some (false, bowl) /\ sp_eqs sp = [] /\ sp_ineqs sp = [] /\
  se_val (sp_se sp) 0%nat = 1 /\ se_val (sp_se sp) 1%nat = 2.
Proof. eexists. split; [reflexivity|repeat split]. Qed.
Lemma bowl_value rho : XEv rho bowl (rho 0%nat * rho 0%nat + rho 1%nat * rho 1%nat + rho 0%nat * rho 1%nat).
Proof. repeat (eapply XEv_bin; [| |reflexivity || constructor]); try exact (XEv_var rho 0); try exact (XEv_var rho 1). Qed.
Lemma bowl_pow rho : no_pow00 rho bowl. Proof. cbn [no_pow00 bowl]. repeat split; discriminate. Qed.
Lemma bowl_cost sp rho v : sp_goal sp = Some (false, bowl) -> cost_is sp rho v -> v = rho 0%nat * rho 0%nat + rho 1%nat * rho 1%nat + rho 0%nat * rho 1%nat.
Proof. intros G. unfold cost_is. rewrite G. intros (_ & a & A & ->). exact (XEv_det _ _ _ _ A (bowl_value rho)). Qed.
Lemma bowl_smooth sp rho : sp_goal sp = Some (false, bowl) -> sp_eqs sp = [] -> sp_ineqs sp = [] -> prob_smooth sp rho.
Proof.
  intros G E I0. unfold prob_smooth, goal_smooth, all_smooth. rewrite G, E, I0. split; [|split; constructor]. unfold bowl. eexists.
  repeat (econstructor; [| |constructor|left; exact I|intros []]); constructor.
Qed.
Definition bowl_Q (i j : nat) : R := if Nat.eqb i j then 2 else 1.
Lemma bowl_quadratic sp : sp_goal sp = Some (false, bowl) -> sp_dec sp = [0; 1]%nat -> quadratic sp bowl_Q (fun _ => 0) 0.
Proof.
  intros G D. split; [intros i j; unfold bowl_Q; rewrite Nat.eqb_sym; reflexivity|]. intros rho v _ H. rewrite (bowl_cost sp rho v G H).
  unfold form, size, coord. rewrite D. cbn. unfold bowl_Q. cbn. lra.
Qed.
Lemma bowl_definite : definite 2 bowl_Q 1.
Proof. intros v. unfold norm_sq, form. cbn. unfold bowl_Q. cbn. pose proof (Rle_0_sqr (v 0%nat + v 1%nat)) as H. unfold Rsqr in H. lra. Qed.
Definition ldl_env : env Xn := with_ldl 5 down_env.
Lemma half_tol : o_tol (opts_y 5) = Fin (1 / 2). Proof. cbn. unfold xq, Q2R. cbn. f_equal; lra. Qed.

(** Any program that comes to this problem. *)
Lemma bowl_like ops sp fl : spec_run ops spec_empty = Some (sp, []) -> sp_dec sp = [0; 1]%nat -> sp_goal sp = Some (false, bowl) -> sp_eqs sp = [] -> sp_ineqs sp = [] ->
  se_val (sp_se sp) 0%nat = 1 -> se_val (sp_se sp) 1%nat = 2 -> exists p, lived sp p /\ smooth_everywhere sp /\ sp_eqs sp = [] /\ sp_ineqs sp = [] /\
  quadratic sp bowl_Q (fun _ => 0) 0 /\ definite (size sp) bowl_Q 1 /\ not_steep sp 1 /\ exact_on_definite (with_ldl fl down_env) (size sp) /\
  (forall i, (i < size sp)%nat -> Rabs (coord sp (se_val (sp_se sp)) i) <= 10000000000) /\ now sp = [1; 2] /\
  exists l, ended_newton (U := unit) (with_ldl fl down_env) (opts_y 5) [] sp SUCCESS (map Fin [0; 0]) l.
Proof.
  intros Hs Ed Eg Es Ei V0 V1.
  destruct (c31_lived _ _ _ _ _ lived_start Hs) as (p & out & Hr & A & Lv & _). 
  assert (Sm : smooth_everywhere sp) by (intros y _; apply bowl_smooth; assumption). pose proof (bowl_quadratic sp Eg Ed) as Qd.
  assert (Sz : size sp = 2%nat) by (unfold size; rewrite Ed; reflexivity).
  assert (En : now sp = [1; 2]) by (unfold now; rewrite Ed; cbn [map]; rewrite V0, V1; reflexivity).
  assert (De : definite (size sp) bowl_Q 1) by (rewrite Sz; exact bowl_definite).
  assert (Ns : not_steep sp 1).
  { split; [lra|]. intros k d Hk Pd. apply (In_nth _ _ 0%nat) in Hk as (i & Li & <-). rewrite (pd_cost sp bowl_Q _ _ Sm Qd (quad_nodup sp p Lv) (se_val (sp_se sp)) i d Li (now_can sp) Pd).
    rewrite Ed in Li. cbn in Li. unfold slope. rewrite Sz. cbn [sumn]. unfold coord. rewrite Ed. cbn [nth]. rewrite V0, V1. unfold bowl_Q. destruct i as [|[|i]]; [| |lia]; cbn; apply Rabs_le; lra. }
  exists p. split; [exact Lv|]. split; [exact Sm|]. split; [exact Es|]. split; [exact Ei|]. split; [exact Qd|]. split; [exact De|]. split; [exact Ns|].
  split; [apply ldl_definite|]. split; [|split; [exact En|]].
  { rewrite Sz. intros i Li. unfold coord. rewrite Ed. destruct i as [|[|i]]; [| |lia]; cbn [nth]; rewrite ?V0, ?V1; apply Rabs_le; lra. }
  destruct (prepare_total sp p Lv Ei) as (rn & x0 & p1 & Hp).
  destruct (solve_picks sp p rn x0 p1 Lv Hp) as (tf & te & ti & _ & _ & _ & _ & M).
  destruct rn as [|P|P|P|].
  - exfalso. destruct (c35_none sp p _ x0 p1 Lv Hp) as [_ C]. destruct (C eq_refl (fun _ => 0) (fun _ => 1)) as [C1 _].
    assert (Q : forall rho, cost_is sp rho (rho 0%nat * rho 0%nat + rho 1%nat * rho 1%nat + rho 0%nat * rho 1%nat)).
    { intros rho. unfold cost_is. rewrite Eg. split; [apply bowl_pow|]. eexists. split; [apply bowl_value|reflexivity]. }
    pose proof (C1 _ _ (Q _) (Q _)). lra.
  - destruct (quad_gives sp p _ _ _ _ Lv Sm Qd Ns P x0 p1 Hp) as (f & En' & Esc & Pf & Fm & Ex0 & Hf & Hg & HH).
    pose proof (newton_quad (with_ldl fl down_env) (opts_y 5) (1 / 2) P (log_all (@nil (callback Xn unit))) (size sp) bowl_Q (fun _ => 0) 0 f 1 (proj1 Qd) En' Esc Pf half_tol ltac:(lra) De Fm (ldl_definite _ _ _) Hf Hg
      (fun y L => proj2 (HH y L)) 2 (now sp) (tt, []) 0 (now_len sp) (proj1 (HH _ (now_len sp)))) as K. rewrite <- Ex0 in K.
    destruct (newton (with_ldl fl down_env) P (log_all []) (opts_y 5) 2 x0 (tt, []) 0) as [[st fin]| | |] eqn:Hn; try contradiction; [|lia]. destruct K as (y & Ey & Ly & K).
    pose proof (end_newton (U := unit) (with_ldl fl down_env) (opts_y 5) [] sp p P x0 p1 2 tt 0 st fin Lv Hp Hn) as H. rewrite Ey in H. rewrite Sz in Ly.
    destruct y as [|y0 [|y1 [|y2 y]]]; try discriminate Ly.
    destruct K as [(_ & _ & _ & Fl)|[(_ & _ & _ & (i & Li & Bi))|(i & _ & [(_ & _ & Hs')|(Fl & _ & K)])]].
    + exfalso. specialize (Fl 0%nat ltac:(lia)). unfold steepness, slope in Fl. rewrite Sz, En in Fl. cbn in Fl. unfold bowl_Q in Fl. cbn in Fl. rewrite Rabs_pos_eq in Fl; lra.
    + exfalso. rewrite Sz in Li. rewrite En in Bi. destruct i as [|[|i]]; [| |lia]; cbn [nth] in Bi; rewrite Rabs_pos_eq in Bi; lra.
    + discriminate Hs'.
    + pose proof (Fl 0%nat ltac:(lia)) as A0. pose proof (Fl 1%nat ltac:(lia)) as A1. unfold steepness, slope in A0, A1. rewrite Sz in A0, A1. cbn in A0, A1. unfold bowl_Q in A0, A1. cbn in A0, A1.
      replace y0 with 0 in H by lra. replace y1 with 0 in H by lra.
      destruct K as [->|[[_ K]|[_ K]]]; [eexists; exact H|cbn in K; lia|discriminate K].
  - rewrite Es in M. destruct M. congruence.
  - rewrite Ei in M. congruence.
  - rewrite Ei in M. congruence.
Qed.
Lemma bowl_run_with fl : exists sp p, spec_run bowl_ops spec_empty = Some (sp, []) /\ lived sp p /\ smooth_everywhere sp /\ sp_eqs sp = [] /\ sp_ineqs sp = [] /\
  quadratic sp bowl_Q (fun _ => 0) 0 /\ definite (size sp) bowl_Q 1 /\ not_steep sp 1 /\ exact_on_definite (with_ldl fl down_env) (size sp) /\
  (forall i, (i < size sp)%nat -> Rabs (coord sp (se_val (sp_se sp)) i) <= 10000000000) /\ now sp = [1; 2] /\
  exists l, ended_newton (U := unit) (with_ldl fl down_env) (opts_y 5) [] sp SUCCESS (map Fin [0; 0]) l.
Proof.
  destruct bowl_spec as (sp & Hs & Ed & Eg & Es & Ei & V0 & V1). destruct (bowl_like bowl_ops sp fl Hs Ed Eg Es Ei V0 V1) as (p & H). exists sp, p. split; [exact Hs|exact H].
Qed.
Lemma bowl_run : exists sp p, spec_run bowl_ops spec_empty = Some (sp, []) /\ lived sp p /\ smooth_everywhere sp /\ sp_eqs sp = [] /\ sp_ineqs sp = [] /\
  quadratic sp bowl_Q (fun _ => 0) 0 /\ definite (size sp) bowl_Q 1 /\ not_steep sp 1 /\ exact_on_definite ldl_env (size sp) /\
  (forall i, (i < size sp)%nat -> Rabs (coord sp (se_val (sp_se sp)) i) <= 10000000000) /\ now sp = [1; 2] /\
  exists l, ended_newton (U := unit) ldl_env (opts_y 5) [] sp SUCCESS (map Fin [0; 0]) l.
Proof. exact (bowl_run_with 5). Qed.
