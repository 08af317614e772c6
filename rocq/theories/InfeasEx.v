(** Cases for C96: minimize(x * x) subject to 1e-5 * x == 0 from 2000. *)
From Coq Require Import ZArith QArith Reals List Bool Arith Lia Lra.
From Verif Require Import Base XArith XQ ExprModel MathSpec VarModel VarSpec ExprReal ExprXR Faith FaithX HistProofs NumModel ExitModel SolverModel SolverSpec NewtonModel SqpModel IpmShape RestoreModel RestoreProofs SmoothSpec ProblemModel ProblemSpec
  ProbSolveModel ProbSolveSpec ProbSolveHist ProbSolveLived ProbSolvePrep ProbSolveFacts ProbSolveNone ProbSolveEnd ProbSolveTotal LagrSpec ProbSolveKkt2 ProbSolveEx ProbSolveKktEx RunY ProbSolveRun SmoothUser FiniteSpec FiniteUseSpec FiniteUse EarlySpec ProbEarly ConvexSpec ConvexUse LinR QuadSpec QuadProofs QuadUse LdlModel LdlProofs QuadEx
  ProbSolveDeriv ProbSolveProofs SaddleSpec LdlSaddle SaddleProofs SaddleUse InfeasSpec InfeasUse.
Import ListNotations.
Local Open Scope R_scope.

Lemma ldl_fits fuel E : est_ok E -> est_fin E -> solve_ok (with_ldl fuel E) /\ est_ok (with_ldl fuel E) /\ lin_fin (with_ldl fuel E) /\ lin_fin_any (with_ldl fuel E) /\ est_fin (with_ldl fuel E).
Proof.
  intros He Hf. split; [exact (ldl_sizes fuel E)|]. split; [exact He|]. split; [intros ls K ls' _ _ _ b _; apply vfin_map|]. split; [intros ls K _ _ b _; apply vfin_map|exact Hf].
Qed.
Lemma ldl_env_fits : solve_ok ldl_env /\ est_ok ldl_env /\ lin_fin ldl_env /\ lin_fin_any ldl_env /\ est_fin ldl_env.
Proof. apply ldl_fits; [intros A r; reflexivity|intros A r _ H; exact H]. Qed.

Definition thread_at (a c z : R) : list (pop R_ops) :=
  [PDecision 1 1; PH (HSet (S := R_ops) 0 a); PH (HBin BMul 0 0); PMinimize 1; PH (HConst (S := R_ops) c); PH (HBin BMul 2 0); PH (HConst (S := R_ops) z); PCompare CEq (OVars 1 1 [3%nat]) (OVars 1 1 [4%nat]); PSubject 0].
Definition sq := XBin BMul (XVar 0) (XVar 0).
Definition thread (c z : R) : urel := mkRel CEq (XBin BMul (XConst c) (XVar 0)) (XConst z).
Lemma thread_spec a c z : exists sp, spec_run (thread_at a c z) spec_empty = Some (sp, []) /\ sp_dec sp = [0%nat] /\ sp_goal sp = Some (false, sq) /\ sp_eqs sp = [thread c z] /\ sp_ineqs sp = [] /\ se_val (sp_se sp) 0%nat = a.
Proof. eexists. split; [vm_compute; reflexivity|]. repeat split. Qed.
Lemma thread_value c z rho : gap rho (thread c z) (c * rho 0%nat - z).
Proof. exists (c * rho 0%nat), z. split; [eapply XEv_bin; [constructor|constructor|reflexivity || constructor]|]. split; [constructor|reflexivity]. Qed.
Lemma thread_gap c z rho v : gap rho (thread c z) v -> v = c * rho 0%nat - z.
Proof. intros G. exact (gap_det _ _ _ _ G (thread_value c z rho)). Qed.
Lemma sq_cost sp rho v : sp_goal sp = Some (false, sq) -> cost_is sp rho v -> v = rho 0%nat * rho 0%nat.
Proof.
  intros G. unfold cost_is. rewrite G. intros (_ & a & A & ->). refine (XEv_det _ _ _ _ A _). eapply XEv_bin; [constructor|constructor|reflexivity || constructor].
Qed.
Lemma thread_smooth sp c z rho : sp_goal sp = Some (false, sq) -> sp_eqs sp = [thread c z] -> sp_ineqs sp = [] -> prob_smooth sp rho.
Proof.
  intros G E I0. unfold prob_smooth, goal_smooth, all_smooth. rewrite G, E, I0. split; [|split; [|constructor]].
  - unfold sq. eexists. econstructor; [constructor|constructor|constructor|left; exact I|intros []].
  - constructor; [|constructor]. split; cbn [thread r_l r_r]; [|eexists; constructor]. eexists. econstructor; [constructor|constructor|constructor|left; exact I|intros []].
Qed.
Lemma sq_quadratic sp : sp_goal sp = Some (false, sq) -> sp_dec sp = [0%nat] -> quadratic sp (fun _ _ => 2) (fun _ => 0) 0.
Proof. intros G D. split; [reflexivity|]. intros rho v _ H. rewrite (sq_cost sp rho v G H). unfold form, size, coord. rewrite D. cbn. lra. Qed.
Lemma thread_affine sp c z : sp_eqs sp = [thread c z] -> sp_dec sp = [0%nat] -> affine sp (fun _ _ => c) (fun _ => - z).
Proof.
  intros E D i r rho g Er _ G. rewrite E in Er. destruct i as [|[|i]]; try discriminate. injection Er as <-. rewrite (thread_gap c z rho g G). unfold size, coord. rewrite D. cbn. lra.
Qed.
Lemma thread_convex sp c z : sp_goal sp = Some (false, sq) -> sp_eqs sp = [thread c z] -> sp_ineqs sp = [] -> convex_problem sp.
Proof.
  intros G E I0. split; [|split].
  - intros a b th va vb v _ _ T Ha Hb Hv. rewrite (sq_cost _ _ _ G Ha), (sq_cost _ _ _ G Hb), (sq_cost _ _ _ G Hv). unfold between.
    assert (0 <= th * (1 - th) * ((a 0%nat - b 0%nat) * (a 0%nat - b 0%nat))) by (apply Rmult_le_pos; [apply Rmult_le_pos; lra|apply Rle_0_sqr]). nra.
  - intros r Hr. rewrite E in Hr. destruct Hr as [<-|[]]. split; intros a b th va vb v _ _ _ Ha Hb Hv; rewrite (thread_gap c z _ _ Ha), (thread_gap c z _ _ Hb), (thread_gap c z _ _ Hv); unfold between; lra.
  - rewrite I0. intros r [].
Qed.
Lemma small_thread c : Rabs c = 1 / 100000 -> norm_sq 1 (fun _ => sumn 1 (fun i => c * nth i [1 / 50] 0)) < 1 / 1000000000000.
Proof. intros H. unfold norm_sq. cbn. assert (c * c = 1 / 10000000000). { rewrite <- (Rabs_pos_eq (c * c)), Rabs_mult, H by apply Rle_0_sqr. lra. } nra. Qed.

(** All the hypotheses of C96 hold, x = 0 satisfies the constraint, and solve() answers LOCALLY_INFEASIBLE without moving. *)
Lemma thread_run : exists sp p p', spec_run (thread_at 2000 (1 / 100000) 0) spec_empty = Some (sp, []) /\ lived sp p /\ smooth_everywhere sp /\ convex_problem sp /\
  solve (U := unit) ldl_env (opts_y 5) 5 [] [] p tt 0 = Ok (LOCALLY_INFEASIBLE, p') /\ lived (at_point sp [2000]) p' /\
  exists rho, can_be sp rho /\ feasible sp rho /\ dist1 sp rho (point sp [2000]) = 2000.
Proof.
  destruct (thread_spec 2000 (1 / 100000) 0) as (sp & Hs & Ed & Eg & Es & Ei & V0). set (c := 1 / 100000) in *.
  destruct (c31_lived _ _ _ _ _ lived_start Hs) as (p & out & Hr & A & Lv & _). clear Hr A.
  assert (Sm : smooth_everywhere sp) by (intros y _; apply (thread_smooth sp c 0); assumption). pose proof (sq_quadratic sp Eg Ed) as Qd. pose proof (thread_affine sp c 0 Es Ed) as Af.
  assert (Sz : size sp = 1%nat) by (unfold size; rewrite Ed; reflexivity). assert (Lk : length (sp_eqs sp) = 1%nat) by (rewrite Es; reflexivity).
  assert (En : now sp = [2000]) by (unfold now; rewrite Ed; cbn [map]; rewrite V0; reflexivity).
  assert (Pd0 : forall k d, In k (sp_dec sp) -> pd k (cost_is sp) (se_val (sp_se sp)) d -> d = 4000).
  { intros k d Hk Pd. apply (In_nth _ _ 0%nat) in Hk as (i & Li & <-). rewrite (pd_cost sp (fun _ _ => 2) _ _ Sm Qd (quad_nodup sp p Lv) (se_val (sp_se sp)) i d Li (now_can sp) Pd).
    unfold slope. rewrite Sz. cbn [sumn]. unfold coord. rewrite Ed. cbn [nth]. rewrite V0. lra. }
  assert (Ns : not_steep sp 1). { split; [lra|]. intros k d Hk Pd. rewrite (Pd0 k d Hk Pd). rewrite Rabs_pos_eq; lra. }
  assert (Nc : not_scaled sp).
  { intros r k d Hr' Hk Pd. rewrite Es in Hr'. destruct Hr' as [<-|[]]. apply (In_nth _ _ 0%nat) in Hk as (i & Li & <-).
    rewrite (pd_gap sp p (fun _ _ => c) (fun _ => - 0) Lv Sm Af (se_val (sp_se sp)) 0 (thread c 0) i d Li (now_can sp) ltac:(rewrite Es; reflexivity) Pd). unfold c. rewrite Rabs_pos_eq; lra. }
  assert (Un : ~ settled sp (1 / 2)).
  { intros [H1 _]. destruct (start_everywhere sp Sm) as (G & _). 
    pose proof (pd_fq sp (cost_is sp) (fun _ _ => 2) (fun _ => 0) 0 (quad_nodup sp p Lv) (proj1 Qd) (cost_quad sp _ _ _ Sm Qd) (se_val (sp_se sp)) 0 ltac:(rewrite Sz; lia) (now_can sp)) as Pd.
    assert (Hk : In (nth 0 (sp_dec sp) 0%nat) (sp_dec sp)) by (rewrite Ed; left; reflexivity). pose proof (H1 _ _ Hk Pd) as B. rewrite (Pd0 _ _ Hk Pd) in B. rewrite Rabs_pos_eq in B; lra. }
  assert (Ge : Forall2 (gap (se_val (sp_se sp))) (sp_eqs sp) [1 / 50]).
  { rewrite Es. constructor; [|constructor]. replace (1 / 50) with (c * se_val (sp_se sp) 0%nat - 0) by (rewrite V0; unfold c; lra). apply thread_value. }
  destruct (prepare_total sp p Lv Ei) as (rn & x0 & p1 & Hp). destruct (solve_picks sp p rn x0 p1 Lv Hp) as (tf & te & ti & _ & _ & _ & _ & M).
  destruct (lived_ok _ _ Lv) as [Ip Lp]. destruct (prepare_inv sp p _ x0 p1 Ip Lp Hp) as (I1 & L1 & E0 & _ & _).
  destruct rn as [|P|P|P|].
  - exfalso. destruct (c35_none sp p RanNone x0 p1 Lv Hp) as [_ Cn]. specialize (Cn eq_refl (point sp [0]) (point sp [1])). destruct Cn as [Cn _].
    pose proof (cost_quad sp _ _ _ Sm Qd _ (point_can sp [0])) as C1. pose proof (cost_quad sp _ _ _ Sm Qd _ (point_can sp [1])) as C2. specialize (Cn _ _ C1 C2).
    unfold quad, form in Cn. rewrite Sz in Cn. cbn [sumn] in Cn. pose proof (quad_nodup sp p Lv) as Nd.
    rewrite !(coord_point sp Nd [0] 0) in Cn by (rewrite Sz; cbn; lia). rewrite !(coord_point sp Nd [1] 0) in Cn by (rewrite Sz; cbn; lia). cbn in Cn. lra.
  - rewrite Es in M. destruct M. congruence.
  - pose proof (at_once ldl_env (opts_y 5) (1 / 2) sp (fun _ _ => 2) (fun _ _ => c) (fun _ => 0) (fun _ => - 0) 0 1 half_tol ltac:(lra) Sm Qd Af ltac:(lia) Ns Nc Un [1 / 50] Ge) as K.
    specialize (K ltac:(rewrite Lk; unfold norm_sq; cbn; lra) ltac:(rewrite Lk, Sz; apply small_thread; unfold c; rewrite Rabs_pos_eq; lra) unit [] p P x0 p1 5%nat tt 0%nat Lv Hp).
    destruct (sqp_solve ldl_env (opts_y 5) 5 P [] x0 tt 0) as [[st fin]| | |] eqn:Hn; try contradiction; [|discriminate]. destruct K as (-> & Ex & _). rewrite En in Ex.
    destruct (write_total sp p1 (s_x ldl_env fin) I1 L1) as (p' & W); [rewrite Ex; pose proof (ProbSolveProofs.dec_len (S := Xn) sp p1 L1) as Dl; rewrite Ed in Dl; exact (eq_sym Dl)|].
    assert (So : solve (U := unit) ldl_env (opts_y 5) 5 [] [] p tt 0 = Ok (LOCALLY_INFEASIBLE, p')). { unfold solve. rewrite Hp. cbn [obind]. cbv beta iota. cbn [app]. rewrite Hn. cbn [obind]. rewrite W. reflexivity. }
    exists sp, p, p'. split; [exact Hs|]. split; [exact Lv|]. split; [exact Sm|]. split; [apply (thread_convex sp c 0); assumption|]. split; [exact So|]. split.
    + destruct (c35 ldl_env (opts_y 5) 5 [] [] sp p tt 0%nat _ _ Lv So) as (rn' & x0' & p1' & x & tf' & te' & ti' & Hp' & _ & _ & _ & _ & _ & _ & Fi & _ & _ & _ & _ & _ & _ & _ & _ & Li). rewrite Hp in Hp'. injection Hp' as <- <- <-.
      apply Li. destruct Fi as (fin' & Hn' & ->). cbn [app] in Hn'. rewrite Hn in Hn'. injection Hn' as <-. exact Ex.
    + exists (point sp [0]). split; [apply point_can|]. pose proof (quad_nodup sp p Lv) as Nd. pose proof (coord_point sp Nd [0] 0 ltac:(rewrite Sz; reflexivity) ltac:(rewrite Sz; lia)) as C0. pose proof (coord_point sp Nd [2000] 0 ltac:(rewrite Sz; reflexivity) ltac:(rewrite Sz; lia)) as C1.
      unfold coord in C0, C1. rewrite Ed in C0, C1. cbn [nth] in C0, C1. split.
      * unfold feasible. rewrite Es, Ei. constructor; [|constructor]. destruct (thread_value c 0 (point sp [0])) as (u & v & Hu & Hv & Eu). exists u, v. split; [exact Hu|]. split; [exact Hv|]. cbn [thread r_cmp cmp_holds]. rewrite C0 in Eu. cbn in Eu. lra.
      * unfold dist1. rewrite Ed. cbn [fold_right]. rewrite C0, C1. rewrite Rplus_0_r. replace (0 - 2000) with (- (2000)) by lra. rewrite Rabs_Ropp, Rabs_pos_eq; lra.
  - rewrite Ei in M. congruence.
  - rewrite Ei in M. congruence.
Qed.
