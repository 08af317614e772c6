(** Cases for C91: minimize(x * x + y * y + x * y) subject to x + y == 1 from (1, 2), with exact LDL' factorization. *)
From Coq Require Import ZArith QArith Reals List Bool Arith Lia Lra.
From Verif Require Import Base XArith XQ ExprModel MathSpec VarModel VarSpec ExprReal ExprXR Faith FaithX HistProofs NumModel ExitModel SolverModel SolverSpec NewtonModel SqpModel IpmShape RestoreModel RestoreProofs SmoothSpec ProblemModel ProblemSpec
  ProbSolveModel ProbSolveSpec ProbSolveHist ProbSolveLived ProbSolvePrep ProbSolveFacts ProbSolveNone LagrSpec ProbSolveKkt2 ProbSolveEx ProbSolveKktEx RunY ProbSolveRun SmoothUser FiniteUseSpec EarlySpec ProbEarly ConvexSpec ConvexUse LinR QuadSpec QuadProofs QuadUse LdlModel LdlProofs QuadEx
  ProbSolveDeriv SaddleSpec LdlSaddle SaddleProofs SaddleUse.
Import ListNotations.
Local Open Scope R_scope.

Definition rod_at (a b c : R) : list (pop R_ops) :=
  [PDecision 2 1; PH (HSet (S := R_ops) 0 a); PH (HSet (S := R_ops) 1 b); PH (HBin BMul 0 0); PH (HBin BMul 1 1); PH (HBin BMul 0 1); PH (HBin BAdd 2 3); PH (HBin BAdd 5 4); PMinimize 6;
   PH (HBin BAdd 0 1); PH (HConst (S := R_ops) c); PCompare CEq (OVars 1 1 [7%nat]) (OVars 1 1 [8%nat]); PSubject 0].
Definition rod_ops : list (pop R_ops) := rod_at 1 2 1.
Definition rod : urel := mkRel CEq (XBin BAdd (XVar 0) (XVar 1)) (XConst 1).
Lemma rod_spec_at a b c : exists sp, spec_run (rod_at a b c) spec_empty = Some (sp, []) /\ sp_dec sp = [0; 1]%nat /\ sp_goal sp = Some (false, bowl) /\ sp_eqs sp = [mkRel CEq (XBin BAdd (XVar 0) (XVar 1)) (XConst c)] /\ sp_ineqs sp = [] /\
  se_val (sp_se sp) 0%nat = a /\ se_val (sp_se sp) 1%nat = b.
Proof. eexists. split; [vm_compute; reflexivity|]. repeat split. Qed.
Lemma rod_spec : exists sp, spec_run rod_ops spec_empty = Some (sp, []) /\ sp_dec sp = [0; 1]%nat /\ sp_goal sp = Some (false, bowl) /\ sp_eqs sp = [rod] /\ sp_ineqs sp = [] /\
  se_val (sp_se sp) 0%nat = 1 /\ se_val (sp_se sp) 1%nat = 2.
Proof. exact (rod_spec_at 1 2 1). Qed.
Lemma rod_gap rho v : gap rho rod v -> v = rho 0%nat + rho 1%nat - 1.
Proof.
  unfold gap. cbn [rod r_l r_r r_cmp]. intros (a & b & A & B & ->). inversion B; subst. inversion A as [| | |? ? ? x y ? Bx By Bm]; subst. inversion Bx; subst. inversion By; subst. inversion Bm; subst. reflexivity.
Qed.
Lemma rod_smooth sp rho : sp_goal sp = Some (false, bowl) -> sp_eqs sp = [rod] -> sp_ineqs sp = [] -> prob_smooth sp rho.
Proof.
  intros G E I0. unfold prob_smooth, goal_smooth, all_smooth. rewrite G, E, I0. split; [|split; [|constructor]].
  - unfold bowl. eexists. repeat (econstructor; [| |constructor|left; exact I|intros []]); constructor.
  - constructor; [|constructor]. split; cbn [rod r_l r_r]; [|eexists; constructor]. eexists. econstructor; [constructor|constructor|constructor|left; exact I|intros []].
Qed.
Definition rod_A (_ _ : nat) : R := 1.
Definition rod_e (_ : nat) : R := -1.
Lemma rod_affine sp : sp_eqs sp = [rod] -> sp_dec sp = [0; 1]%nat -> affine sp rod_A rod_e.
Proof.
  intros E D i r rho g Er _ G. rewrite E in Er. destruct i as [|[|i]]; try discriminate. injection Er as <-. rewrite (rod_gap rho g G). unfold size, coord. rewrite D. cbn. unfold rod_A, rod_e. lra.
Qed.
Lemma rod_independent : independent 2 1 bowl_Q rod_A (1 / 10000).
Proof.
  intros w. exists (fun _ => - (w 0%nat) / 3). unfold form, norm_sq, rod_A, bowl_Q. cbn. pose proof (Rle_0_sqr (w 0%nat)) as H. unfold Rsqr in H. lra.
Qed.
Lemma rod_run : exists sp p, spec_run rod_ops spec_empty = Some (sp, []) /\ lived sp p /\ smooth_everywhere sp /\ sp_eqs sp = [rod] /\ sp_ineqs sp = [] /\
  quadratic sp bowl_Q (fun _ => 0) 0 /\ affine sp rod_A rod_e /\ definite (size sp) bowl_Q 1 /\ independent (size sp) 1 bowl_Q rod_A (1 / 10000) /\ (1 <= size sp)%nat /\
  not_steep sp 1 /\ not_scaled sp /\ clear_start sp /\ exact_on_saddle ldl_env (size sp) 1 /\
  (forall i, (i < size sp)%nat -> Rabs (coord sp (se_val (sp_se sp)) i) <= 10000000000) /\ now sp = [1; 2] /\
  exists y l, ended (U := unit) ldl_env (opts_y 5) [] sp SUCCESS (map Fin [1 / 2; 1 / 2]) [] y [] l.
Proof.
  destruct rod_spec as (sp & Hs & Ed & Eg & Es & Ei & V0 & V1). 
  destruct (c31_lived _ _ _ _ _ lived_start Hs) as (p & out & Hr & A & Lv & _). clear Hr A.
  assert (Sm : smooth_everywhere sp) by (intros y _; apply rod_smooth; assumption). pose proof (bowl_quadratic sp Eg Ed) as Qd. pose proof (rod_affine sp Es Ed) as Af.
  assert (Sz : size sp = 2%nat) by (unfold size; rewrite Ed; reflexivity). assert (Lk : length (sp_eqs sp) = 1%nat) by (rewrite Es; reflexivity).
  assert (En : now sp = [1; 2]) by (unfold now; rewrite Ed; cbn [map]; rewrite V0, V1; reflexivity).
  assert (De : definite (size sp) bowl_Q 1) by (rewrite Sz; exact bowl_definite). assert (Ind : independent (size sp) 1 bowl_Q rod_A (1 / 10000)) by (rewrite Sz; exact rod_independent).
  assert (Ns : not_steep sp 1).
  { split; [lra|]. intros k d Hk Pd. apply (In_nth _ _ 0%nat) in Hk as (i & Li & <-). rewrite (pd_cost sp bowl_Q _ _ Sm Qd (quad_nodup sp p Lv) (se_val (sp_se sp)) i d Li (now_can sp) Pd).
    rewrite Ed in Li. cbn in Li. unfold slope. rewrite Sz. cbn [sumn]. unfold coord. rewrite Ed. cbn [nth]. rewrite V0, V1. unfold bowl_Q. destruct i as [|[|i]]; [| |lia]; cbn; apply Rabs_le; lra. }
  assert (Nc : not_scaled sp).
  { intros r k d Hr' Hk Pd. rewrite Es in Hr'. destruct Hr' as [<-|[]]. apply (In_nth _ _ 0%nat) in Hk as (i & Li & <-).
    rewrite (pd_gap sp p rod_A rod_e Lv Sm Af (se_val (sp_se sp)) 0 rod i d Li (now_can sp) ltac:(rewrite Es; reflexivity) Pd). unfold rod_A. rewrite Rabs_R1. lra. }
  assert (Cs : clear_start sp).
  { intros ge G. rewrite Es in G. inversion G as [|? g ? gs H1 H2]; subst. inversion H2; subst. right. rewrite (rod_gap _ _ H1), V0, V1. unfold sum_abs. cbn. rewrite Rabs_pos_eq; lra. }
  assert (Ex : exact_on_saddle ldl_env (size sp) 1) by apply ldl_saddle.
  exists sp, p. split; [exact Hs|]. split; [exact Lv|]. split; [exact Sm|]. split; [exact Es|]. split; [exact Ei|]. split; [exact Qd|]. split; [exact Af|]. split; [exact De|]. split; [exact Ind|]. split; [lia|].
  split; [exact Ns|]. split; [exact Nc|]. split; [exact Cs|]. split; [exact Ex|]. split; [|split; [exact En|]].
  { rewrite Sz. intros i Li. unfold coord. rewrite Ed. destruct i as [|[|i]]; [| |lia]; cbn [nth]; rewrite ?V0, ?V1; apply Rabs_le; lra. }
  destruct (prepare_total sp p Lv Ei) as (rn & x0 & p1 & Hp).
  destruct (solve_picks sp p rn x0 p1 Lv Hp) as (tf & te & ti & _ & _ & _ & _ & M).
  destruct rn as [|P|P|P|].
  - exfalso. destruct (c35_none sp p RanNone x0 p1 Lv Hp) as [_ Cn]. specialize (Cn eq_refl (point sp [0; 0]) (point sp [0; 1])). destruct Cn as [_ Cn].
    pose proof (quad_nodup sp p Lv) as Nd. assert (Er : nth_error (sp_eqs sp) 0 = Some rod) by (rewrite Es; reflexivity).
    pose proof (gap_affine sp rod_A rod_e Sm Af (point sp [0; 0]) 0 rod (point_can sp _) Er) as G1. pose proof (gap_affine sp rod_A rod_e Sm Af (point sp [0; 1]) 0 rod (point_can sp _) Er) as G2.
    destruct (Sm [0; 0] ltac:(rewrite Ed; reflexivity)) as (_ & S1 & _). destruct (Sm [0; 1] ltac:(rewrite Ed; reflexivity)) as (_ & S2 & _). apply all_smooth_defined in S1, S2. unfold all_defined in S1, S2. rewrite Es in S1, S2. inversion S1; subst. inversion S2; subst.
    assert (Eq := Cn rod _ _ ltac:(rewrite Es; left; reflexivity) ltac:(eassumption) ltac:(eassumption) G1 G2).
    unfold con in Eq. rewrite Sz in Eq. cbn [sumn] in Eq. rewrite !(coord_point sp Nd [0; 0]) in Eq by (rewrite Sz; cbn; lia). rewrite !(coord_point sp Nd [0; 1]) in Eq by (rewrite Sz; cbn; lia). unfold rod_A, rod_e in Eq. cbn in Eq. lra.
  - rewrite Es in M. destruct M. congruence.
  - rewrite <- Lk in Ind, Ex. pose proof (sqp_run ldl_env (opts_y 5) (1 / 2) sp bowl_Q rod_A (fun _ => 0) rod_e 0 1 half_tol ltac:(lra) Sm Qd Af De Ind ltac:(lia) Ns Nc Cs Ex (log_all (@nil (callback Xn unit))) p P x0 p1 2 (tt, []) 0 Lv Hp) as K.
    destruct (sqp_solve ldl_env (opts_y 5) 2 P (log_all []) x0 (tt, []) 0) as [[st fin]| | |] eqn:Hn; try contradiction; [|lia]. destruct K as (y & Ey & Ly & K).
    pose proof (end_sqp (U := unit) ldl_env (opts_y 5) [] sp p P x0 p1 2 tt 0 st fin Lv Hp Hn) as H. rewrite Ey in H. rewrite Sz in Ly.
    assert (Gn : gap (se_val (sp_se sp)) rod 2). { pose proof (gap_affine sp rod_A rod_e Sm Af (se_val (sp_se sp)) 0 rod (now_can sp) ltac:(rewrite Es; reflexivity)) as G. rewrite (rod_gap _ _ G), V0, V1 in G. replace 2 with (1 + 2 - 1) by lra. exact G. }
    destruct K as [(_ & _ & _ & (_ & Fl))|[(_ & _ & _ & (i & Li & Bi))|(i & _ & [(_ & _ & Hs')|(Fl & K)])]].
    + exfalso. specialize (Fl rod 2 ltac:(rewrite Es; left; reflexivity) Gn). rewrite Rabs_pos_eq in Fl; lra.
    + exfalso. rewrite Sz in Li. rewrite En in Bi. destruct i as [|[|i]]; [| |lia]; cbn [nth] in Bi; rewrite Rabs_pos_eq in Bi; lra.
    + discriminate Hs'.
    + destruct Fl as [Fe Fb]. pose proof (quad_nodup sp p Lv) as Nd.
      pose proof (gap_affine sp rod_A rod_e Sm Af (point sp y) 0 rod (point_can sp y) ltac:(rewrite Es; reflexivity)) as G1. pose proof (Fe rod _ ltac:(rewrite Es; left; reflexivity) G1) as Z1.
      set (h := [1 / 2; 1 / 2]). assert (Lh : length h = size sp) by (rewrite Sz; reflexivity). assert (Ly' : length y = size sp) by (rewrite Sz; exact Ly).
      assert (Fh : forall r g, In r (sp_eqs sp) -> gap (point sp h) r g -> g = 0).
      { intros r g I G. rewrite Es in I. destruct I as [<-|[]]. rewrite (Af 0%nat rod _ g ltac:(rewrite Es; reflexivity) (point_can sp h) G). rewrite Sz. cbn [sumn]. rewrite !(coord_point sp Nd h _ Lh) by lia. unfold rod_A, rod_e, h. cbn. lra. }
      pose proof (Fb (point sp h) _ _ (point_can sp h) Fh (cost_quad sp _ _ _ Sm Qd _ (point_can sp y)) (cost_quad sp _ _ _ Sm Qd _ (point_can sp h))) as B.
      destruct y as [|y0 [|y1 [|y2 y]]]; try discriminate Ly.
      unfold con in Z1. unfold quad, form, norm_sq in B. rewrite Sz in B, Z1. cbn [sumn] in B, Z1. rewrite !(coord_point sp Nd _ _ Ly') in B, Z1 by lia. rewrite !(coord_point sp Nd h _ Lh) in B by lia. unfold rod_A, rod_e in Z1. unfold bowl_Q, h in B. cbn in B, Z1.
      assert (y1 = 1 - y0) by lra. subst y1. assert (y0 = 1 / 2). { pose proof (Rle_0_sqr (y0 - 1 / 2)) as S0. unfold Rsqr in S0. apply Rminus_diag_uniq. apply Rsqr_0_uniq. unfold Rsqr. nra. } subst y0.
      replace (1 - 1 / 2) with (1 / 2) in H by lra.
      destruct K as [->|[[_ K]|[_ K]]]; [eexists _, _; exact H|cbn in K; lia|discriminate K].
  - rewrite Ei in M. congruence.
  - rewrite Ei in M. congruence.
Qed.
