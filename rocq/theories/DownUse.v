(** Proofs for C90 at the level of solve(). *)
From Coq Require Import ZArith Reals List Bool Arith Lia Lra.
From Coquelicot Require Import Hierarchy Derive AutoDerive.
From Verif Require Import Base ExprModel ExprReal ExprXR MathSpec VarModel VarSpec HistProofs JacModel NumModel UtilModel UtilSpec ScaleProofs ExitModel SolverModel SolverSpec SolverProofs NewtonModel LinR KktSpec FinEval XArith DiffSpec SmoothSpec SmoothGraph SmoothUser
  ProblemModel ProblemSpec ProblemInv ProblemProofs ProblemProofs2 ProblemProofs3 ProblemProofs4 ProbSolveModel ProbSolveInv ProbSolveEval ProbSolveSpec ProbSolveProofs ProbSolvePrep ProbSolveHist ProbSolveEnd ProbSolveLived ProbSolveFinal ProbSolveNone ProbSolveFacts LagrSpec ProbSolveMade ProbSolveDeriv ProbSolveDims ProbSolveKkt ProbSolveKkt2
  EarlySpec ProbEarly FiniteSpec FiniteUseSpec FiniteUse ConvexSpec ConvexUse QuadSpec QuadProofs QuadUse LdlModel LdlProofs DownSpec DownLin DownProofs.
Import ListNotations.
Local Open Scope R_scope.

Lemma pd_unscale k f (F : ufun) rho e : f <> 0 -> pd k (scaled_fn f F) rho e -> pd k F rho (e / f).
Proof.
  intros Nf (g & L & D). exists (fun t => / f * g t). split.
  - revert L. apply filter_imp. intros t (w & W & Ew). rewrite Ew. replace (/ f * (f * w)) with w by (field; exact Nf). exact W.
  - replace (e / f) with (/ f * e) by (field; exact Nf). apply (is_derive_scal g (rho k) (/ f) e D).
Qed.
Lemma pd_unscale2 a b f (F : ufun) rho e : f <> 0 -> pd b (pd a (scaled_fn f F)) rho e -> pd b (pd a F) rho (e / f).
Proof.
  intros Nf (g & L & D). exists (fun t => / f * g t). split.
  - revert L. apply filter_imp. intros t W. replace (/ f * g t) with (g t / f) by (field; exact Nf). apply pd_unscale; assumption.
  - replace (e / f) with (/ f * e) by (field; exact Nf). apply (is_derive_scal g (rho b) (/ f) e D).
Qed.
Lemma newton_scale_le sp p P x0 p1 f : lived sp p -> smooth_everywhere sp -> prepare p = Ok (RanNewton P, x0, p1) -> np_sc P = fsc f [] [] -> f <= 1.
Proof.
  intros Lv Sm H Sc. destruct (newton_start sp p Lv (start_everywhere sp Sm) P x0 p1 H) as (Ex & En & _). destruct (lived_ok _ _ Lv) as [Ip Lp].
  destruct (prepare_inv sp p _ x0 p1 Ip Lp H) as (I1 & L1 & E0 & _ & (tf & te & ti & _ & _ & _ & _ & _ & _ & Gv)).
  destruct Gv as (nodes & t & q & g & D & Rd & Hg & EP). rewrite EP in Sc. cbn [newton_prob np_sc] in Sc. rewrite Ex in Hg.
  assert (Ly : length (now sp) = length (p_dec p1)) by (rewrite now_len; symmetry; exact (dec_len (S := Xn) sp p1 L1)).
  assert (Sg : goal_smooth sp (point sp (now sp))) by exact (proj1 (Sm (now sp) (now_len sp))).
  destruct (k_start_g KNewton sp p1 nodes t q L1 Rd D (now sp) g Ly Sg Hg) as (gr & ->).
  destruct (scale_of_spec gr) as (f' & Ef & (Pf' & _)).
  assert (f' = f) as <-. { apply (f_equal sc_f) in Sc. cbn [scaling_newton sc_f fsc] in Sc. rewrite Ef in Sc. injection Sc as ->. reflexivity. }
  lra.
Qed.
(** What the solver is given, as numbers. *)
Lemma newton_numbers sp p P x0 p1 : lived sp p -> smooth_everywhere sp -> prepare p = Ok (RanNewton P, x0, p1) -> let n := length (sp_dec sp) in
  exists f, np_n P = n /\ np_sc P = fsc f [] [] /\ 0 < f <= 1 /\ x0 = fv (now sp) /\
  (forall y, length y = n -> exists v, cost_is sp (point sp y) v /\ np_f P (fv y) = Fin (f * v)) /\
  (forall y, length y = n -> exists g, np_g P (fv y) = fv g /\ length g = n /\ gradient_at sp y (map (fun x => / f * x) g)) /\
  (forall y, length y = n -> exists A, np_H P (fv y) = fm A /\ length A = n /\ (forall w, In w A -> length w = n) /\ (tame sp y -> forall i j, (i < n)%nat -> (j < n)%nat -> INR n * Rabs (low A i j) <= 1000000000000)).
Proof.
  intros Lv Sm H n. destruct (newton_start sp p Lv (start_everywhere sp Sm) P x0 p1 H) as (Ex & En & f & _ & Sc & Pf & _).
  destruct (c80_newton sp p P x0 p1 Lv H (start_everywhere sp Sm)) as (f' & E1 & _ & _ & _ & K). rewrite Sc in E1. cbn [fsc sc_f] in E1. injection E1 as <-.
  pose proof (newton_scale_le sp p P x0 p1 f Lv Sm H Sc) as F1.
  exists f. split; [exact En|]. split; [exact Sc|]. split; [lra|]. split; [exact Ex|]. split; [|split].
  - intros y L. destruct (K y L (Sm y L)) as ((v & V & Ev) & _). exists v. split; [exact V|exact Ev].
  - intros y L. destruct (K y L (Sm y L)) as (_ & G & _). destruct (grad_real _ _ _ _ G) as (g & Eg & Lg & Hg). exists g. split; [exact Eg|]. split; [exact Lg|]. split; [rewrite map_length; exact Lg|].
    intros j k Hk. destruct (Hg j k Hk) as (d & Ed & Pd). assert (Lj : (j < length g)%nat) by (rewrite Lg; apply nth_error_Some; congruence). rewrite (nth_map_lt _ g j 0 0) by exact Lj. rewrite Ed. replace (/ f * (f * d)) with d by (field; lra). exact Pd.
  - intros y L. destruct (K y L (Sm y L)) as (_ & _ & Hh). pose proof (hess_fin _ _ _ _ Hh) as Fh. destruct Hh as ((S1 & S2) & Hh).
    assert (exists A, np_H P (fv y) = fm A) as (A & EA).
    { clear - Fh. unfold fv in *. induction (np_H P (map Fin y)) as [|w M IH]; [exists []; reflexivity|]. inversion Fh as [|? ? F1 F2]; subst. destruct (IH F2) as (A & ->). destruct (vfin_real _ F1) as (r & ->). exists (r :: A). reflexivity. }
    exists A. split; [exact EA|]. change (map Fin y) with (fv y) in *. rewrite EA in *. unfold fm in S1, S2, Hh. rewrite map_length in S1. split; [exact S1|]. split.
    { intros w Iw. specialize (S2 (fv w) (in_map fv _ _ Iw)). rewrite fv_len in S2. exact S2. }
    intros Tm. assert (Kk : forall i j, (i < n)%nat -> (j <= i)%nat -> INR n * Rabs (nth j (nth i A []) 0) <= 1000000000000).
    { intros i j Li Lj. assert (Lj' : (j < n)%nat) by lia. destruct (Hh i j _ _ (nth_error_of (sp_dec sp) i 0%nat Li) (nth_error_of (sp_dec sp) j 0%nat Lj')) as [Hh1 _]. destruct (Hh1 Lj) as (d & Ed & Pd).
      apply pd_unscale2 in Pd; [|lra]. apply Tm in Pd; [|apply nth_In; exact Li|apply nth_In; exact Lj'].
      unfold at2 in Ed. rewrite (nth_map_lt fv A i [] []) in Ed by (rewrite S1; exact Li). unfold fv in Ed. rewrite (nth_map_lt Fin _ j 0 NaN) in Ed.
      - injection Ed as Ed. rewrite Ed. unfold Rdiv in Pd. rewrite Rabs_mult, (Rabs_right (/ f)) in Pd by (apply Rle_ge, Rlt_le, Rinv_0_lt_compat, Pf). fold n in Pd.
        assert (0 <= INR n * Rabs d) by (apply Rmult_le_pos; [apply pos_INR|apply Rabs_pos]). assert (1 <= / f) by (rewrite <- Rinv_1; apply Rinv_le_contravar; lra).
        assert (INR n * Rabs d * 1 <= INR n * Rabs d * / f) by (apply Rmult_le_compat_l; lra). lra.
      - specialize (S2 (fv (nth i A [])) (in_map fv _ _ (nth_In A [] ltac:(rewrite S1; exact Li)))). rewrite fv_len in S2. rewrite S2. exact Lj'. }
    intros i j Li Lj. unfold low. destruct (Nat.le_ge_cases j i) as [C|C].
    + rewrite (Nat.min_r i j C), (Nat.max_l i j C). apply Kk; assumption.
    + rewrite (Nat.min_l i j C), (Nat.max_r i j C). apply Kk; assumption.
Qed.

Lemma sum_abs_scale f (g : list R) : 0 < f -> sum_abs (map (fun x => / f * x) g) = / f * norm1 (S := Rn) g.
Proof.
  intros Pf. unfold sum_abs. rewrite norm1_R, map_length, <- sumn_scal. apply sumn_ext. intros i Li. rewrite (nth_map_lt _ g i 0 0) by exact Li.
  rewrite Rabs_mult, (Rabs_right (/ f)) by (apply Rle_ge, Rlt_le, Rinv_0_lt_compat, Pf). reflexivity.
Qed.

Lemma c90 {U} fl (E : env Xn) (o : options Xn) t sp (all : list (callback Xn U)) st x l : (40 <= fl)%nat -> o_tol o = Fin t -> 0 < t -> smooth_everywhere sp ->
  ended_newton (with_ldl fl E) o all sp st x l -> exists ys y, nth_error ys 0 = Some (now sp) /\ nth_error ys (length ys - 1) = Some y /\ x = map Fin y /\
    chain (fun y y' => tame sp y -> progress sp y y') ys /\ forall c, In c l -> shows_point ys c.
Proof.
  intros Lf Ht Pt Sm [p P x0 p1 fuel u clk s fin Lv Hp H]. destruct (newton_numbers sp p P x0 p1 Lv Sm Hp) as (f & En & Es & Pf & Ex & Hf & Hg & HH). rewrite Ex in H.
  destruct (newton_down fl E o t P all (length (sp_dec sp)) f Lf En Es ltac:(lra) Ht Pt) with (5 := H) as (ys & y & (S1 & S2 & S3 & S4) & Exx & Lg).
  - intros y L. destruct (Hf y L) as (v & _ & Ev). eauto.
  - intros y L. destruct (Hg y L) as (g & A & B & _). eauto.
  - intros y L. destruct (HH y L) as (A & B & C & D & _). eauto.
  - apply now_len.
  - exists ys, y. split; [exact S1|]. split; [exact S2|]. split; [exact Exx|]. split; [|exact Lg].
    assert (Ln : forall k a, nth_error ys k = Some a -> length a = length (sp_dec sp)).
    { intros [|k] a Ha; [rewrite S1 in Ha; injection Ha as <-; apply now_len|]. destruct (nth_error ys k) as [b|] eqn:Hb; [exact (proj1 (S3 k b a Hb Ha))|]. apply nth_error_None in Hb. assert (S k < length ys)%nat by (apply nth_error_Some; congruence). lia. }
    intros k a b Ha Hb Tm. pose proof (Ln _ _ Ha) as La. destruct (S3 k a b Ha Hb) as (Lb & Dn). destruct Dn as [(v & v' & Ev & Ev' & Lt)|(g & g' & Eg & Eg' & Le)].
    + intros A EA i j Li Lj. destruct (HH a La) as (A' & EA' & _ & _ & T). rewrite EA in EA'. assert (A' = A) as ->; [|exact (T Tm i j Li Lj)].
      clear - EA'. revert A' EA'. induction A as [|r A IH]; intros [|r' A'] E; try discriminate; [reflexivity|]. unfold fm in E. cbn [map] in E. injection E as E1 E2. apply fv_inj in E1. subst r'. f_equal. apply IH. exact E2.
    + left. destruct (Hf a La) as (w & W & Ew). destruct (Hf b Lb) as (w' & W' & Ew'). exists w, w'. split; [exact W|]. split; [exact W'|]. rewrite Ew in Ev. rewrite Ew' in Ev'. injection Ev as <-. injection Ev' as <-. apply Rmult_lt_reg_l with f; lra.
    + right. destruct (Hg a La) as (h & Eh & _ & Gh). destruct (Hg b Lb) as (h' & Eh' & _ & Gh'). rewrite Eh in Eg. rewrite Eh' in Eg'. apply fv_inj in Eg, Eg'. subst g g'. eexists. eexists. split; [exact Gh|]. split; [exact Gh'|].
      rewrite !sum_abs_scale by lra. assert (0 < / f) by (apply Rinv_0_lt_compat; lra). assert (/ f * norm1 (S := Rn) h' <= / f * (999 / 1000 * norm1 (S := Rn) h)) by (apply Rmult_le_compat_l; [lra|exact Le]). lra.
Qed.
