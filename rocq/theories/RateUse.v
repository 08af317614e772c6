(** Proofs for C97 at the level of solve(). *)
From Coq Require Import ZArith Reals List Bool Arith Lia Lra FunctionalExtensionality.
From Coquelicot Require Import Hierarchy Derive AutoDerive.
From Verif Require Import Base ExprModel ExprReal ExprXR MathSpec VarModel VarSpec HistProofs JacModel NumModel UtilModel UtilSpec ScaleProofs ExitModel SolverModel SolverSpec SolverProofs NewtonModel LinR KktSpec FinEval XArith DiffSpec SmoothSpec SmoothGraph SmoothUser
  ProblemModel ProblemSpec ProblemInv ProblemProofs ProblemProofs2 ProblemProofs3 ProblemProofs4 ProbSolveModel ProbSolveInv ProbSolveEval ProbSolveSpec ProbSolveProofs ProbSolvePrep ProbSolveHist ProbSolveEnd ProbSolveLived ProbSolveFinal ProbSolveNone ProbSolveFacts LagrSpec ProbSolveMade ProbSolveDeriv ProbSolveDims ProbSolveKkt ProbSolveKkt2
  EarlySpec ProbEarly FiniteSpec FiniteUseSpec FiniteUse ConvexSpec ConvexUse QuadSpec QuadProofs QuadUse LdlModel LdlProofs DownSpec DownLin DownProofs DownUse PathDeriv RateSpec RateLin RateProofs RateCost.
Import ListNotations.
Local Open Scope R_scope.

Section Given.
Variables (sp : spec) (p : prog X_ops) (m L : R).
Hypothesis Lv : lived sp p.
Hypothesis Sm : smooth_everywhere sp.
Hypothesis Cu : curved sp m L.
Hypothesis Ns : not_steep sp m.
Let n := size sp.
Let Nd : NoDup (sp_dec sp) := quad_nodup sp p Lv.

Definition Amat (P : nprob Xn) (y : list R) : list (list R) := map (map X_pr) (np_H P (fv y)).
Lemma pr_fm (A : list (list R)) : map (map X_pr) (fm A) = A.
Proof. unfold fm, fv. rewrite map_map. rewrite <- (map_id A) at 2. apply map_ext. intros r. rewrite map_map. rewrite <- (map_id r) at 2. apply map_ext. reflexivity. Qed.
Lemma form_scale k f Q v : form k (fun i j => f * Q i j) v = f * form k Q v.
Proof. unfold form. rewrite <- sumn_scal. apply sumn_ext. intros i _. rewrite <- sumn_scal. apply sumn_ext. intros j _. ring. Qed.
Lemma form_ext k Q Q' v : (forall i j, (i < k)%nat -> (j < k)%nat -> Q i j = Q' i j) -> form k Q v = form k Q' v.
Proof. intros H. unfold form. apply sumn_ext. intros i Li. apply sumn_ext. intros j Lj. rewrite H by assumption. reflexivity. Qed.

Lemma rate_gives P x0 p1 : prepare p = Ok (RanNewton P, x0, p1) -> exists f, np_n P = n /\ np_sc P = fsc f [] [] /\ 0 < f /\ 1 / 10000 <= f * m /\ x0 = fv (now sp) /\ sp_eqs sp = [] /\
  (forall y, length y = n -> np_f P (fv y) = Fin (f * cnum sp (point sp y))) /\
  (forall y, length y = n -> np_g P (fv y) = fv (map (Rmult f) (grad sp y)) /\ length (map (Rmult f) (grad sp y)) = n) /\
  (forall y, length y = n -> mat_dims (S := Xn) n n (np_H P (fv y)) = true) /\
  (forall y, length y = n -> np_H P (fv y) = fm (Amat P y) /\ length (Amat P y) = n /\ (forall w, In w (Amat P y) -> length w = n)) /\
  (forall y, length y = n -> exists Q, (forall i j, (i < n)%nat -> (j < n)%nat -> pd (nth j (sp_dec sp) 0%nat) (pd (nth i (sp_dec sp) 0%nat) (cost_is sp)) (point sp y) (Q i j)) /\
    forall v, form n (low (Amat P y)) v = f * form n Q v).
Proof.
  intros H. destruct (newton_start sp p Lv (start_everywhere sp Sm) P x0 p1 H) as (Ex & En & f & _ & Sc & Pf & _). destruct (lived_ok _ _ Lv) as [Ip Lp].
  destruct (c80_newton sp p P x0 p1 Lv H (start_everywhere sp Sm)) as (f' & E1 & _ & Qe & _ & K). rewrite Sc in E1. cbn [fsc sc_f] in E1. injection E1 as <-.
  destruct (prepare_inv sp p _ x0 p1 Ip Lp H) as (I1 & L1 & E0 & _ & (tf & te & ti & _ & _ & _ & _ & _ & _ & Gv)).
  pose proof (newton_H_dims p1 x0 P Gv) as Dm.
  exists f. split; [exact En|]. split; [exact Sc|]. split; [exact Pf|]. split.
  { destruct Gv as (nodes & t & q & g & D & Rd & Hg & EP). rewrite EP in Sc. cbn [newton_prob np_sc] in Sc. rewrite Ex in Hg.
    assert (Ly : length (now sp) = length (p_dec p1)) by (rewrite now_len; symmetry; exact (dec_len (S := Xn) sp p1 L1)).
    assert (Sg : goal_smooth sp (point sp (now sp))) by exact (proj1 (Sm (now sp) (now_len sp))).
    destruct (k_start_g KNewton sp p1 nodes t q L1 Rd D (now sp) g Ly Sg Hg) as (gr & ->).
    destruct (scale_of_spec gr) as (f' & Ef & (Pf' & _ & Sl)).
    assert (f' = f) as ->. { apply (f_equal sc_f) in Sc. cbn [scaling_newton sc_f fsc] in Sc. rewrite Ef in Sc. injection Sc as ->. reflexivity. }
    destruct Ns as [N1 N2]. destruct Sl as [->|(x & Ix & Vx)]; [lra|].
    destruct (start_g_in (length (p_dec p1)) t q (map Fin (now sp)) unit_sc (map Fin gr) (Fin x) Hg (in_map Fin _ _ Ix)) as (j & Lj & Vj).
    pose proof (dec_len (S := Xn) sp p1 L1) as Ld. destruct (nth_some (sp_dec sp) j) as (k & Ek); [rewrite <- Ld; exact Lj|].
    destruct (k_g KNewton sp p1 nodes t q L1 Rd D unit_sc 1 (now sp) eq_refl Ly Sg j k Ek) as (d & Ed & Pd). rewrite Ed in Vj. change (s_mul Xn (sc_f unit_sc) (Fin x)) with (Fin (1 * x)) in Vj. injection Vj as Vj.
    assert (x = d) as -> by lra.
    assert (B : Rabs d <= 1000000 * m). { apply (N2 k); [eapply nth_error_In; eauto|]. eapply pd_at; [|apply now_point|exact Pd]. intros a b0 w E. apply cost_ext, E. }
    rewrite Rabs_mult, (Rabs_right f) in Vx by lra. assert (f * Rabs d <= f * (1000000 * m)) by (apply Rmult_le_compat_l; lra). lra. }
  split; [exact Ex|]. split; [exact Qe|]. split; [|split; [|split; [|split]]].
  - intros y Ly. destruct (K y Ly (Sm y Ly)) as ((v & V & Ev) & _). unfold fv. rewrite Ev. do 2 f_equal. exact (cost_det _ _ _ _ V (cnum_is sp _ (proj1 (Sm y Ly)))).
  - intros y Ly. destruct (K y Ly (Sm y Ly)) as (_ & G & _). destruct (grad_real _ _ _ _ G) as (g & Eg & Lg & Hg). split; [|unfold grad; rewrite !map_length; reflexivity]. unfold fv at 1. rewrite Eg. f_equal.
    apply list_eq; [rewrite Lg; unfold grad; rewrite !map_length; reflexivity|]. intros i Li. rewrite Lg in Li. destruct (Hg i _ (nth_error_of (sp_dec sp) i 0%nat Li)) as (d & Ed & Pd). rewrite Ed.
    rewrite (nth_map_lt (Rmult f) (grad sp y) i 0 0) by (unfold grad; rewrite map_length; exact Li). f_equal. rewrite grad_nth by exact Li.
    exact (pd_fun _ _ _ _ _ (fun r v w => cost_det sp r v w) Pd (pd_cnum sp _ _ (proj1 (Sm y Ly)))).
  - intros y Ly. assert (Lf : length (fv y) = np_n P) by (rewrite fv_len, En; exact Ly). pose proof (Dm (fv y) Lf) as Dy. rewrite En in Dy. exact Dy.
  - intros y Ly. destruct (K y Ly (Sm y Ly)) as (_ & _ & Hh). pose proof (hess_fin _ _ _ _ Hh) as Fh. destruct Hh as ((S1 & S2) & Hh).
    assert (exists A, np_H P (fv y) = fm A) as (A & EA).
    { clear - Fh. unfold fv in *. induction (np_H P (map Fin y)) as [|w M IH]; [exists []; reflexivity|]. inversion Fh as [|? ? F1 F2]; subst. destruct (IH F2) as (A & ->). destruct (vfin_real _ F1) as (r & ->). exists (r :: A). reflexivity. }
    unfold Amat. change (map Fin y) with (fv y) in *. rewrite EA in *. rewrite pr_fm. unfold fm in S1, S2. rewrite map_length in S1. split; [reflexivity|]. split; [exact S1|].
    intros w Iw. specialize (S2 (fv w) (in_map fv _ _ Iw)). rewrite fv_len in S2. exact S2.
  - intros y Ly. destruct (K y Ly (Sm y Ly)) as (_ & _ & Hh). pose proof (hess_fin _ _ _ _ Hh) as Fh. destruct Hh as ((S1 & S2) & Hh).
    assert (exists A, np_H P (fv y) = fm A) as (A & EA).
    { clear - Fh. unfold fv in *. induction (np_H P (map Fin y)) as [|w M IH]; [exists []; reflexivity|]. inversion Fh as [|? ? F1 F2]; subst. destruct (IH F2) as (A & ->). destruct (vfin_real _ F1) as (r & ->). exists (r :: A). reflexivity. }
    unfold Amat. change (map Fin y) with (fv y) in *. rewrite EA in *. rewrite pr_fm. unfold fm in S1, S2, Hh. rewrite map_length in S1.
    destruct (cdn_derive sp _ (proj1 (Sm y Ly))) as (M & [_ _ Bs] & D). set (Q := fun i j => M (unit (nth i (sp_dec sp) 0%nat)) (unit (nth j (sp_dec sp) 0%nat))).
    assert (PQ : forall i j, pd (nth j (sp_dec sp) 0%nat) (pd (nth i (sp_dec sp) 0%nat) (cost_is sp)) (point sp y) (Q i j)) by (intros i j; apply pd_cnum2; [exact (proj1 (Sm y Ly))|exact D]).
    assert (Kk : forall i j, (i < n)%nat -> (j <= i)%nat -> nth j (nth i A []) 0 = f * Q i j).
    { intros i j Li Lj. assert (Lj' : (j < n)%nat) by lia. destruct (Hh i j _ _ (nth_error_of (sp_dec sp) i 0%nat Li) (nth_error_of (sp_dec sp) j 0%nat Lj')) as [Hh1 _]. destruct (Hh1 Lj) as (d & Ed & Pd).
      apply pd_unscale2 in Pd; [|lra]. assert (d / f = Q i j) as <-. { refine (pd_fun _ _ _ _ _ _ Pd (PQ i j)). intros r v w. apply pd_fun. intros r' v' w'. apply cost_det. }
      replace (f * (d / f)) with d by (field; lra).
      unfold at2 in Ed. rewrite (nth_map_lt fv A i [] []) in Ed by (rewrite S1; exact Li). unfold fv in Ed. rewrite (nth_map_lt Fin _ j 0 NaN) in Ed; [injection Ed as Ed; exact Ed|].
      specialize (S2 (fv (nth i A [])) (in_map fv _ _ (nth_In A [] ltac:(rewrite S1; exact Li)))). rewrite fv_len in S2. rewrite S2. exact Lj'. }
    exists Q. split; [intros i j _ _; apply PQ|].
    intros v. rewrite <- form_scale. apply form_ext. intros i j Li Lj. unfold low. destruct (Nat.le_ge_cases j i) as [C|C].
    + rewrite (Nat.min_r i j C), (Nat.max_l i j C). apply Kk; lia.
    + rewrite (Nat.min_l i j C), (Nat.max_r i j C). rewrite Kk by lia. f_equal. apply Bs.
Qed.
End Given.

Lemma shrink_scale f m L : 0 < f -> 0 < L -> rate (f * m) (f * L) = shrink m L.
Proof. intros Pf PL. unfold rate, shrink. replace (f * m * (f * m) / (100000000 * (f * L) * (f * L))) with (m * m / (100000000 * L * L)) by (field; lra). reflexivity. Qed.
Lemma norm_scale k f (g : list R) : length g = k -> norm_sq k (fun i => (map (Rmult f) g).[i]) = f * f * norm_sq k (fun i => g.[i]).
Proof. intros Lg. unfold norm_sq. rewrite <- sumn_scal. apply sumn_ext. intros i Li. rewrite (nth_map_lt (Rmult f) g i 0 0) by lia. ring. Qed.
Lemma grad_len sp y : length (grad sp y) = size sp.
Proof. unfold grad. apply map_length. Qed.
Lemma grad_at sp y : smooth_everywhere sp -> length y = size sp -> gradient_at sp y (grad sp y).
Proof.
  intros Sm Ly. split; [apply grad_len|]. intros j k Hk. assert (Lj : (j < size sp)%nat) by (apply nth_error_Some; unfold size in *; congruence). rewrite grad_nth by exact Lj. rewrite (nth_error_nth _ _ 0%nat Hk). apply pd_cnum, (proj1 (Sm y Ly)).
Qed.
Lemma sq_bound a b : 0 <= b -> a * a <= b * b -> Rabs a <= b.
Proof. intros Pb H. apply Rsqr_le_abs_0 in H. rewrite (Rabs_right b) in H by lra. exact H. Qed.

Section Solve.
Context {U : Type}.
Variables (fl : nat) (E0 : env Xn) (o : options Xn) (t : R) (sp : spec) (m L : R).
Hypothesis Ht : o_tol o = Fin t.
Hypothesis Pt : 0 < t.
Hypothesis Sm : smooth_everywhere sp.
Hypothesis Cu : curved sp m L.
Hypothesis Ns : not_steep sp m.
Hypothesis PL : m <= L <= m * 1000000000000000000.
Let n := size sp.
Let E := with_ldl fl E0.

Lemma scaled_low f : 0 < f -> NoDup (sp_dec sp) -> forall y z, length y = n -> length z = n ->
  f * cnum sp (point sp y) + sumn n (fun i => (map (Rmult f) (grad sp y)).[i] * (z.[i] - y.[i])) + f * m / 2 * norm_sq n (fun i => z.[i] - y.[i]) <= f * cnum sp (point sp z).
Proof.
  intros Pf Nd y z Ly Lz. pose proof (taylor_low sp Sm Nd m (fun y Q L H v => proj1 (Cu y Q L H v)) y z Ly Lz) as T. fold n in T.
  replace (sumn n (fun i => (map (Rmult f) (grad sp y)).[i] * (z.[i] - y.[i]))) with (f * sumn n (fun i => (grad sp y).[i] * (z.[i] - y.[i]))).
  - apply (Rmult_le_compat_l f) in T; lra.
  - rewrite <- sumn_scal. apply sumn_ext. intros i Li. rewrite (nth_map_lt (Rmult f) (grad sp y) i 0 0) by (rewrite grad_len; exact Li). ring.
Qed.
Lemma scaled_high f : 0 < f -> NoDup (sp_dec sp) -> forall y z, length y = n -> length z = n ->
  f * cnum sp (point sp z) <= f * cnum sp (point sp y) + sumn n (fun i => (map (Rmult f) (grad sp y)).[i] * (z.[i] - y.[i])) + f * L / 2 * norm_sq n (fun i => z.[i] - y.[i]).
Proof.
  intros Pf Nd y z Ly Lz. pose proof (taylor_high sp Sm Nd L (fun y Q L H v => proj2 (Cu y Q L H v)) y z Ly Lz) as T. fold n in T.
  replace (sumn n (fun i => (map (Rmult f) (grad sp y)).[i] * (z.[i] - y.[i]))) with (f * sumn n (fun i => (grad sp y).[i] * (z.[i] - y.[i]))).
  - apply (Rmult_le_compat_l f) in T; lra.
  - rewrite <- sumn_scal. apply sumn_ext. intros i Li. rewrite (nth_map_lt (Rmult f) (grad sp y) i 0 0) by (rewrite grad_len; exact Li). ring.
Qed.
Lemma not_steep_flat f y : 0 < f -> length y = n -> ~ is_steep t n f (fun y => map (Rmult f) (grad sp y)) y -> flat sp t y.
Proof.
  intros Pf Ly N k d Hk Pd. apply (In_nth _ _ 0%nat) in Hk as (i & Li & <-). rewrite (pd_fun _ _ _ _ _ (fun r v w => cost_det sp r v w) Pd (pd_cnum sp _ _ (proj1 (Sm y Ly)))). rewrite <- grad_nth by exact Li.
  destruct (Rle_lt_dec (Rabs (grad sp y).[i]) t) as [C|C]; [exact C|exfalso]. apply N. exists i. split; [exact Li|]. rewrite (nth_map_lt (Rmult f) (grad sp y) i 0 0) by (rewrite grad_len; exact Li). replace (f * (grad sp y).[i] / f) with ((grad sp y).[i]) by (field; lra). exact C.
Qed.
Lemma can_eq rho : can_be sp rho -> exists z, length z = n /\ point sp z = rho.
Proof. intros C. exists (map rho (sp_dec sp)). split; [apply map_length|]. extensionality k. apply can_point, C. Qed.
Lemma now_eq : point sp (now sp) = se_val (sp_se sp). Proof. extensionality k. apply now_point. Qed.
Lemma cost_cnum y v : length y = n -> cost_is sp (point sp y) v -> v = cnum sp (point sp y).
Proof. intros Ly H. exact (cost_det _ _ _ _ H (cnum_is sp _ (proj1 (Sm y Ly)))). Qed.

Section Ran.
Variables (P : nprob Xn) (f : R) (all : list (callback Xn U)).
Hypothesis Nd : NoDup (sp_dec sp).
Hypothesis En : np_n P = n.
Hypothesis Pf : 0 < f.
Hypothesis Pm : 1 / 10000 <= f * m.
Let V := fun y => f * cnum sp (point sp y).
Let G := fun y => map (Rmult f) (grad sp y).
Hypothesis Hg : forall y, length y = n -> np_g P (fv y) = fv (G y) /\ length (G y) = n.
Let PL' : f * m <= f * L <= f * m * 1000000000000000000.
Proof. split; [apply Rmult_le_compat_l; lra|]. rewrite Rmult_assoc. apply Rmult_le_compat_l; lra. Qed.
Let Pmm : 0 < m. Proof. destruct Ns. lra. Qed.

Lemma ran_within ys y : run_so_far t n f (f * m) (f * L) V G (now sp) ys y -> forall k a, nth_error ys k = Some a -> length a = n /\ within sp (shrink m L ^ k) a.
Proof.
  intros S k a Ha. destruct (run_rate t P n f (f * m) (f * L) V G En Pm PL' (scaled_low f Pf Nd) (now sp) ys y S k a Ha) as [La R]. split; [exact La|].
  intros rho v0 v w C H0 Hv Hw. destruct (can_eq rho C) as (z & Lz & <-). rewrite <- now_eq in H0. rewrite (cost_cnum _ _ (now_len sp) H0), (cost_cnum _ _ La Hv), (cost_cnum _ _ Lz Hw).
  specialize (R z Lz). rewrite shrink_scale in R by lra. unfold V in R. apply Rmult_le_reg_l with f; [exact Pf|]. lra.
Qed.
Lemma ran_low ys y : run_so_far t n f (f * m) (f * L) V G (now sp) ys y -> forall k a, nth_error ys k = Some a -> V a <= V (now sp).
Proof.
  intros S k a Ha. destruct (run_rate t P n f (f * m) (f * L) V G En Pm PL' (scaled_low f Pf Nd) (now sp) ys y S k a Ha) as [La R]. specialize (R (now sp) (now_len sp)). lra.
Qed.
Lemma ran_near ys y : near sp m -> run_so_far t n f (f * m) (f * L) V G (now sp) ys y -> forall k a, nth_error ys k = Some a -> forall i, (i < n)%nat -> Rabs a.[i] <= 10000000000.
Proof.
  intros Nr S k a Ha i Li. pose proof (ran_low ys y S k a Ha) as Lo. destruct (ran_within ys y S k a Ha) as [La _].
  destruct (Nr (grad sp (now sp)) (grad_at sp (now sp) Sm (now_len sp))) as (r & Pr & Hr & Hb). specialize (Hb i Li).
  pose proof (taylor_low sp Sm Nd m (fun y Q L H v => proj1 (Cu y Q L H v)) (now sp) a (now_len sp) La) as T. fold n in T. unfold V in Lo. apply Rmult_le_reg_l in Lo; [|exact Pf].
  set (h := fun i => a.[i] - (now sp).[i]) in *. set (N := norm_sq n h) in *. set (s := sumn n (fun i => (grad sp (now sp)).[i] * (a.[i] - (now sp).[i]))) in *.
  (* Cauchy-Schwarz in the form of a square *)
  assert (PN : 0 <= N) by apply norm_sq_pos.
  assert (Q : forall c, 0 <= norm_sq n (fun i => (grad sp (now sp)).[i]) * c * c + 2 * c * s + N).
  { intros c. replace (_ + _ + _) with (norm_sq n (fun i => c * (grad sp (now sp)).[i] + h i)); [apply norm_sq_pos|]. unfold norm_sq, N, s. fold (norm_sq n h). unfold norm_sq. rewrite (Rmult_comm _ c), <- !sumn_scal, (Rmult_comm _ c), <- !sumn_scal, <- !sumn_plus. apply sumn_ext. intros j _. unfold h. ring. }
  assert (Dist : N <= (2 * r / m) * (2 * r / m)).
  { specialize (Q (2 / m)). assert (m / 2 * N <= - s) by lra. assert (2 / m * (m / 2 * N) <= 2 / m * - s) by (apply Rmult_le_compat_l; [apply Rlt_le, Rdiv_lt_0_compat; lra|exact H]).
    replace (2 / m * (m / 2 * N)) with N in H0 by (field; lra).
    assert (norm_sq n (fun i => (grad sp (now sp)).[i]) * (2 / m) * (2 / m) <= r * r * (2 / m) * (2 / m)). { assert (0 < 2 / m) by (apply Rdiv_lt_0_compat; lra). apply Rmult_le_compat_r; [lra|]. apply Rmult_le_compat_r; [lra|exact Hr]. }
    replace (2 * r / m * (2 * r / m)) with (r * r * (2 / m) * (2 / m)) by (field; lra). lra. }
  assert (Pr2 : 0 <= 2 * r / m) by (apply Rmult_le_pos; [lra|apply Rlt_le, Rinv_0_lt_compat, Pmm]).
  assert (Hi : Rabs (h i) <= 2 * r / m). { apply sq_bound; [exact Pr2|]. eapply Rle_trans; [|exact Dist]. apply (sumn_elem n (fun i => h i * h i) i); [intros; apply Rle_0_sqr|exact Li]. }
  replace (a.[i]) with ((now sp).[i] + h i) by (unfold h; ring). eapply Rle_trans; [apply Rabs_triang|]. lra.
Qed.
Lemma flat_best y : length y = n -> flat sp t y -> nearly_best sp (INR n * (t * t) / (2 * m)) y.
Proof.
  intros Ly Fl rho v w C Hv Hw. destruct (can_eq rho C) as (z & Lz & <-). rewrite (cost_cnum _ _ Ly Hv), (cost_cnum _ _ Lz Hw).
  pose proof (low_end n (f * m) V G Pm (scaled_low f Pf Nd) y z Ly Lz) as K. unfold steep2, G in K. rewrite norm_scale in K by apply grad_len. unfold V in K.
  assert (B : norm_sq n (fun i => (grad sp y).[i]) <= INR n * (t * t)).
  { unfold norm_sq. eapply Rle_trans; [apply (sumn_le n _ (fun _ => t * t))|].
    - intros i Li. assert (Hi : Rabs (grad sp y).[i] <= t). { rewrite grad_nth by exact Li. apply (Fl (nth i (sp_dec sp) 0%nat)); [apply nth_In, Li|apply pd_cnum, (proj1 (Sm y Ly))]. }
      replace ((grad sp y).[i] * (grad sp y).[i]) with (Rabs (grad sp y).[i] * Rabs (grad sp y).[i]) by (rewrite <- Rabs_mult; apply Rabs_right, Rle_ge, Rle_0_sqr). apply Rmult_le_compat; auto using Rabs_pos.
    - clear. induction n as [|k IH]; [cbn; lra|]. cbn [sumn]. rewrite S_INR. lra. }
  assert (2 * m * (cnum sp (point sp y) - cnum sp (point sp z)) <= INR n * (t * t)).
  { apply Rmult_le_reg_l with (f * f); [apply Rmult_lt_0_compat; exact Pf|]. assert (f * f * norm_sq n (fun i => (grad sp y).[i]) <= f * f * (INR n * (t * t))) by (apply Rmult_le_compat_l; [apply Rle_0_sqr|exact B]). lra. }
  assert (cnum sp (point sp y) - cnum sp (point sp z) <= INR n * (t * t) / (2 * m)); [|lra]. apply Rmult_le_reg_l with (2 * m); [lra|]. replace (2 * m * (INR n * (t * t) / (2 * m))) with (INR n * (t * t)) by (field; lra). exact H.
Qed.
End Ran.

Lemma c97 (all : list (callback Xn U)) st x l : ended_newton E o all sp st x l -> exists ys y, nth_error ys 0 = Some (now sp) /\ nth_error ys (length ys - 1) = Some y /\ x = map Fin y /\
  (forall c, In c l -> shows_point ys c) /\ (forall k a, nth_error ys k = Some a -> length a = size sp /\ within sp (shrink m L ^ k) a) /\
  ((st = SUCCESS /\ flat sp t y /\ nearly_best sp (INR (size sp) * (t * t) / (2 * m)) y) \/ (st = DIVERGING_ITERATES /\ exists i, (i < size sp)%nat /\ 10000000000 < Rabs y.[i]) \/ (st = CALLBACK_REQUESTED_STOP /\ all <> []) \/
   (st = MAX_ITERATIONS_EXCEEDED /\ (o_max o <= Z.of_nat (length ys - 1))%Z) \/ (st = TIMEOUT /\ exists i j, s_ltb Xn (o_timeout o) (s_sub Xn (e_clock E j) (e_clock E i)) = true)).
Proof.
  intros [p P x0 p1 fuel u clk s fin Lv Hp H]. pose proof (quad_nodup sp p Lv) as Nd. destruct (rate_gives sp p m Lv Sm Ns P x0 p1 Hp) as (f & En & Es & Pf & Fm & -> & Qe & Hf & Hg & Md & HH & HQ).
  assert (PL' : f * m <= f * L <= f * m * 1000000000000000000) by (split; [apply Rmult_le_compat_l; lra|rewrite Rmult_assoc; apply Rmult_le_compat_l; lra]).
  pose proof (newton_rate fl E0 o t P (log_all all) snd n f (f * m) (f * L) (fun y => f * cnum sp (point sp y)) (fun y => map (Rmult f) (grad sp y)) (Amat P) (fun i w c => log_new 0 all i w c) En Es Pf Ht Pt Fm PL' Hf Hg HH) as K.
  assert (Hm : forall y, length y = n -> definite n (low (Amat P y)) (f * m)).
  { intros y Ly v. destruct (HQ y Ly) as (Q & PQ & ->). rewrite Rmult_assoc. apply Rmult_le_compat_l; [lra|]. apply (Cu y Q Ly PQ v). }
  assert (HL : forall y v, length y = n -> form n (low (Amat P y)) v <= f * L * norm_sq n v).
  { intros y v Ly. destruct (HQ y Ly) as (Q & PQ & ->). rewrite Rmult_assoc. apply Rmult_le_compat_l; [lra|]. apply (Cu y Q Ly PQ v). }
  specialize (K Hm HL (scaled_low f Pf Nd) (scaled_high f Pf Nd) fuel (now sp) (u, []) clk (now_len sp) (Md _ (now_len sp)) eq_refl). destruct K as [K _]. apply K in H. clear K.
  destruct H as (ys & y & S & Ex & Lg & Hs). exists ys, y. split; [apply S|]. split; [apply S|]. split; [exact Ex|]. split; [exact Lg|]. pose proof (ran_within P f Nd En Pf Fm ys y S) as W. split; [exact W|].
  pose proof (rs_n _ _ _ _ _ _ _ _ _ _ S) as Ly.
  destruct Hs as [(-> & Ns')|[(-> & B)|[(-> & B)|[(-> & B)|(-> & k & B)]]]]; [left|right; left|right; right; left|right; right; right; left|right; right; right; right]; (split; [reflexivity|]); auto.
  1: assert (flat sp t y) by (eapply not_steep_flat; eassumption); split; [assumption|]; eapply flat_best; eassumption.
  1: intros ->; apply B; reflexivity.
  exists clk, k. exact B.
Qed.

Lemma c97_solve K fuel p (u : U) clk : lived sp p -> sp_eqs sp = [] -> sp_ineqs sp = [] -> enough sp m L t K -> near sp m -> (60 < fuel)%nat -> (K < fuel)%nat -> (Z.of_nat K < o_max o)%Z ->
  (forall i, s_ltb Xn (o_timeout o) (s_sub Xn (e_clock E i) (e_clock E clk)) = false) ->
  exists p' y, solve E o fuel [] [] p u clk = Ok (SUCCESS, p') /\ lived (at_point sp y) p' /\ length y = size sp /\ flat sp t y /\ nearly_best sp (INR (size sp) * (t * t) / (2 * m)) y.
Proof.
  intros Lv Qe Qi En' Nr Lf LK Hmx Hto. destruct (prepare_total sp p Lv Qi) as (rn & x0 & p1 & Hp). destruct (solve_picks sp p rn x0 p1 Lv Hp) as (tf & te & ti & _ & _ & _ & _ & M).
  destruct (lived_ok _ _ Lv) as [Ip Lp]. destruct (prepare_inv sp p _ x0 p1 Ip Lp Hp) as (I1 & L1 & E00 & _ & _). pose proof (quad_nodup sp p Lv) as Nd.
  assert (Pmm : 0 < m) by (destruct Ns; lra).
  assert (Go : exists p' y, solve E o fuel [] [] p u clk = Ok (SUCCESS, p') /\ (forall x, final E o fuel ([] ++ []) u clk rn x0 SUCCESS x -> x = map Fin y) /\ length y = size sp /\ flat sp t y /\ nearly_best sp (INR (size sp) * (t * t) / (2 * m)) y).
  { unfold solve. rewrite Hp. cbn [obind]. destruct rn as [|P|P|P|]; cbv beta iota; cbn [app].
    - exists p1, (now sp). split; [reflexivity|]. split; [intros x [_ ->]; exact E00|]. split; [apply now_len|]. destruct (c35_none sp p RanNone x0 p1 Lv Hp) as [_ Cn]. specialize (Cn eq_refl). split.
      + intros k d Hk Pd. replace d with 0; [rewrite Rabs_R0; lra|]. symmetry. apply (pd_fun k (cost_is sp) _ d 0 (fun rho v w => cost_det sp rho v w) Pd).
        pose proof (proj1 (Sm (now sp) (now_len sp))) as Sg. exists (fun _ => cnum sp (point sp (now sp))). split; [|exact (is_derive_const _ _)].
        eapply OpDeriv.loc_mono; [|exact (RateCost.goal_open sp _ k Sg)]. intros r Hr. cbn in Hr. rewrite (proj1 (Cn _ _) _ _ (cnum_is sp _ Sg) (cnum_is sp _ Hr)). apply cnum_is, Hr.
      + intros rho v w _ Hv Hw. rewrite (proj1 (Cn _ _) _ _ Hv Hw). assert (0 <= INR (size sp) * (t * t) / (2 * m)); [|lra]. apply Rmult_le_pos; [apply Rmult_le_pos; [apply pos_INR|apply Rle_0_sqr]|apply Rlt_le, Rinv_0_lt_compat; lra].
    - destruct (rate_gives sp p m Lv Sm Ns P x0 p1 Hp) as (f & En & Es & Pf & Fm & Ex0 & _ & Hf & Hg & Md & HH & HQ). rewrite Ex0.
      assert (PL' : f * m <= f * L <= f * m * 1000000000000000000) by (split; [apply Rmult_le_compat_l; lra|rewrite Rmult_assoc; apply Rmult_le_compat_l; lra]).
      assert (Hm : forall y, length y = n -> definite n (low (Amat P y)) (f * m)).
      { intros y Ly v. destruct (HQ y Ly) as (Q & PQ & ->). rewrite Rmult_assoc. apply Rmult_le_compat_l; [lra|]. apply (Cu y Q Ly PQ v). }
      assert (HL : forall y v, length y = n -> form n (low (Amat P y)) v <= f * L * norm_sq n v).
      { intros y v Ly. destruct (HQ y Ly) as (Q & PQ & ->). rewrite Rmult_assoc. apply Rmult_le_compat_l; [lra|]. apply (Cu y Q Ly PQ v). }
      pose proof (newton_rate fl E0 o t P (@nil (callback Xn U)) (fun _ => []) n f (f * m) (f * L) (fun y => f * cnum sp (point sp y)) (fun y => map (Rmult f) (grad sp y)) (Amat P)
        (fun i w c (H : In c []) => match H with end) En Es Pf Ht Pt Fm PL' Hf Hg HH Hm HL (scaled_low f Pf Nd) (scaled_high f Pf Nd) fuel (now sp) u clk (now_len sp) (Md _ (now_len sp)) eq_refl) as [K1 K2].
      assert (En3 : f * L / (f * m) * rate (f * m) (f * L) ^ K * steep2 n (fun y => map (Rmult f) (grad sp y)) (now sp) <= t * t * (f * f)).
      { pose proof (En' (grad sp (now sp)) (grad_at sp (now sp) Sm (now_len sp))) as En2. rewrite shrink_scale by lra. unfold steep2. rewrite norm_scale by apply grad_len.
        replace (f * L / (f * m)) with (L / m) by (field; lra). fold n in En2. apply (Rmult_le_compat_l (f * f)) in En2; [|apply Rle_0_sqr]. lra. }
      destruct (K2 K En3 Lf LK) as (st & fin & Hn).
      fold E in Hn. rewrite Hn. cbn [obind]. destruct (K1 st fin Hn) as (ys & y & S & Ey & _ & Hs). pose proof (rs_n _ _ _ _ _ _ _ _ _ _ S) as Ly.
      destruct (ProbSolveTotal.write_total sp p1 (n_x E fin) I1 L1) as (p' & W); [fold E in Ey; rewrite Ey; etransitivity; [apply fv_len|]; exact (eq_trans Ly (eq_sym (dec_len (S := Xn) sp p1 L1)))|]. rewrite W. cbn [obind]. exists p', y.
      destruct Hs as [(-> & Ns')|[(-> & i & Li & B)|[(-> & B)|[(-> & B)|(-> & k & B)]]]].
      + split; [reflexivity|]. split; [intros x (fin' & Hn' & ->); cbn [app] in Hn'; rewrite Hn in Hn'; injection Hn' as <-; exact Ey|]. split; [exact Ly|].
        assert (flat sp t y) by (eapply not_steep_flat; eassumption). split; [assumption|]. eapply flat_best; eassumption.
      + exfalso. pose proof (ran_near P f Nd En Pf Fm ys y Nr S _ _ (rs_l _ _ _ _ _ _ _ _ _ _ S) i Li). lra.
      + exfalso. apply B. reflexivity.
      + exfalso. pose proof (run_count t P n f (f * m) (f * L) _ _ En Pf Pt Fm PL' Hg (scaled_low f Pf Nd) (scaled_high f Pf Nd) _ _ _ K S En3). lia.
      + exfalso. unfold E in Hto. congruence.
    - destruct M as [M _]. contradiction.
    - contradiction.
    - contradiction. }
  destruct Go as (p' & y & Hs & Hx & Ly & Q). exists p', y. split; [exact Hs|]. split; [|split; [exact Ly|exact Q]].
  destruct (c35 E o fuel [] [] sp p u clk _ _ Lv Hs) as (rn' & x0' & p1' & x & tf' & te' & ti' & Hp' & _ & _ & _ & _ & _ & _ & Fi & _ & _ & _ & _ & _ & _ & _ & _ & Li). rewrite Hp in Hp'. injection Hp' as <- <- <-. apply Li, Hx, Fi.
Qed.
End Solve.

Lemma c97_enough sp m L t : smooth_everywhere sp -> 0 < m <= L -> 0 < t -> exists K, enough sp m L t K.
Proof.
  intros Sm Pm Pt. assert (Sh : 0 < shrink m L < 1). { unfold shrink. assert (0 < m * m / (100000000 * L * L) < 1); [|lra]. assert (0 < m * m) by (apply Rmult_lt_0_compat; lra). assert (m * m <= L * L) by (apply Rmult_le_compat; lra).
    split; [apply Rdiv_lt_0_compat; lra|]. apply Rmult_lt_reg_r with (100000000 * L * L); [lra|]. replace (m * m / (100000000 * L * L) * (100000000 * L * L)) with (m * m) by (field; lra). lra. }
  set (N := norm_sq (size sp) (fun i => (grad sp (now sp)).[i])). assert (PN : 0 <= N) by apply norm_sq_pos. assert (PLm : 0 < L / m) by (apply Rdiv_lt_0_compat; lra).
  assert (PB : 0 < L / m * (N + 1)) by (apply Rmult_lt_0_compat; lra). assert (Pt2 : 0 < t * t) by (apply Rmult_lt_0_compat; lra).
  destruct (pow_lt_1_zero (shrink m L) ltac:(rewrite Rabs_right; lra) (t * t / (L / m * (N + 1))) ltac:(apply Rdiv_lt_0_compat; lra)) as (K & HK). specialize (HK K (le_n K)). exists K. intros g Hg.
  assert (g = grad sp (now sp)) as ->.
  { apply list_eq; [rewrite grad_len; exact (proj1 Hg)|]. intros i Li. rewrite (proj1 Hg) in Li. pose proof (grad_at sp (now sp) Sm (now_len sp)) as Gr.
    exact (pd_fun _ _ _ _ _ (fun r v w => cost_det sp r v w) (proj2 Hg i _ (nth_error_of (sp_dec sp) i 0%nat Li)) (proj2 Gr i _ (nth_error_of (sp_dec sp) i 0%nat Li))). }
  fold N. assert (Pk : 0 < shrink m L ^ K) by (apply pow_lt; lra). rewrite Rabs_right in HK by lra. apply (Rmult_lt_compat_r (L / m * (N + 1))) in HK; [|exact PB].
  replace (t * t / (L / m * (N + 1)) * (L / m * (N + 1))) with (t * t) in HK by (field; lra). assert (0 < shrink m L ^ K * (L / m)) by (apply Rmult_lt_0_compat; lra). lra.
Qed.
