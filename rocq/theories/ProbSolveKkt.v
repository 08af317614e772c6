(** Proofs for C80: the scaled derivatives handed to each solver. *)
From Coq Require Import ZArith Reals List Bool Arith Lia Lra.
From Verif Require Import Base ExprModel GraphSpec GraphProofs ExprInv VarModel VarReach VarProofs ExprReal ExprXR MathSpec MathProofs VarSpec Faith FaithX HistProofs
  JacModel JacProofs JacReach JacHist JacSame NumModel UtilModel UtilSpec ScaleProofs LinR KktModel KktSpec KktProofs BoundsModel ExitModel SolverModel SolverSpec SolverProofs NewtonModel
  SqpModel SqpSpec SqpProofs IpmModel IpmShape IpmSpec IpmProofs RestoreModel RestoreProofs PosX OutcomeProofs
  FinEval ProblemModel ProblemSpec ProblemInv ProblemProofs ProblemProofs2 ProblemProofs3 ProblemProofs4 ProbSolveModel ProbSolveInv ProbSolveEval ProbSolveSpec ProbSolveProofs ProbSolvePrep
  ProbSolveHist ProbSolveEnd ProbSolveLived ProbSolveFinal ProbSolveFacts DiffSpec SmoothSpec SmoothGraph SmoothUser LagrSpec ProbSolveMade ProbSolveDeriv ProbSolveDims.
Import ListNotations.
Local Open Scope nat_scope.

Lemma smooth_ext sp rho rho' : (forall k, rho k = rho' k) -> prob_smooth sp rho -> prob_smooth sp rho'.
Proof.
  intros E (A & B & C). assert (G : forall l, all_smooth rho l -> all_smooth rho' l).
  { intros l. apply List.Forall_impl. intros r [(a & Ha) (b & Hb)]. split; [exists a|exists b]; eapply XSm_ext; eauto. }
  split; [|split; auto]. unfold goal_smooth in *. destruct (sp_goal sp) as [[mx x]|]; [|exact I]. destruct A as (v & A). exists v. eapply XSm_ext; eauto.
Qed.
Lemma all_fin_nth (l : list XR) : (forall j, j < length l -> exists v, nth j l NaN = Fin v) -> all_fin (S := Xn) l = true.
Proof.
  intros H. apply forallb_forall. intros x I. destruct (In_nth l x NaN I) as (j & L & <-). destruct (H j L) as (v & ->). reflexivity.
Qed.
Lemma dims_shape r n (A : list (list XR)) : mat_dims (S := Xn) r n A = true -> shape r n A.
Proof. intros H. apply mat_dims_ok in H as [H1 H2]. split; assumption. Qed.
Lemma mat_fin_nth r n (A : list (list XR)) : mat_dims (S := Xn) r n A = true -> (forall i j, i < r -> j < n -> exists v, at2 A i j = Fin v) -> mat_fin (S := Xn) A = true.
Proof.
  intros D H. apply mat_dims_ok in D as [D1 D2]. apply forallb_forall. intros w I. destruct (In_nth A w [] I) as (i & L & <-). apply all_fin_nth.
  assert (Q : length (nth i A []) = n) by exact (D2 _ I). assert (Q1 : length A = r) by exact D1. assert (Q2 : i < length A) by exact L. intros j Lj. apply H; lia.
Qed.
Lemma nth_some {A} (l : list A) i : i < length l -> exists x, nth_error l i = Some x.
Proof. intros H. destruct (nth_error l i) eqn:E; [eauto|]. apply nth_error_None in E. lia. Qed.

Section One.
Variables (kd : kind) (sp : spec) (p : prog X_ops) (nodes : list nat) (t : setup) (q : jstate X_ops).

Hypothesis Lp : plink sp p.
Hypothesis Rd : ready (S := Xn) kd p nodes t q.
Hypothesis Dec : Forall2 (decides (p_env p) (p_st p)) (p_dec p) nodes.
Let n := length (p_dec p).

Lemma k_dec : n = length (sp_dec sp).
Proof. exact (dec_len (S := Xn) sp p Lp). Qed.
Lemma k_eqs : length (p_eq p) = length (sp_eqs sp) /\ length (p_ineq p) = length (sp_ineqs sp).
Proof. destruct Lp as (E & dv & _ & T). split; [exact (f2len _ _ _ (t_eqs _ _ _ T))|exact (f2len _ _ _ (t_ineqs _ _ _ T))]. Qed.
Lemma k_ces : length (t_ce t) = length (p_eq p) /\ length (t_ci t) = length (p_ineq p).
Proof. split; symmetry; [exact (f2len _ _ _ (rd_ce _ _ _ _ _ Rd))|exact (f2len _ _ _ (rd_ci _ _ _ _ _ Rd))]. Qed.

Lemma k_g (sc : scaling Xn) sf (y : list R) : sc_f sc = Fin sf -> length y = n -> goal_smooth sp (point sp y) ->
  forall j k, nth_error (sp_dec sp) j = Some k -> exists d, nth j (cb_g (S := Xn) n t q sc (map Fin y)) NaN = Fin (sf * d)%R /\ pd k (cost_is sp) (point sp y) d.
Proof. destruct Lp as (E & dv & L & T). exact (user_g (S := Xn) (FS := faith_X) (FS2 := faith2_X) kd sp p nodes t q Rd Dec E dv L T sc sf y NaN). Qed.

Lemma k_Ae (sc : list XR) (ss y : list R) : kd <> KNewton -> sc = map Fin ss -> length ss = length (t_ce t) -> length y = n -> all_smooth (point sp y) (sp_eqs sp) ->
  forall i r j k, nth_error (sp_eqs sp) i = Some r -> nth_error (sp_dec sp) j = Some k ->
    exists d, at2 (cb_A (S := Xn) n t q (t_Ae t) (length (t_ce t)) sc (map Fin y)) i j = Fin (nth i ss 0 * d)%R /\ pd k (gap_fn r) (point sp y) d.
Proof.
  intros Hk. destruct Lp as (E & dv & L & T).
  exact (user_A (S := Xn) (FS := faith_X) (FS2 := faith2_X) kd sp p nodes t q Rd Dec E dv L T true _ _ _ _ sc ss y NaN (rd_Ae _ _ _ _ _ Rd Hk) (rd_ce _ _ _ _ _ Rd) (t_eqs _ _ _ T)).
Qed.
Lemma k_Ai (sc : list XR) (ss y : list R) : kd = KIpm -> sc = map Fin ss -> length ss = length (t_ci t) -> length y = n -> all_smooth (point sp y) (sp_ineqs sp) ->
  forall i r j k, nth_error (sp_ineqs sp) i = Some r -> nth_error (sp_dec sp) j = Some k ->
    exists d, at2 (cb_A (S := Xn) n t q (t_Ai t) (length (t_ci t)) sc (map Fin y)) i j = Fin (nth i ss 0 * d)%R /\ pd k (gap_fn r) (point sp y) d.
Proof.
  intros Hk. destruct Lp as (E & dv & L & T).
  exact (user_A (S := Xn) (FS := faith_X) (FS2 := faith2_X) kd sp p nodes t q Rd Dec E dv L T false _ _ _ _ sc ss y NaN (rd_Ai _ _ _ _ _ Rd Hk) (rd_ci _ _ _ _ _ Rd) (t_ineqs _ _ _ T)).
Qed.
Lemma k_Hn (sc : scaling Xn) sf (y : list R) : sc_f sc = Fin sf -> length y = n -> goal_smooth sp (point sp y) ->
  forall i j a b, nth_error (sp_dec sp) i = Some a -> nth_error (sp_dec sp) j = Some b ->
    (j <= i -> exists d, at2 (cb_H_newton (S := Xn) n t q sc (map Fin y)) i j = Fin (sf * d)%R /\ pd b (pd a (cost_is sp)) (point sp y) d) /\
    (i < j -> at2 (cb_H_newton (S := Xn) n t q sc (map Fin y)) i j = Fin 0).
Proof. destruct Lp as (E & dv & L & T). exact (user_Hn (S := Xn) (FS := faith_X) (FS2 := faith2_X) kd sp p nodes t q Rd Dec E dv L T sc sf y NaN). Qed.
Lemma k_H (sc : scaling Xn) sf (se si y mu nu : list R) : (kd = KSqp -> sp_ineqs sp = []) -> kd <> KNewton ->
  sc_f sc = Fin sf -> sc_e sc = map Fin se -> sc_i sc = map Fin si -> length se = length (p_eq p) -> length si = length (p_ineq p) ->
  length mu = length (p_eq p) -> length nu = length (p_ineq p) -> length y = n -> prob_smooth sp (point sp y) ->
  forall i j a b, nth_error (sp_dec sp) i = Some a -> nth_error (sp_dec sp) j = Some b ->
    (j <= i -> exists d, at2 (cb_H (S := Xn) n t q sc (map Fin y) (map Fin mu) (map Fin nu)) i j = Fin d /\
       pd b (pd a (lagrangian sp sf (times se mu) (times si nu))) (point sp y) d) /\
    (i < j -> at2 (cb_H (S := Xn) n t q sc (map Fin y) (map Fin mu) (map Fin nu)) i j = Fin 0) /\
    (j <= i -> exists d, at2 (cb_Hc (S := Xn) n t q sc (map Fin y) (map Fin mu) (map Fin nu)) i j = Fin d /\
       pd b (pd a (constr_part sp (times se mu) (times si nu))) (point sp y) d) /\
    (i < j -> at2 (cb_Hc (S := Xn) n t q sc (map Fin y) (map Fin mu) (map Fin nu)) i j = Fin 0).
Proof.
  intros H1 H2 H3 H4 H5 H6 H7 H8 H9 H10 (Hg & Hc). destruct Lp as (E & dv & L & T).
  exact (user_H (S := Xn) (FS := faith_X) (FS2 := faith2_X) kd sp p nodes t q Rd Dec E dv L T sc sf se si y mu nu NaN H1 H2 H3 H4 H5 H6 H7 H8 H9 H10 Hg Hc).
Qed.

(** Smooth where the solver starts, everything the scaling is computed from is a number. *)
Definition unit_sc : scaling Xn := mkSc (S := Xn) (Fin 1) [] [].
Lemma k_start_g (y : list R) g : length y = n -> goal_smooth sp (point sp y) -> g_at (S := Xn) n t q (map Fin y) = Ok g -> exists r, g = map Fin r.
Proof.
  intros Ly Hs Hg. apply (start_g n t q (map Fin y) unit_sc g Hg). apply all_fin_nth. unfold n. rewrite (g_dims (S := Xn) kd p nodes t q Rd Dec) by (rewrite map_length; exact Ly).
  intros j Lj. destruct (nth_some (sp_dec sp) j) as (k & Ek); [rewrite <- k_dec; exact Lj|]. destruct (k_g unit_sc 1 y eq_refl Ly Hs j k Ek) as (d & Ed & _). eauto.
Qed.
Lemma k_unit m : repeat (Fin 1) m = map Fin (repeat 1%R m).
Proof. induction m; cbn; congruence. Qed.
Lemma k_start_Ae (y : list R) a : kd <> KNewton -> length y = n -> all_smooth (point sp y) (sp_eqs sp) ->
  A_at (S := Xn) n t q (t_Ae t) (length (t_ce t)) (map Fin y) = Ok a -> exists A, a = Fin_entries A.
Proof.
  intros Hk Ly Hs Ha. apply (start_A n t q (map Fin y) (repeat (Fin 1) (length (t_ce t))) (t_Ae t) (length (t_ce t)) a Ha).
  destruct k_eqs as [Q _]. destruct k_ces as [W _]. eapply mat_fin_nth.
  - apply (A_dims (S := Xn) kd p nodes t q Rd Dec); [rewrite map_length; exact Ly|]. eapply made_lt; [|exact (rd_Ae _ _ _ _ _ Rd Hk)]. exact I.
  - intros i j Hi Hj. destruct (nth_some (sp_dec sp) j) as (k & Ek); [rewrite <- k_dec; exact Hj|]. destruct (nth_some (sp_eqs sp) i) as (r & Er); [lia|].
    destruct (k_Ae (repeat (Fin 1) (length (t_ce t))) (repeat 1%R (length (t_ce t))) y Hk (k_unit _) (repeat_length _ _) Ly Hs i r j k Er Ek) as (d & Ed & _). eauto.
Qed.
Lemma k_start_Ai (y : list R) a : kd = KIpm -> length y = n -> all_smooth (point sp y) (sp_ineqs sp) ->
  A_at (S := Xn) n t q (t_Ai t) (length (t_ci t)) (map Fin y) = Ok a -> exists A, a = Fin_entries A.
Proof.
  intros Hk Ly Hs Ha. apply (start_A n t q (map Fin y) (repeat (Fin 1) (length (t_ci t))) (t_Ai t) (length (t_ci t)) a Ha).
  destruct k_eqs as [_ Q]. destruct k_ces as [_ W]. eapply mat_fin_nth.
  - apply (A_dims (S := Xn) kd p nodes t q Rd Dec); [rewrite map_length; exact Ly|]. eapply made_lt; [|exact (rd_Ai _ _ _ _ _ Rd Hk)]. exact I.
  - intros i j Hi Hj. destruct (nth_some (sp_dec sp) j) as (k & Ek); [rewrite <- k_dec; exact Hj|]. destruct (nth_some (sp_ineqs sp) i) as (r & Er); [lia|].
    destruct (k_Ai (repeat (Fin 1) (length (t_ci t))) (repeat 1%R (length (t_ci t))) y Hk (k_unit _) (repeat_length _ _) Ly Hs i r j k Er Ek) as (d & Ed & _). eauto.
Qed.
End One.

(** *** The interior-point method *)
Section Given.
Variables (sp : spec) (p : prog X_ops).

Hypothesis Lp : plink sp p.
Let x0 := map (se_val (sp_se sp)) (sp_dec sp).
Hypothesis Sm : prob_smooth sp (se_val (sp_se sp)).

Lemma start_smooth : prob_smooth sp (point sp x0) /\ length x0 = length (p_dec p).
Proof.
  split; [|unfold x0; rewrite map_length; symmetry; exact (dec_len (S := Xn) sp p Lp)].
  eapply smooth_ext; [|exact Sm]. intros k. symmetry. apply place_same.
Qed.

Lemma ipm_scale P : ipm_given p (map Fin x0) P ->
  exists f de di, ip_sc P = fsc f de di /\ (0 < f)%R /\ length de = ip_me P /\ length di = ip_mi P /\ (forall v, In v de -> (0 < v)%R) /\ (forall v, In v di -> (0 < v)%R).
Proof.
  intros (nodes & t & q & g & Ae & Ai & D & Rd & Hg & HA & HB & ->). destruct start_smooth as ((S1 & S2 & S3) & Lx). cbn [ipm_prob ip_sc ip_me ip_mi].
  destruct (k_start_g KIpm sp p nodes t q Lp Rd D x0 g Lx S1 Hg) as (gr & ->).
  destruct (k_start_Ae KIpm sp p nodes t q Lp Rd D x0 Ae ltac:(discriminate) Lx S2 HA) as (Ar & ->).
  destruct (k_start_Ai KIpm sp p nodes t q Lp Rd D x0 Ai eq_refl Lx S3 HB) as (Br & ->).
  destruct (scale_of_spec gr) as (f & Ef & (Pf & _)). destruct (rows_pos (length (t_ce t)) Ar) as (de & Ede & Lde & Pde). destruct (rows_pos (length (t_ci t)) Br) as (di & Edi & Ldi & Pdi).
  exists f, de, di. split; [|split; [lra|repeat split; assumption]]. unfold scaling_ipm, fsc. change (fv de) with (map Fin de). change (fv di) with (map Fin di). rewrite <- Ede, <- Edi. f_equal. exact Ef.
Qed.
Lemma sqp_scale P : sqp_given p (map Fin x0) P -> exists f de, sp_sc P = fsc f de [] /\ (0 < f)%R /\ length de = sp_me P /\ (forall v, In v de -> (0 < v)%R).
Proof.
  intros (nodes & t & q & g & Ae & D & Rd & Hg & HA & ->). destruct start_smooth as ((S1 & S2 & S3) & Lx). cbn [sqp_prob sp_sc sp_me].
  destruct (k_start_g KSqp sp p nodes t q Lp Rd D x0 g Lx S1 Hg) as (gr & ->).
  destruct (k_start_Ae KSqp sp p nodes t q Lp Rd D x0 Ae ltac:(discriminate) Lx S2 HA) as (Ar & ->).
  destruct (scale_of_spec gr) as (f & Ef & (Pf & _)). destruct (rows_pos (length (t_ce t)) Ar) as (de & Ede & Lde & Pde).
  exists f, de. split; [|split; [lra|repeat split; assumption]]. unfold scaling_sqp, fsc. change (fv de) with (map Fin de). rewrite <- Ede. f_equal. exact Ef.
Qed.
Lemma newton_scale P : newton_given p (map Fin x0) P -> exists f, np_sc P = fsc f [] [] /\ (0 < f)%R.
Proof.
  intros (nodes & t & q & g & D & Rd & Hg & ->). destruct start_smooth as ((S1 & S2 & S3) & Lx). cbn [newton_prob np_sc].
  destruct (k_start_g KNewton sp p nodes t q Lp Rd D x0 g Lx S1 Hg) as (gr & ->).
  destruct (scale_of_spec gr) as (f & Ef & (Pf & _)). exists f. split; [|lra]. unfold scaling_newton, fsc. cbn [fv map]. f_equal. exact Ef.
Qed.
End Given.

(** What the solver is given at a smooth point, per component. *)
Lemma ipm_derivs sp (p : prog X_ops) x0 P f de di : pinv p -> plink sp p -> ipm_given p x0 P -> ip_sc P = fsc f de di -> length de = ip_me P -> length di = ip_mi P ->
  forall y, length y = ip_n P -> prob_smooth sp (point sp y) ->
  (forall j k, nth_error (sp_dec sp) j = Some k ->
     (exists d, nth j (ip_g P (map Fin y)) NaN = Fin (f * d)%R /\ pd k (cost_is sp) (point sp y) d) /\
     (forall i r, nth_error (sp_eqs sp) i = Some r -> exists d, at2 (ip_Ae P (map Fin y)) i j = Fin (nth i de 0 * d)%R /\ pd k (gap_fn r) (point sp y) d) /\
     (forall i r, nth_error (sp_ineqs sp) i = Some r -> exists d, at2 (ip_Ai P (map Fin y)) i j = Fin (nth i di 0 * d)%R /\ pd k (gap_fn r) (point sp y) d)) /\
  (forall mu nu, length mu = ip_me P -> length nu = ip_mi P -> forall i j a b, nth_error (sp_dec sp) i = Some a -> nth_error (sp_dec sp) j = Some b ->
     (j <= i -> exists d, at2 (ip_H P (map Fin y) (map Fin mu) (map Fin nu)) i j = Fin d /\ pd b (pd a (lagrangian sp f (times de mu) (times di nu))) (point sp y) d) /\
     (i < j -> at2 (ip_H P (map Fin y) (map Fin mu) (map Fin nu)) i j = Fin 0) /\
     (j <= i -> exists d, at2 (ip_Hc P (map Fin y) (map Fin mu) (map Fin nu)) i j = Fin d /\ pd b (pd a (constr_part sp (times de mu) (times di nu))) (point sp y) d) /\
     (i < j -> at2 (ip_Hc P (map Fin y) (map Fin mu) (map Fin nu)) i j = Fin 0)).
Proof.
  intros Ip Lp (nodes & t & q & g & Ae & Ai & D & Rd & _ & _ & _ & ->). set (sc := scaling_ipm _ _ _ _ _). clearbody sc.
  cbn [ipm_prob ip_n ip_me ip_mi ip_sc ip_g ip_Ae ip_Ai ip_H ip_Hc]. intros -> Le Li y Ly Hs. pose proof Hs as (S1 & S2 & S3).
  destruct (k_ces KIpm p nodes t q Rd) as [W1 W2]. split.
  - intros j k Ek. split; [|split].
    + exact (k_g KIpm sp p nodes t q Lp Rd D (fsc f de di) f y eq_refl Ly S1 j k Ek).
    + intros i r Er. exact (k_Ae KIpm sp p nodes t q Lp Rd D (map Fin de) de y ltac:(discriminate) eq_refl Le Ly S2 i r j k Er Ek).
    + intros i r Er. exact (k_Ai KIpm sp p nodes t q Lp Rd D (map Fin di) di y eq_refl eq_refl Li Ly S3 i r j k Er Ek).
  - intros mu nu Lm Ln. apply (k_H KIpm sp p nodes t q Lp Rd D (fsc f de di) f de di y mu nu); try reflexivity; try discriminate; try lia; try assumption.
Qed.
Lemma sqp_derivs sp (p : prog X_ops) x0 P f de : pinv p -> plink sp p -> sp_ineqs sp = [] -> sqp_given p x0 P -> sp_sc P = fsc f de [] -> length de = sp_me P ->
  forall y, length y = sp_n P -> prob_smooth sp (point sp y) ->
  (forall j k, nth_error (sp_dec sp) j = Some k ->
     (exists d, nth j (sp_g P (map Fin y)) NaN = Fin (f * d)%R /\ pd k (cost_is sp) (point sp y) d) /\
     (forall i r, nth_error (sp_eqs sp) i = Some r -> exists d, at2 (sp_Ae P (map Fin y)) i j = Fin (nth i de 0 * d)%R /\ pd k (gap_fn r) (point sp y) d)) /\
  (forall mu, length mu = sp_me P -> forall i j a b, nth_error (sp_dec sp) i = Some a -> nth_error (sp_dec sp) j = Some b ->
     (j <= i -> exists d, at2 (sp_H P (map Fin y) (map Fin mu)) i j = Fin d /\ pd b (pd a (lagrangian sp f (times de mu) [])) (point sp y) d) /\
     (i < j -> at2 (sp_H P (map Fin y) (map Fin mu)) i j = Fin 0) /\
     (j <= i -> exists d, at2 (sp_Hc P (map Fin y) (map Fin mu)) i j = Fin d /\ pd b (pd a (constr_part sp (times de mu) [])) (point sp y) d) /\
     (i < j -> at2 (sp_Hc P (map Fin y) (map Fin mu)) i j = Fin 0)).
Proof.
  intros Ip Lp Ni (nodes & t & q & g & Ae & D & Rd & _ & _ & ->). set (sc := scaling_sqp _ _ _). clearbody sc.
  cbn [sqp_prob sp_n sp_me sp_sc sp_g sp_Ae sp_H sp_Hc]. intros -> Le y Ly Hs. pose proof Hs as (S1 & S2 & S3).
  destruct (k_ces KSqp p nodes t q Rd) as [W1 W2]. destruct (k_eqs sp p Lp) as [_ W3]. rewrite Ni in W3. cbn in W3. split.
  - intros j k Ek. split.
    + exact (k_g KSqp sp p nodes t q Lp Rd D (fsc f de []) f y eq_refl Ly S1 j k Ek).
    + intros i r Er. exact (k_Ae KSqp sp p nodes t q Lp Rd D (map Fin de) de y ltac:(discriminate) eq_refl Le Ly S2 i r j k Er Ek).
  - intros mu Lm. apply (k_H KSqp sp p nodes t q Lp Rd D (fsc f de []) f de [] y mu []); try reflexivity; try discriminate; try (cbn; lia); try assumption. intros _. exact Ni.
Qed.
Lemma newton_derivs sp (p : prog X_ops) x0 P f : pinv p -> plink sp p -> newton_given p x0 P -> np_sc P = fsc f [] [] ->
  forall y, length y = np_n P -> goal_smooth sp (point sp y) ->
  (forall j k, nth_error (sp_dec sp) j = Some k -> exists d, nth j (np_g P (map Fin y)) NaN = Fin (f * d)%R /\ pd k (cost_is sp) (point sp y) d) /\
  (forall i j a b, nth_error (sp_dec sp) i = Some a -> nth_error (sp_dec sp) j = Some b ->
     (j <= i -> exists d, at2 (np_H P (map Fin y)) i j = Fin (f * d)%R /\ pd b (pd a (cost_is sp)) (point sp y) d) /\
     (i < j -> at2 (np_H P (map Fin y)) i j = Fin 0)).
Proof.
  intros Ip Lp (nodes & t & q & g & D & Rd & _ & ->). set (sc := scaling_newton _). clearbody sc.
  cbn [newton_prob np_n np_sc np_g np_H]. intros -> y Ly S1. split.
  - exact (k_g KNewton sp p nodes t q Lp Rd D (fsc f [] []) f y eq_refl Ly S1).
  - exact (k_Hn KNewton sp p nodes t q Lp Rd D (fsc f [] []) f y eq_refl Ly S1).
Qed.

(** *** C80 *)
Lemma pd_scaled k f (F : ufun) rho d : pd k F rho d -> pd k (scaled_fn f F) rho (f * d)%R.
Proof.
  intros H. assert (Z : pd k (fun _ v => v = 0%R) rho 0%R).
  { exists (fun _ => 0%R). split; [apply Hierarchy.filter_forall; reflexivity|]. apply (Derive.is_derive_const (V := Hierarchy.R_NormedModule)). }
  replace (f * d)%R with (f * d + 0)%R by ring. eapply pd_mono; [|exact (pd_lin k f F _ rho d 0%R H Z)]. intros rho' v (a & b & A & -> & ->). exists a. split; [exact A|ring].
Qed.
Lemma pd2_scaled k j f (F : ufun) rho d : pd k (pd j F) rho d -> pd k (pd j (scaled_fn f F)) rho (f * d)%R.
Proof. intros H. eapply pd_mono; [|exact (pd_scaled k f _ rho d H)]. intros rho' v (w & W & ->). apply pd_scaled, W. Qed.
Lemma times_fin ss gs : vmap2 (S := Xn) X_mul (map Fin ss) (map Fin gs) = map Fin (times ss gs).
Proof. revert gs. induction ss as [|a ss IH]; intros [|b gs]; try reflexivity. exact (f_equal (fun l => Fin (a * b) :: l) (IH gs)). Qed.
Lemma goal_value sp rho : goal_smooth sp rho -> exists v, cost_is sp rho v.
Proof.
  unfold goal_smooth, cost_is. destruct (sp_goal sp) as [[mx x]|]; [|intros _; exists 0%R; reflexivity]. intros (v & H).
  eexists. split; [eapply XSm_pow00; eauto|]. exists v. split; [eapply XSm_XEv; eauto|reflexivity].
Qed.

Lemma c80_ipm sp p P x0 p1 : lived sp p -> prepare p = Ok (RanIpm P, x0, p1) -> prob_smooth sp (se_val (sp_se sp)) ->
  exists f de di, sc_f (ip_sc P) = Fin f /\ sc_e (ip_sc P) = map Fin de /\ sc_i (ip_sc P) = map Fin di /\ (0 < f)%R /\
    length de = length (sp_eqs sp) /\ length di = length (sp_ineqs sp) /\ (forall v, In v (de ++ di) -> (0 < v)%R) /\
    forall y : list R, length y = length (sp_dec sp) -> prob_smooth sp (point sp y) ->
      (exists v, cost_is sp (point sp y) v /\ ip_f P (map Fin y) = Fin (f * v)) /\
      are_gaps (sp_eqs sp) de (point sp y) (ip_ce P (map Fin y)) /\ are_gaps (sp_ineqs sp) di (point sp y) (ip_ci P (map Fin y)) /\
      is_gradient sp f (point sp y) (ip_g P (map Fin y)) /\
      is_jacobian sp (sp_eqs sp) de (point sp y) (ip_Ae P (map Fin y)) /\ is_jacobian sp (sp_ineqs sp) di (point sp y) (ip_Ai P (map Fin y)) /\
      forall mu nu : list R, length mu = length (sp_eqs sp) -> length nu = length (sp_ineqs sp) ->
        is_lower_hessian sp (lagrangian sp f (times de mu) (times di nu)) (point sp y) (ip_H P (map Fin y) (map Fin mu) (map Fin nu)) /\
        is_lower_hessian sp (constr_part sp (times de mu) (times di nu)) (point sp y) (ip_Hc P (map Fin y) (map Fin mu) (map Fin nu)).
Proof.
  intros Lv H Sm. destruct (lived_ok _ _ Lv) as [Ip Lp]. destruct (prepare_inv sp p _ x0 p1 Ip Lp H) as (I1 & L1 & E0 & _ & Pk).
  destruct Pk as (tf & te & ti & _ & _ & _ & _ & _ & Gv). destruct (ipm_meaning sp p1 x0 P I1 L1 Gv) as (Pok & (En & Ee & Ei) & Le & Li & M). subst x0.
  destruct (ipm_scale sp p1 L1 Sm P Gv) as (f & de & di & Sc & Pf & Lde & Ldi & Pde & Pdi).
  exists f, de, di. rewrite Sc. split; [reflexivity|]. split; [reflexivity|]. split; [reflexivity|]. split; [exact Pf|]. split; [lia|]. split; [lia|].
  split; [intros v I; apply in_app_or in I as [I|I]; auto|]. intros y Ly Hs. assert (Ly' : length y = ip_n P) by lia. destruct (M y Ly') as (M1 & M2 & M3). rewrite Sc in M1, M2, M3.
  destruct (ipm_derivs sp p1 _ P f de di I1 L1 Gv Sc Lde Ldi y Ly' Hs) as (D1 & D2). pose proof Hs as (S1 & S2 & S3).
  split; [destruct (goal_value sp _ S1) as (v & V); exists v; split; [exact V|exact (M1 v V)]|].
  split; [destruct (gaps_exist _ _ (all_smooth_defined _ _ S2)) as (ge & G); exists ge; split; [exact G|rewrite <- times_fin; apply M2; [apply all_smooth_defined, S2|exact G]]|].
  split; [destruct (gaps_exist _ _ (all_smooth_defined _ _ S3)) as (ge & G); exists ge; split; [exact G|rewrite <- times_fin; apply M3; [apply all_smooth_defined, S3|exact G]]|].
  split; [split; [|intros j k Ek; apply D1, Ek]|].
  { destruct (Pok (map Fin y)) as (Q & _); [rewrite map_length; exact Ly'|]. exact (eq_trans Q En). }
  destruct (Pok (map Fin y)) as (_ & _ & _ & SA & SB); [rewrite map_length; exact Ly'|]. rewrite Ee, En in SA. rewrite Ei, En in SB.
  split; [split; [apply dims_shape, SA|intros i r j k Er Ek; exact (proj1 (proj2 (D1 j k Ek)) i r Er)]|].
  split; [split; [apply dims_shape, SB|intros i r j k Er Ek; exact (proj2 (proj2 (D1 j k Ek)) i r Er)]|].
  intros mu nu Lm Ln. assert (Lm' : length mu = ip_me P) by lia. assert (Ln' : length nu = ip_mi P) by lia.
  destruct (ipm_H_dims p1 _ P Gv Le Li (map Fin y) (map Fin mu) (map Fin nu)) as [T1 T2]; try (rewrite map_length; assumption). rewrite En in T1, T2.
  split; (split; [apply dims_shape; assumption|]); intros i j a b Hi Hj; destruct (D2 mu nu Lm' Ln' i j a b Hi Hj) as (A1 & A2 & A3 & A4); split; assumption.
Qed.

Lemma c80_sqp sp p P x0 p1 : lived sp p -> prepare p = Ok (RanSqp P, x0, p1) -> prob_smooth sp (se_val (sp_se sp)) ->
  exists f de, sc_f (sp_sc P) = Fin f /\ sc_e (sp_sc P) = map Fin de /\ sp_ineqs sp = [] /\ (0 < f)%R /\ length de = length (sp_eqs sp) /\ (forall v, In v de -> (0 < v)%R) /\
    forall y : list R, length y = length (sp_dec sp) -> prob_smooth sp (point sp y) ->
      (exists v, cost_is sp (point sp y) v /\ sp_f P (map Fin y) = Fin (f * v)) /\
      are_gaps (sp_eqs sp) de (point sp y) (sp_ce P (map Fin y)) /\
      is_gradient sp f (point sp y) (sp_g P (map Fin y)) /\
      is_jacobian sp (sp_eqs sp) de (point sp y) (sp_Ae P (map Fin y)) /\
      forall mu : list R, length mu = length (sp_eqs sp) ->
        is_lower_hessian sp (lagrangian sp f (times de mu) []) (point sp y) (sp_H P (map Fin y) (map Fin mu)) /\
        is_lower_hessian sp (constr_part sp (times de mu) []) (point sp y) (sp_Hc P (map Fin y) (map Fin mu)).
Proof.
  intros Lv H Sm. destruct (lived_ok _ _ Lv) as [Ip Lp]. destruct (prepare_inv sp p _ x0 p1 Ip Lp H) as (I1 & L1 & E0 & _ & Pk).
  destruct Pk as (tf & te & ti & _ & _ & _ & _ & _ & Ni & Gv). destruct (sqp_meaning sp p1 x0 P I1 L1 Gv) as (Pok & En & Ee & Le & Li & M). subst x0.
  destruct (no_rels sp p1 L1) as [_ K2]. assert (Ei : sp_ineqs sp = []) by (apply K2, Ni).
  destruct (sqp_scale sp p1 L1 Sm P Gv) as (f & de & Sc & Pf & Lde & Pde).
  exists f, de. rewrite Sc. split; [reflexivity|]. split; [reflexivity|]. split; [exact Ei|]. split; [exact Pf|]. split; [lia|].
  split; [exact Pde|]. intros y Ly Hs. assert (Ly' : length y = sp_n P) by lia. destruct (M y Ly') as (M1 & M2). rewrite Sc in M1, M2.
  destruct (sqp_derivs sp p1 _ P f de I1 L1 Ei Gv Sc Lde y Ly' Hs) as (D1 & D2). pose proof Hs as (S1 & S2 & S3).
  split; [destruct (goal_value sp _ S1) as (v & V); exists v; split; [exact V|exact (M1 v V)]|].
  split; [destruct (gaps_exist _ _ (all_smooth_defined _ _ S2)) as (ge & G); exists ge; split; [exact G|rewrite <- times_fin; apply M2; [apply all_smooth_defined, S2|exact G]]|].
  split; [split; [|intros j k Ek; apply D1, Ek]|].
  { destruct (Pok (map Fin y)) as (Q & _); [rewrite map_length; exact Ly'|]. exact (eq_trans Q En). }
  destruct (Pok (map Fin y)) as (_ & _ & SA); [rewrite map_length; exact Ly'|]. rewrite Ee, En in SA.
  split; [split; [apply dims_shape, SA|intros i r j k Er Ek; exact (proj2 (D1 j k Ek) i r Er)]|].
  intros mu Lm. assert (Lm' : length mu = sp_me P) by lia.
  destruct (sqp_H_dims p1 _ P Ni Gv Le ltac:(rewrite Sc; reflexivity) (map Fin y) (map Fin mu)) as [T1 T2]; try (rewrite map_length; assumption). rewrite En in T1, T2.
  split; (split; [apply dims_shape; assumption|]); intros i j a b Hi Hj; destruct (D2 mu Lm' i j a b Hi Hj) as (A1 & A2 & A3 & A4); split; assumption.
Qed.

Lemma c80_newton sp p P x0 p1 : lived sp p -> prepare p = Ok (RanNewton P, x0, p1) -> prob_smooth sp (se_val (sp_se sp)) ->
  exists f, sc_f (np_sc P) = Fin f /\ (0 < f)%R /\ sp_eqs sp = [] /\ sp_ineqs sp = [] /\
    forall y : list R, length y = length (sp_dec sp) -> prob_smooth sp (point sp y) ->
      (exists v, cost_is sp (point sp y) v /\ np_f P (map Fin y) = Fin (f * v)) /\
      is_gradient sp f (point sp y) (np_g P (map Fin y)) /\
      is_lower_hessian sp (scaled_fn f (cost_is sp)) (point sp y) (np_H P (map Fin y)).
Proof.
  intros Lv H Sm. destruct (lived_ok _ _ Lv) as [Ip Lp]. destruct (prepare_inv sp p _ x0 p1 Ip Lp H) as (I1 & L1 & E0 & _ & Pk).
  destruct Pk as (tf & te & ti & _ & _ & _ & _ & Ne & Ni & Gv). destruct (newton_meaning sp p1 x0 P I1 L1 Gv) as (En & Lg & M). subst x0.
  destruct (no_rels sp p1 L1) as [K1 K2]. destruct (newton_scale sp p1 L1 Sm P Gv) as (f & Sc & Pf).
  exists f. rewrite Sc. split; [reflexivity|]. split; [exact Pf|]. split; [apply K1, Ne|]. split; [apply K2, Ni|].
  intros y Ly (S1 & _). assert (Ly' : length y = np_n P) by lia. rewrite Sc in M.
  destruct (newton_derivs sp p1 _ P f I1 L1 Gv Sc y Ly' S1) as (D1 & D2).
  split; [destruct (goal_value sp _ S1) as (v & V); exists v; split; [exact V|exact (M y v Ly' V)]|].
  split; [split; [|exact D1]|].
  { assert (Q : length (np_g P (map Fin y)) = np_n P) by (apply Lg; rewrite map_length; exact Ly'). exact (eq_trans Q En). }
  split; [pose proof (newton_H_dims p1 _ P Gv (map Fin y)) as T1; rewrite map_length, En in T1; apply dims_shape, T1, Ly|].
  intros i j a b Hi Hj. destruct (D2 i j a b Hi Hj) as (A1 & A2). split; [|exact A2]. intros Hij. destruct (A1 Hij) as (d & Ed & Pd). exists (f * d)%R. split; [exact Ed|]. apply pd2_scaled, Pd.
Qed.
