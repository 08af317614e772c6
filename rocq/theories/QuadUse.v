(** Proofs for C89 at the level of solve(). *)
From Coq Require Import ZArith Reals List Bool Arith Lia Lra.
From Coquelicot Require Import Hierarchy Derive AutoDerive.
From Verif Require Import Base ExprModel ExprReal ExprXR MathSpec VarModel VarSpec HistProofs JacModel NumModel UtilModel UtilSpec ScaleProofs ExitModel SolverModel SolverSpec SolverProofs NewtonModel LinR KktSpec FinEval XArith DiffSpec SmoothSpec SmoothGraph SmoothUser
  ProblemModel ProblemSpec ProblemInv ProblemProofs ProblemProofs2 ProblemProofs3 ProblemProofs4 ProbSolveModel ProbSolveInv ProbSolveEval ProbSolveSpec ProbSolveProofs ProbSolvePrep ProbSolveHist ProbSolveEnd ProbSolveLived ProbSolveFinal ProbSolveNone ProbSolveFacts LagrSpec ProbSolveMade ProbSolveDeriv ProbSolveDims ProbSolveKkt ProbSolveKkt2
  EarlySpec ProbEarly FiniteSpec FiniteUseSpec FiniteUse ConvexSpec ConvexUse QuadSpec QuadProofs.
Import ListNotations.
Local Open Scope R_scope.

Lemma place_before ks : forall rho y k, ~ In k ks -> place rho ks y k = rho k.
Proof. exact (fun rho y k => place_out ks rho y k). Qed.
Lemma place_coord ks : NoDup ks -> forall rho y i, length y = length ks -> (i < length ks)%nat -> place rho ks y (nth i ks 0%nat) = y.[i].
Proof.
  induction 1 as [|k ks N _ IH]; intros rho [|v y] i L Li; cbn [length] in *; try lia. cbn [place]. destruct i as [|i]; cbn [nth].
  - rewrite place_out by exact N. unfold upd; rewrite Nat.eqb_refl; reflexivity.
  - apply IH; lia.
Qed.
Lemma nth_error_of {A} (l : list A) i d : (i < length l)%nat -> nth_error l i = Some (nth i l d).
Proof. apply nth_error_nth'. Qed.

Section Quad.
Variables (sp : spec) (Q : nat -> nat -> R) (b : nat -> R) (c : R).
Hypothesis Sm : smooth_everywhere sp.
Hypothesis Qd : quadratic sp Q b c.
Hypothesis Nd : NoDup (sp_dec sp).
Let n := size sp.

Lemma cost_quad rho : can_be sp rho -> cost_is sp rho (quad n Q b c (coord sp rho)).
Proof. intros C. destruct (cost_total sp rho (can_smooth sp rho Sm C)) as (v & Hv). rewrite (proj2 Qd rho v C Hv) in Hv. exact Hv. Qed.
Lemma coord_point y i : length y = n -> (i < n)%nat -> coord sp (point sp y) i = y.[i].
Proof. intros L Li. apply place_coord; assumption. Qed.
Lemma coord_upd rho i t j : (i < n)%nat -> (j < n)%nat -> coord sp (upd rho (nth i (sp_dec sp) 0%nat) t) j = if Nat.eqb j i then t else coord sp rho j.
Proof.
  intros Li Lj. unfold coord, upd. destruct (Nat.eqb_spec j i) as [->|Ne]; [rewrite Nat.eqb_refl; reflexivity|].
  destruct (Nat.eqb_spec (nth j (sp_dec sp) 0%nat) (nth i (sp_dec sp) 0%nat)) as [K|K]; [|reflexivity]. exfalso. apply Ne. eapply (proj1 (NoDup_nth (sp_dec sp) 0%nat) Nd); eauto.
Qed.
Lemma can_upd rho i t : (i < n)%nat -> can_be sp rho -> can_be sp (upd rho (nth i (sp_dec sp) 0%nat) t).
Proof. intros Li C k H. unfold upd. destruct (Nat.eqb_spec k (nth i (sp_dec sp) 0%nat)) as [->|Ne]; [exfalso; apply H, nth_In, Li|apply C, H]. Qed.
Lemma parabola (q s a x0 : R) : is_derive (fun t : R => q + (t - x0) * s + 1 / 2 * (t - x0) * (t - x0) * a) x0 s.
Proof. auto_derive; [exact I|ring]. Qed.
Lemma line (s a x0 : R) : is_derive (fun t : R => s + (t - x0) * a) x0 a.
Proof. auto_derive; [exact I|ring]. Qed.

Lemma pd_quad g rho i : (i < n)%nat -> can_be sp rho -> pd (nth i (sp_dec sp) 0%nat) (scaled_fn g (cost_is sp)) rho (g * slope n Q b (coord sp rho) i).
Proof.
  intros Li C. exists (fun t => g * (quad n Q b c (coord sp rho) + (t - coord sp rho i) * slope n Q b (coord sp rho) i + 1 / 2 * (t - coord sp rho i) * (t - coord sp rho i) * Q i i)). split.
  - apply (filter_forall (F := locally _)). intros t. eexists. split; [apply cost_quad, can_upd; assumption|]. f_equal. rewrite <- (quad_upd n Q b c (proj1 Qd) (coord sp rho) i t Li).
    apply quad_ext. intros j Lj. symmetry. apply coord_upd; assumption.
  - apply is_derive_scal. apply parabola.
Qed.
Lemma pd_cost rho i d : (i < n)%nat -> can_be sp rho -> pd (nth i (sp_dec sp) 0%nat) (cost_is sp) rho d -> d = slope n Q b (coord sp rho) i.
Proof.
  intros Li C H. pose proof (pd_quad 1 rho i Li C) as K. rewrite Rmult_1_l in K. apply (pd_fun _ _ rho _ _ (fun r v w => cost_det sp r v w) H).
  destruct K as (f & L & D). exists f. split; [|exact D]. revert L. apply filter_imp. intros t (w & W & Ew). rewrite Ew, Rmult_1_l. exact W.
Qed.
Lemma scaled_det g rho v w : scaled_fn g (cost_is sp) rho v -> scaled_fn g (cost_is sp) rho w -> v = w.
Proof. intros (a & A & ->) (a' & A' & ->). rewrite (cost_det _ _ _ _ A A'). reflexivity. Qed.
Lemma pd2_cost g rho i j d : (i < n)%nat -> (j < n)%nat -> can_be sp rho ->
  pd (nth j (sp_dec sp) 0%nat) (pd (nth i (sp_dec sp) 0%nat) (scaled_fn g (cost_is sp))) rho d -> d = g * Q i j.
Proof.
  intros Li Lj C H. refine (pd_fun _ _ rho _ _ _ H _); [intros r v w; apply pd_fun; apply scaled_det|].
  exists (fun t => g * (slope n Q b (coord sp rho) i + (t - coord sp rho j) * Q i j)). split.
  - apply (filter_forall (F := locally _)). intros t. rewrite <- (slope_upd n Q b (coord sp rho) j t i Lj). rewrite <- (slope_ext n Q b (coord sp (upd rho (nth j (sp_dec sp) 0%nat) t))).
    + apply pd_quad; [exact Li|apply can_upd; assumption].
    + intros k Lk. apply coord_upd; assumption.
  - apply is_derive_scal. apply line.
Qed.
Lemma flat_minimiser m y : length y = n -> definite n Q m -> (forall i, (i < n)%nat -> slope n Q b (fun j => y.[j]) i = 0) -> minimiser sp m y.
Proof.
  intros L D F rho v v' C V V'. rewrite (proj2 Qd _ _ (point_can sp y) V), (proj2 Qd _ _ C V'). apply (flat_min n Q b c (proj1 Qd) m); [exact D|].
  intros i Li. rewrite (slope_ext n Q b _ (fun j => y.[j])); [apply F, Li|]. intros j Lj. apply coord_point; assumption.
Qed.
End Quad.

(** The gradient the scaling is computed from, entry by entry. *)
Lemma start_g_in n t q x sc g v : g_at (S := Xn) n t q x = Ok g -> In v g -> exists j, (j < n)%nat /\ nth j (cb_g (S := Xn) n t q sc x) NaN = s_mul Xn (sc_f sc) v.
Proof.
  intros Hg I. unfold g_at in Hg. unfold cb_g. destruct (at_x (S := Xn) t q x) as [q'| | |]; cbn [obind] in Hg |- *; try discriminate.
  destruct (jget_mat (S := Xn) (t_g t) q') as [m| | |]; cbn [obind total] in Hg |- *; try discriminate. injection Hg as <-.
  apply in_flat_map in I as (j & Ij & Iv). apply in_seq in Ij. exists j. split; [lia|]. destruct (stored (S := Xn) m 0 j) eqn:Es; [|contradiction]. destruct Iv as [<-|[]].
  rewrite (nth_map_lt _ _ j 0%nat) by (rewrite seq_length; lia). rewrite seq_nth by lia. cbn [Nat.add]. unfold scaled. rewrite Es. reflexivity.
Qed.

Section Given.
Variables (sp : spec) (p : prog X_ops) (Q : nat -> nat -> R) (b : nat -> R) (c m : R).
Hypothesis Lv : lived sp p.
Hypothesis Sm : smooth_everywhere sp.
Hypothesis Qd : quadratic sp Q b c.
Hypothesis Ns : not_steep sp m.
Let n := size sp.

Lemma quad_nodup : NoDup (sp_dec sp).
Proof. destruct (lived_ok _ _ Lv) as [Ip Lp]. exact (ProbSolveFacts.dec_nodup sp p Ip Lp). Qed.
Lemma now_can : can_be sp (se_val (sp_se sp)). Proof. intros k _. reflexivity. Qed.

Lemma quad_gives P x0 p1 : prepare p = Ok (RanNewton P, x0, p1) -> exists f, np_n P = n /\ np_sc P = fsc f [] [] /\ 0 < f /\ 1 / 10000 <= f * m /\ x0 = fv (now sp) /\
  (forall y, length y = n -> np_f P (fv y) = Fin (f * quad n Q b c (fun i => y.[i]))) /\
  (forall y, length y = n -> exists g, np_g P (fv y) = fv g /\ length g = n /\ forall i, (i < n)%nat -> g.[i] = f * slope n Q b (fun i => y.[i]) i) /\
  (forall y, length y = n -> mat_dims (S := Xn) n n (np_H P (fv y)) = true /\ exists A, np_H P (fv y) = fm A /\ length A = n /\ (forall w, In w A -> length w = n) /\ forall i j, (i < n)%nat -> (j < n)%nat -> low A i j = f * Q i j).
Proof.
  intros H. destruct (newton_start sp p Lv (start_everywhere sp Sm) P x0 p1 H) as (Ex & En & f & _ & Sc & Pf & _). destruct (lived_ok _ _ Lv) as [Ip Lp].
  destruct (c80_newton sp p P x0 p1 Lv H (start_everywhere sp Sm)) as (f' & E1 & _ & _ & _ & K). rewrite Sc in E1. cbn [fsc sc_f] in E1. injection E1 as <-.
  destruct (prepare_inv sp p _ x0 p1 Ip Lp H) as (I1 & L1 & E0 & _ & (tf & te & ti & _ & _ & _ & _ & _ & _ & Gv)).
  pose proof (newton_H_dims p1 x0 P Gv) as Dm.
  exists f. split; [exact En|]. split; [exact Sc|]. split; [exact Pf|]. split.
  { destruct Gv as (nodes & t & q & g & D & Rd & Hg & EP). rewrite EP in Sc. cbn [newton_prob np_sc] in Sc. rewrite Ex in Hg.
    assert (Ly : length (now sp) = length (p_dec p1)) by (rewrite now_len; symmetry; exact (dec_len (S := Xn) sp p1 L1)).
    assert (Sg : goal_smooth sp (point sp (now sp))) by exact (proj1 (Sm (now sp) (now_len sp))).
    destruct (k_start_g KNewton sp p1 nodes t q L1 Rd D (now sp) g Ly Sg Hg) as (gr & ->).
    destruct (scale_of_spec gr) as (f' & Ef & (Pf' & _ & Sl)).
    assert (f' = f) as ->. { apply (f_equal sc_f) in Sc. cbn [scaling_newton sc_f fsc] in Sc. rewrite Ef in Sc. injection Sc as ->. reflexivity. }
    destruct Ns as [N1 N2]. destruct Sl as [->|(x & Ix & Vx)]; [lra|].
    destruct (start_g_in (length (p_dec p1)) t q (map Fin (now sp)) unit_sc (map Fin gr) (Fin x) Hg (in_map Fin _ _ Ix)) as (j & Lj & Vj).
    pose proof (dec_len (S := Xn) sp p1 L1) as Ld. destruct (nth_some (sp_dec sp) j) as (k & Ek); [rewrite <- Ld; exact Lj|].
    destruct (k_g KNewton sp p1 nodes t q L1 Rd D unit_sc 1 (now sp) eq_refl Ly Sg j k Ek) as (d & Ed & Pd). rewrite Ed in Vj. change (s_mul Xn (sc_f unit_sc) (Fin x)) with (Fin (1 * x)) in Vj. injection Vj as Vj.
    assert (x = d) as -> by lra.
    assert (B : Rabs d <= 1000000 * m). { apply (N2 k); [eapply nth_error_In; eauto|]. eapply pd_at; [|apply now_point|exact Pd]. intros a b0 w E. apply cost_ext, E. }
    rewrite Rabs_mult, (Rabs_right f) in Vx by lra. assert (f * Rabs d <= f * (1000000 * m)) by (apply Rmult_le_compat_l; lra). lra. }
  split; [exact Ex|]. split; [|split].
  - intros y L. destruct (K y L (Sm y L)) as ((v & V & Ev) & _). unfold fv. rewrite Ev. do 2 f_equal. rewrite (proj2 Qd _ _ (point_can sp y) V). apply (quad_ext n Q b c). intros i Li. apply coord_point; [exact quad_nodup|exact L|exact Li].
  - intros y L. destruct (K y L (Sm y L)) as (_ & G & _). destruct (grad_real _ _ _ _ G) as (g & Eg & Lg & Hg). exists g. split; [exact Eg|]. split; [exact Lg|].
    intros i Li. destruct (Hg i _ (nth_error_of (sp_dec sp) i 0%nat Li)) as (d & Ed & Pd). rewrite Ed. f_equal.
    rewrite (pd_cost sp Q b c Sm Qd quad_nodup (point sp y) i d Li (point_can sp y) Pd). apply (slope_ext n Q b). intros j Lj. apply coord_point; [exact quad_nodup|exact L|exact Lj].
  - intros y L. assert (Lf : length (fv y) = np_n P) by (rewrite fv_len, En; exact L). pose proof (Dm (fv y) Lf) as Dy. rewrite En in Dy. split; [exact Dy|].
    destruct (K y L (Sm y L)) as (_ & _ & Hh). pose proof (hess_fin _ _ _ _ Hh) as Fh. destruct Hh as ((S1 & S2) & Hh).
    assert (exists A, np_H P (fv y) = fm A) as (A & EA).
    { clear - Fh. unfold fv in *. induction (np_H P (map Fin y)) as [|w M IH]; [exists []; reflexivity|]. inversion Fh as [|? ? F1 F2]; subst. destruct (IH F2) as (A & ->). destruct (vfin_real _ F1) as (r & ->). exists (r :: A). reflexivity. }
    exists A. split; [exact EA|]. change (map Fin y) with (fv y) in *. rewrite EA in *. unfold fm in S1, S2, Hh. rewrite map_length in S1. split; [exact S1|]. split.
    { intros w Iw. specialize (S2 (fv w) (in_map fv _ _ Iw)). rewrite fv_len in S2. exact S2. }
    assert (Kk : forall i j, (i < n)%nat -> (j <= i)%nat -> nth j (nth i A []) 0 = f * Q i j).
    { intros i j Li Lj. assert (Lj' : (j < n)%nat) by lia. destruct (Hh i j _ _ (nth_error_of (sp_dec sp) i 0%nat Li) (nth_error_of (sp_dec sp) j 0%nat Lj')) as [Hh1 _]. destruct (Hh1 Lj) as (d & Ed & Pd).
      rewrite <- (pd2_cost sp Q b c Sm Qd quad_nodup f (point sp y) i j d Li Lj' (point_can sp y) Pd).
      unfold at2 in Ed. rewrite (nth_map_lt fv A i [] []) in Ed by (rewrite S1; exact Li). unfold fv in Ed. rewrite (nth_map_lt Fin _ j 0 NaN) in Ed; [injection Ed as Ed; exact Ed|].
      specialize (S2 (fv (nth i A [])) (in_map fv _ _ (nth_In A [] ltac:(rewrite S1; exact Li)))). rewrite fv_len in S2. rewrite S2. exact Lj'. }
    intros i j Li Lj. unfold low. destruct (Nat.le_ge_cases j i) as [C|C].
    + rewrite (Nat.min_r i j C), (Nat.max_l i j C). apply Kk; assumption.
    + rewrite (Nat.min_l i j C), (Nat.max_r i j C). rewrite (proj1 Qd i j). apply Kk; assumption.
Qed.
End Given.

Lemma log_bound {U} (all : list (callback Xn U)) : forall k i w, (length (snd (fst (run_callbacks (logged_from k all) i w))) <= length (snd w) + length all)%nat.
Proof.
  induction all as [|cb all IH]; intros k i w; cbn [logged_from run_callbacks length]; [cbn; lia|]. unfold logged at 1. destruct (cb i (fst w)) as [v s].
  destruct s; [cbn [fst snd]; rewrite app_length; cbn; lia|]. specialize (IH (S k) i (v, snd w ++ [(k, i, false)])). cbn [snd] in IH. rewrite app_length in IH. cbn [length] in IH. lia.
Qed.

Section Solve.
Context {U : Type}.
Variables (E : env Xn) (o : options Xn) (t : R) (sp : spec) (Q : nat -> nat -> R) (b : nat -> R) (c m : R).
Hypothesis Ht : o_tol o = Fin t.
Hypothesis Pt : 0 < t.
Hypothesis Sm : smooth_everywhere sp.
Hypothesis Qd : quadratic sp Q b c.
Hypothesis De : definite (size sp) Q m.
Hypothesis Ns : not_steep sp m.
Hypothesis Ex : exact_on_definite E (size sp).
Let n := size sp.

Lemma now_coord i : (i < n)%nat -> (now sp).[i] = coord sp (se_val (sp_se sp)) i.
Proof. intros L. unfold now, coord. rewrite (nth_map_lt _ _ i 0%nat) by exact L. reflexivity. Qed.

Lemma c89 (all : list (callback Xn U)) st x l : ended_newton E o all sp st x l -> exists y, x = map Fin y /\ (length l <= length all)%nat /\
  ((st = SUCCESS /\ y = now sp /\ l = [] /\ settled sp t) \/
   (st = DIVERGING_ITERATES /\ y = now sp /\ l = [] /\ exists i, (i < size sp)%nat /\ 10000000000 < Rabs (coord sp (se_val (sp_se sp)) i)) \/
   (st = CALLBACK_REQUESTED_STOP /\ y = now sp /\ all <> []) \/
   (minimiser sp m y /\ (st = SUCCESS \/ (st = MAX_ITERATIONS_EXCEEDED /\ (o_max o <= 1)%Z) \/ st = TIMEOUT))).
Proof.
  intros [p P x0 p1 fuel u clk s fin Lv Hp H]. destruct (quad_gives sp p Q b c m Lv Sm Qd Ns P x0 p1 Hp) as (f & En & Es & Pf & Fm & -> & Hf & Hg & HH).
  pose proof (newton_quad E o t P (log_all all) (size sp) Q b c f m (proj1 Qd) En Es Pf Ht Pt De Fm Ex Hf Hg (fun y L => proj2 (HH y L)) fuel (now sp) (u, []) clk (now_len sp) (proj1 (HH _ (now_len sp)))) as K.
  rewrite H in K. destruct K as (y & Ey & Ly & K). exists y. split; [exact Ey|].
  destruct (c80_newton sp p P _ p1 Lv Hp (start_everywhere sp Sm)) as (_ & _ & _ & Qe & _).
  destruct K as [(-> & -> & Eu & Fl)|[(-> & -> & Eu & Big)|(i & Eu & K)]]; rewrite Eu.
  - split; [cbn; lia|]. left. split; [reflexivity|]. split; [reflexivity|]. split; [reflexivity|]. split; [|rewrite Qe; intros r g []].
    intros k d Hk Pd. apply (In_nth _ _ 0%nat) in Hk as (i & Li & <-). rewrite (pd_cost sp Q b c Sm Qd (quad_nodup sp p Lv) (se_val (sp_se sp)) i d Li (now_can sp) Pd).
    rewrite (slope_ext (size sp) Q b _ (fun j => (now sp).[j])); [exact (Fl i Li)|]. intros j Lj. symmetry. apply now_coord, Lj.
  - split; [cbn; lia|]. right; left. split; [reflexivity|]. split; [reflexivity|]. split; [reflexivity|]. destruct Big as (i & Li & Bi). exists i. split; [exact Li|]. rewrite <- now_coord by exact Li. exact Bi.
  - split; [pose proof (log_bound all 0 i (u, [])) as B; cbn [snd length] in B; unfold log_all; lia|].
    right; right. destruct K as [(-> & -> & Hs)|(Fl & _ & K)].
    + left. split; [reflexivity|]. split; [reflexivity|]. intros ->. discriminate Hs.
    + right. split; [exact (flat_minimiser sp Q b c Qd (quad_nodup sp p Lv) m y Ly De Fl)|]. destruct K as [K|[K|[K _]]]; auto.
Qed.

(** Nothing asks solve() to stop early. *)
Lemma c89_solve fuel p (u : U) clk : lived sp p -> sp_eqs sp = [] -> sp_ineqs sp = [] -> (2 <= fuel)%nat -> (1 < o_max o)%Z ->
  (forall i, (i < size sp)%nat -> Rabs (coord sp (se_val (sp_se sp)) i) <= 10000000000) -> s_ltb Xn (o_timeout o) (s_sub Xn (e_clock E (S clk)) (e_clock E clk)) = false ->
  exists p' y, solve E o fuel [] [] p u clk = Ok (SUCCESS, p') /\ lived (at_point sp y) p' /\ length y = size sp /\ ((y = now sp /\ settled sp t) \/ minimiser sp m y).
Proof.
  intros Lv Qe Qi Hf Hm Nb Hto. destruct (prepare_total sp p Lv Qi) as (rn & x0 & p1 & Hp). destruct (solve_picks sp p rn x0 p1 Lv Hp) as (tf & te & ti & _ & _ & _ & _ & M).
  destruct (lived_ok _ _ Lv) as [Ip Lp]. destruct (prepare_inv sp p _ x0 p1 Ip Lp Hp) as (I1 & L1 & E0 & _ & _). pose proof (quad_nodup sp p Lv) as Nd.
  assert (Go : exists p' y, solve E o fuel [] [] p u clk = Ok (SUCCESS, p') /\ (forall x, final E o fuel ([] ++ []) u clk rn x0 SUCCESS x -> x = map Fin y) /\ length y = size sp /\ ((y = now sp /\ settled sp t) \/ minimiser sp m y)).
  { unfold solve. rewrite Hp. cbn [obind]. destruct rn as [|P|P|P|]; cbv beta iota; cbn [app].
    - exists p1, (now sp). split; [reflexivity|]. split; [intros x [_ ->]; exact E0|]. split; [apply now_len|]. left. split; [reflexivity|]. split; [|rewrite Qe; intros r g []].
      intros k d Hk Pd. destruct (c35_none sp p RanNone x0 p1 Lv Hp) as [_ Cn]. specialize (Cn eq_refl).
      replace d with 0; [rewrite Rabs_R0; lra|]. symmetry. apply (pd_fun k (cost_is sp) _ d 0 (fun rho v w => cost_det sp rho v w) Pd).
      destruct (cost_total sp _ (start_everywhere sp Sm)) as (v & Hv). exists (fun _ => v). split; [|exact (is_derive_const v _)].
      apply (In_nth _ _ 0%nat) in Hk as (i & Li & <-). apply (filter_forall (F := locally _)). intros r. pose proof (cost_quad sp Q b c Sm Qd _ (can_upd sp (se_val (sp_se sp)) i r Li (now_can sp))) as Hr.
      rewrite (proj1 (Cn _ _) _ _ Hv Hr). exact Hr.
    - destruct (quad_gives sp p Q b c m Lv Sm Qd Ns P x0 p1 Hp) as (f & En & Es & Pf & Fm & Ex0 & Hf0 & Hg & HH). rewrite Ex0.
      pose proof (newton_quad E o t P (@nil (callback Xn U)) (size sp) Q b c f m (proj1 Qd) En Es Pf Ht Pt De Fm Ex Hf0 Hg (fun y L => proj2 (HH y L)) fuel (now sp) u clk (now_len sp) (proj1 (HH _ (now_len sp)))) as K.
      destruct (newton E P [] o fuel (fv (now sp)) u clk) as [[st fin]| | |] eqn:Hn; try contradiction; [|lia]. cbn [obind]. destruct K as (y & Ey & Ly & K).
      destruct (ProbSolveTotal.write_total sp p1 (n_x E fin) I1 L1) as (p' & W); [rewrite Ey; etransitivity; [apply fv_len|]; exact (eq_trans Ly (eq_sym (dec_len (S := Xn) sp p1 L1)))|]. rewrite W. cbn [obind]. exists p', y.
      assert (Q0 : st = SUCCESS /\ ((y = now sp /\ settled sp t) \/ minimiser sp m y)).
      { destruct K as [(-> & -> & _ & Fl)|[(_ & _ & _ & (i & Li & Bi))|(i & _ & [(_ & _ & Hs)|(Fl & _ & K)])]].
        - split; [reflexivity|]. left. split; [reflexivity|]. split; [|rewrite Qe; intros r g []].
          intros k d Hk Pd. apply (In_nth _ _ 0%nat) in Hk as (i & Li & <-). rewrite (pd_cost sp Q b c Sm Qd Nd (se_val (sp_se sp)) i d Li (now_can sp) Pd).
          rewrite (slope_ext (size sp) Q b _ (fun j => (now sp).[j])); [exact (Fl i Li)|]. intros j Lj. symmetry. apply now_coord, Lj.
        - exfalso. specialize (Nb i Li). rewrite <- now_coord in Nb by exact Li. lra.
        - discriminate Hs.
        - split; [|right; exact (flat_minimiser sp Q b c Qd Nd m y Ly De Fl)]. destruct K as [K|[[_ K]|[_ K]]]; [exact K|lia|congruence]. }
      destruct Q0 as [-> Q0]. split; [reflexivity|]. split; [|split; [exact Ly|exact Q0]]. intros x (fin' & Hn' & ->). rewrite Hn in Hn'. injection Hn' as <-. exact Ey.
    - destruct M as [M _]. contradiction.
    - contradiction.
    - contradiction. }
  destruct Go as (p' & y & Hs & Hx & Ly & K). exists p', y. split; [exact Hs|]. split; [|split; [exact Ly|exact K]].
  destruct (c35 E o fuel [] [] sp p u clk _ _ Lv Hs) as (rn' & x0' & p1' & x & tf' & te' & ti' & Hp' & _ & _ & _ & _ & _ & _ & Fi & _ & _ & _ & _ & _ & _ & _ & _ & Li). rewrite Hp in Hp'. injection Hp' as <- <- <-. apply Li, Hx, Fi.
Qed.
End Solve.
