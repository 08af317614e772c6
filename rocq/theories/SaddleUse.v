(** Proofs for C91 at the level of solve(). *)
From Coq Require Import ZArith Reals List Bool Arith Lia Lra.
From Coquelicot Require Import Hierarchy Derive AutoDerive.
From Verif Require Import Base ExprModel ExprReal ExprXR MathSpec VarModel VarSpec HistProofs JacModel NumModel UtilModel UtilSpec ScaleProofs ExitModel SolverModel SolverSpec SolverProofs FilterModel SqpModel RestoreModel LinR KktSpec FinEval XArith DiffSpec SmoothSpec SmoothGraph SmoothUser
  ProblemModel ProblemSpec ProblemInv ProblemProofs ProblemProofs2 ProblemProofs3 ProblemProofs4 ProbSolveModel ProbSolveInv ProbSolveEval ProbSolveSpec ProbSolveProofs ProbSolvePrep ProbSolveHist ProbSolveEnd ProbSolveLived ProbSolveFinal ProbSolveNone ProbSolveFacts LagrSpec ProbSolveMade ProbSolveDeriv ProbSolveDims ProbSolveKkt ProbSolveKkt2
  ProbSolveBounds EarlySpec ProbEarly FiniteSpec FiniteUseSpec FiniteUse ConvexSpec ConvexUse QuadSpec QuadProofs QuadUse SaddleSpec SaddleProofs.
Import ListNotations.
Local Open Scope R_scope.

Section Alg.
Variables (n : nat) (Q : nat -> nat -> R) (b : nat -> R) (c f : R).
Lemma form_scal y : form n (fun i j => f * Q i j) y = f * form n Q y.
Proof. unfold form. rewrite <- sumn_scal. apply sumn_ext. intros i _. rewrite <- sumn_scal. apply sumn_ext. intros j _. ring. Qed.
Lemma quad_scal y : quad n (fun i j => f * Q i j) (fun i => f * b i) (f * c) y = f * quad n Q b c y.
Proof. unfold quad. rewrite form_scal. rewrite (sumn_ext n (fun i => f * b i * y i) (fun i => f * (b i * y i))) by (intros; ring). rewrite sumn_scal. ring. Qed.
Lemma slope_scal y i : slope n (fun i j => f * Q i j) (fun i => f * b i) y i = f * slope n Q b y i.
Proof. unfold slope. rewrite (sumn_ext n (fun j => f * Q i j * y j) (fun j => f * (Q i j * y j))) by (intros; ring). rewrite sumn_scal. ring. Qed.
Lemma independent_scal k A s : 0 < f <= 1 -> 0 <= s -> independent n k Q A s -> independent n k (fun i j => f * Q i j) A s.
Proof.
  intros Hf Ps H w. destruct (H w) as (v & Hv). exists (fun j => / f * v j). rewrite form_scal.
  assert (F1 : form n Q (fun j => / f * v j) = / f * / f * form n Q v).
  { unfold form. rewrite <- sumn_scal. apply sumn_ext. intros i _. rewrite <- sumn_scal. apply sumn_ext. intros j _. ring. }
  assert (F2 : sumn k (fun l => w l * sumn n (fun j => A l j * (/ f * v j))) = / f * sumn k (fun l => w l * sumn n (fun j => A l j * v j))).
  { rewrite <- sumn_scal. apply sumn_ext. intros l _. rewrite (sumn_ext n _ (fun j => / f * (A l j * v j))) by (intros; ring). rewrite sumn_scal. ring. }
  rewrite F1, F2. set (G := sumn k _) in *. set (N := norm_sq k w) in *. assert (0 <= N) by (apply sumn_nonneg; intros; apply Rle_0_sqr).
  replace (f * (/ f * / f * form n Q v) + 2 * (/ f * G)) with (/ f * (form n Q v + 2 * G)) by (field; lra).
  assert (1 <= / f) by (rewrite <- Rinv_1; apply Rinv_le_contravar; lra). assert (0 <= s * N) by (apply Rmult_le_pos; assumption).
  apply Rle_trans with (/ f * (- s * N)); [apply Rmult_le_compat_l; lra|]. nra.
Qed.
End Alg.

(** A function of the decision variables that is a quadratic. *)
Section Fun.
Variables (sp : spec) (F : ufun) (Q : nat -> nat -> R) (b : nat -> R) (c : R).
Hypothesis Nd : NoDup (sp_dec sp).
Let n := size sp.
Hypothesis Sy : forall i j, Q i j = Q j i.
Hypothesis Fq : forall rho, can_be sp rho -> F rho (quad n Q b c (coord sp rho)).
Hypothesis Fd : forall rho v w, F rho v -> F rho w -> v = w.
Lemma pd_fq rho i : (i < n)%nat -> can_be sp rho -> pd (nth i (sp_dec sp) 0%nat) F rho (slope n Q b (coord sp rho) i).
Proof.
  intros Li C. exists (fun t => quad n Q b c (coord sp rho) + (t - coord sp rho i) * slope n Q b (coord sp rho) i + 1 / 2 * (t - coord sp rho i) * (t - coord sp rho i) * Q i i). split.
  - apply (filter_forall (F := locally _)). intros t. rewrite <- (quad_upd n Q b c Sy (coord sp rho) i t Li).
    rewrite <- (quad_ext n Q b c (coord sp (upd rho (nth i (sp_dec sp) 0%nat) t))); [apply Fq, can_upd; assumption|]. intros j Lj. apply coord_upd; assumption.
  - apply parabola.
Qed.
Lemma pd_f rho i d : (i < n)%nat -> can_be sp rho -> pd (nth i (sp_dec sp) 0%nat) F rho d -> d = slope n Q b (coord sp rho) i.
Proof. intros Li C H. exact (pd_fun _ _ rho _ _ Fd H (pd_fq rho i Li C)). Qed.
Lemma pd2_f rho i j d : (i < n)%nat -> (j < n)%nat -> can_be sp rho -> pd (nth j (sp_dec sp) 0%nat) (pd (nth i (sp_dec sp) 0%nat) F) rho d -> d = Q i j.
Proof.
  intros Li Lj C H. refine (pd_fun _ _ rho _ _ _ H _); [intros r v w; apply pd_fun; apply Fd|].
  exists (fun t => slope n Q b (coord sp rho) i + (t - coord sp rho j) * Q i j). split.
  - apply (filter_forall (F := locally _)). intros t. rewrite <- (slope_upd n Q b (coord sp rho) j t i Lj). rewrite <- (slope_ext n Q b (coord sp (upd rho (nth j (sp_dec sp) 0%nat) t))).
    + apply pd_fq; [exact Li|apply can_upd; assumption].
    + intros k Lk. apply coord_upd; assumption.
  - apply line.
Qed.
End Fun.

(** The Jacobian the scaling is computed from, entry by entry. *)
Lemma start_A_in n t q x k m sc a i j v : A_at (S := Xn) n t q k m x = Ok a -> In (i, j, v) a -> (i < m)%nat /\ (j < n)%nat /\ at2 (cb_A (S := Xn) n t q k m sc x) i j = s_mul Xn (nth i sc (s_ofZ Xn 0)) v.
Proof.
  intros Ha I. unfold A_at in Ha. unfold cb_A. destruct (at_x (S := Xn) t q x) as [q'| | |]; cbn [obind] in Ha |- *; try discriminate.
  destruct (jget_mat (S := Xn) k q') as [M| | |]; cbn [obind total] in Ha |- *; try discriminate. injection Ha as <-. unfold to_sparse in I.
  apply in_flat_map in I as (j' & Ij & Iv). apply in_seq in Ij. apply in_flat_map in Iv as (i' & Ii & Iv). apply in_seq in Ii. destruct (stored (S := Xn) M i' j') eqn:Es; [|contradiction]. destruct Iv as [Iv|[]]. injection Iv as -> -> <-.
  split; [lia|]. split; [lia|]. unfold at2, dense. rewrite (nth_map_lt _ _ i 0%nat) by (rewrite seq_length; lia). rewrite seq_nth by lia. rewrite (nth_map_lt _ _ j 0%nat) by (rewrite seq_length; lia). rewrite seq_nth by lia. cbn [Nat.add]. unfold scaled. rewrite Es. reflexivity.
Qed.

Lemma row_in r A x : In x (row_values r A) -> exists j, In ((r, j), Fin x : Xn) (Fin_entries A).
Proof.
  unfold row_values, Fin_entries. intros I. apply in_map_iff in I as ([[i j] v] & <- & I). apply filter_In in I as [I K]. apply Nat.eqb_eq in K. cbn in K. subst i. exists j.
  apply (in_map (fun e => (fst e, Fin (snd e) : Xn))) in I. exact I.
Qed.
Lemma times_ones ss gs : length ss = length gs -> (forall v, In v ss -> v = 1) -> times ss gs = gs.
Proof. revert gs. induction ss as [|s ss IH]; intros [|g gs] L H; cbn in *; try discriminate; [reflexivity|]. rewrite (H s) by auto. rewrite Rmult_1_l. f_equal. apply IH; [lia|auto]. Qed.
Lemma gaps_nth rho l : forall gs, Forall2 (gap rho) l gs -> forall i r, nth_error l i = Some r -> gap rho r gs.[i].
Proof. induction 1 as [|r g l gs G F IH]; intros [|i] r' E; cbn in *; try discriminate; [injection E as <-; exact G|apply IH, E]. Qed.
Lemma combo_sum : forall m g, length m = length g -> combo m g = sumn (length g) (fun i => m.[i] * g.[i]).
Proof. induction m as [|a m IH]; intros [|b g] L; cbn [length] in *; try discriminate; [reflexivity|]. rewrite sumn_shift. cbn [combo nth]. rewrite IH by lia. reflexivity. Qed.

Section Given.
Variables (sp : spec) (p : prog X_ops) (Q A : nat -> nat -> R) (b e : nat -> R) (c m : R).
Hypothesis Lv : lived sp p.
Hypothesis Sm : smooth_everywhere sp.
Hypothesis Qd : quadratic sp Q b c.
Hypothesis Af : affine sp A e.
Hypothesis Ns : not_steep sp m.
Hypothesis Nc : not_scaled sp.
Let n := size sp.
Let k := length (sp_eqs sp).
Let Nd : NoDup (sp_dec sp) := quad_nodup sp p Lv.

Lemma gap_affine rho i r : can_be sp rho -> nth_error (sp_eqs sp) i = Some r -> gap rho r (con n A e (coord sp rho) i).
Proof.
  intros C Er. destruct (can_smooth sp rho Sm C) as (_ & S2 & _). destruct (gaps_exist rho (sp_eqs sp)) as (gs & G); [apply all_smooth_defined, S2|]. pose proof (gaps_nth _ _ _ G i r Er) as H.
  rewrite (Af i r rho _ Er C H) in H. exact H.
Qed.
Lemma gaps_affine rho ge : can_be sp rho -> Forall2 (gap rho) (sp_eqs sp) ge -> length ge = k /\ forall i, (i < k)%nat -> ge.[i] = con n A e (coord sp rho) i.
Proof.
  intros C G. split; [symmetry; exact (f2len _ _ _ G)|]. intros i Li. destruct (nth_some (sp_eqs sp) i Li) as (r & Er). exact (Af i r rho _ Er C (gaps_nth _ _ _ G i r Er)).
Qed.
Lemma gap_quad rho i r : can_be sp rho -> nth_error (sp_eqs sp) i = Some r -> gap_fn r rho (quad n (fun _ _ => 0) (A i) (e i) (coord sp rho)).
Proof.
  intros C Er. unfold gap_fn. replace (quad n (fun _ _ => 0) (A i) (e i) (coord sp rho)) with (con n A e (coord sp rho) i); [exact (gap_affine rho i r C Er)|].
  unfold quad, con. replace (form n (fun _ _ => 0) (coord sp rho)) with 0; [ring|]. symmetry. unfold form. apply sumn_0. intros i' _. apply sumn_0. intros j _. ring.
Qed.
Lemma pd_gap rho i r j d : (j < n)%nat -> can_be sp rho -> nth_error (sp_eqs sp) i = Some r -> pd (nth j (sp_dec sp) 0%nat) (gap_fn r) rho d -> d = A i j.
Proof.
  intros Lj C Er H. rewrite (pd_f sp (gap_fn r) (fun _ _ => 0) (A i) (e i) Nd (fun _ _ => eq_refl) (fun rho C => gap_quad rho i r C Er) (fun rho v w => gap_det rho r v w) rho j d Lj C H).
  unfold slope. rewrite sumn_0 by (intros; ring). ring.
Qed.
Lemma lagr_quad f w rho : sp_ineqs sp = [] -> length w = k -> can_be sp rho ->
  lagrangian sp f w [] rho (quad n (fun i j => f * Q i j) (fun j => f * b j - sumn k (fun l => w.[l] * A l j)) (f * c - sumn k (fun l => w.[l] * e l)) (coord sp rho)).
Proof.
  intros Ni Lw C. destruct (can_smooth sp rho Sm C) as (_ & S2 & _). destruct (gaps_exist rho (sp_eqs sp)) as (ge & G); [apply all_smooth_defined, S2|]. destruct (gaps_affine rho ge C G) as [Lg Vg].
  exists (quad n Q b c (coord sp rho)), (- combo w ge - combo [] []). split; [apply cost_quad; assumption|]. split; [exists ge, []; rewrite Ni; split; [exact G|split; [constructor|reflexivity]]|].
  rewrite combo_sum by lia. rewrite Lg. cbn [combo]. rewrite (sumn_ext k (fun i => w.[i] * ge.[i]) (fun l => sumn n (fun j => w.[l] * A l j * coord sp rho j) + w.[l] * e l)).
  2: { intros l Ll. rewrite Vg by exact Ll. unfold con. rewrite Rmult_plus_distr_l, <- sumn_scal. f_equal. apply sumn_ext. intros; ring. }
  rewrite sumn_plus, sumn_swap. unfold quad. rewrite form_scal.
  rewrite (sumn_ext n (fun j => (f * b j - sumn k (fun l => w.[l] * A l j)) * coord sp rho j) (fun j => f * (b j * coord sp rho j) - sumn k (fun l => w.[l] * A l j * coord sp rho j))).
  2: { intros j Lj. rewrite Rmult_minus_distr_r. f_equal; [ring|]. rewrite Rmult_comm, <- sumn_scal. apply sumn_ext. intros; ring. }
  rewrite sumn_minus, sumn_scal. ring.
Qed.
Lemma lagr_det f w rho v v' : lagrangian sp f w [] rho v -> lagrangian sp f w [] rho v' -> v = v'.
Proof.
  intros (a & x & C1 & (g1 & h1 & G1 & H1 & ->) & ->) (a' & x' & C2 & (g2 & h2 & G2 & H2 & ->) & ->). rewrite (cost_det _ _ _ _ C1 C2), (gaps_det _ _ _ _ G1 G2), (gaps_det _ _ _ _ H1 H2). reflexivity.
Qed.
Lemma pd2_lagr f w rho i j d : sp_ineqs sp = [] -> length w = k -> (i < n)%nat -> (j < n)%nat -> can_be sp rho ->
  pd (nth j (sp_dec sp) 0%nat) (pd (nth i (sp_dec sp) 0%nat) (lagrangian sp f w [])) rho d -> d = f * Q i j.
Proof.
  intros Ni Lw Li Lj C H. refine (pd2_f sp (lagrangian sp f w []) (fun i j => f * Q i j) _ _ Nd _ _ _ rho i j d Li Lj C H).
  - intros i' j'. rewrite (proj1 Qd i' j'). reflexivity.
  - intros rho' C'. exact (lagr_quad f w rho' Ni Lw C').
  - intros rho' v v'. apply lagr_det.
Qed.

Lemma saddle_gives P x0 p1 : prepare p = Ok (RanSqp P, x0, p1) -> exists f de, sp_n P = n /\ sp_me P = k /\ (0 < k)%nat /\ sp_sc P = fsc f de [] /\ 0 < f <= 1 /\ 1 / 10000 <= f * m /\ length de = k /\ (forall v, In v de -> v = 1) /\ x0 = fv (now sp) /\
  (forall y, length y = n -> sp_f P (fv y) = Fin (f * quad n Q b c (fun i => y.[i]))) /\
  (forall y, length y = n -> exists g, sp_g P (fv y) = fv g /\ length g = n /\ forall i, (i < n)%nat -> g.[i] = f * slope n Q b (fun i => y.[i]) i) /\
  (forall y mu, length y = n -> length mu = k -> mat_dims (S := Xn) n n (sp_H P (fv y) (fv mu)) = true /\ exists H, sp_H P (fv y) (fv mu) = fm H /\ length H = n /\ (forall w, In w H -> length w = n) /\ forall i j, (i < n)%nat -> (j < n)%nat -> low H i j = f * Q i j) /\
  (forall y, length y = n -> exists ce, sp_ce P (fv y) = fv ce /\ length ce = k /\ forall l, (l < k)%nat -> ce.[l] = con n A e (fun i => y.[i]) l) /\
  (forall y, length y = n -> mat_dims (S := Xn) k n (sp_Ae P (fv y)) = true /\ exists M, sp_Ae P (fv y) = fm M /\ wf k n M /\ forall l j, (l < k)%nat -> (j < n)%nat -> ent M l j = A l j).
Proof.
  intros H. destruct (sqp_start sp p Lv (start_everywhere sp Sm) P x0 p1 H) as (Ex & En & Ee & Me & Pok & f & de & g & M & ge & Sc & Pf & Lde & Pde & _). destruct (lived_ok _ _ Lv) as [Ip Lp].
  destruct (c80_sqp sp p P x0 p1 Lv H (start_everywhere sp Sm)) as (f' & de' & E1 & E2 & Ei & _ & _ & _ & K). rewrite Sc in E1, E2. cbn [fsc sc_f sc_e] in E1, E2. injection E1 as <-. apply map_fin_inj in E2. subst de'.
  destruct (prepare_inv sp p _ x0 p1 Ip Lp H) as (I1 & L1 & E0 & _ & (tf & te & ti & _ & _ & _ & _ & Nq & Ni & Gv)).
  assert (Le : length (sc_e (sp_sc P)) = sp_me P) by (rewrite Sc; cbn [fsc sc_e]; rewrite fv_len; exact Lde). assert (Li : sc_i (sp_sc P) = []) by (rewrite Sc; reflexivity).
  pose proof (sqp_H_dims p1 x0 P Ni Gv Le Li) as Dm.
  assert (Ly : length (now sp) = length (p_dec p1)) by (rewrite now_len; symmetry; exact (dec_len (S := Xn) sp p1 L1)).
  assert (Sn : prob_smooth sp (point sp (now sp))) by exact (Sm (now sp) (now_len sp)).
  pose proof (dec_len (S := Xn) sp p1 L1) as Ld.
  assert (FD : f <= 1 /\ 1 / 10000 <= f * m /\ forall v, In v de -> v = 1).
  { destruct Gv as (nodes & t & q & gs & Ae & D & Rd & Hg & HA & EP). pose proof Sc as Sc0. rewrite EP in Sc. cbn [sqp_prob sp_sc] in Sc. rewrite Ex in Hg, HA. assert (Me' : sp_me P = length (t_ce t)) by (rewrite EP; reflexivity).
    destruct (k_start_g KSqp sp p1 nodes t q L1 Rd D (now sp) gs Ly (proj1 Sn) Hg) as (gr & ->).
    destruct (k_start_Ae KSqp sp p1 nodes t q L1 Rd D (now sp) Ae ltac:(discriminate) Ly (proj1 (proj2 Sn)) HA) as (Ar & ->).
    destruct (scale_of_spec gr) as (f' & Ef & (Pf' & _ & Sl)).
    assert (f' = f) as ->. { apply (f_equal sc_f) in Sc. cbn [scaling_sqp sc_f fsc] in Sc. rewrite Ef in Sc. injection Sc as ->. reflexivity. }
    split; [lra|]. split.
    - destruct Ns as [N1 N2]. destruct Sl as [->|(x & Ix & Vx)]; [lra|].
      destruct (start_g_in (length (p_dec p1)) t q (map Fin (now sp)) unit_sc (map Fin gr) (Fin x) Hg (in_map Fin _ _ Ix)) as (j & Lj & Vj).
      destruct (nth_some (sp_dec sp) j) as (kk & Ek); [rewrite <- Ld; exact Lj|].
      destruct (k_g KSqp sp p1 nodes t q L1 Rd D unit_sc 1 (now sp) eq_refl Ly (proj1 Sn) j kk Ek) as (d & Ed & Pd). rewrite Ed in Vj. change (s_mul Xn (sc_f unit_sc) (Fin x)) with (Fin (1 * x)) in Vj. injection Vj as Vj.
      assert (x = d) as -> by lra.
      assert (B : Rabs d <= 1000000 * m). { apply (N2 kk); [eapply nth_error_In; eauto|]. eapply pd_at; [|apply now_point|exact Pd]. intros a b0 w E. apply cost_ext, E. }
      rewrite Rabs_mult, (Rabs_right f) in Vx by lra. assert (f * Rabs d <= f * (1000000 * m)) by (apply Rmult_le_compat_l; lra). lra.
    - intros v Iv. apply (In_nth _ _ 0) in Iv as (i & Hi & Vi). rewrite Lde in Hi. destruct (scale_rows_spec Ar (length (t_ce t)) i ltac:(rewrite <- Me'; exact Hi)) as (s & Es & (Ps & _ & Sl')).
      assert (s = v) as ->.
      { apply (f_equal sc_e) in Sc. cbn [scaling_sqp sc_e fsc] in Sc. rewrite Sc in Es. unfold fv in Es. rewrite nth_error_map in Es. rewrite (nth_error_of de i 0) in Es by lia. cbn in Es. injection Es as <-. exact Vi. }
      destruct Sl' as [Sl'|(x & Ix & Vx)]; [exact Sl'|]. apply row_in in Ix as (j & Ix).
      destruct (start_A_in (length (p_dec p1)) t q (map Fin (now sp)) (t_Ae t) (length (t_ce t)) (map Fin (repeat 1 (length (t_ce t)))) _ i j (Fin x) HA Ix) as (Hi' & Hj & Va).
      destruct (nth_some (sp_dec sp) j) as (kk & Ek); [rewrite <- Ld; exact Hj|]. destruct (nth_some (sp_eqs sp) i) as (r & Er); [rewrite <- Ee; exact Hi|].
      destruct (k_Ae KSqp sp p1 nodes t q L1 Rd D (map Fin (repeat 1 (length (t_ce t)))) (repeat 1 (length (t_ce t))) (now sp) ltac:(discriminate) eq_refl (repeat_length _ _) Ly (proj1 (proj2 Sn)) i r j kk Er Ek) as (d & Ed & Pd).
      rewrite Ed in Va. rewrite (nth_map_lt Fin _ i 0) in Va by (rewrite repeat_length; exact Hi'). change (s_mul Xn (Fin (nth i (repeat 1 (length (t_ce t))) 0)) (Fin x)) with (Fin (nth i (repeat 1 (length (t_ce t))) 0 * x)) in Va.
      rewrite (nth_indep _ 0 1) in Va by (rewrite repeat_length; exact Hi'). rewrite nth_repeat in Va. injection Va as Va. assert (x = d) as -> by lra.
      assert (B : Rabs d <= 100). { apply (Nc r kk); [eapply nth_error_In; eauto|eapply nth_error_In; eauto|]. eapply pd_at; [|apply now_point|exact Pd]. intros a b0 w E W. eapply gap_ext; eauto. }
      rewrite Rabs_mult, (Rabs_right v) in Vx by lra. assert (v * Rabs d <= v * 100) by (apply Rmult_le_compat_l; lra). lra. }
  destruct FD as (F1 & F2 & D1). rewrite Ee in Lde.
  exists f, de. split; [exact En|]. split; [exact Ee|]. split; [unfold k; lia|]. split; [exact Sc|]. split; [lra|]. split; [exact F2|]. split; [exact Lde|]. split; [exact D1|]. split; [exact Ex|].
  split; [|split; [|split; [|split]]].
  - intros y L. destruct (K y L (Sm y L)) as ((v & V & Ev) & _). unfold fv. rewrite Ev. do 2 f_equal. rewrite (proj2 Qd _ _ (point_can sp y) V). apply (quad_ext n Q b c). intros i Hi. apply coord_point; [exact Nd|exact L|exact Hi].
  - intros y L. destruct (K y L (Sm y L)) as (_ & _ & G & _). destruct (grad_real _ _ _ _ G) as (g' & Eg & Lg & Hg). exists g'. split; [exact Eg|]. split; [exact Lg|].
    intros i Hi. destruct (Hg i _ (nth_error_of (sp_dec sp) i 0%nat Hi)) as (d & Ed & Pd). rewrite Ed. f_equal.
    rewrite (pd_cost sp Q b c Sm Qd Nd (point sp y) i d Hi (point_can sp y) Pd). apply (slope_ext n Q b). intros j Lj. apply coord_point; [exact Nd|exact L|exact Lj].
  - intros y mu L Lm. assert (Lf : length (fv y) = sp_n P) by (rewrite fv_len, En; exact L). assert (Lfm : length (fv mu) = sp_me P) by (rewrite fv_len, Ee; exact Lm). destruct (Dm (fv y) (fv mu) Lf Lfm) as [Dy _]. rewrite En in Dy. split; [exact Dy|].
    destruct (K y L (Sm y L)) as (_ & _ & _ & _ & Hh). destruct (Hh mu Lm) as [Hh1 _]. pose proof (hess_fin _ _ _ _ Hh1) as Fh. destruct Hh1 as ((S1 & S2) & Hh1).
    assert (exists B, sp_H P (fv y) (fv mu) = fm B) as (B & EB).
    { clear - Fh. unfold fv in *. induction (sp_H P (map Fin y) (map Fin mu)) as [|w M IH]; [exists []; reflexivity|]. inversion Fh as [|? ? G1 G2]; subst. destruct (IH G2) as (B & ->). destruct (vfin_real _ G1) as (r & ->). exists (r :: B). reflexivity. }
    exists B. split; [exact EB|]. change (map Fin y) with (fv y) in *. change (map Fin mu) with (fv mu) in *. rewrite EB in *. unfold fm in S1, S2, Hh1. rewrite map_length in S1. split; [exact S1|]. split.
    { intros w Iw. specialize (S2 (fv w) (in_map fv _ _ Iw)). rewrite fv_len in S2. exact S2. }
    assert (Kk : forall i j, (i < n)%nat -> (j <= i)%nat -> nth j (nth i B []) 0 = f * Q i j).
    { intros i j Hi Lj. assert (Lj' : (j < n)%nat) by lia. destruct (Hh1 i j _ _ (nth_error_of (sp_dec sp) i 0%nat Hi) (nth_error_of (sp_dec sp) j 0%nat Lj')) as [Hh2 _]. destruct (Hh2 Lj) as (d & Ed & Pd).
      rewrite <- (pd2_lagr f (times de mu) (point sp y) i j d Ei ltac:(rewrite times_length; lia) Hi Lj' (point_can sp y) Pd).
      unfold at2 in Ed. rewrite (nth_map_lt fv B i [] []) in Ed by (rewrite S1; exact Hi). unfold fv in Ed. rewrite (nth_map_lt Fin _ j 0 NaN) in Ed; [injection Ed as Ed; exact Ed|].
      specialize (S2 (fv (nth i B [])) (in_map fv _ _ (nth_In B [] ltac:(rewrite S1; exact Hi)))). rewrite fv_len in S2. rewrite S2. exact Lj'. }
    intros i j Hi Lj. unfold low. destruct (Nat.le_ge_cases j i) as [C|C].
    + rewrite (Nat.min_r i j C), (Nat.max_l i j C). apply Kk; assumption.
    + rewrite (Nat.min_l i j C), (Nat.max_r i j C). rewrite (proj1 Qd i j). apply Kk; assumption.
  - intros y L. destruct (K y L (Sm y L)) as (_ & (gs & Gs & Ec) & _). destruct (gaps_affine (point sp y) gs (point_can sp y) Gs) as [Lg Vg]. exists gs. rewrite (times_ones de gs) in Ec by (auto; lia). split; [exact Ec|]. split; [exact Lg|].
    intros l Ll. rewrite Vg by exact Ll. apply con_ext. intros j Lj. apply coord_point; [exact Nd|exact L|exact Lj].
  - intros y L. destruct (K y L (Sm y L)) as (_ & _ & _ & J & _). destruct (Pok (fv y) ltac:(rewrite fv_len, En; exact L)) as (_ & _ & DA). rewrite Ee, En in DA. split; [exact DA|].
    destruct (jac_real _ _ _ _ _ J DA) as (B & EB & WB & VB). exists B. split; [exact EB|]. split; [exact WB|]. intros l j Ll Lj. destruct (nth_some (sp_eqs sp) l Ll) as (r & Er).
    destruct (VB l r j _ Er (nth_error_of (sp_dec sp) j 0%nat Lj)) as (d & -> & Pd). rewrite (D1 de.[l]) by (apply nth_In; rewrite Lde; exact Ll). rewrite Rmult_1_l. exact (pd_gap (point sp y) l r j d Lj (point_can sp y) Er Pd).
Qed.
End Given.

Lemma sum_one m j (f : nat -> R) : (j < m)%nat -> sumn m (fun i => if Nat.eqb i j then f i else 0) = f j.
Proof.
  induction m as [|m IH]; [lia|]. intros H. cbn [sumn]. destruct (Nat.eq_dec j m) as [->|Ne].
  - rewrite Nat.eqb_refl. rewrite sumn_0; [ring|]. intros i Hi. destruct (Nat.eqb_spec i m); [lia|reflexivity].
  - rewrite IH by lia. destruct (Nat.eqb_spec m j); [lia|ring].
Qed.
Lemma exists_nz_row n (r : nat -> R) : (exists j, (j < n)%nat /\ r j <> 0) \/ (forall j, (j < n)%nat -> r j = 0).
Proof.
  induction n as [|n IH]; [right; intros; lia|]. destruct IH as [(j & Lj & Nj)|Z]; [left; exists j; split; [lia|exact Nj]|]. destruct (Req_dec (r n) 0) as [E|E].
  - right. intros j Lj. destruct (Nat.eq_dec j n) as [->|]; [exact E|apply Z; lia].
  - left. exists n. split; [lia|exact E].
Qed.
Lemma exists_nz n k (A : nat -> nat -> R) : (exists l j, (l < k)%nat /\ (j < n)%nat /\ A l j <> 0) \/ (forall l j, (l < k)%nat -> (j < n)%nat -> A l j = 0).
Proof.
  induction k as [|k IH]; [right; intros; lia|]. destruct IH as [(l & j & Ll & Lj & Nj)|Z]; [left; exists l, j; split; [lia|auto]|]. destruct (exists_nz_row n (A k)) as [(j & Lj & Nj)|Z'].
  - left. exists k, j. split; [lia|auto].
  - right. intros l j Ll Lj. destruct (Nat.eq_dec l k) as [->|]; [apply Z', Lj|apply Z; [lia|exact Lj]].
Qed.

Section Solve.
Variables (E : env Xn) (o : options Xn) (t : R) (sp : spec) (Q A : nat -> nat -> R) (b e : nat -> R) (c m : R).
Let n := size sp.
Let k := length (sp_eqs sp).
Hypothesis Ht : o_tol o = Fin t.
Hypothesis Pt : 0 < t.
Hypothesis Sm : smooth_everywhere sp.
Hypothesis Qd : quadratic sp Q b c.
Hypothesis Af : affine sp A e.
Hypothesis De : definite (size sp) Q m.
Hypothesis In_ : independent (size sp) (length (sp_eqs sp)) Q A (1 / 10000).
Hypothesis Kn : (length (sp_eqs sp) <= size sp)%nat.
Hypothesis Ns : not_steep sp m.
Hypothesis Nc : not_scaled sp.
Hypothesis Cs : clear_start sp.
Hypothesis Ex : exact_on_saddle E (size sp) (length (sp_eqs sp)).

Lemma kkt_best p y mu f : lived sp p -> 0 < f -> length y = n -> length mu = k ->
  (forall j, (j < n)%nat -> residual n k (fun i j => f * Q i j) A (fun i => f * b i) y mu j = 0) -> (forall l, (l < k)%nat -> con n A e (fun i => y.[i]) l = 0) -> best sp m y.
Proof.
  intros Lv Pf Ly Lm Rz Cz. pose proof (quad_nodup sp p Lv) as Nd.
  assert (Cy : forall j, (j < n)%nat -> coord sp (point sp y) j = y.[j]) by (intros j Lj; apply coord_point; assumption).
  assert (Cp : forall l, (l < k)%nat -> con n A e (coord sp (point sp y)) l = 0).
  { intros l Ll. rewrite (con_ext n A e _ (fun i => y.[i]) l Cy). apply Cz, Ll. }
  assert (Zr : forall rho, can_be sp rho -> (forall r g, In r (sp_eqs sp) -> gap rho r g -> g = 0) -> forall l, (l < k)%nat -> con n A e (coord sp rho) l = 0).
  { intros rho C H l Ll. destruct (nth_some (sp_eqs sp) l Ll) as (r & Er). apply (H r); [eapply nth_error_In; eauto|]. exact (gap_affine sp A e Sm Af rho l r C Er). }
  split.
  - intros r g I G. apply In_nth_error in I as (l & El). rewrite (Af l r _ g El (point_can sp y) G). apply Cp. apply nth_error_Some. rewrite El. discriminate.
  - intros rho v v' C Hr V V'. rewrite (proj2 Qd _ _ (point_can sp y) V), (proj2 Qd _ _ C V').
    apply (kkt_min n k Q A b e c (proj1 Qd) m _ _ (fun l => mu.[l] / f)); [exact De| |exact Cp|apply Zr; assumption].
    intros i Li. specialize (Rz i Li). unfold residual in Rz. rewrite slope_scal in Rz. rewrite (slope_ext n Q b _ (fun i => y.[i]) i Cy).
    apply Rmult_eq_reg_l with f; [|lra]. assert (Ep : f * pull k A (fun l => mu.[l] / f) i = pull k A (fun l => mu.[l]) i) by (unfold pull; rewrite <- sumn_scal; apply sumn_ext; intros; field; lra). rewrite Ep. lra.
Qed.
Lemma start_fair p : lived sp p -> fair n k A e (now sp).
Proof.
  intros Lv. pose proof (quad_nodup sp p Lv) as Nd. destruct (start_everywhere sp Sm) as (_ & S2 & _). destruct (gaps_exist (se_val (sp_se sp)) (sp_eqs sp)) as (ge & G); [apply all_smooth_defined, S2|].
  destruct (gaps_affine sp A e Af _ ge (now_can sp) G) as [Lg Vg].
  assert (Vn : forall l, (l < k)%nat -> con n A e (fun i => (now sp).[i]) l = ge.[l]). { intros l Ll. rewrite Vg by exact Ll. apply con_ext. intros j Lj. apply now_coord, Lj. }
  destruct (Cs ge G) as [Z|B]; [left|right].
  - intros l Ll. rewrite Vn by exact Ll. apply Z, nth_In. unfold k in Ll. lia.
  - rewrite (sumn_ext k _ (fun l => Rabs ge.[l])) by (intros l Ll; rewrite Vn by exact Ll; reflexivity). unfold sum_abs in B. rewrite Lg in B. exact B.
Qed.
Lemma start_settled p f de : lived sp p -> 0 < f -> length de = k -> (forall v, In v de -> v = 1) ->
  (forall j, (j < n)%nat -> Rabs (slope n (fun i j => f * Q i j) (fun i => f * b i) (fun i => (now sp).[i]) j) <= f * t) -> (forall l, (l < k)%nat -> Rabs (con n A e (fun i => (now sp).[i]) l) <= de.[l] * t) -> settled sp t.
Proof.
  intros Lv Pf Ld D1 H1 H2. pose proof (quad_nodup sp p Lv) as Nd. split.
  - intros kk d Hk Pd. apply (In_nth _ _ 0%nat) in Hk as (i & Li & <-). rewrite (pd_cost sp Q b c Sm Qd Nd (se_val (sp_se sp)) i d Li (now_can sp) Pd).
    rewrite (slope_ext (size sp) Q b _ (fun j => (now sp).[j])) by (intros j Lj; symmetry; apply now_coord, Lj). specialize (H1 i Li). rewrite slope_scal, Rabs_mult, (Rabs_right f) in H1 by lra. apply Rmult_le_reg_l in H1; [exact H1|exact Pf].
  - intros r g I G. apply In_nth_error in I as (l & El). assert (Ll : (l < k)%nat) by (apply nth_error_Some; rewrite El; discriminate). rewrite (Af l r _ g El (now_can sp) G). specialize (H2 l Ll). rewrite (D1 de.[l]) in H2 by (apply nth_In; lia). rewrite Rmult_1_l in H2.
    change (Rabs (con n A e (coord sp (se_val (sp_se sp))) l) <= t). rewrite (con_ext n A e _ (fun j => (now sp).[j])) by (intros j Lj; symmetry; apply now_coord, Lj). exact H2.
Qed.

Lemma sqp_run {U : Type} (cbs : list (callback Xn U)) p P x0 p1 fuel u clk : lived sp p -> prepare p = Ok (RanSqp P, x0, p1) ->
  match sqp_solve E o fuel P cbs x0 u clk with
  | OutOfFuel => (fuel < 2)%nat
  | Ok (st, fin) => exists y, s_x E fin = fv y /\ length y = n /\
    ((st = SUCCESS /\ y = now sp /\ s_u E fin = u /\ settled sp t) \/
     (st = DIVERGING_ITERATES /\ y = now sp /\ s_u E fin = u /\ exists i, (i < n)%nat /\ 10000000000 < Rabs (now sp).[i]) \/
     exists i, s_u E fin = fst (run_callbacks cbs i u) /\
       ((st = CALLBACK_REQUESTED_STOP /\ y = now sp /\ snd (run_callbacks cbs i u) = true) \/
        (best sp m y /\
         (st = SUCCESS \/ (st = MAX_ITERATIONS_EXCEEDED /\ (o_max o <= 1)%Z) \/ (st = TIMEOUT /\ s_ltb Xn (o_timeout o) (s_sub Xn (e_clock E (S clk)) (e_clock E clk)) = true)))))
  | _ => False
  end.
Proof.
  intros Lv Hp. destruct (saddle_gives sp p Q A b e c m Lv Sm Qd Af Ns Nc P x0 p1 Hp) as (f & de & En & Ek & Pk & Es & Pf & Fm & Lde & D1 & -> & Hf & Hg & HH & Hc & HA).
  assert (De' : definite n (fun i j => f * Q i j) (1 / 10000)).
  { intros v. rewrite form_scal. specialize (De v). assert (0 <= norm_sq n v) by (apply sumn_nonneg; intros; apply Rle_0_sqr). apply Rle_trans with (f * (m * norm_sq n v)); [rewrite <- Rmult_assoc; apply Rmult_le_compat_r; assumption|apply Rmult_le_compat_l; [lra|exact De]]. }
  pose proof (independent_scal n Q f k A (1 / 10000) Pf ltac:(lra) In_) as In'.
  pose proof (sqp_quad E o t P cbs n k (fun i j => f * Q i j) A (fun i => f * b i) e (f * c) f de (sqp_restore E o fuel P)) as K.
  specialize (K ltac:(intros i j; cbv beta; rewrite (proj1 Qd i j); reflexivity) En Ek Pk Kn Es (proj1 Pf) Lde ltac:(intros v I; rewrite (D1 v I); lra) Ht Pt De' In' Ex).
  specialize (K ltac:(intros y L; rewrite quad_scal; apply Hf, L)).
  specialize (K ltac:(intros y L; destruct (Hg y L) as (g & Eg & Lg & Vg); exists g; split; [exact Eg|split; [exact Lg|intros i Li; rewrite slope_scal; apply Vg, Li]])).
  specialize (K (fun y mu L Lm => proj2 (HH y mu L Lm)) Hc (fun y L => proj2 (HA y L)) fuel (now sp) u clk (now_len sp) (proj1 (HH _ _ (now_len sp) (repeat_length 0 k))) (proj1 (HA _ (now_len sp))) (start_fair p Lv)).
  unfold sqp_solve. destruct (sqp E P o cbs (sqp_restore E o fuel P) fuel (fv (now sp)) u clk) as [[st fin]| | |]; try contradiction; [|exact K].
  destruct K as (y & mu & Ey & Em & Ly & Lm & K). exists y. split; [exact Ey|]. split; [exact Ly|].
  destruct K as [(-> & -> & Eu & F1 & F2)|[(-> & -> & Eu & Big)|(i & Eu & K)]].
  - left. split; [reflexivity|]. split; [reflexivity|]. split; [exact Eu|]. exact (start_settled p f de Lv (proj1 Pf) Lde D1 F1 F2).
  - right; left. auto.
  - right; right. exists i. split; [exact Eu|]. destruct K as [K|(Rz & Cz & _ & K)]; [left; exact K|]. right. split; [|exact K]. exact (kkt_best p y mu f Lv (proj1 Pf) Ly Lm Rz Cz).
Qed.

Lemma c91 {U : Type} (all : list (callback Xn U)) st x s y z l : sp_ineqs sp = [] -> ended E o all sp st x s y z l -> exists w, x = map Fin w /\ (length l <= length all)%nat /\
  ((st = SUCCESS /\ w = now sp /\ l = [] /\ settled sp t) \/
   (st = DIVERGING_ITERATES /\ w = now sp /\ l = [] /\ exists i, (i < size sp)%nat /\ 10000000000 < Rabs (coord sp (se_val (sp_se sp)) i)) \/
   (st = CALLBACK_REQUESTED_STOP /\ w = now sp /\ all <> []) \/
   (best sp m w /\ (st = SUCCESS \/ (st = MAX_ITERATIONS_EXCEEDED /\ (o_max o <= 1)%Z) \/ st = TIMEOUT))).
Proof.
  intros Qi H. destruct H as [p P x0 p1 fuel u clk st fin Lv Hp H|p P x0 p1 fuel u clk st fin Lv Hp H].
  2: { exfalso. destruct (solve_picks sp p _ x0 p1 Lv Hp) as (tf & te & ti & _ & _ & _ & _ & M). contradiction. }
  pose proof (sqp_run (log_all all) p P x0 p1 fuel (u, []) clk Lv Hp) as K. rewrite H in K. destruct K as (y & Ey & Ly & K). exists y. split; [exact Ey|].
  destruct K as [(-> & -> & Eu & Fl)|[(-> & -> & Eu & Big)|(i & Eu & K)]]; rewrite Eu.
  - split; [cbn; lia|]. left. auto.
  - split; [cbn; lia|]. right; left. split; [reflexivity|]. split; [reflexivity|]. split; [reflexivity|]. destruct Big as (i & Li & Bi). exists i. split; [exact Li|]. rewrite <- now_coord by exact Li. exact Bi.
  - split; [pose proof (log_bound all 0 i (u, [])) as B; cbn [snd length] in B; unfold log_all; lia|].
    right; right. destruct K as [(-> & -> & Hs)|(Fl & K)].
    + left. split; [reflexivity|]. split; [reflexivity|]. intros ->. discriminate Hs.
    + right. split; [exact Fl|]. destruct K as [K|[K|[K _]]]; auto.
Qed.

(** Independent rows make the constraints depend on the variables. *)
Lemma rows_move : 0 < m -> sp_eqs sp <> [] -> exists l j, (l < k)%nat /\ (j < n)%nat /\ A l j <> 0.
Proof.
  intros Pm Ne. destruct (exists_nz n k A) as [Hx|Hz]; [exact Hx|]. exfalso.
  pose (w := fun l : nat => if Nat.eqb l 0 then 1 else 0). destruct (In_ w) as (v & Hv). rewrite (sumn_0 (length (sp_eqs sp))) in Hv by (intros l Ll; rewrite sumn_0; [ring|intros j Lj; rewrite (Hz l j Ll Lj); ring]).
  pose proof (De v) as Dv. assert (0 <= norm_sq (size sp) v) by (apply sumn_nonneg; intros; apply Rle_0_sqr). assert (0 <= m * norm_sq (size sp) v) by (apply Rmult_le_pos; lra).
  assert (1 <= norm_sq (length (sp_eqs sp)) w). { apply Rle_trans with (w 0%nat * w 0%nat); [unfold w; cbn; lra|]. apply (sumn_elem _ (fun l => w l * w l)); [intros; apply Rle_0_sqr|destruct (sp_eqs sp); [congruence|cbn; lia]]. }
  lra.
Qed.

(** Nothing asks solve() to stop early. *)
Lemma c91_solve {U : Type} fuel p (u : U) clk : lived sp p -> sp_eqs sp <> [] -> sp_ineqs sp = [] -> (2 <= fuel)%nat -> (1 < o_max o)%Z ->
  (forall i, (i < size sp)%nat -> Rabs (coord sp (se_val (sp_se sp)) i) <= 10000000000) -> s_ltb Xn (o_timeout o) (s_sub Xn (e_clock E (S clk)) (e_clock E clk)) = false ->
  exists p' y, solve E o fuel [] [] p u clk = Ok (SUCCESS, p') /\ lived (at_point sp y) p' /\ length y = size sp /\ ((y = now sp /\ settled sp t) \/ best sp m y).
Proof.
  intros Lv Qe Qi Hf Hm Nb Hto. destruct (prepare_total sp p Lv Qi) as (rn & x0 & p1 & Hp). destruct (solve_picks sp p rn x0 p1 Lv Hp) as (tf & te & ti & _ & _ & _ & _ & M).
  destruct (lived_ok _ _ Lv) as [Ip Lp]. destruct (prepare_inv sp p _ x0 p1 Ip Lp Hp) as (I1 & L1 & E0 & _ & _). pose proof (quad_nodup sp p Lv) as Nd.
  assert (Go : exists p' y, solve E o fuel [] [] p u clk = Ok (SUCCESS, p') /\ (forall x, final E o fuel ([] ++ []) u clk rn x0 SUCCESS x -> x = map Fin y) /\ length y = size sp /\ ((y = now sp /\ settled sp t) \/ best sp m y)).
  { unfold solve. rewrite Hp. cbn [obind]. destruct rn as [|P|P|P|]; cbv beta iota; cbn [app].
    - exfalso. destruct (rows_move ltac:(destruct Ns; lra) Qe) as (l & j & Ll & Lj & Nz). destruct (c35_none sp p RanNone x0 p1 Lv Hp) as [_ Cn]. specialize (Cn eq_refl).
      pose (rho := se_val (sp_se sp)). pose (rho' := upd rho (nth j (sp_dec sp) 0%nat) (rho (nth j (sp_dec sp) 0%nat) + 1)). assert (C' : can_be sp rho') by (apply can_upd; [exact Lj|exact (now_can sp)]).
      destruct (nth_some (sp_eqs sp) l Ll) as (r & Er). pose proof (gap_affine sp A e Sm Af rho l r (now_can sp) Er) as G1. pose proof (gap_affine sp A e Sm Af rho' l r C' Er) as G2.
      destruct (can_smooth sp rho Sm (now_can sp)) as (_ & S1 & _). destruct (can_smooth sp rho' Sm C') as (_ & S2 & _). apply all_smooth_defined in S1, S2.
      pose proof (proj2 (Cn rho rho') r _ _ ltac:(apply in_or_app; left; eapply nth_error_In; eauto) (proj1 (Forall_forall _ _) S1 r ltac:(eapply nth_error_In; eauto)) (proj1 (Forall_forall _ _) S2 r ltac:(eapply nth_error_In; eauto)) G1 G2) as Eq.
      assert (Ed : con (size sp) A e (coord sp rho') l = con (size sp) A e (coord sp rho) l + A l j).
      { rewrite (con_ext (size sp) A e _ (fun i => coord sp rho i + (if Nat.eqb i j then 1 else 0))).
        - rewrite (con_add (size sp) A e (coord sp rho) (fun i => if Nat.eqb i j then 1 else 0)). f_equal. rewrite <- (sum_one (size sp) j (A l) Lj). apply sumn_ext. intros i _. destruct (Nat.eqb i j); ring.
        - intros i Li. unfold rho'. rewrite (coord_upd sp Nd rho j _ i Lj Li). destruct (Nat.eqb_spec i j) as [->|_]; [unfold coord; reflexivity|ring]. }
      apply Nz. lra.
    - destruct M as [M _]. contradiction.
    - pose proof (sqp_run (@nil (callback Xn U)) p P x0 p1 fuel u clk Lv Hp) as K.
      destruct (sqp_solve E o fuel P [] x0 u clk) as [[st fin]| | |] eqn:Hn; try contradiction; [|lia]. cbn [obind]. destruct K as (y & Ey & Ly & K).
      destruct (ProbSolveTotal.write_total sp p1 (s_x E fin) I1 L1) as (p' & W); [rewrite Ey; etransitivity; [apply fv_len|]; exact (eq_trans Ly (eq_sym (dec_len (S := Xn) sp p1 L1)))|]. rewrite W. cbn [obind]. exists p', y.
      assert (Q0 : st = SUCCESS /\ ((y = now sp /\ settled sp t) \/ best sp m y)).
      { destruct K as [(-> & -> & _ & Fl)|[(_ & _ & _ & (i & Li & Bi))|(i & _ & [(_ & _ & Hs)|(Fl & K)])]].
        - split; [reflexivity|]. left. auto.
        - exfalso. specialize (Nb i Li). rewrite <- now_coord in Nb by exact Li. lra.
        - discriminate Hs.
        - split; [|right; exact Fl]. destruct K as [K|[[_ K]|[_ K]]]; [exact K|lia|congruence]. }
      destruct Q0 as [-> Q0]. split; [reflexivity|]. split; [|split; [exact Ly|exact Q0]]. intros x (fin' & Hn' & ->). rewrite Hn in Hn'. injection Hn' as <-. exact Ey.
    - contradiction.
    - contradiction. }
  destruct Go as (p' & y & Hs & Hx & Ly & K). exists p', y. split; [exact Hs|]. split; [|split; [exact Ly|exact K]].
  destruct (c35 E o fuel [] [] sp p u clk _ _ Lv Hs) as (rn' & x0' & p1' & x & tf' & te' & ti' & Hp' & _ & _ & _ & _ & _ & _ & Fi & _ & _ & _ & _ & _ & _ & _ & _ & Li). rewrite Hp in Hp'. injection Hp' as <- <- <-. apply Li, Hx, Fi.
Qed.
End Solve.
