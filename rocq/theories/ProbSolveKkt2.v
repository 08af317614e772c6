(** Proofs for C81: after SUCCESS the user's point is nearly a KKT point. *)
From Coq Require Import ZArith Reals List Bool Arith Lia Lra.
From Verif Require Import Base ExprModel GraphSpec GraphProofs ExprInv VarModel VarReach VarProofs ExprReal ExprXR MathSpec MathProofs VarSpec Faith FaithX HistProofs
  JacModel JacProofs JacReach JacHist JacSame NumModel UtilModel UtilSpec ScaleProofs LinR KktModel KktSpec KktProofs BoundsModel ExitModel SolverModel SolverSpec SolverProofs NewtonModel NewtonSpec NewtonProofs
  SqpModel SqpSpec SqpProofs IpmModel IpmShape IpmSpec IpmProofs RestoreModel RestoreProofs PosX PosProofs OutcomeProofs XArith FilterModel FilterProofs
  FinEval ProblemModel ProblemSpec ProblemInv ProblemProofs ProblemProofs2 ProblemProofs3 ProblemProofs4 ProbSolveModel ProbSolveInv ProbSolveEval ProbSolveSpec ProbSolveProofs ProbSolvePrep
  ProbSolveHist ProbSolveEnd ProbSolveLived ProbSolveFinal ProbSolveFacts DiffSpec SmoothSpec SmoothGraph SmoothUser LagrSpec ProbSolveMade ProbSolveDeriv ProbSolveKkt.
Import ListNotations.
Local Open Scope R_scope.

(** *** Derivatives of the Lagrangian *)
Definition gap_sum (rs : list urel) (m : list R) : ufun := fun rho v => exists g, Forall2 (gap rho) rs g /\ v = combo m g.
Lemma pd_zero k rho : pd k (fun _ v => v = 0) rho 0.
Proof. exists (fun _ => 0). split; [apply Hierarchy.filter_forall; reflexivity|]. apply (Derive.is_derive_const (V := Hierarchy.R_NormedModule)). Qed.
Lemma pd_gaps k rho rs : forall m a, length m = length rs -> (forall i r, nth_error rs i = Some r -> pd k (gap_fn r) rho (a i)) ->
  pd k (gap_sum rs m) rho (sumn (length rs) (fun i => a i * m.[i])).
Proof.
  induction rs as [|r rs IH]; intros [|c m] a L H; try discriminate.
  - cbn. eapply pd_mono; [|apply pd_zero]. intros rho' v ->. exists []. split; [constructor|reflexivity].
  - cbn [length]. rewrite sumn_shift. cbn [nth]. injection L as L. specialize (IH m (fun i => a (Datatypes.S i)) L (fun i r' E => H (Datatypes.S i) r' E)).
    rewrite (Rmult_comm (a O)). eapply pd_mono; [|exact (pd_lin k c _ _ rho _ _ (H O r eq_refl) IH)].
    intros rho' v (x & w & Hx & (g & G & ->) & ->). exists (x :: g). split; [constructor; assumption|reflexivity].
Qed.
Lemma pd_lagrangian sp k rho lam nu d a b : length lam = length (sp_eqs sp) -> length nu = length (sp_ineqs sp) -> pd k (cost_is sp) rho d ->
  (forall i r, nth_error (sp_eqs sp) i = Some r -> pd k (gap_fn r) rho (a i)) -> (forall i r, nth_error (sp_ineqs sp) i = Some r -> pd k (gap_fn r) rho (b i)) ->
  pd k (lagrangian sp 1 lam nu) rho (d - sumn (length (sp_eqs sp)) (fun i => a i * lam.[i]) - sumn (length (sp_ineqs sp)) (fun i => b i * nu.[i])).
Proof.
  intros L1 L2 Hd Ha Hb. pose proof (pd_gaps k rho _ lam a L1 Ha) as A. pose proof (pd_gaps k rho _ nu b L2 Hb) as B.
  set (sa := sumn _ _) in *. set (sb := sumn (length (sp_ineqs sp)) _) in *.
  replace (d - sa - sb) with (1 * d + (-1 * sa + (-1 * sb + 0))) by ring.
  eapply pd_mono; [|exact (pd_lin k 1 _ _ rho _ _ Hd (pd_lin k (-1) _ _ rho _ _ A (pd_lin k (-1) _ _ rho _ _ B (pd_zero k rho))))].
  intros rho' v (c & w & Hc & (x & w' & (ge & Ge & ->) & (z & o & (gi & Gi & ->) & -> & ->) & ->) & ->).
  exists c, (- combo lam ge - combo nu gi). split; [exact Hc|]. split; [exists ge, gi; auto|]. ring.
Qed.

(** Entries that are numbers give real vectors and matrices. *)
Lemma grad_real sp f rho g : is_gradient sp f rho g -> exists r, g = fv r /\ length r = length (sp_dec sp) /\
  forall j k, nth_error (sp_dec sp) j = Some k -> exists d, r.[j] = f * d /\ pd k (cost_is sp) rho d.
Proof.
  intros (L & H). destruct (fin_list g) as (r & ->).
  { apply all_fin_nth. intros j Lj. destruct (nth_some (sp_dec sp) j) as (k & Ek); [lia|]. destruct (H j k Ek) as (d & Ed & _). eauto. }
  exists r. split; [reflexivity|]. rewrite fv_len in L. split; [exact L|]. intros j k Ek. destruct (H j k Ek) as (d & Ed & Pd). exists d. split; [|exact Pd].
  assert (Lj : (j < length (sp_dec sp))%nat) by (apply nth_error_Some; congruence). unfold fv in Ed. rewrite (nth_map_lt Fin r j 0 NaN) in Ed by lia. injection Ed as ->. reflexivity.
Qed.
Lemma jac_real sp rs ss rho M : is_jacobian sp rs ss rho M -> mat_dims (S := Xn) (length rs) (length (sp_dec sp)) M = true ->
  exists A, M = fm A /\ wf (length rs) (length (sp_dec sp)) A /\
    forall i r j k, nth_error rs i = Some r -> nth_error (sp_dec sp) j = Some k -> exists d, ent A i j = nth i ss 0 * d /\ pd k (gap_fn r) rho d.
Proof.
  intros (_ & H) D. destruct (fin_mat M) as (A & ->).
  { eapply mat_fin_nth; [exact D|]. intros i j Hi Hj. destruct (nth_some (sp_dec sp) j Hj) as (k & Ek). destruct (nth_some rs i Hi) as (r & Er). destruct (H i r j k Er Ek) as (d & Ed & _). eauto. }
  exists A. split; [reflexivity|]. pose proof (dims_wf _ _ _ D) as W. split; [exact W|]. intros i r j k Er Ek. destruct (H i r j k Er Ek) as (d & Ed & Pd). exists d. split; [|exact Pd].
  assert (Hi : (i < length rs)%nat) by (apply nth_error_Some; congruence). assert (Hj : (j < length (sp_dec sp))%nat) by (apply nth_error_Some; congruence).
  destruct W as [W1 W2]. unfold at2, fm in Ed. rewrite (nth_map_lt fv A i [] []) in Ed by lia. unfold fv in Ed. rewrite (nth_map_lt Fin _ j 0 NaN) in Ed.
  - injection Ed as Ed. exact Ed.
  - rewrite W2; [exact Hj|]. apply nth_In. lia.
Qed.

Lemma div_cancel f v d : 0 < f -> v = f * d -> v / f = d.
Proof. intros F ->. field. lra. Qed.
Lemma mults_nth de y f i : length de = length y -> (map (fun v => v / f) (times de y)).[i] = de.[i] * y.[i] / f.
Proof.
  revert y i. induction de as [|a de IH]; intros [|b y] i L; try discriminate; [destruct i; cbn; unfold Rdiv; ring|]. destruct i as [|i]; [reflexivity|]. cbn in L. apply (IH y i). lia.
Qed.
Lemma divs_nth s di i : length s = length di -> (i < length s)%nat -> (map (fun p => fst p / snd p) (combine s di)).[i] = s.[i] / di.[i].
Proof. intros L H. rewrite (nth_map_lt (fun p => fst p / snd p) _ i (0, 0) 0) by (rewrite combine_length; lia). rewrite combine_nth by exact L. reflexivity. Qed.
Lemma sum_abs_fn l n f : length l = n -> (forall i, (i < n)%nat -> l.[i] = f i) -> sum_abs l = sumn n (fun i => Rabs (f i)).
Proof. intros <- H. apply sumn_ext. intros i Hi. rewrite H by exact Hi. reflexivity. Qed.
Lemma times_length (a b : list R) : length a = length b -> length (times a b) = length a.
Proof. revert b. induction a as [|x a IH]; intros [|y b] L; try discriminate; [reflexivity|]. cbn in *. f_equal. apply IH. lia. Qed.
Lemma times_vmap (a b : list R) : vmap2 (S := Rn) Rmult a b = times a b.
Proof. revert b. induction a as [|x a IH]; intros [|y b]; try reflexivity. exact (f_equal (fun l => x * y :: l) (IH b)). Qed.
Lemma times_nth (a b : list R) i : length a = length b -> (times a b).[i] = a.[i] * b.[i].
Proof. rewrite <- times_vmap. apply mul_nth. Qed.

Section C81.
Context {U : Type}.
Variables (E : env Xn) (o : options Xn) (t : R).
Hypothesis Hs : solve_ok E.
Hypothesis He : est_ok E.
Hypothesis Ht : o_tol o = Fin t.
Hypothesis Pt : 0 < t.

Lemma c81_sqp sp p P x0 p1 fuel (all : list (callback Xn U)) u clk fin y : lived sp p -> prepare p = Ok (RanSqp P, x0, p1) -> prob_smooth sp (se_val (sp_se sp)) ->
  sqp_solve E o fuel P all x0 u clk = Ok (SUCCESS, fin) -> s_x E fin = map Fin y -> all_fin (S := Xn) (s_y E fin) = true -> prob_smooth sp (point sp y) ->
  List.Forall (nearly t (point sp y)) (sp_eqs sp ++ sp_ineqs sp) /\ exists lam, nearly_stationary sp t (point sp y) lam [].
Proof.
  intros Lv H Sm HS Ex Fy Sy. destruct (c80_sqp sp p P x0 p1 Lv H Sm) as (f & de & E1 & E2 & Ei & Pf & Lde & Pde & K).
  destruct (lived_ok _ _ Lv) as [Ip Lp]. destruct (prepare_inv sp p _ x0 p1 Ip Lp H) as (I1 & L1 & E0 & _ & Pk).
  destruct Pk as (tf & te & ti & _ & _ & _ & _ & Nq & Ni & Gv). destruct (sqp_meaning sp p1 x0 P I1 L1 Gv) as (Pok & En & Ee & _ & Li & _).
  assert (Sc : sp_sc P = fsc f de []). { destruct (sp_sc P) as [a b c]. cbn in E1, E2, Li. subst. reflexivity. }
  assert (Lx : length x0 = sp_n P) by (rewrite E0, !map_length; symmetry; exact En).
  destruct (sqp_success E o Hs He _ _ _ _ _ _ _ Pok Lx HS) as (_ & _ & Lf & Lm).
  destruct (no_rels sp p1 L1) as [K1 _].
  assert (Me : (0 < sp_me P)%nat). { rewrite Ee. destruct (sp_eqs sp); [|cbn; lia]. exfalso. apply Nq, K1. reflexivity. }
  assert (Ly : length y = sp_n P) by (rewrite Ex, map_length in Lf; exact Lf).
  destruct (K y ltac:(lia) Sy) as (_ & (ge & Ge & Ec) & G & J & _). destruct (Pok (map Fin y)) as (_ & _ & DA); [rewrite map_length; exact Ly|].
  destruct (grad_real _ _ _ _ G) as (g & Eg & Lg & Hg). rewrite Ee, En in DA. destruct (jac_real _ _ _ _ _ J DA) as (A & EA & WA & HA).
  destruct (fin_list _ Fy) as (mu & Em). rewrite Em, fv_len in Lm. pose proof (gap_len _ _ _ Ge) as Nge.
  pose (d' := mkData g A (times de ge) [] []). pose (d := mkData (map (fun v => v / f) g) (div_rows de A) ge [] []).
  assert (W : within_eq (sp_n P) (sp_me P) d (fun i => de.[i] * mu.[i] / f) t).
  { rewrite <- Ex in Eg, EA, Ec. eapply (c34_sqp E o t Hs He Ht Pt fuel P all x0 u clk fin f de d d' mu); eauto; try lia.
    - unfold d, data_ok; cbn [D_g D_Ae D_ce D_Ai D_ci]. split; [rewrite map_length; lia|]. split; [apply div_rows_wf; [lia|rewrite Ee, En; exact WA]|]. split; [lia|]. split; [split; [reflexivity|intros ? []]|reflexivity].
    - split; [unfold d', data_ok; cbn [D_g D_Ae D_ce D_Ai D_ci]; split; [lia|split; [rewrite Ee, En; exact WA|split; [rewrite times_length; lia|split; [split; [reflexivity|intros ? []]|reflexivity]]]]|].
      split; [intros j _; symmetry; apply div_nth, Pf|]. split; [intros i Hi; exact (times_nth de ge i ltac:(lia))|]. split; [intros i Hi; lia|].
      split; [intros i j Hi; eapply (div_rows_ent (sp_me P) (sp_n P)); [lia|rewrite Ee, En; exact WA|exact Hi|exact Pde]|intros i j Hi; lia]. }
  destruct W as [W1 W2]. split.
  - rewrite Ei, app_nil_r. destruct (eqs_kind sp p Lp) as [Q _]. apply (proj1 (rels_nearly t (point sp y) (sp_eqs sp) ge Ge)); [exact Q|]. rewrite <- Ee. exact W2.
  - set (lam := map (fun v => v / f) (times de mu)). exists lam.
    assert (Ll : length lam = length (sp_eqs sp)) by (unfold lam; rewrite map_length, times_length; lia).
    assert (Nl : forall i, lam.[i] = de.[i] * mu.[i] / f) by (intros i; apply mults_nth; lia).
    split; [exact Ll|]. split; [rewrite Ei; reflexivity|]. intros k Hk. apply In_nth_error in Hk as (j & Ek).
    assert (Hj : (j < sp_n P)%nat) by (rewrite En; apply nth_error_Some; congruence).
    destruct (Hg j k Ek) as (dc & Edc & Pdc). eexists. split.
    + apply (pd_lagrangian sp k (point sp y) lam [] dc (fun i => ent (div_rows de A) i j) (fun _ => 0)); auto; [rewrite Ei; reflexivity| |rewrite Ei; intros [|i] r; discriminate].
      intros i r Er. destruct (HA i r j k Er Ek) as (di & Edi & Pdi). replace (ent (div_rows de A) i j) with di; [exact Pdi|].
      assert (Hi : (i < sp_me P)%nat) by (rewrite Ee; apply nth_error_Some; congruence).
      assert (Pi : 0 < de.[i]) by (apply Pde, nth_In; lia).
      pose proof (div_rows_ent (sp_me P) (sp_n P) de A i j ltac:(lia) ltac:(rewrite Ee, En; exact WA) Hi Pde) as Q. rewrite Edi in Q. apply Rmult_eq_reg_l with (de.[i]); lra.
    + rewrite Ei. cbn [length sumn sum_abs app]. specialize (W1 j Hj). cbn [d D_g D_Ae] in W1. rewrite (nth_map_lt (fun v => v / f) g j 0 0), (div_cancel f _ dc Pf Edc) in W1 by lia.
      rewrite (sum_abs_fn lam (sp_me P) (fun i => de.[i] * mu.[i] / f)) by (auto; lia). rewrite Nat.add_0_r, Ll, <- Ee, !Rplus_0_r, Rminus_0_r.
      erewrite (sumn_ext (sp_me P) (fun i => ent (div_rows de A) i j * lam.[i])); [exact W1|]. intros i _. rewrite Nl. reflexivity.
Qed.

Lemma c81_ipm_z sp p P x0 p1 fuel (all : list (callback Xn U)) u clk fin y : lived sp p -> prepare p = Ok (RanIpm P, x0, p1) -> prob_smooth sp (se_val (sp_se sp)) ->
  ipm_solve E o fuel P all x0 u clk = Ok (SUCCESS, fin) -> is_x E fin = map Fin y ->
  all_fin (S := Xn) (is_s E fin) = true -> all_fin (S := Xn) (is_y E fin) = true -> all_fin (S := Xn) (is_z E fin) = true -> prob_smooth sp (point sp y) ->
  List.Forall (nearly t (point sp y)) (sp_eqs sp ++ sp_ineqs sp) /\
  exists lam nu s, nearly_stationary sp t (point sp y) lam nu /\ nearly_complementary sp t (point sp y) nu s /\
    (List.Forall pos (is_z E fin) -> forall v, In v nu -> 0 < v).
Proof.
  intros Lv H Sm HS Ex Fs Fy Fz Sy. destruct (c80_ipm sp p P x0 p1 Lv H Sm) as (f & de & di & E1 & E2 & E3 & Pf & Lde & Ldi & Pd & K).
  assert (Pde : forall v, In v de -> 0 < v) by (intros v I; apply Pd, in_or_app; auto). assert (Pdi : forall v, In v di -> 0 < v) by (intros v I; apply Pd, in_or_app; auto).
  destruct (lived_ok _ _ Lv) as [Ip Lp]. destruct (prepare_inv sp p _ x0 p1 Ip Lp H) as (I1 & L1 & E0 & _ & Pk).
  destruct Pk as (tf & te & ti & _ & _ & _ & _ & Ni & Gv). destruct (ipm_meaning sp p1 x0 P I1 L1 Gv) as (Pok & (En & Ee & Ei) & _ & _ & _).
  assert (Sc : ip_sc P = fsc f de di). { destruct (ip_sc P) as [a b c]. cbn in E1, E2, E3. subst. reflexivity. }
  assert (Lx : length x0 = ip_n P) by (rewrite E0, !map_length; symmetry; exact En).
  destruct (ipm_success E o Hs He _ _ _ _ _ _ _ Pok Lx HS) as (_ & _ & _ & Lf & Ls & Lm & Lz).
  destruct (no_rels sp p1 L1) as [_ K2].
  assert (Mi : (0 < ip_mi P)%nat). { rewrite Ei. destruct (sp_ineqs sp); [|cbn; lia]. exfalso. apply Ni, K2. reflexivity. }
  assert (Ly : length y = ip_n P) by (rewrite Ex, map_length in Lf; exact Lf).
  assert (Fx : all_fin (S := Xn) (is_x E fin) = true). { rewrite Ex. apply all_fin_Forall. rewrite List.Forall_map. apply List.Forall_forall. intros; reflexivity. }
  assert (Pt' : pos (o_tol o)) by (rewrite Ht; exists t; auto). assert (Pf' : pos (sc_f (ip_sc P))) by (rewrite E1; exists f; auto).
  pose proof (proj2 (ipm_solve_pos E o (o_feasible o = false /\ est_num E) Hs He Pt' (fun Q => proj2 Q) (fun _ : U => True) fuel P all x0 u clk SUCCESS fin Pok (fun Q => or_introl (proj1 Q)) Pf' Lx (fun _ _ _ _ => I) I HS)) as Sz.
  specialize (Sz eq_refl). destruct Sz as [Sz|[Sz|Sz]]; [congruence|congruence|]. destruct Sz as [Ps Pz].
  destruct (K y ltac:(lia) Sy) as (_ & (ge & Ge & Ec) & (gi & Gi & Ed) & G & J & J' & _). destruct (Pok (map Fin y)) as (_ & _ & _ & DA & DB); [rewrite map_length; exact Ly|].
  destruct (grad_real _ _ _ _ G) as (g & Eg & Lg & Hg). rewrite Ee, En in DA. destruct (jac_real _ _ _ _ _ J DA) as (A & EA & WA & HA).
  rewrite Ei, En in DB. destruct (jac_real _ _ _ _ _ J' DB) as (B & EB & WB & HB).
  destruct (fin_list _ Fy) as (mu & Em). rewrite Em, fv_len in Lm. destruct (fin_list _ Fs) as (s & Es). rewrite Es, fv_len in Ls. destruct (fin_list _ Fz) as (z & Ez). rewrite Ez, fv_len in Lz.
  pose proof (gap_len _ _ _ Ge) as Nge. pose proof (gap_len _ _ _ Gi) as Ngi.
  pose (d' := mkData g A (times de ge) B (times di gi)). pose (d := mkData (map (fun v => v / f) g) (div_rows de A) ge (div_rows di B) gi).
  rewrite <- Ee, <- En in WA. rewrite <- Ei, <- En in WB.
  assert (W : within (ip_n P) (ip_me P) (ip_mi P) d (fun i => s.[i] / di.[i]) (fun i => de.[i] * mu.[i] / f) (fun i => di.[i] * z.[i] / f) (0 / f) t /\
    (forall i, (i < ip_me P)%nat -> Rabs ge.[i] <= t) /\ (forall i, (i < ip_mi P)%nat -> - t <= gi.[i])).
  { rewrite <- Ex in Eg, EA, Ec, EB, Ed. eapply (c34_ipm E o t Hs He Ht Pt fuel P all x0 u clk fin f de di d d' s mu z); eauto; try lia.
    - unfold d, data_ok; cbn [D_g D_Ae D_ce D_Ai D_ci]. split; [rewrite map_length; lia|]. split; [apply div_rows_wf; [lia|exact WA]|]. split; [lia|]. split; [apply div_rows_wf; [lia|exact WB]|lia].
    - split; [unfold d', data_ok; cbn [D_g D_Ae D_ce D_Ai D_ci]; split; [lia|split; [exact WA|split; [rewrite times_length; lia|split; [exact WB|rewrite times_length; lia]]]]|].
      split; [intros j _; symmetry; apply div_nth, Pf|]. split; [intros i Hi; exact (times_nth de ge i ltac:(lia))|]. split; [intros i Hi; exact (times_nth di gi i ltac:(lia))|].
      split; [intros i j Hi; eapply (div_rows_ent (ip_me P) (ip_n P)); [lia|exact WA|exact Hi|exact Pde]|intros i j Hi; eapply (div_rows_ent (ip_mi P) (ip_n P)); [lia|exact WB|exact Hi|exact Pdi]]. }
  destruct W as ((W1 & W2 & _ & W4) & W5 & W6). destruct (eqs_kind sp p Lp) as [Q Q']. split.
  - apply Forall_app. split; [apply (proj1 (rels_nearly t (point sp y) (sp_eqs sp) ge Ge)); [exact Q|rewrite <- Ee; exact W5]|apply (proj2 (rels_nearly t (point sp y) (sp_ineqs sp) gi Gi)); [exact Q'|rewrite <- Ei; exact W6]].
  - set (lam := map (fun v => v / f) (times de mu)). set (nu := map (fun v => v / f) (times di z)). set (ss := map (fun p => fst p / snd p) (combine s di)).
    assert (Ll : length lam = length (sp_eqs sp)) by (unfold lam; rewrite map_length, times_length; lia).
    assert (Lnu : length nu = length (sp_ineqs sp)) by (unfold nu; rewrite map_length, times_length; lia).
    assert (Lss : length ss = length (sp_ineqs sp)) by (unfold ss; rewrite map_length, combine_length; lia).
    assert (Nl : forall i, lam.[i] = de.[i] * mu.[i] / f) by (intros i; apply mults_nth; lia).
    assert (Nn : forall i, nu.[i] = di.[i] * z.[i] / f) by (intros i; apply mults_nth; lia).
    assert (Ns : forall i, (i < ip_mi P)%nat -> ss.[i] = s.[i] / di.[i]) by (intros i Hi; apply divs_nth; lia).
    assert (Sl : sum_abs lam = sumn (ip_me P) (fun i => Rabs (de.[i] * mu.[i] / f))) by (apply sum_abs_fn; [lia|auto]).
    assert (Sn : sum_abs nu = sumn (ip_mi P) (fun i => Rabs (di.[i] * z.[i] / f))) by (apply sum_abs_fn; [lia|auto]).
    exists lam, nu, ss. split; [|split].
    + split; [exact Ll|]. split; [exact Lnu|]. intros k Hk. apply In_nth_error in Hk as (j & Ek).
      assert (Hj : (j < ip_n P)%nat) by (rewrite En; apply nth_error_Some; congruence).
      destruct (Hg j k Ek) as (dc & Edc & Pdc). eexists. split.
      * apply (pd_lagrangian sp k (point sp y) lam nu dc (fun i => ent (div_rows de A) i j) (fun i => ent (div_rows di B) i j)); auto.
        -- intros i r Er. destruct (HA i r j k Er Ek) as (dv & Edv & Pdv). replace (ent (div_rows de A) i j) with dv; [exact Pdv|].
           assert (Hi : (i < ip_me P)%nat) by (rewrite Ee; apply nth_error_Some; congruence). assert (Pi : 0 < de.[i]) by (apply Pde, nth_In; lia).
           pose proof (div_rows_ent (ip_me P) (ip_n P) de A i j ltac:(lia) WA Hi Pde) as Qe. rewrite Edv in Qe. apply Rmult_eq_reg_l with (de.[i]); lra.
        -- intros i r Er. destruct (HB i r j k Er Ek) as (dv & Edv & Pdv). replace (ent (div_rows di B) i j) with dv; [exact Pdv|].
           assert (Hi : (i < ip_mi P)%nat) by (rewrite Ei; apply nth_error_Some; congruence). assert (Pi : 0 < di.[i]) by (apply Pdi, nth_In; lia).
           pose proof (div_rows_ent (ip_mi P) (ip_n P) di B i j ltac:(lia) WB Hi Pdi) as Qe. rewrite Edv in Qe. apply Rmult_eq_reg_l with (di.[i]); lra.
      * specialize (W1 j Hj). unfold stationarity in W1. cbn [d D_g D_Ae D_Ai] in W1. rewrite (nth_map_lt (fun v => v / f) g j 0 0), (div_cancel f _ dc Pf Edc) in W1 by lia.
        rewrite Sl, Sn, Ll, Lnu, <- Ee, <- Ei.
        erewrite (sumn_ext (ip_me P) (fun i => ent (div_rows de A) i j * lam.[i])); [erewrite (sumn_ext (ip_mi P) (fun i => ent (div_rows di B) i j * nu.[i])); [exact W1|]|]; intros i _; rewrite ?Nl, ?Nn; reflexivity.
    + split; [exact Lss|]. intros i r Er. assert (Hi : (i < ip_mi P)%nat) by (rewrite Ei; apply nth_error_Some; congruence).
      assert (Pi : 0 < di.[i]) by (apply Pdi, nth_In; lia). rewrite (Ns i Hi). split.
      { apply Rdiv_lt_0_compat; [|exact Pi]. rewrite Es in Ps. unfold fv in Ps. rewrite List.Forall_map, List.Forall_forall in Ps. destruct (Ps s.[i]) as (w & Ew & Pw); [apply nth_In; lia|]. injection Ew as ->. exact Pw. }
      split. { specialize (W2 i Hi). rewrite Sn, Lnu, <- Ei, Nn. replace (s.[i] / di.[i] * (di.[i] * z.[i] / f)) with (s.[i] / di.[i] * (di.[i] * z.[i] / f) - 0 / f) by (unfold Rdiv; ring). exact W2. }
      exists gi.[i]. split; [|exact (W4 i Hi)]. clear - Gi Er. revert i Er. induction Gi as [|r' g' l gs Hg F IH]; intros [|i] Er; try discriminate; [injection Er as <-; exact Hg|exact (IH i Er)].
    + intros Pz' v I. clear Pz. rename Pz' into Pz. rewrite Ez in Pz. unfold fv in Pz. rewrite List.Forall_map, List.Forall_forall in Pz.
      destruct (In_nth _ _ 0 I) as (i & Hi & <-). rewrite Nn. destruct (Pz z.[i]) as (w & Ew & Pw); [apply nth_In; lia|]. injection Ew as ->.
      apply Rdiv_lt_0_compat; [|exact Pf]. apply Rmult_lt_0_compat; [apply Pdi, nth_In; lia|exact Pw].
Qed.
Lemma c81_ipm sp p P x0 p1 fuel (all : list (callback Xn U)) u clk fin y : lived sp p -> prepare p = Ok (RanIpm P, x0, p1) -> prob_smooth sp (se_val (sp_se sp)) ->
  ipm_solve E o fuel P all x0 u clk = Ok (SUCCESS, fin) -> is_x E fin = map Fin y ->
  all_fin (S := Xn) (is_s E fin) = true -> all_fin (S := Xn) (is_y E fin) = true -> all_fin (S := Xn) (is_z E fin) = true -> prob_smooth sp (point sp y) ->
  List.Forall (nearly t (point sp y)) (sp_eqs sp ++ sp_ineqs sp) /\
  exists lam nu s, nearly_stationary sp t (point sp y) lam nu /\ nearly_complementary sp t (point sp y) nu s /\
    (o_feasible o = false -> est_num E -> forall v, In v nu -> 0 < v).
Proof.
  intros Lv H Sm HS Ex Fs Fy Fz Sy. destruct (c81_ipm_z sp p P x0 p1 fuel all u clk fin y Lv H Sm HS Ex Fs Fy Fz Sy) as (A & lam & nu & s & B1 & B2 & B3).
  split; [exact A|]. exists lam, nu, s. split; [exact B1|]. split; [exact B2|]. intros Of Es. apply B3.
  destruct (c80_ipm sp p P x0 p1 Lv H Sm) as (f & de & di & E1 & E2 & E3 & Pf & _). destruct (lived_ok _ _ Lv) as [Ip Lp]. destruct (prepare_inv sp p _ x0 p1 Ip Lp H) as (I1 & L1 & E0 & _ & Pk).
  destruct Pk as (tf & te & ti & _ & _ & _ & _ & Ni & Gv). destruct (ipm_meaning sp p1 x0 P I1 L1 Gv) as (Pok & (En & _) & _).
  assert (Lx : length x0 = ip_n P) by (rewrite E0, !map_length; symmetry; exact En).
  assert (Fx : all_fin (S := Xn) (is_x E fin) = true). { rewrite Ex. apply all_fin_Forall. rewrite List.Forall_map. apply List.Forall_forall. intros; reflexivity. }
  assert (Pt' : pos (o_tol o)) by (rewrite Ht; exists t; auto). assert (Pf' : pos (sc_f (ip_sc P))) by (rewrite E1; exists f; auto).
  pose proof (proj2 (ipm_solve_pos E o True Hs He Pt' (fun _ => Es) (fun _ : U => True) fuel P all x0 u clk SUCCESS fin Pok (fun _ => or_introl Of) Pf' Lx (fun _ _ _ _ => I) I HS)) as Sz.
  specialize (Sz eq_refl). destruct Sz as [Sz|[Sz|Sz]]; [congruence|congruence|]. apply Sz. exact I.
Qed.

Lemma newton_len (P : nprob Xn) n : (forall x, length x = n -> length (np_g P x) = n) -> forall k x x', path (newton_step E P) k x x' -> length x = n -> length x' = n.
Proof.
  intros Hg. assert (St : forall x x', newton_step E P x x' -> length x = n -> length x' = n).
  { intros x x' (d & (ls & Ed) & H) L. assert (Ld : length d = n) by (rewrite Ed, Hs, map_length; apply Hg, L).
    assert (V : forall a, length (vadd (S := Xn) x (vscale (S := Xn) a d)) = n) by (intros a; apply (vadd_len (S := Xn)); [exact L|rewrite vscale_length; exact Ld]).
    destruct H as [(k & f1 & f2 & _ & -> & _)|(-> & _)]; apply V. }
  intros k x x' H. induction H; auto. eauto.
Qed.
Lemma unscaled_newton_f f g : f <> 0 -> unscaled_newton (S := Xn) (fsc f [] []) (fv g) = Fin (unscaled_newton (S := Rn) (mkSc (S := Rn) f [] []) g).
Proof.
  intros Hf. unfold unscaled_newton. change (fsc f [] []) with (fsc f (@nil R) (@nil R)). rewrite is_identity_f. destruct (is_identity _); [apply norminf_f|].
  cbn [fsc sc_f]. change (s_ofZ Xn 1) with (Fin 1). rewrite xdiv by exact Hf. rewrite vscale_f. apply norminf_f.
Qed.
Lemma c81_newton sp p P x0 p1 fuel (all : list (callback Xn U)) u clk fin y : lived sp p -> prepare p = Ok (RanNewton P, x0, p1) -> prob_smooth sp (se_val (sp_se sp)) ->
  newton E P all o fuel x0 u clk = Ok (SUCCESS, fin) -> n_x E fin = map Fin y -> prob_smooth sp (point sp y) ->
  forall k, In k (sp_dec sp) -> exists d, pd k (cost_is sp) (point sp y) d /\ Rabs d <= t.
Proof.
  intros Lv H Sm HS Ex Sy k Hk. destruct (c80_newton sp p P x0 p1 Lv H Sm) as (f & E1 & Pf & _ & _ & K).
  destruct (lived_ok _ _ Lv) as [Ip Lp]. destruct (prepare_inv sp p _ x0 p1 Ip Lp H) as (I1 & L1 & E0 & _ & Pk).
  destruct Pk as (tf & te & ti & _ & _ & _ & _ & _ & _ & Gv). destruct (newton_meaning sp p1 x0 P I1 L1 Gv) as (En & Lg & _).
  assert (Sc : np_sc P = fsc f [] []). { destruct Gv as (nodes & t' & q & g & _ & _ & _ & ->). cbn in E1 |- *. unfold scaling_newton in *. cbn in E1. unfold fsc. cbn. f_equal. exact E1. }
  assert (Lx : length x0 = np_n P) by (rewrite E0, !map_length; symmetry; exact En).
  apply c50_meaning in HS as (M & (kk & _ & Pa & _)). cbn [newton_means] in M.
  pose proof (newton_len P (np_n P) Lg _ _ _ Pa Lx) as Lf. assert (Ly : length y = np_n P) by (rewrite Ex, map_length in Lf; exact Lf).
  destruct (K y ltac:(lia) Sy) as (_ & G & _). destruct (grad_real _ _ _ _ G) as (g & Eg & Lgr & Hg). rewrite Ex, Eg, Sc, Ht in M. rewrite unscaled_newton_f in M by lra.
  rewrite xltb in M. apply R_ltb_false in M. apply In_nth_error in Hk as (j & Ek). destruct (Hg j k Ek) as (d & Ed & Pd). exists d. split; [exact Pd|].
  assert (Hj : (j < length (sp_dec sp))%nat) by (apply nth_error_Some; congruence).
  rewrite (c41_newton (np_n P) (map (fun v => v / f) g) g f t) in M; [|rewrite map_length; lia|lia|exact Pf|intros i _; symmetry; apply div_nth, Pf|lra].
  specialize (M j ltac:(lia)). rewrite (nth_map_lt (fun v => v / f) g j 0 0), (div_cancel f _ d Pf Ed) in M by lia. exact M.
Qed.
End C81.
