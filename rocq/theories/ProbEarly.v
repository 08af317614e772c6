(** Proofs for C84 and C85: answers given before or without iterating. *)
From Coq Require Import ZArith Reals List Bool Arith Lia Lra.
From Verif Require Import Base ExprModel GraphSpec GraphProofs ExprInv VarModel VarReach VarProofs ExprReal ExprXR MathSpec MathProofs VarSpec Faith FaithX HistProofs
  JacModel JacProofs JacReach JacHist JacSame NumModel UtilModel UtilSpec ScaleProofs LinR KktModel KktSpec KktProofs BoundsModel ExitModel SolverModel SolverSpec SolverProofs NewtonModel NewtonSpec NewtonProofs
  SqpModel SqpSpec SqpProofs IpmModel IpmShape IpmSpec IpmProofs RestoreModel RestoreProofs PosX PosProofs OutcomeProofs XArith FilterModel FilterProofs
  FinEval ProblemModel ProblemSpec ProblemInv ProblemProofs ProblemProofs2 ProblemProofs3 ProblemProofs4 ProbSolveModel ProbSolveInv ProbSolveEval ProbSolveSpec ProbSolveProofs ProbSolvePrep
  ProbSolveHist ProbSolveEnd ProbSolveLived ProbSolveFinal ProbSolveFacts DiffSpec SmoothSpec SmoothGraph SmoothUser LagrSpec ProbSolveMade ProbSolveDeriv ProbSolveDims ProbSolveKkt ProbSolveKkt2 ProbSolveTotal EarlySpec ProbSolveBounds.
Import ListNotations.
Local Open Scope nat_scope.

(** *** The same point written twice *)
Lemma pow00_ext rho rho' x : (forall k, rho k = rho' k) -> no_pow00 rho x -> no_pow00 rho' x.
Proof.
  intros E. induction x as [k|c|u x IH|b x IHx y IHy]; cbn; auto. intros (Hx & Hy & H). split; [auto|]. split; [auto|].
  intros Q a c H1 H2. apply (H Q); eapply XEv_ext; [|exact H1| |exact H2]; intros k; symmetry; apply E.
Qed.
Lemma cost_ext sp rho rho' v : (forall k, rho k = rho' k) -> cost_is sp rho v -> cost_is sp rho' v.
Proof.
  intros E. unfold cost_is. destruct (sp_goal sp) as [[m x]|]; auto. intros (N & w & W & ->). split; [eapply pow00_ext; eauto|]. exists w. split; [eapply XEv_ext; eauto|reflexivity].
Qed.
Lemma cost_det sp rho v w : cost_is sp rho v -> cost_is sp rho w -> v = w.
Proof.
  unfold cost_is. destruct (sp_goal sp) as [[m x]|]; [|congruence]. intros (_ & a & A & ->) (_ & b & B & ->). rewrite (XEv_det _ _ _ _ A B). reflexivity.
Qed.
Lemma upd_ext (rho rho' : nat -> R) k t : (forall j, rho j = rho' j) -> forall j, ExprModel.upd rho k t j = ExprModel.upd rho' k t j.
Proof. intros E j. unfold ExprModel.upd. destruct (Nat.eqb _ _); auto. Qed.
Lemma pd_at k (F : ufun) rho rho' d : (forall a b v, (forall j, a j = b j) -> F a v -> F b v) -> (forall j, rho j = rho' j) -> pd k F rho d -> pd k F rho' d.
Proof.
  intros HF E (f & L & D). exists f. rewrite <- (E k). split; [|exact D]. revert L. apply Hierarchy.filter_imp. intros t. apply HF. apply upd_ext, E.
Qed.
Lemma now_point sp k : point sp (now sp) k = se_val (sp_se sp) k.
Proof. apply place_same. Qed.

Lemma lower_fin sp L rho M : is_lower_hessian sp L rho M -> mat_dims (S := Xn) (length (sp_dec sp)) (length (sp_dec sp)) M = true -> mat_fin (S := Xn) M = true.
Proof.
  intros (_ & H) D. eapply mat_fin_nth; [exact D|]. intros i j Hi Hj. destruct (nth_some (sp_dec sp) i Hi) as (a & Ea). destruct (nth_some (sp_dec sp) j Hj) as (b & Eb).
  destruct (H i j a b Ea Eb) as [H1 H2]. destruct (le_lt_dec j i) as [L1|L1]; [destruct (H1 L1) as (d & -> & _); eauto|exists 0%R; auto].
Qed.
Lemma fv_fin (l : list R) : all_fin (S := Xn) (fv l) = true.
Proof. unfold all_fin, fv. induction l as [|a l IH]; [reflexivity|]. exact IH. Qed.
Lemma fm_fin (A : list (list R)) : mat_fin (S := Xn) (fm A) = true.
Proof. unfold mat_fin, fm. induction A as [|a A IH]; [reflexivity|]. cbn [map forallb]. rewrite IH, andb_true_r. apply fv_fin. Qed.

Lemma rep_fin c (z : Xn) m : z = Fin c -> repeat z m = map Fin (repeat c m).
Proof. intros ->. induction m as [|m IH]; [reflexivity|]. cbn [repeat map]. f_equal. exact IH. Qed.

Lemma sumn_none n : sumn n (fun _ => 0%R) = 0%R.
Proof. induction n as [|n IH]; [reflexivity|]. cbn [sumn]. rewrite IH. lra. Qed.

Section Early.
Variables (sp : spec) (p : prog X_ops).
Hypothesis Lv : lived sp p.
Hypothesis Sm : prob_smooth sp (se_val (sp_se sp)).

Lemma now_smooth : prob_smooth sp (point sp (now sp)).
Proof. eapply smooth_ext; [|exact Sm]. intros k. symmetry. apply now_point. Qed.
Lemma now_len : length (now sp) = length (sp_dec sp).
Proof. unfold now. rewrite map_length. reflexivity. Qed.

(** What the solvers find at the start. *)
Lemma newton_start P x0 p1 : prepare p = Ok (RanNewton P, x0, p1) -> x0 = fv (now sp) /\ np_n P = length (sp_dec sp) /\
  exists f g, np_sc P = fsc f [] [] /\ (0 < f)%R /\ np_g P x0 = fv g /\ length g = np_n P /\
    (forall j k, nth_error (sp_dec sp) j = Some k -> exists d, g.[j] = (f * d)%R /\ pd k (cost_is sp) (se_val (sp_se sp)) d) /\
    s_finite Xn (np_f P x0) = true /\ mat_dims (S := Xn) (np_n P) (np_n P) (np_H P x0) = true /\ mat_fin (S := Xn) (np_H P x0) = true.
Proof.
  intros H. destruct (c80_newton sp p P x0 p1 Lv H Sm) as (f & E1 & Pf & _ & _ & K). destruct (lived_ok _ _ Lv) as [Ip Lp].
  destruct (prepare_inv sp p _ x0 p1 Ip Lp H) as (I1 & L1 & E0 & _ & (tf & te & ti & _ & _ & _ & _ & _ & _ & Gv)).
  destruct (newton_meaning sp p1 x0 P I1 L1 Gv) as (En & _). assert (Ex : x0 = fv (now sp)) by exact E0.
  assert (Sc : np_sc P = fsc f [] []). { destruct Gv as (nodes & t' & q & g & _ & _ & _ & ->). cbn in E1 |- *. unfold scaling_newton in *. cbn in E1. unfold fsc. cbn. f_equal. exact E1. }
  split; [exact Ex|]. split; [exact En|]. destruct (K (now sp) now_len now_smooth) as ((v & _ & Ev) & G & HH). destruct (grad_real _ _ _ _ G) as (g & Eg & Lg & Hg).
  exists f, g. split; [exact Sc|]. split; [exact Pf|]. rewrite Ex. split; [exact Eg|]. split; [congruence|]. split.
  { intros j k Ek. destruct (Hg j k Ek) as (d & Ed & Pd). exists d. split; [exact Ed|]. eapply pd_at; [|apply now_point|exact Pd]. intros a b w E. apply cost_ext, E. }
  assert (Dm : mat_dims (S := Xn) (np_n P) (np_n P) (np_H P (fv (now sp))) = true) by (apply (newton_H_dims p1 x0 P Gv); rewrite fv_len, now_len; symmetry; exact En).
  split; [unfold fv; rewrite Ev; reflexivity|]. split; [exact Dm|]. rewrite En in Dm. eapply lower_fin; [exact HH|exact Dm].
Qed.

Lemma newton_settled P x0 p1 t : prepare p = Ok (RanNewton P, x0, p1) -> (0 < t)%R -> settled sp t ->
  forall (U : Type) (E : env Xn) (o : options Xn) (cbs : list (callback Xn U)) n u clk, o_tol o = Fin t -> 1 <= n -> exists fin, newton E P cbs o n x0 u clk = Ok (SUCCESS, fin) /\ n_x E fin = x0.
Proof.
  intros H Pt (S1 & _) U E o cbs n u clk Ht Ln. destruct (newton_start P x0 p1 H) as (Ex & En & f & g & Sc & Pf & Eg & Lg & Hg & Ff & Dm & Fm).
  unfold newton. cbn [newton_init n_f n_g n_H]. rewrite Ff, Fm, Dm, Eg, fv_fin. unfold vec_dim. rewrite fv_len, Lg, Nat.eqb_refl. cbn [andb orb negb oassert].
  destruct n as [|n]; [lia|]. cbn [drive newton_init n_E]. rewrite Eg, Sc, Ht, unscaled_newton_f by lra. rewrite xltb.
  replace (R_ltb t _) with false; [eexists; split; reflexivity|]. symmetry. apply R_ltb_false.
  apply (c41_newton (np_n P) (map (fun v => (v / f)%R) g) g f t); [rewrite map_length; lia|lia|exact Pf|intros i _; symmetry; apply div_nth, Pf|lra|].
  intros j Hj. rewrite (nth_map_lt (fun v => (v / f)%R) g j 0%R 0%R) by lia. destruct (nth_some (sp_dec sp) j) as (k & Ek); [lia|]. destruct (Hg j k Ek) as (d & Ed & Pd).
  rewrite (div_cancel f _ d Pf Ed). eapply S1; [eapply nth_error_In; eauto|exact Pd].
Qed.

Lemma sqp_start P x0 p1 : prepare p = Ok (RanSqp P, x0, p1) -> x0 = fv (now sp) /\ sp_n P = length (sp_dec sp) /\ sp_me P = length (sp_eqs sp) /\ 0 < sp_me P /\ sprob_ok P /\
  exists f de g A ge, sp_sc P = fsc f de [] /\ (0 < f)%R /\ length de = sp_me P /\ (forall v, In v de -> (0 < v)%R) /\
    sp_g P x0 = fv g /\ length g = sp_n P /\ sp_Ae P x0 = fm A /\ wf (sp_me P) (sp_n P) A /\ sp_ce P x0 = fv (times de ge) /\ Forall2 (gap (se_val (sp_se sp))) (sp_eqs sp) ge /\
    (forall j k, nth_error (sp_dec sp) j = Some k -> exists d, g.[j] = (f * d)%R /\ pd k (cost_is sp) (se_val (sp_se sp)) d) /\
    s_finite Xn (sp_f P x0) = true /\
    let H := sp_H P x0 (repeat (s_ofZ Xn 0) (sp_me P)) in mat_dims (S := Xn) (sp_n P) (sp_n P) H = true /\ mat_fin (S := Xn) H = true.
Proof.
  intros H. destruct (c80_sqp sp p P x0 p1 Lv H Sm) as (f & de & E1 & E2 & Ei & Pf & Lde & Pde & K). destruct (lived_ok _ _ Lv) as [Ip Lp].
  destruct (prepare_inv sp p _ x0 p1 Ip Lp H) as (I1 & L1 & E0 & _ & (tf & te & ti & _ & _ & _ & _ & Nq & Ni & Gv)).
  destruct (sqp_meaning sp p1 x0 P I1 L1 Gv) as (Pok & En & Ee & Le & Li & _). assert (Ex : x0 = fv (now sp)) by exact E0.
  assert (Sc : sp_sc P = fsc f de []). { destruct (sp_sc P) as [a b c]. cbn in E1, E2, Li. subst. reflexivity. }
  destruct (no_rels sp p1 L1) as [K1 _]. assert (Me : 0 < sp_me P). { rewrite Ee. destruct (sp_eqs sp); [|cbn; lia]. exfalso. apply Nq, K1. reflexivity. }
  assert (Lx : length x0 = sp_n P) by (rewrite Ex, fv_len, now_len; symmetry; exact En).
  split; [exact Ex|]. split; [exact En|]. split; [exact Ee|]. split; [exact Me|]. split; [exact Pok|].
  destruct (K (now sp) now_len now_smooth) as ((v & _ & Ev) & (ge & Ge & Ec) & G & J & HH). destruct (Pok x0 Lx) as (_ & _ & DA).
  destruct (grad_real _ _ _ _ G) as (g & Eg & Lg & Hg). rewrite Ee, En, Ex in DA. destruct (jac_real _ _ _ _ _ J DA) as (A & EA & WA & _).
  exists f, de, g, A, ge. split; [exact Sc|]. split; [exact Pf|]. split; [congruence|]. split; [exact Pde|]. rewrite Ex. split; [exact Eg|]. split; [congruence|]. split; [exact EA|].
  split; [rewrite Ee, En; exact WA|]. split; [exact Ec|].
  split. { clear - Ge. induction Ge as [|r g l gs H F IH]; constructor; auto. eapply gap_ext; [apply now_point|exact H]. }
  split. { intros j k Ek. destruct (Hg j k Ek) as (d & Ed & Pd). exists d. split; [exact Ed|]. eapply pd_at; [|apply now_point|exact Pd]. intros a b w E. apply cost_ext, E. }
  split; [unfold fv; rewrite Ev; reflexivity|]. cbv zeta. rewrite (rep_fin 0%R (s_ofZ Xn 0) (sp_me P) eq_refl).
  assert (Dm : mat_dims (S := Xn) (sp_n P) (sp_n P) (sp_H P (fv (now sp)) (map Fin (repeat 0%R (sp_me P)))) = true).
  { apply (sqp_H_dims p1 x0 P Ni Gv Le Li); [rewrite <- Ex; exact Lx|rewrite map_length; apply repeat_length]. }
  split; [exact Dm|]. rewrite En in Dm. destruct (HH (repeat 0%R (sp_me P)) ltac:(rewrite repeat_length; exact Ee)) as [H1 _]. eapply lower_fin; [exact H1|exact Dm].
Qed.

Lemma sqp_settled_y P x0 p1 t : prepare p = Ok (RanSqp P, x0, p1) -> (0 < t)%R -> settled sp t -> length (sp_eqs sp) <= length (sp_dec sp) ->
  forall (U : Type) (E : env Xn) (o : options Xn) (cbs : list (callback Xn U)) n u clk, o_tol o = Fin t -> 1 <= n -> exists fin, sqp_solve E o n P cbs x0 u clk = Ok (SUCCESS, fin) /\ s_x E fin = x0 /\ all_fin (S := Xn) (s_y E fin) = true.
Proof.
  intros H Pt (S1 & S2) Ld U E o cbs n u clk Ht Ln.
  destruct (sqp_start P x0 p1 H) as (Ex & En & Ee & Me & Pok & f & de & g & A & ge & Sc & Pf & Lde & Pde & Eg & Lg & EA & WA & Ec & Ge & Hg & Ff & Dm & Fm).
  assert (Lx : length x0 = sp_n P) by (rewrite Ex, fv_len, now_len; symmetry; exact En). destruct (Pok x0 Lx) as (Q1 & Q2 & Q3). pose proof (gap_len _ _ _ Ge) as Nge.
  unfold sqp_solve, sqp, sqp_from. cbn [sqp_init s_f s_g s_H s_ce s_Ae]. rewrite Ff, Fm, Dm, Q3. unfold vec_dim. rewrite Q1, Q2, !Nat.eqb_refl.
  rewrite Eg, EA, Ec, !fv_fin, fm_fin. cbn [andb orb negb oassert]. replace (Nat.ltb (sp_n P) (sp_me P)) with false by (symmetry; apply Nat.ltb_ge; lia).
  destruct n as [|n]; [lia|]. cbn [drive sqp_init s_E]. rewrite Eg, EA, Ec, Sc, Ht. rewrite (rep_fin 0%R (s_ofZ Xn 0) (sp_me P) eq_refl).
  change (map Fin (repeat 0%R (sp_me P))) with (fv (repeat 0%R (sp_me P))).
  rewrite unscaled_sqp_f; [|lra|intros v I0; specialize (Pde v I0); lra|rewrite repeat_length; exact Me|rewrite repeat_length; exact Lde]. rewrite xltb.
  replace (R_ltb t _) with false; [eexists; split; [reflexivity|split; [reflexivity|exact (fv_fin _)]]|]. symmetry. apply R_ltb_false.
  pose (d' := mkData g A (times de ge) [] []). pose (d := mkData (map (fun v => (v / f)%R) g) (div_rows de A) ge [] []).
  apply (c41_sqp (sp_n P) (sp_me P) d d' f de (repeat 0%R (sp_me P)) t); auto; try lra; [| |apply repeat_length|].
  - unfold d, data_ok; cbn [D_g D_Ae D_ce D_Ai D_ci]. split; [rewrite map_length; lia|]. split; [apply div_rows_wf; [lia|exact WA]|]. split; [lia|]. split; [split; [reflexivity|intros ? []]|reflexivity].
  - split; [unfold d', data_ok; cbn [D_g D_Ae D_ce D_Ai D_ci]; split; [lia|split; [exact WA|split; [rewrite times_length; lia|split; [split; [reflexivity|intros ? []]|reflexivity]]]]|].
    split; [intros j _; symmetry; apply div_nth, Pf|]. split; [intros i Hi; exact (times_nth de ge i ltac:(lia))|]. split; [intros i Hi; lia|].
    split; [intros i j Hi; eapply (div_rows_ent (sp_me P) (sp_n P)); [lia|exact WA|exact Hi|exact Pde]|intros i j Hi; lia].
  - split.
    + intros j Hj. cbn [d D_g D_Ae]. rewrite (nth_map_lt (fun v => (v / f)%R) g j 0%R 0%R) by lia. destruct (nth_some (sp_dec sp) j) as (k & Ek); [lia|]. destruct (Hg j k Ek) as (dc & Ed & Pd).
      rewrite (div_cancel f _ dc Pf Ed).
      assert (Z : forall i, (repeat 0%R (sp_me P)).[i] = 0%R) by (intros i; destruct (le_lt_dec (sp_me P) i); [apply nth_overflow; rewrite repeat_length; lia|apply nth_repeat]).
      rewrite (sumn_ext (sp_me P) _ (fun _ => 0%R)) by (intros i _; rewrite Z; unfold Rdiv; ring). rewrite (sumn_none (sp_me P)).
      rewrite Rminus_0_r. pose proof (S1 k dc (nth_error_In _ _ Ek) Pd) as B. unfold excuse.
      pose proof (Rmax_l 100 (sumn (sp_me P) (fun i => Rabs (de.[i] * (repeat 0%R (sp_me P)).[i] / f)) / INR (sp_me P))) as M.
      apply Rle_trans with (t * 1)%R; [lra|]. apply Rmult_le_compat_l; lra.
    + intros i Hi. cbn [d D_ce]. destruct (nth_some (sp_eqs sp) i) as (r & Er); [lia|]. eapply S2; [eapply nth_error_In; eauto|].
      clear - Ge Er. revert i Er. induction Ge as [|r' g' l gs Hg F IH]; intros [|i] Er; try discriminate; [injection Er as <-; exact Hg|exact (IH i Er)].
Qed.
Lemma sqp_settled P x0 p1 t : prepare p = Ok (RanSqp P, x0, p1) -> (0 < t)%R -> settled sp t -> length (sp_eqs sp) <= length (sp_dec sp) ->
  forall (U : Type) (E : env Xn) (o : options Xn) (cbs : list (callback Xn U)) n u clk, o_tol o = Fin t -> 1 <= n -> exists fin, sqp_solve E o n P cbs x0 u clk = Ok (SUCCESS, fin) /\ s_x E fin = x0.
Proof.
  intros H Pt S Ld U E o cbs n u clk Ht Ln. destruct (sqp_settled_y P x0 p1 t H Pt S Ld U E o cbs n u clk Ht Ln) as (fin & A & B & _). exists fin. auto.
Qed.
End Early.
