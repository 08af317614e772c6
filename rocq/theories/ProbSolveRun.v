(** A whole program that ends in SUCCESS: build, set a start value, solve with Newton's method. *)
From Coq Require Import ZArith QArith Reals List Bool Arith Lia Lra.
From Coquelicot Require Import Hierarchy Derive AutoDerive.
From Verif Require Import Base ExprModel GraphSpec ExprReal ExprXR MathSpec VarModel VarSpec Faith FaithX NumModel UtilModel KktModel FilterModel FilterProofs ExitModel SolverModel SolverSpec SolverProofs NewtonModel
  SqpModel IpmModel IpmShape RestoreModel XArith XQ FinEval LinR KktSpec KktProofs HistProofs RunY ProblemModel ProblemSpec ProbSolveModel ProbSolveSpec ProbSolveHist ProbSolvePrep ProbSolveLived ProbSolveFacts ProbSolveEx DiffSpec SmoothSpec LagrSpec ProbSolveKkt ProbSolveKkt2 ProbSolveKktEx SmoothUser.
Import ListNotations.
Local Open Scope R_scope.

(** auto x = problem.decision_variable(); x.set_value(1); problem.minimize(x * x); *)
Definition from1_ops : list (pop R_ops) := [PDecision 1 1; PH (HSet (S := R_ops) 0 1); PH (HBin BMul 0 0); PMinimize 1].
Lemma from1_spec : exists sp, spec_run from1_ops spec_empty = Some (sp, []) /\ sp_dec sp = [0]%nat /\ sp_goal sp = Some (false, XBin BMul (XVar 0) (XVar 0)) /\ sp_eqs sp = [] /\ sp_ineqs sp = [] /\
  se_val (sp_se sp) 0%nat = 1.
Proof. eexists. split; [reflexivity|repeat split]. Qed.
Lemma from1_types : match prun (map (pinj (K := X_ops)) from1_ops) (prog_empty X_ops) with
  Ok (p, []) => cost_type p = Ok QUADRATIC /\ max_type p (p_eq p) = Ok NONE /\ max_type p (p_ineq p) = Ok NONE | _ => False end.
Proof. vm_compute. auto. Qed.

Definition down_env : env Xn := mkEnv (S := Xn) (mkLin (S := Xn) unit (fun _ _ _ => tt) (fun _ _ => (tt, true)) (fun _ b => map (fun _ => Fin (-1)) b)) (fun _ => Fin 0) (fun _ b => b).
Lemma down_ok : solve_ok down_env. Proof. intros ls b. apply map_length. Qed.

Lemma one_pow p : s_pow Xn (s_ofZ Xn 1) p = Fin 1.
Proof.
  cbn. unfold X_pow. destruct (X_eqb p (Fin 0)); [reflexivity|]. replace (X_eqb (Fin 1) (Fin 1)) with true; [reflexivity|]. cbn. unfold R_eqb. destruct (Req_EM_T 1 1); [reflexivity|lra].
Qed.
Lemma newton_one {U} (P : nprob Xn) f fuel (u : U) : np_n P = 1%nat -> np_sc P = fsc f [] [] -> 0 < f -> np_f P [Fin 1] = Fin (f * 1) -> np_f P [Fin 0] = Fin (f * 0) ->
  np_g P [Fin 1] = [Fin (f * 2)] -> np_g P [Fin 0] = [Fin (f * 0)] -> (exists h, np_H P [Fin 1] = [[Fin h]]) -> (2 <= fuel)%nat ->
  exists fin, newton (U := U) down_env P [] (opts_y 5) fuel [Fin 1] u 0 = Ok (SUCCESS, fin) /\ n_x down_env fin = [Fin 0].
Proof.
  intros Hn Hsc Pf F1 F0 G1 G0 (h & H1) Hf. destruct fuel as [|[|fuel]]; try lia.
  assert (En : forall d, s_ltb Xn (Fin (1 / 2)) (unscaled_newton (S := Xn) (np_sc P) [Fin (f * d)]) = R_ltb (1 / 2) (Rabs d)).
  { intros d. rewrite Hsc. change [Fin (f * d)] with (fv [f * d]). rewrite unscaled_newton_f by lra. rewrite xltb.
    pose proof (c41_newton 1 [d] [f * d] f (1 / 2) eq_refl eq_refl Pf ltac:(intros [|j] L; [reflexivity|lia]) ltac:(lra)) as K.
    destruct (R_ltb (1 / 2) (Rabs d)) eqn:Q.
    - apply R_ltb_true in Q. apply R_ltb_true. apply Rnot_le_lt. intros C. pose proof (proj1 K C O ltac:(lia)) as C0. cbn [nth] in C0. lra.
    - apply R_ltb_false in Q. apply R_ltb_false. refine (proj2 K _). intros [|j] L; [exact Q|lia]. }
  assert (Et : o_tol (opts_y 5) = Fin (1 / 2)) by (cbn; unfold xq, Q2R; cbn; f_equal; lra).
  assert (T1 : R_ltb (1 / 2) (Rabs 2) = true) by (apply R_ltb_true; rewrite Rabs_right; lra).
  assert (T0 : R_ltb (1 / 2) (Rabs 0) = false) by (apply R_ltb_false; rewrite Rabs_R0; lra).
  unfold newton. unfold newton_init. cbn [n_g n_H n_f]. rewrite Hn, G1, H1, F1. unfold oassert.
  change (s_finite Xn (Fin (f * 1))) with true. change (all_fin (S := Xn) [Fin (f * 2)]) with true. change (mat_fin (S := Xn) [[Fin h]]) with true.
  change (vec_dim (S := Xn) 1 [Fin (f * 2)]) with true. change (mat_dims (S := Xn) 1 1 [[Fin h]]) with true. cbn [andb negb orb].
  cbn [drive n_E]. rewrite Et, En, T1. unfold newton_body at 1. cbn [n_x n_u n_flt n_ls n_H n_g n_f n_clk n_it].
  assert (Dv : diverging (S := Xn) [Fin 1] = false). { change (Fin 1) with (Fin (IZR 1)). rewrite q_Fin. unfold diverging. qeval. reflexivity. }
  rewrite Dv. unfold run_callbacks. cbn [fold_left]. 
  cbn [down_env e_lin ls_compute fst ls_solve vneg map].
  cbn [newton_search].
  assert (Vs : vstep (S := Xn) [Fin 1] (s_ofZ Xn 1) [Fin (-1)] = [Fin 0]). { unfold vstep, vadd, vscale. cbn. do 2 f_equal. lra. }
  rewrite Vs, F0. change (s_finite Xn (Fin (f * 0))) with true. cbn [negb].
  match goal with |- context [try_add ?F ?C ?T ?D ?A] => destruct (add_ok F C T D A) as (flt & Ea) end.
  - reflexivity.
  - unfold filter_new. cbn [f_max fe_newton fe_viol]. qeval. reflexivity.
  - reflexivity.
  - intros _. unfold armijo. cbn [fe_newton fe_cost]. rewrite q_lit. cbn -[Qred Rle_dec Rmult Rplus].
    replace (Q2R (Qred (inject_Z 1 / inject_Z 100000000))) with (1 / 100000000)%R by (cbn; unfold Q2R; cbn; lra).
    apply xleb. lra.
  - unfold sufficient. apply orb_true_intro. left. unfold margin. cbn [fe_newton fe_cost fe_viol].
    assert (Ep : s_pow Xn (s_ofZ Xn 1) (lit 15 1) = Fin 1) by apply one_pow. rewrite Ep. unfold g_cost. rewrite q_lit. cbn -[Qred Rle_dec Rmult Rplus].
    apply xleb. rewrite Rmult_0_r. nra.
  - rewrite Ea. cbn [obind]. unfold limits. change (o_max (opts_y 5) <=? 0 + 1)%Z with false.
    change (s_ltb Xn (o_timeout (opts_y 5)) (s_sub Xn (e_clock down_env 1) (e_clock down_env 0))) with false. cbv beta iota.
    cbn [SolverModel.finish n_E obind]. rewrite G0, En, T0. eexists. split; reflexivity.
Qed.

Lemma square_cost sp rho : sp_goal sp = Some (false, XBin BMul (XVar 0) (XVar 0)) -> cost_is sp rho (rho 0%nat * rho 0%nat).
Proof. intros G. unfold cost_is. rewrite G. split; [cbn; repeat split; discriminate|]. exists (rho 0%nat * rho 0%nat). split; [|reflexivity]. apply (XEv_bin rho BMul _ _ (rho 0%nat) (rho 0%nat)); [exact (XEv_var rho 0)|exact (XEv_var rho 0)|constructor]. Qed.
Lemma square_cost_fun sp rho v w : sp_goal sp = Some (false, XBin BMul (XVar 0) (XVar 0)) -> cost_is sp rho v -> cost_is sp rho w -> v = w.
Proof. intros G. unfold cost_is. rewrite G. intros (_ & a & A & ->) (_ & b & B & ->). exact (XEv_det _ _ _ _ A B). Qed.
Lemma square_pd sp rho d : sp_goal sp = Some (false, XBin BMul (XVar 0) (XVar 0)) -> pd 0 (cost_is sp) rho d -> d = 2 * rho 0%nat.
Proof.
  intros G H. apply (pd_fun 0 (cost_is sp) rho d (2 * rho 0%nat) (fun rho v w => square_cost_fun sp rho v w G) H).
  exists (fun t => t * t). split.
  - apply Hierarchy.filter_forall. intros t. exact (square_cost sp (ExprModel.upd rho 0%nat t) G).
  - assert (Q : forall x : R, is_derive (fun t : R => t * t) x (2 * x)) by (intros x; auto_derive; [exact I|ring]). apply Q.
Qed.

Lemma from1_run {U} (u : U) : exists sp p P x0 p1, spec_run from1_ops spec_empty = Some (sp, []) /\ lived sp p /\ prepare p = Ok (RanNewton P, x0, p1) /\
  (forall rho, prob_smooth sp rho) /\
  forall fuel, (2 <= fuel)%nat -> exists fin, newton (U := U) down_env P [] (opts_y 5) fuel x0 u 0 = Ok (SUCCESS, fin) /\ n_x down_env fin = map Fin [0].
Proof.
  destruct from1_spec as (sp & Hs & Ed & Eg & Es & Ei & Ev). pose proof from1_types as T.
  destruct (c31_lived _ _ _ _ _ lived_start Hs) as (p & out & Hr & A & Lv & _). rewrite Hr in T. inversion A; subst. destruct T as (T1 & T2 & T3).
  destruct (prepare_total sp p Lv Ei) as (rn & x0 & p1 & Hp).
  destruct (solve_picks sp p rn x0 p1 Lv Hp) as (tf & te & ti & F1 & F2 & F3 & C & M). rewrite T1 in F1. rewrite T2 in F2. rewrite T3 in F3. injection F1 as <-. injection F2 as <-. injection F3 as <-.
  destruct rn as [|P|P|P|].
  - destruct C as [C _]. specialize (C eq_refl). discriminate.
  - assert (Sm : forall rho, prob_smooth sp rho) by (intros rho; apply square_smooth; assumption).
    exists sp, p, P, x0, p1. split; [exact Hs|]. split; [exact Lv|]. split; [exact Hp|]. split; [exact Sm|]. intros fuel Hf.
    destruct (c80_newton sp p P x0 p1 Lv Hp (Sm _)) as (f & E1 & Pf & _ & _ & K). destruct (c33_newton sp p P x0 p1 Lv Hp) as (X0 & Hn & _).
    rewrite Ed in Hn, X0. cbn [map length] in Hn, X0. rewrite Ev in X0. subst x0.
    assert (W : forall a, np_f P [Fin a] = Fin (f * (a * a)) /\ np_g P [Fin a] = [Fin (f * (2 * a))] /\ exists h, np_H P [Fin a] = [[Fin h]]).
    { intros a. destruct (K [a] ltac:(rewrite Ed; reflexivity) (Sm _)) as ((v & V & Hv) & (Lg & Hg) & (Sh & Hh)). cbn [map] in *. rewrite Ed in *.
      assert (Pa : point sp [a] 0%nat = a) by (unfold point; rewrite Ed; reflexivity).
      split; [|split].
      - rewrite Hv. do 2 f_equal. rewrite (square_cost_fun sp _ _ _ Eg V (square_cost sp _ Eg)), Pa. reflexivity.
      - destruct (Hg 0%nat 0%nat eq_refl) as (d & Eq & Pd). apply (square_pd sp _ _ Eg) in Pd. rewrite Pa in Pd. subst d.
        destruct (np_g P [Fin a]) as [|g [|g' l]]; try discriminate. cbn in Eq. rewrite Eq. reflexivity.
      - destruct (Hh 0%nat 0%nat 0%nat 0%nat eq_refl eq_refl) as [Hh1 _]. destruct (Hh1 (le_n _)) as (d & Eq & _). destruct Sh as [S1 S2]. exists d. unfold at2 in Eq.
        destruct (np_H P [Fin a]) as [|w [|w' l]]; try discriminate. specialize (S2 w (or_introl eq_refl)). destruct w as [|h [|h' l]]; try discriminate. cbn in Eq. rewrite Eq. reflexivity. }
    destruct (W 1) as (A1 & A2 & A3). destruct (W 0) as (B1 & B2 & _). rewrite Rmult_1_r in A1, A2. rewrite !Rmult_0_r in B1, B2.
    assert (Sc : np_sc P = fsc f [] []).
    { destruct (lived_ok _ _ Lv) as [Ip Lp]. destruct (prepare_inv sp p _ _ p1 Ip Lp Hp) as (I1 & L1 & E0 & _ & Pk).
      destruct Pk as (tf & te & ti & _ & _ & _ & _ & _ & _ & Gv). destruct Gv as (nodes & t' & q & g & _ & _ & _ & ->). cbn in E1 |- *. unfold scaling_newton in *. cbn in E1. unfold fsc. cbn. f_equal. exact E1. }
    refine (newton_one P f fuel u Hn Sc Pf _ _ A2 _ A3 Hf); [rewrite A1; do 2 f_equal; ring|rewrite B1; do 2 f_equal; ring|rewrite B2; do 3 f_equal; ring].
  - rewrite Es in M. destruct M. congruence.
  - rewrite Ei in M. congruence.
  - rewrite Ei in M. congruence.
Qed.
