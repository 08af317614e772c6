(** Proofs for C84 and C85, continued: solve() itself. *)
From Coq Require Import ZArith Reals List Bool Arith Lia Lra.
From Verif Require Import Base ExprModel GraphSpec GraphProofs ExprInv VarModel VarReach VarProofs ExprReal ExprXR MathSpec MathProofs VarSpec Faith FaithX HistProofs
  JacModel JacProofs JacReach JacHist JacSame NumModel UtilModel UtilSpec ScaleProofs LinR KktModel KktSpec KktProofs BoundsModel ExitModel SolverModel SolverSpec SolverProofs NewtonModel NewtonSpec NewtonProofs
  SqpModel SqpSpec SqpProofs IpmModel IpmShape IpmSpec IpmProofs RestoreModel RestoreProofs PosX PosProofs OutcomeProofs XArith FilterModel FilterProofs
  FinEval ProblemModel ProblemSpec ProblemInv ProblemProofs ProblemProofs2 ProblemProofs3 ProblemProofs4 ProbSolveModel ProbSolveInv ProbSolveEval ProbSolveSpec ProbSolveProofs ProbSolvePrep
  ProbSolveHist ProbSolveEnd ProbSolveLived ProbSolveFinal ProbSolveFacts DiffSpec SmoothSpec SmoothGraph SmoothUser LagrSpec ProbSolveMade ProbSolveDeriv ProbSolveDims ProbSolveKkt ProbSolveKkt2 ProbSolveTotal EarlySpec ProbSolveBounds ProbEarly.
Import ListNotations.
Local Open Scope nat_scope.

Lemma path0 {A} (R : A -> A -> Prop) a b : path R 0 a b -> b = a.
Proof. intros H. inversion H. reflexivity. Qed.

Lemma warm_start sp p t : lived sp p -> prob_smooth sp (se_val (sp_se sp)) -> sp_ineqs sp = [] -> length (sp_eqs sp) <= length (sp_dec sp) -> (0 < t)%R -> settled sp t ->
  exists p', forall (U : Type) (E : env Xn) (o : options Xn) (cbs pcbs : list (callback Xn U)) n u clk, o_tol o = Fin t -> 1 <= n ->
    solve E o n cbs pcbs p u clk = Ok (SUCCESS, p') /\ lived (at_point sp (now sp)) p'.
Proof.
  intros Lv Sm Ei Ld Pt St. destruct (prepare_total sp p Lv Ei) as (rn & x0 & p1 & Hp). destruct (lived_ok _ _ Lv) as [Ip Lp].
  destruct (prepare_inv sp p rn x0 p1 Ip Lp Hp) as (I1 & L1 & Ex & _ & _). change (x0 = fv (now sp)) in Ex.
  assert (Lx : length x0 = length (p_dec p1)). { rewrite Ex, fv_len, now_len. symmetry. exact (dec_len (S := Xn) sp p1 L1). }
  destruct (solve_picks sp p rn x0 p1 Lv Hp) as (tf & te & ti & _ & _ & _ & _ & Pk).
  destruct (write_total sp p1 x0 I1 L1 Lx) as (p2 & Hw). exists (if no_solver rn then p1 else p2). intros U E o cbs pcbs n u clk Ht Ln.
  assert (Q : solve E o n cbs pcbs p u clk = Ok (SUCCESS, if no_solver rn then p1 else p2) /\ forall st x, final E o n (cbs ++ pcbs) u clk rn x0 st x -> x = x0).
  { unfold solve. rewrite Hp. cbn [obind]. destruct rn as [|P|P|P|]; cbn [no_solver final].
    - split; [reflexivity|]. intros st x [_ ->]. reflexivity.
    - destruct (newton_settled sp p Lv Sm P x0 p1 t Hp Pt St U E o (cbs ++ pcbs) n u clk Ht Ln) as (fin & Hn & Ef). rewrite Hn. cbn [obind]. rewrite Ef, Hw. cbn [obind].
      split; [reflexivity|]. intros st x (fin' & Hn' & ->). injection Hn' as _ <-. exact Ef.
    - destruct (sqp_settled sp p Lv Sm P x0 p1 t Hp Pt St Ld U E o (cbs ++ pcbs) n u clk Ht Ln) as (fin & Hn & Ef). rewrite Hn. cbn [obind]. rewrite Ef, Hw. cbn [obind].
      split; [reflexivity|]. intros st x (fin' & Hn' & ->). injection Hn' as _ <-. exact Ef.
    - exfalso. exact (Pk Ei).
    - exfalso. exact (Pk Ei). }
  destruct Q as [Q1 Q2]. split; [exact Q1|].
  destruct (c35 E o n cbs pcbs sp p u clk _ _ Lv Q1) as (rn' & x0' & p1' & x & tf' & te' & ti' & Hp' & _ & _ & _ & _ & _ & _ & Fi & _ & _ & _ & _ & _ & _ & _ & _ & Li).
  rewrite Hp in Hp'. injection Hp' as <- <- <-. apply Li. rewrite (Q2 _ _ Fi). exact Ex.
Qed.

(** *** Possible answers *)
Section Answers.
Context {U : Type}.
Variables (E : env Xn) (o : options Xn).
Hypothesis Hs : solve_ok E.
Hypothesis He : est_ok E.

Lemma solve_possible fuel (cbs pcbs : list (callback Xn U)) sp p u clk st p' : lived sp p -> solve E o fuel cbs pcbs p u clk = Ok (st, p') -> possible sp st.
Proof.
  intros Lv H. destruct (solve_cases _ _ _ _ _ _ _ _ _ _ H) as (rn & x0 & p1 & x & Hp & Fi & _).
  destruct (lived_ok _ _ Lv) as [Ip Lp]. destruct (prepare_inv sp p rn x0 p1 Ip Lp Hp) as (I1 & L1 & Ex & _ & (tf & te & ti & _ & _ & _ & _ & M)).
  destruct (solve_picks sp p rn x0 p1 Lv Hp) as (tf' & te' & ti' & _ & _ & _ & _ & Pk).
  assert (Lx : length x0 = length (sp_dec sp)) by (rewrite Ex, !map_length; reflexivity).
  destruct rn as [|P|P|P|]; cbn [final] in Fi.
  - destruct Fi as [-> _]. exact I.
  - destruct Fi as (fin & Hn & _). apply c50_meaning in Hn as (Hm & _). destruct st; first [exact I|exact Pk|exact (False_ind _ Hm)].
  - destruct Fi as (fin & Hn & _). destruct M as (_ & Ei & G). destruct (sqp_meaning sp p1 x0 P I1 L1 G) as (Pok & En & Ee & _).
    apply sqp_solve_meaning in Hn as (Hm & _); auto; [|exact (eq_trans Lx (eq_sym En))]. destruct Pk as [P1 P2]. destruct st; first [exact I|exact (or_introl P1)|exact (False_ind _ Hm)|idtac]. hnf. rewrite <- En, <- Ee. exact (proj2 Hm).
  - destruct Fi as (fin & Hn & _). destruct M as (_ & G). destruct (ipm_meaning sp p1 x0 P I1 L1 G) as (Pok & (En & Ee & _) & _).
    apply ipm_solve_meaning in Hn as (Hm & _); auto; [|exact (eq_trans Lx (eq_sym En))]. destruct st; first [exact I|exact (or_intror Pk)|exact (False_ind _ Hm)|idtac]. hnf. rewrite <- En, <- Ee. exact (proj2 Hm).
  - destruct Fi as [-> _]. exact Pk.
Qed.

(** Too few degrees of freedom: nothing moves. *)
Lemma solve_overdetermined fuel (cbs pcbs : list (callback Xn U)) sp p u clk st p' : lived sp p -> length (sp_dec sp) < length (sp_eqs sp) -> solve E o fuel cbs pcbs p u clk = Ok (st, p') ->
  (st = TOO_FEW_DOFS \/ st = GLOBALLY_INFEASIBLE \/ (st = SUCCESS /\ exists x0 p1, prepare p = Ok (RanNone, x0, p1))) /\ lived (at_point sp (now sp)) p'.
Proof.
  intros Lv Lt H. destruct (c35 E o fuel cbs pcbs sp p u clk _ _ Lv H) as (rn & x0 & p1 & x & tf' & te' & ti' & Hp & Ex & _ & _ & _ & _ & Pk & Fi & _ & _ & _ & _ & _ & _ & _ & _ & Li).
  change (x0 = fv (now sp)) in Ex. destruct (lived_ok _ _ Lv) as [Ip Lp]. destruct (prepare_inv sp p rn x0 p1 Ip Lp Hp) as (I1 & L1 & _ & _ & (tf & te & ti & _ & _ & _ & _ & M)).
  assert (Q : (st = TOO_FEW_DOFS \/ st = GLOBALLY_INFEASIBLE \/ (st = SUCCESS /\ exists x0 p1, prepare p = Ok (RanNone, x0, p1))) /\ x = x0).
  { destruct rn as [|P|P|P|]; cbn [final] in Fi.
    - destruct Fi as [-> ->]. split; [right; right; split; [reflexivity|eauto]|reflexivity].
    - destruct Pk as [Q1 _]. rewrite Q1 in Lt. cbn in Lt. lia.
    - destruct Fi as (fin & Hn & ->). destruct M as (_ & Ei & G). destruct (sqp_meaning sp p1 x0 P I1 L1 G) as (Pok & En & Ee & _).
      unfold sqp_solve, sqp, sqp_from in Hn. apply oassert_ok in Hn as [_ Hn]. replace (Nat.ltb (sp_n P) (sp_me P)) with true in Hn by (symmetry; apply Nat.ltb_lt; lia). injection Hn as <- <-. auto.
    - destruct Fi as (fin & Hn & ->). destruct M as (_ & G). destruct (ipm_meaning sp p1 x0 P I1 L1 G) as (Pok & (En & Ee & _) & _).
      unfold ipm_solve, ipm, ipm_from in Hn. apply oassert_ok in Hn as [_ Hn]. replace (Nat.ltb (ip_n P) (ip_me P)) with true in Hn by (symmetry; apply Nat.ltb_lt; lia). injection Hn as <- <-. auto.
    - destruct Fi as [-> ->]. auto. }
  destruct Q as [Q ->]. split; [exact Q|]. apply Li. exact Ex.
Qed.

(** A smooth problem is finite at the start. *)
Lemma solve_finite_start fuel (cbs pcbs : list (callback Xn U)) sp p u clk st p' : lived sp p -> prob_smooth sp (se_val (sp_se sp)) -> solve E o fuel cbs pcbs p u clk = Ok (st, p') ->
  st <> NONFINITE_INITIAL_GUESS.
Proof.
  intros Lv Sm H ->. destruct (solve_cases _ _ _ _ _ _ _ _ _ _ H) as (rn & x0 & p1 & x & Hp & Fi & _).
  destruct (lived_ok _ _ Lv) as [Ip Lp]. destruct (prepare_inv sp p rn x0 p1 Ip Lp Hp) as (I1 & L1 & Ex & _ & (tf & te & ti & _ & _ & _ & _ & M)).
  assert (Lx : length x0 = length (sp_dec sp)) by (rewrite Ex, !map_length; reflexivity).
  destruct rn as [|P|P|P|]; cbn [final] in Fi.
  - destruct Fi as [Q _]. discriminate.
  - destruct Fi as (fin & Hn & _). destruct (newton_start sp p Lv Sm P x0 p1 Hp) as (_ & En & f & g & _ & _ & Eg & _ & _ & Ff & Dm & Fm).
    apply c50_meaning in Hn as ((Hi & Hm) & k & Ek & Pa & _). assert (k = 0) by lia. subst k. apply path0 in Pa. rewrite Pa in Hm.
    destruct Hm as [Hm|[(v & Iv & Hv)|(r & v & Ir & Iv & Hv)]].
    + congruence.
    + rewrite Eg in Iv. apply in_map_iff in Iv as (w & <- & _). discriminate.
    + unfold mat_fin in Fm. rewrite forallb_forall in Fm. specialize (Fm r Ir). unfold all_fin in Fm. rewrite forallb_forall in Fm. specialize (Fm v Iv). congruence.
  - destruct Fi as (fin & Hn & _). destruct M as (_ & Ei & G).
    destruct (sqp_start sp p Lv Sm P x0 p1 Hp) as (_ & En & Ee & Me & Pok & f & de & g & A & ge & _ & _ & _ & _ & Eg & _ & EA & _ & Ec & _ & _ & Ff & _ & Fm).
    apply sqp_solve_meaning in Hn as ((Hi & Hm) & _ & k & pt & Pa & Lk & Hpt); auto; [|exact (eq_trans Lx (eq_sym En))]. assert (k = 0) by lia. subst k. apply path0 in Pa. subst pt.
    destruct Hpt as [Hpt|[Hpt|Hpt]]; try discriminate. injection Hpt as X1 X2. rewrite X1, X2 in Hm. cbv zeta in Fm.
    rewrite Eg, Ec, EA, Ff, !fv_fin, fm_fin in Hm. destruct Hm as [Hm|[Hm|[Hm|[Hm|Hm]]]]; first [discriminate Hm|exact (Bool.diff_true_false (eq_trans (eq_sym Fm) Hm))].
  - destruct Fi as (fin & Hn & _). destruct M as (_ & G). destruct (ipm_meaning sp p1 x0 P I1 L1 G) as (Pok & (En & Ee & Ei) & Le & Li & _).
    destruct (c80_ipm sp p P x0 p1 Lv Hp Sm) as (f & de & di & E1 & E2 & E3 & Pf & Lde & Ldi & Pd & K). destruct (K (now sp) (now_len sp) (now_smooth sp Sm)) as ((v & _ & Ev) & (ge & Ge & Ec) & (gi & Gi & Ed) & Gr & J & J' & HH).
    change (x0 = fv (now sp)) in Ex. assert (Lx' : length x0 = ip_n P) by congruence. destruct (Pok x0 Lx') as (_ & _ & _ & DA & DB).
    rewrite Ex in DA, DB. rewrite Ee, En in DA. rewrite Ei, En in DB. destruct (jac_real _ _ _ _ _ J DA) as (A & EA & _). destruct (jac_real _ _ _ _ _ J' DB) as (B & EB & _). destruct (grad_real _ _ _ _ Gr) as (g & Eg & _).
    apply ipm_solve_meaning in Hn as ((Hi & Hm) & _ & k & pt & Pa & Lk & Hpt); auto. assert (k = 0) by lia. subst k. apply path0 in Pa. subst pt.
    destruct Hpt as [Hpt|[Hpt|Hpt]]; try discriminate. injection Hpt as X1 X2 X3 X4. rewrite X1, X3, X4, Ex in Hm. cbv zeta in Hm.
    change (map Fin (now sp)) with (fv (now sp)) in *. match type of Hm with context[ip_H P _ ?b ?c] => replace b with (map Fin (repeat 0%R (ip_me P))) in Hm by (symmetry; exact (rep_fin 0%R (Fin 0) _ eq_refl)); replace c with (map Fin (repeat 1%R (ip_mi P))) in Hm by (symmetry; exact (rep_fin 1%R (Fin 1) _ eq_refl)) end.
    destruct (HH (repeat 0%R (ip_me P)) (repeat 1%R (ip_mi P))) as [H1 _]; [rewrite repeat_length; exact Ee|rewrite repeat_length; exact Ei|].
    assert (Dm : mat_dims (S := Xn) (ip_n P) (ip_n P) (ip_H P (fv (now sp)) (map Fin (repeat 0%R (ip_me P))) (map Fin (repeat 1%R (ip_mi P)))) = true).
    { apply (ipm_H_dims p1 x0 P G Le Li); [rewrite <- Ex; exact Lx'|rewrite map_length; apply repeat_length|rewrite map_length; apply repeat_length]. }
    rewrite En in Dm. pose proof (lower_fin _ _ _ _ H1 Dm) as Fm. rewrite Eg, Ev, Ec, Ed, EA, EB in Hm. change (map Fin (times de ge)) with (fv (times de ge)) in Hm. change (map Fin (times di gi)) with (fv (times di gi)) in Hm. rewrite !fv_fin, !fm_fin in Hm.
    destruct Hm as [Hm|[Hm|[Hm|[Hm|[Hm|[Hm|Hm]]]]]]; first [discriminate Hm|exact (Bool.diff_true_false (eq_trans (eq_sym Fm) Hm))].
  - destruct Fi as [Q _]. discriminate.
Qed.
End Answers.
