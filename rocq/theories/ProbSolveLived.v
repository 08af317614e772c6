(** Proofs for C33-C35 about every history. *)
From Coq Require Import ZArith Reals List Bool Arith Lia Lra.
From Verif Require Import Base ExprModel GraphSpec GraphProofs ExprInv VarModel VarReach VarProofs ExprReal ExprXR MathSpec MathProofs VarSpec Faith FaithX HistProofs
  JacModel JacProofs JacReach JacHist JacSame NumModel UtilModel ScaleProofs BoundsModel ExitModel SolverModel NewtonModel SqpModel IpmModel IpmShape RestoreModel RestoreProofs
  FinEval ProblemModel ProblemSpec ProblemInv ProblemProofs ProblemProofs2 ProblemProofs3 ProblemProofs4 ProbSolveModel ProbSolveInv ProbSolveEval ProbSolveSpec ProbSolveProofs ProbSolvePrep
  CbModel ProbSolveHist ProbSolveEnd.
Import ListNotations.
Local Open Scope nat_scope.

(** *** Reading the decision variables *)
Lemma read_one i m (e : henv) (s : st X_ops) x e' s' : jreach (e, [], s) -> decides e s i m -> pvalue i e s = Ok (x, e', s') ->
  x = st_val s m /\ jreach (e', [], s') /\ keeps e e' /\ grows s s' /\ st_nodes s' = st_nodes s /\ (forall k, leaf (S := Xn) s k -> st_val s' k = st_val s k).
Proof.
  intros R D H. destruct (jget_value_ok (S := Xn) i m (e, [], s) R (decides_holds (S := Xn) _ _ _ _ D)) as (q' & Hg & V & Hm).
  unfold jget_value in Hg. cbn [jstep] in Hg. change (nbase Xn) with X_ops in Hg. unfold pvalue in H.
  destruct (hstep (HValue i) e s) as [[[e1 s1] out]| | |]; cbn [obind] in Hg, H; try discriminate.
  destruct out as [|w [|? ?]]; try discriminate. injection H as <- <- <-. cbn [map] in Hg. injection Hg as Hw <-.
  destruct V as (C & K & _ & N & Lv). unfold qenv, qst in *. cbn [fst snd] in *.
  split; [|split; [|split; [exact K|split; [exists []; rewrite app_nil_r; exact N|split; [exact N|exact Lv]]]]].
  - destruct D as (u & _ & _ & (nd & Nd & Kn)). pose proof (jreach_inv _ R) as ((W & _) & _). rewrite Hw. symmetry.
    apply (Ev_eval (S := X_ops) (st_nodes s) (st_val s) m (st_val s m) W). destruct nd as [k0 t0]. cbn in Kn. subst k0. eapply Ev_var, Nd.
  - exact (jcareful_reach _ _ R C).
Qed.

Lemma read_all l : forall nodes (e : henv) (s : st X_ops) xs e' s', jreach (e, [], s) -> Forall2 (decides e s) l nodes -> pmap pvalue l e s = Ok (xs, e', s') ->
  xs = map (st_val s) nodes.
Proof.
  induction l as [|i l IH]; intros nodes e s xs e' s' R F H; inversion F as [|? m ? ns D F']; subst; [injection H as <- _ _; reflexivity|].
  cbn [pmap] in H. unfold pbind in H. destruct (pvalue i e s) as [[[x e1] s1]| | |] eqn:E1; cbn [obind] in H; try discriminate.
  destruct (read_one i m e s x e1 s1 R D E1) as (-> & R1 & K1 & G1 & N1 & V1).
  destruct (pmap pvalue l e1 s1) as [[[ys e2] s2]| | |] eqn:E2; cbn [obind] in H; try discriminate. injection H as <- _ _. cbn [map]. apply (f_equal (@Datatypes.cons XR (st_val s m))).
  assert (F1 : Forall2 (decides e1 s1) l ns).
  { eapply JacProofs.Forall2_impl; [|exact F']. intros a b (u & U1 & U2 & U3). destruct (K1 _ _ U1) as (u' & U1' & U2'). exists u'. rewrite U2', N1. auto. }
  rewrite (IH ns e1 s1 ys e2 s2 R1 F1 E2). apply map_ext_in. intros k Hk. apply V1. right.
  clear - F' Hk. induction F' as [|a b l l' (u & _ & _ & Kv) F IH]; [contradiction|]. destruct Hk as [->|Hk]; auto.
Qed.

Lemma map_fin_inj (a b : list R) : map Fin a = map Fin b -> a = b.
Proof. revert b. induction a as [|x a IH]; intros [|y b] H; try discriminate; [reflexivity|]. injection H as -> H. f_equal. apply IH, H. Qed.

Lemma place_same rho ks : forall k, place rho ks (map rho ks) k = rho k.
Proof.
  assert (G : forall ks rho rho', (forall k, rho' k = rho k) -> forall k, place rho' ks (map rho ks) k = rho k).
  { clear ks rho. induction ks as [|a ks IH]; intros rho rho' H k; [apply H|]. cbn. apply IH. intros j. destruct (Nat.eq_dec j a) as [->|Hne]; [rewrite upd_eq; reflexivity|rewrite upd_ne by exact Hne; apply H]. }
  intros k. apply G. reflexivity.
Qed.

Lemma plink_ext sp (p : prog X_ops) rho : plink sp p -> (forall k, rho k = se_val (sp_se sp) k) ->
  plink (set_se sp (mkSE (se_exp (sp_se sp)) (se_n (sp_se sp)) rho)) p.
Proof.
  intros (E & dv & (HI & Ld & (ND & Hd) & Le & Hs) & [T1 T2 T3 T4 T5 T6 T7]) H. exists E, dv.
  split; [|constructor; assumption]. cbn [set_se sp_se se_exp se_n se_val] in *. split; [exact HI|]. split; [exact Ld|]. split; [|split; [exact Le|exact Hs]].
  split; [exact ND|]. intros k Hk. destruct (Hd k Hk) as [A B]. split; [exact A|]. cbn [se_val] in *. rewrite H. exact B.
Qed.

Lemma puts_read {S : nops} nodes : forall (x : list S) lv, NoDup nodes -> length x = length nodes -> map (puts lv nodes x) nodes = x.
Proof.
  intros x lv ND L. apply nth_ext with (d := puts lv nodes x 0) (d' := s_ofZ S 0); [rewrite map_length; symmetry; exact L|].
  intros k Hk. rewrite map_length in Hk. rewrite (map_nth (puts lv nodes x)). apply puts_in; [exact ND| |exact L]. apply nth_error_nth', Hk.
Qed.

(** The outcome of solve(). *)
Definition no_solver (rn : ran) : bool := match rn with RanNone | RanBounds => true | _ => false end.

Lemma solve_cases {U} E o fuel (cbs pcbs : list (callback Xn U)) p u clk st p' : solve E o fuel cbs pcbs p u clk = Ok (st, p') ->
  exists rn x0 p1 x, prepare p = Ok (rn, x0, p1) /\ final E o fuel (cbs ++ pcbs) u clk rn x0 st x /\
    if no_solver rn then p' = p1 else write_back p1 x = Ok p'.
Proof.
  intros H. unfold solve in H. destruct (prepare p) as [[[rn x0] p1]| | |]; cbn [obind] in H; try discriminate.
  destruct rn as [|P|P|P|].
  - injection H as <- <-. exists RanNone, x0, p1, x0. cbn. auto.
  - destruct (newton E P (cbs ++ pcbs) o fuel x0 u clk) as [[st' fin]| | |] eqn:Hn; cbn [obind] in H; try discriminate.
    destruct (write_back p1 (n_x E fin)) as [p2| | |] eqn:Hw; cbn [obind] in H; try discriminate. injection H as <- <-.
    exists (RanNewton P), x0, p1, (n_x E fin). cbn. split; [reflexivity|]. split; [exists fin; auto|exact Hw].
  - destruct (sqp_solve E o fuel P (cbs ++ pcbs) x0 u clk) as [[st' fin]| | |] eqn:Hn; cbn [obind] in H; try discriminate.
    destruct (write_back p1 (s_x E fin)) as [p2| | |] eqn:Hw; cbn [obind] in H; try discriminate. injection H as <- <-.
    exists (RanSqp P), x0, p1, (s_x E fin). cbn. split; [reflexivity|]. split; [exists fin; auto|exact Hw].
  - destruct (ipm_solve E o fuel P (cbs ++ pcbs) x0 u clk) as [[st' fin]| | |] eqn:Hn; cbn [obind] in H; try discriminate.
    destruct (write_back p1 (is_x E fin)) as [p2| | |] eqn:Hw; cbn [obind] in H; try discriminate. injection H as <- <-.
    exists (RanIpm P), x0, p1, (is_x E fin). cbn. split; [reflexivity|]. split; [exists fin; auto|exact Hw].
  - injection H as <- <-. exists RanBounds, x0, p1, x0. cbn. auto.
Qed.

Lemma at_point_same sp (p : prog X_ops) : plink sp p -> plink (at_point sp (map (se_val (sp_se sp)) (sp_dec sp))) p.
Proof. intros L. apply plink_ext; [exact L|]. intros k. apply place_same. Qed.

Lemma write_read sp p1 p' x : pinv p1 -> plink sp p1 -> write_back p1 x = Ok p' ->
  pinv p' /\ (forall y e s, pmap pvalue (p_dec p') (p_env p') (p_st p') = Ok (map Fin y, e, s) -> x = map Fin y /\ plink (at_point sp y) p').
Proof.
  intros I1 L1 Hw. destruct (write_ok sp p1 p' x I1 L1 Hw) as (Lx & I2 & (e2 & s2 & E2) & He & Hn & nodes & D & ND & Hv). split; [exact I2|].
  intros y e s Hr. assert (Ed : p_dec p' = p_dec p1) by (subst p'; reflexivity). rewrite Ed in Hr.
  pose proof (read_all _ _ _ _ _ _ _ (i_reach _ I2) D Hr) as Hy.
  rewrite (map_ext _ _ Hv) in Hy. rewrite (puts_read (S := Xn)) in Hy; [|exact ND|].
  2:{ rewrite <- (f2len _ _ _ D). refine (eq_trans Lx _). symmetry. exact (dec_len (S := Xn) sp p1 L1). }
  subst x. split; [reflexivity|]. exact (write_link sp p1 p' y I1 L1 Hw).
Qed.
(** A solve() left by an exception. *)
Lemma raised_cases {U} E o l fuel (cbs pcbs : list (tcallback Xn U)) p u clk v p' : solve_t E o l fuel cbs pcbs p u clk = Ok (Raised v p') ->
  exists rn x0 p1 x, prepare p = Ok (rn, x0, p1) /\ write_back p1 x = Ok p' /\
    match rn with
    | RanNewton P => newton_t E o P (cbs ++ pcbs) (l_newton E U l) fuel x0 u clk x0 = Ok (Thrown (S := Xn) v x)
    | RanSqp P => sqp_solve_t E o l fuel P (cbs ++ pcbs) x0 u clk x0 = Ok (Thrown (S := Xn) v x)
    | RanIpm P => ipm_solve_t E o l fuel P (cbs ++ pcbs) x0 u clk x0 = Ok (Thrown (S := Xn) v x)
    | _ => False
    end.
Proof.
  intros H. unfold solve_t in H. destruct (prepare p) as [[[rn x0] p1]| | |]; cbn [obind] in H; try discriminate.
  destruct rn as [|P|P|P|]; try discriminate; unfold ending in H;
    match type of H with (let* _ := ?m in _) = _ => destruct m as [[[st fin]|w x]| | |] eqn:R end; cbn [obind] in H; try discriminate.
  all: try (match type of H with (let* _ := ?m in _) = _ => destruct m as [p2| | |] end; cbn [obind] in H; discriminate).
  all: destruct (write_back p1 x) as [p2| | |] eqn:Hw; cbn [obind] in H; try discriminate; injection H as <- <-.
  - exists (RanNewton P), x0, p1, x. auto.
  - exists (RanSqp P), x0, p1, x. auto.
  - exists (RanIpm P), x0, p1, x. auto.
Qed.
Lemma raised_link {U} E o l fuel (cbs pcbs : list (tcallback Xn U)) sp p u clk v p' : pinv p -> plink sp p -> solve_t E o l fuel cbs pcbs p u clk = Ok (Raised v p') ->
  pinv p' /\ (forall y e s, pmap pvalue (p_dec p') (p_env p') (p_st p') = Ok (map Fin y, e, s) -> plink (at_point sp y) p').
Proof.
  intros Ip Lp H. destruct (raised_cases _ _ _ _ _ _ _ _ _ _ _ H) as (rn & x0 & p1 & x & Hp & Hw & _).
  destruct (prepare_inv sp p rn x0 p1 Ip Lp Hp) as (I1 & L1 & _). destruct (write_read sp p1 p' x I1 L1 Hw) as (I2 & K). split; [exact I2|].
  intros y e s Hr. exact (proj2 (K y e s Hr)).
Qed.

(** After solve() the program means the same with the decision variables at the values they were left with. *)
Lemma solve_link {U} E o fuel (cbs pcbs : list (callback Xn U)) sp p u clk st p' : pinv p -> plink sp p -> solve E o fuel cbs pcbs p u clk = Ok (st, p') ->
  pinv p' /\ (exists e s, p' = set_mem p e s) /\
  (forall y e s, pmap pvalue (p_dec p') (p_env p') (p_st p') = Ok (map Fin y, e, s) -> plink (at_point sp y) p').
Proof.
  intros Ip Lp H. destruct (solve_cases _ _ _ _ _ _ _ _ _ _ H) as (rn & x0 & p1 & x & Hp & Hf & Hw).
  destruct (prepare_inv sp p rn x0 p1 Ip Lp Hp) as (I1 & L1 & -> & (e1 & s1 & E1) & _). destruct (no_solver rn).
  - subst p'. split; [exact I1|]. split; [exists e1, s1; exact E1|]. intros y e s Hr.
    destruct (read_dec (S := X_ops) (FS := faith_X) sp p1 I1 L1) as (e2 & s2 & Hr2 & _). rewrite Hr in Hr2. injection Hr2 as Hy _ _.
    apply map_fin_inj in Hy. subst y. apply at_point_same, L1.
  - destruct (write_read sp p1 p' x I1 L1 Hw) as (I2 & K). split; [exact I2|].
    destruct (write_ok sp p1 p' x I1 L1 Hw) as (_ & _ & (e2 & s2 & E2) & _). split; [subst; exists e2, s2; reflexivity|].
    intros y e s Hr. exact (proj2 (K y e s Hr)).
Qed.

Lemma lived_ok sp p : lived sp p -> pinv p /\ plink sp p.
Proof.
  induction 1 as [|o sp sp' qs p p' out _ [Ip Lp] Hs Hp|U E o fuel cbs pcbs u clk sp p st p' y e s _ [Ip Lp] Hs Hr|U E o l fuel cbs pcbs u clk sp p v p' y e s _ [Ip Lp] Hs Hr].
  - split; [apply pinv_empty|apply plink_empty].
  - split; [eapply pinv_step; eauto|]. destruct (spec_step_ok o sp sp' qs p Lp Hs) as (p2 & out2 & E2 & L2 & _). rewrite Hp in E2. injection E2 as <- <-. exact L2.
  - destruct (solve_link E o fuel cbs pcbs sp p u clk st p' Ip Lp Hs) as (I2 & _ & L2). split; [exact I2|eapply L2; exact Hr].
  - destruct (raised_link E o l fuel cbs pcbs sp p u clk v p' Ip Lp Hs) as (I2 & L2). split; [exact I2|eapply L2; exact Hr].
Qed.
