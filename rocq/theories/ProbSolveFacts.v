(** Proofs for C31, C33, C34, C35 about every history of statements and solve() calls. *)
From Coq Require Import ZArith Reals List Bool Arith Lia Lra.
From Verif Require Import Base ExprModel GraphSpec GraphProofs ExprInv VarModel VarReach VarProofs ExprReal ExprXR MathSpec MathProofs VarSpec Faith FaithX HistProofs
  JacModel JacProofs JacReach JacHist JacSame NumModel UtilModel UtilSpec ScaleProofs LinR KktModel KktSpec KktProofs BoundsModel ExitModel SolverModel SolverSpec SolverProofs NewtonModel
  SqpModel SqpSpec SqpProofs IpmModel IpmShape IpmSpec IpmProofs RestoreModel RestoreProofs PosX OutcomeProofs
  FinEval ProblemModel ProblemSpec ProblemInv ProblemProofs ProblemProofs2 ProblemProofs3 ProblemProofs4 ProbSolveModel ProbSolveInv ProbSolveEval ProbSolveSpec ProbSolveProofs ProbSolvePrep
  ProbSolveHist ProbSolveEnd ProbSolveLived ProbSolveFinal.
Import ListNotations.
Local Open Scope nat_scope.

(** *** C31 *)
Lemma c31_lived sp p l sp' qs : lived sp p -> spec_run l sp = Some (sp', qs) ->
  exists p' out, prun (map (pinj (K := X_ops)) l) p = Ok (p', out) /\ Forall2 xanswers qs out /\ lived sp' p' /\
    Forall2 (fun c sc => fst c = fst sc /\ length (snd c) = length (snd sc)) (p_cons p') (sp_cons sp').
Proof.
  intros Lv H. destruct (lived_ok _ _ Lv) as [_ Lp]. destruct (spec_run_ok (SK := X_ops) l sp sp' qs p Lp H) as (p' & out & E & (E0 & dv & L & T) & A).
  exists p', out. split; [exact E|]. split.
  { eapply JacProofs.Forall2_impl; [|exact A]. intros q w Hq. destruct q as [[x rho]|rl rho], w; exact Hq. }
  split; [|eapply JacProofs.Forall2_impl; [|exact (t_cons _ _ _ T)]; intros c sc [H1 H2]; split; [exact H1|exact (f2len _ _ _ H2)]].
  clear - Lv H E. revert sp p sp' qs p' out Lv H E. induction l as [|o l IH]; intros sp p sp' qs p' out Lv H E.
  - injection H as <- <-. injection E as <- <-. exact Lv.
  - cbn [spec_run map prun] in H, E. destruct (spec_step o sp) as [[sp1 q1]|] eqn:E1; [|discriminate]. destruct (spec_run l sp1) as [[sp2 q2]|] eqn:E2; [|discriminate]. injection H as <- <-.
    destruct (pstep (pinj o) p) as [[p1 out1]| | |] eqn:E3; cbn [obind] in E; try discriminate.
    destruct (prun (map (pinj (K := X_ops)) l) p1) as [[p2 out2]| | |] eqn:E4; cbn [obind] in E; try discriminate. injection E as <- <-.
    eapply IH; [|exact E2|exact E4]. eapply lived_step; eauto.
Qed.

(** *** C33 *)
Lemma is_eq_CEq c : is_eq c = true <-> c = CEq.
Proof. destruct c; cbn; split; congruence. Qed.
Lemma all_eqs sp (p : prog X_ops) : plink sp p -> (forall r, In r (sp_eqs sp) -> r_cmp r = CEq) /\ (forall r, In r (sp_ineqs sp) -> r_cmp r <> CEq).
Proof.
  intros L. destruct (eqs_kind sp p L) as [A B]. split; intros r I; [apply is_eq_CEq, A, I|]. specialize (B r I). intros H. rewrite H in B. discriminate.
Qed.

Lemma c33_ipm sp p P x0 p1 : lived sp p -> prepare p = Ok (RanIpm P, x0, p1) ->
  x0 = map Fin (map (se_val (sp_se sp)) (sp_dec sp)) /\ ip_n P = length (sp_dec sp) /\ ip_me P = length (sp_eqs sp) /\ ip_mi P = length (sp_ineqs sp) /\
  forall y : list R, length y = ip_n P ->
    (forall v, cost_is sp (point sp y) v -> ip_f P (map Fin y) = X_mul (sc_f (ip_sc P)) (Fin v)) /\
    (all_defined (point sp y) (sp_eqs sp) -> exists gs, Forall2 (gap (point sp y)) (sp_eqs sp) gs /\
       ip_ce P (map Fin y) = vmap2 (S := Xn) X_mul (sc_e (ip_sc P)) (map Fin gs)) /\
    (all_defined (point sp y) (sp_ineqs sp) -> exists gs, Forall2 (gap (point sp y)) (sp_ineqs sp) gs /\
       ip_ci P (map Fin y) = vmap2 (S := Xn) X_mul (sc_i (ip_sc P)) (map Fin gs)) /\
    (all_fin (S := Xn) (ip_g P x0) = true -> mat_fin (S := Xn) (ip_Ae P x0) = true -> mat_fin (S := Xn) (ip_Ai P x0) = true ->
     all_defined (point sp y) (sp_eqs sp) -> all_defined (point sp y) (sp_ineqs sp) ->
     (exists f, sc_f (ip_sc P) = Fin f /\ (0 < f)%R) /\
     ((forall i, i < ip_me P -> nth i (ip_ce P (map Fin y)) NaN = Fin 0) /\ (forall i, i < ip_mi P -> X_leb (Fin 0) (nth i (ip_ci P (map Fin y)) NaN) = true) <->
      List.Forall (rel_holds (point sp y)) (sp_eqs sp ++ sp_ineqs sp))).
Proof.
  intros Lv H. destruct (lived_ok _ _ Lv) as [Ip Lp]. destruct (prepare_inv sp p _ x0 p1 Ip Lp H) as (I1 & L1 & E0 & _ & Pk).
  destruct Pk as (tf & te & ti & _ & _ & _ & _ & _ & Gv). destruct (ipm_meaning sp p1 x0 P I1 L1 Gv) as (_ & (En & Ee & Ei) & Le & Li & M).
  split; [exact E0|]. split; [exact En|]. split; [exact Ee|]. split; [exact Ei|]. intros y Ly. destruct (M y Ly) as (M1 & M2 & M3).
  split; [exact M1|]. split; [intros D; destruct (gaps_exist _ _ D) as (gs & G); exists gs; auto|]. split; [intros D; destruct (gaps_exist _ _ D) as (gs & G); exists gs; auto|].
  intros Fg FA FB De Di. destruct (ipm_scaling p1 x0 P Gv Fg FA FB) as (f & de & di & Sc & Pf & Lde & Ldi & Pde & Pdi).
  split; [exists f; rewrite Sc; auto|]. destruct (gaps_exist _ _ De) as (ge & Ge). destruct (gaps_exist _ _ Di) as (gi & Gi).
  rewrite (M2 ge De Ge), (M3 gi Di Gi), Sc. change (sc_e (fsc f de di)) with (map Fin de). change (sc_i (fsc f de di)) with (map Fin di).
  pose proof (gap_len _ _ _ Ge) as Nge. pose proof (gap_len _ _ _ Gi) as Ngi. destruct (all_eqs sp p Lp) as [Ke Ki].
  destruct (all_scaled (point sp y) (sp_eqs sp) de ge (fun _ => True)) as [Ae _]; [congruence|exact Pde|exact Ge|auto|].
  destruct (all_scaled (point sp y) (sp_ineqs sp) di gi (fun _ => True)) as [_ Ai]; [congruence|exact Pdi|exact Gi|auto|].
  specialize (Ae Ke). specialize (Ai Ki). rewrite Ee, Ei, <- Nge, <- Ngi, Ae, Ai. symmetry. apply Forall_app.
Qed.

Lemma c33_sqp sp p P x0 p1 : lived sp p -> prepare p = Ok (RanSqp P, x0, p1) ->
  x0 = map Fin (map (se_val (sp_se sp)) (sp_dec sp)) /\ sp_n P = length (sp_dec sp) /\ sp_me P = length (sp_eqs sp) /\ sp_ineqs sp = [] /\
  forall y : list R, length y = sp_n P ->
    (forall v, cost_is sp (point sp y) v -> sp_f P (map Fin y) = X_mul (sc_f (sp_sc P)) (Fin v)) /\
    (all_defined (point sp y) (sp_eqs sp) -> exists gs, Forall2 (gap (point sp y)) (sp_eqs sp) gs /\
       sp_ce P (map Fin y) = vmap2 (S := Xn) X_mul (sc_e (sp_sc P)) (map Fin gs)) /\
    (all_fin (S := Xn) (sp_g P x0) = true -> mat_fin (S := Xn) (sp_Ae P x0) = true -> all_defined (point sp y) (sp_eqs sp) ->
     (exists f, sc_f (sp_sc P) = Fin f /\ (0 < f)%R) /\
     ((forall i, i < sp_me P -> nth i (sp_ce P (map Fin y)) NaN = Fin 0) <-> List.Forall (rel_holds (point sp y)) (sp_eqs sp ++ sp_ineqs sp))).
Proof.
  intros Lv H. destruct (lived_ok _ _ Lv) as [Ip Lp]. destruct (prepare_inv sp p _ x0 p1 Ip Lp H) as (I1 & L1 & E0 & _ & Pk).
  destruct Pk as (tf & te & ti & _ & _ & _ & _ & _ & Ni & Gv). destruct (sqp_meaning sp p1 x0 P I1 L1 Gv) as (_ & En & Ee & Le & Li & M).
  assert (Ei : sp_ineqs sp = []). { destruct L1 as (EE & dv & _ & T). pose proof (f2len _ _ _ (t_ineqs _ _ _ T)) as F. rewrite Ni in F. destruct (sp_ineqs sp); [reflexivity|discriminate]. }
  split; [exact E0|]. split; [exact En|]. split; [exact Ee|]. split; [exact Ei|]. intros y Ly. destruct (M y Ly) as (M1 & M2).
  split; [exact M1|]. split; [intros D; destruct (gaps_exist _ _ D) as (gs & G); exists gs; auto|].
  intros Fg FA De. destruct (sqp_scaling p1 x0 P Gv Fg FA) as (f & de & Sc & Pf & Lde & Pde).
  split; [exists f; rewrite Sc; auto|]. destruct (gaps_exist _ _ De) as (ge & Ge).
  rewrite (M2 ge De Ge), Sc. change (sc_e (fsc f de [])) with (map Fin de).
  pose proof (gap_len _ _ _ Ge) as Nge. destruct (all_eqs sp p Lp) as [Ke Ki].
  destruct (all_scaled (point sp y) (sp_eqs sp) de ge (fun _ => True)) as [Ae _]; [congruence|exact Pde|exact Ge|auto|].
  specialize (Ae Ke). rewrite Ei, app_nil_r, Ee, <- Nge, Ae. tauto.
Qed.

Lemma no_rels sp (p : prog X_ops) : plink sp p -> (p_eq p = [] <-> sp_eqs sp = []) /\ (p_ineq p = [] <-> sp_ineqs sp = []).
Proof.
  intros (EE & dv & _ & T). pose proof (f2len _ _ _ (t_eqs _ _ _ T)) as F. pose proof (f2len _ _ _ (t_ineqs _ _ _ T)) as G.
  split; split; intros K; rewrite K in *; [destruct (sp_eqs sp)|destruct (p_eq p)|destruct (sp_ineqs sp)|destruct (p_ineq p)]; (reflexivity || discriminate).
Qed.

Lemma c33_newton sp p P x0 p1 : lived sp p -> prepare p = Ok (RanNewton P, x0, p1) ->
  x0 = map Fin (map (se_val (sp_se sp)) (sp_dec sp)) /\ np_n P = length (sp_dec sp) /\ sp_eqs sp = [] /\ sp_ineqs sp = [] /\
  (all_fin (S := Xn) (np_g P x0) = true -> exists f, sc_f (np_sc P) = Fin f /\ (0 < f)%R) /\
  forall (y : list R) v, length y = np_n P -> cost_is sp (point sp y) v -> np_f P (map Fin y) = X_mul (sc_f (np_sc P)) (Fin v).
Proof.
  intros Lv H. destruct (lived_ok _ _ Lv) as [Ip Lp]. destruct (prepare_inv sp p _ x0 p1 Ip Lp H) as (I1 & L1 & E0 & _ & Pk).
  destruct Pk as (tf & te & ti & _ & _ & _ & _ & Ne & Ni & Gv). destruct (newton_meaning sp p1 x0 P I1 L1 Gv) as (En & _ & M).
  destruct (no_rels sp p1 L1) as [K1 K2]. split; [exact E0|]. split; [exact En|]. split; [apply K1, Ne|]. split; [apply K2, Ni|]. split; [apply (newton_scaling p1 x0 P Gv)|exact M].
Qed.

(** *** C34 *)
Section C34.
Context {U : Type}.
Variables (E : env Xn) (o : options Xn) (t : R).
Hypothesis Hs : solve_ok E.
Hypothesis He : est_ok E.
Hypothesis Ht : o_tol o = Fin t.
Hypothesis Pt : (0 < t)%R.

Lemma c34_solve_sqp sp p P x0 p1 fuel (all : list (callback Xn U)) u clk fin y : lived sp p -> prepare p = Ok (RanSqp P, x0, p1) ->
  sqp_solve E o fuel P all x0 u clk = Ok (SUCCESS, fin) -> s_x E fin = map Fin y ->
  all_fin (S := Xn) (sp_g P (map Fin y)) = true -> mat_fin (S := Xn) (sp_Ae P (map Fin y)) = true -> all_fin (S := Xn) (s_y E fin) = true ->
  all_defined (point sp y) (sp_eqs sp) -> List.Forall (nearly t (point sp y)) (sp_eqs sp ++ sp_ineqs sp).
Proof.
  intros Lv H HS Ex Fg FA Fy D. destruct (lived_ok _ _ Lv) as [Ip Lp]. destruct (prepare_inv sp p _ x0 p1 Ip Lp H) as (I1 & L1 & E0 & _ & Pk).
  destruct Pk as (tf & te & ti & _ & _ & _ & _ & Nq & Ni & Gv). destruct (sqp_meaning sp p1 x0 P I1 L1 Gv) as (Pok & En & Ee & Le & Li & M).
  destruct (no_rels sp p1 L1) as [K1 K2]. destruct (eqs_kind sp p Lp) as [Q _].
  assert (Lx : length x0 = sp_n P) by (rewrite E0, !map_length; symmetry; exact En).
  destruct (sqp_success E o Hs He _ _ _ _ _ _ _ Pok Lx HS) as (Sg & SA & Lf & _). destruct (sqp_scaling p1 x0 P Gv Sg SA) as (f & de & Sc & Pf & Lde & Pde).
  destruct (gaps_exist _ _ D) as (ge & Ge). pose proof (gap_len _ _ _ Ge) as Nge.
  rewrite <- Ex in Fg, FA. assert (Ly : length y = sp_n P) by (rewrite Ex, map_length in Lf; exact Lf). destruct (M y Ly) as (_ & M2).
  assert (Me : 0 < sp_me P). { rewrite Ee. destruct (sp_eqs sp); [|cbn; lia]. exfalso. apply Nq, K1. reflexivity. }
  rewrite (proj1 K2 Ni), app_nil_r. apply (proj1 (rels_nearly t (point sp y) (sp_eqs sp) ge Ge)); [exact Q|].
  rewrite <- Ee. apply (sqp_near E o t Hs He Ht Pt fuel P all x0 u clk fin f de ge); auto; try congruence. rewrite Ex. apply M2; assumption.
Qed.

Lemma c34_solve_ipm sp p P x0 p1 fuel (all : list (callback Xn U)) u clk fin y : lived sp p -> prepare p = Ok (RanIpm P, x0, p1) ->
  ipm_solve E o fuel P all x0 u clk = Ok (SUCCESS, fin) -> is_x E fin = map Fin y ->
  all_fin (S := Xn) (ip_g P (map Fin y)) = true -> mat_fin (S := Xn) (ip_Ae P (map Fin y)) = true -> mat_fin (S := Xn) (ip_Ai P (map Fin y)) = true ->
  all_fin (S := Xn) (is_s E fin) = true -> all_fin (S := Xn) (is_y E fin) = true -> all_fin (S := Xn) (is_z E fin) = true ->
  all_defined (point sp y) (sp_eqs sp) -> all_defined (point sp y) (sp_ineqs sp) -> List.Forall (nearly t (point sp y)) (sp_eqs sp ++ sp_ineqs sp).
Proof.
  intros Lv H HS Ex Fg FA FB Fs Fy Fz De Di. destruct (lived_ok _ _ Lv) as [Ip Lp]. destruct (prepare_inv sp p _ x0 p1 Ip Lp H) as (I1 & L1 & E0 & _ & Pk).
  destruct Pk as (tf & te & ti & _ & _ & _ & _ & Ni & Gv). destruct (ipm_meaning sp p1 x0 P I1 L1 Gv) as (Pok & (En & Ee & Ei) & Le & Li & M).
  destruct (no_rels sp p1 L1) as [K1 K2]. destruct (eqs_kind sp p Lp) as [Q Q'].
  assert (Lx : length x0 = ip_n P) by (rewrite E0, !map_length; symmetry; exact En).
  destruct (ipm_success E o Hs He _ _ _ _ _ _ _ Pok Lx HS) as (Sg & SA & SB & Lf & _). destruct (ipm_scaling p1 x0 P Gv Sg SA SB) as (f & de & di & Sc & Pf & Lde & Ldi & Pde & Pdi).
  destruct (gaps_exist _ _ De) as (ge & Ge). pose proof (gap_len _ _ _ Ge) as Nge. destruct (gaps_exist _ _ Di) as (gi & Gi). pose proof (gap_len _ _ _ Gi) as Ngi.
  rewrite <- Ex in Fg, FA, FB. assert (Ly : length y = ip_n P) by (rewrite Ex, map_length in Lf; exact Lf). destruct (M y Ly) as (_ & M2 & M3).
  assert (Mi : 0 < ip_mi P). { rewrite Ei. destruct (sp_ineqs sp); [|cbn; lia]. exfalso. apply Ni, K2. reflexivity. }
  assert (Fx : all_fin (S := Xn) (is_x E fin) = true). { rewrite Ex. apply all_fin_Forall. rewrite List.Forall_map. apply List.Forall_forall. intros; reflexivity. }
  destruct (ipm_near E o t Hs He Ht Pt fuel P all x0 u clk fin f de di ge gi) as [A B]; auto; try congruence.
  { rewrite Ex. apply M2; assumption. } { rewrite Ex. apply M3; assumption. }
  apply Forall_app. split; [apply (proj1 (rels_nearly t (point sp y) (sp_eqs sp) ge Ge)); [exact Q|]|apply (proj2 (rels_nearly t (point sp y) (sp_ineqs sp) gi Gi)); [exact Q'|]]; [rewrite <- Ee; exact A|rewrite <- Ei; exact B].
Qed.
End C34.

(** *** C35 *)
Lemma read_mem l : forall nodes (e : henv) (s : st X_ops) xs e' s', jreach (e, [], s) -> Forall2 (decides e s) l nodes -> pmap pvalue l e s = Ok (xs, e', s') ->
  ProblemInv.keeps e e' /\ st_nodes s' = st_nodes s.
Proof.
  induction l as [|i l IH]; intros nodes e s xs e' s' R F H; inversion F as [|? m ? ns D F']; subst; [injection H as _ <- <-; split; [apply keeps_refl|reflexivity]|].
  cbn [pmap] in H. unfold pbind in H. destruct (pvalue i e s) as [[[x e1] s1]| | |] eqn:E1; cbn [obind] in H; try discriminate.
  destruct (read_one i m e s x e1 s1 R D E1) as (_ & R1 & K1 & G1 & N1 & V1).
  destruct (pmap pvalue l e1 s1) as [[[ys e2] s2]| | |] eqn:E2; cbn [obind] in H; try discriminate. injection H as _ <- <-.
  assert (F1 : Forall2 (decides e1 s1) l ns).
  { eapply JacProofs.Forall2_impl; [|exact F']. intros a b (u & U1 & U2 & U3). destruct (K1 _ _ U1) as (u' & U1' & U2'). exists u'. rewrite U2', N1. auto. }
  destruct (IH ns e1 s1 ys e2 s2 R1 F1 E2) as [K2 N2]. split; [|congruence].
  intros j v Hj. destruct (K1 j v Hj) as (v1 & Hj1 & Ev1). destruct (K2 j v1 Hj1) as (v2 & Hj2 & Ev2). exists v2. split; [exact Hj2|congruence].
Qed.

Lemma prepare_mem (p : prog X_ops) rn x0 p1 : pinv p -> prepare p = Ok (rn, x0, p1) ->
  exists e s, p1 = set_mem p e s /\ ProblemInv.keeps (p_env p) e /\ st_nodes s = st_nodes (p_st p).
Proof.
  intros Ip H. unfold prepare in H. destruct (pmap pvalue (p_dec p) (p_env p) (p_st p)) as [[[x e] s]| | |] eqn:Hr; cbn [obind] in H; try discriminate.
  destruct (i_dec _ Ip) as (nodes & D & _). destruct (read_mem _ _ _ _ _ _ _ (i_reach _ Ip) D Hr) as [K N].
  exists e, s. split; [|auto].
  repeat match type of H with
  | obind ?m _ = Ok _ => destruct m as [?| | |]; cbn [obind] in H; try discriminate
  | (let '(_, _) := ?r in _) = Ok _ => destruct r
  | (if ?b then _ else _) = Ok _ => destruct b
  | match ?l with [] => _ | _ :: _ => _ end = Ok _ => destruct l
  end; injection H as _ _ <-; reflexivity.
Qed.

Lemma slot_type_kept (p : prog X_ops) e s i t : ProblemInv.keeps (p_env p) e -> st_nodes s = st_nodes (p_st p) -> slot_type p i = Ok t -> slot_type (set_mem p e s) i = Ok t.
Proof.
  intros K N H. unfold slot_type, hvar in *. cbn [set_mem p_env p_st]. destruct (nth_error (p_env p) i) as [v|] eqn:Ev; cbn [obind] in H; [|discriminate].
  destruct (K i v Ev) as (v' & -> & Ev'). cbn [obind]. rewrite Ev'. unfold ptype in *. destruct (v_expr v) as [m|]; [|discriminate]. rewrite N.
  destruct (nth_error (st_nodes (p_st p)) m); [|discriminate]. exact H.
Qed.
Lemma max_type_kept (p : prog X_ops) e s l : ProblemInv.keeps (p_env p) e -> st_nodes s = st_nodes (p_st p) -> forall t, max_type p l = Ok t -> max_type (set_mem p e s) l = Ok t.
Proof.
  intros K N. induction l as [|i l IH]; intros t H; [exact H|]. cbn [max_type] in *.
  destruct (slot_type p i) as [a| | |] eqn:Ea; cbn [obind] in H; try discriminate. destruct (max_type p l) as [b| | |]; cbn [obind] in H; try discriminate.
  rewrite (slot_type_kept p e s i a K N Ea), (IH b eq_refl). exact H.
Qed.
Lemma cost_type_kept (p : prog X_ops) e s t : ProblemInv.keeps (p_env p) e -> st_nodes s = st_nodes (p_st p) -> cost_type p = Ok t -> cost_type (set_mem p e s) = Ok t.
Proof. intros K N. unfold cost_type. cbn [set_mem p_f]. destruct (p_f p); [apply slot_type_kept; assumption|auto]. Qed.

Lemma place_read ks : forall rho y, NoDup ks -> length y = length ks -> map (place rho ks y) ks = y.
Proof.
  assert (Out : forall ks rho y k, ~ In k ks -> place rho ks y k = rho k).
  { clear. induction ks as [|a ks IH]; intros rho [|v y] k H; try reflexivity. cbn. rewrite IH by (intros I; apply H; right; exact I). apply upd_ne. intros ->. apply H. left. reflexivity. }
  induction ks as [|a ks IH]; intros rho [|v y] ND L; try discriminate; [reflexivity|]. inversion ND as [|? ? Na ND']; subst. cbn [map place].
  rewrite Out by exact Na. rewrite upd_eq. f_equal. apply IH; [exact ND'|cbn in L; lia].
Qed.
Lemma dec_nodup sp (p : prog X_ops) : pinv p -> plink sp p -> NoDup (sp_dec sp).
Proof.
  intros Ip (E & dv & L & T). destruct (i_dec _ Ip) as (nodes & D & ND). destruct (dec_nodes (S := Xn) sp p E dv nodes L T D) as [En _]. rewrite En in ND. eapply NoDup_map_inv, ND.
Qed.

Lemma read_now sp (p : prog X_ops) i k : plink sp p -> nth_error (se_exp (sp_se sp)) i = Some (XVar k) ->
  exists p2, prun [PH (S := X_ops) (HValue i)] p = Ok (p2, [PVal (S := X_ops) (Fin (se_val (sp_se sp) k))]).
Proof.
  intros Lp Hi. assert (Hs : exists sp', spec_step (PH (HValue i)) sp = Some (sp', [QVal (XVar k, se_val (sp_se sp))])).
  { cbn [spec_step sstep]. rewrite Hi. eexists. reflexivity. }
  destruct Hs as (sp' & Hs). destruct (spec_step_ok (SK := X_ops) _ sp sp' _ p Lp Hs) as (p' & out & E & _ & A).
  inversion A as [|? w ? l' Hw A']; subst. inversion A'; subst. destruct w as [v|b]; [|contradiction]. cbn in Hw. specialize (Hw I (se_val (sp_se sp) k) (XEv_var _ _)).
  exists p'. cbn [prun]. cbn [pinj hinj] in E. rewrite E. cbn [obind app]. rewrite Hw. reflexivity.
Qed.

Lemma nth_fin (l : list R) j v : nth_error l j = Some v -> nth j (map Fin l) NaN = Fin v.
Proof. revert j. induction l as [|a l IH]; intros [|j] H; try discriminate; [injection H as ->; reflexivity|apply IH, H]. Qed.

Lemma solve_picks sp p rn x0 p1 : lived sp p -> prepare p = Ok (rn, x0, p1) ->
  exists tf te ti, cost_type p = Ok tf /\ max_type p (p_eq p) = Ok te /\ max_type p (p_ineq p) = Ok ti /\
    (rn = RanNone <-> constant tf && constant te && constant ti = true) /\
    match rn with
    | RanNone => True
    | RanNewton _ => sp_eqs sp = [] /\ sp_ineqs sp = []
    | RanSqp _ => sp_eqs sp <> [] /\ sp_ineqs sp = []
    | RanIpm _ | RanBounds => sp_ineqs sp <> []
    end.
Proof.
  intros Lv Hp. destruct (lived_ok _ _ Lv) as [Ip Lp].
  destruct (prepare_inv sp p rn x0 p1 Ip Lp Hp) as (I1 & L1 & E0 & _ & Pk). destruct (prepare_mem p rn x0 p1 Ip Hp) as (e1 & s1 & E1 & K1 & N1).
  destruct (no_rels sp p1 L1) as [Q1 Q2].
  assert (exists tf te ti, cost_type p = Ok tf /\ max_type p (p_eq p) = Ok te /\ max_type p (p_ineq p) = Ok ti) as (tf & te & ti & Tf & Te & Ti).
  { destruct (max_type_ok p (p_eq p) Ip (i_eq _ Ip)) as (te & Te). destruct (max_type_ok p (p_ineq p) Ip (i_ineq _ Ip)) as (ti & Ti).
    assert (exists tf, cost_type p = Ok tf) as (tf & Tf); [|exists tf, te, ti; auto]. unfold cost_type. destruct (p_f p) as [i|] eqn:Ef; [|eexists; reflexivity].
    apply slot_type_ok; [exact Ip|]. apply (i_f _ Ip). exact Ef. }
  destruct Pk as (tf' & te' & ti' & Tf' & Te' & Ti' & Cst & Pk).
  pose proof (cost_type_kept p e1 s1 tf K1 N1 Tf) as F1. pose proof (max_type_kept p e1 s1 _ K1 N1 te Te) as F2. pose proof (max_type_kept p e1 s1 _ K1 N1 ti Ti) as F3.
  rewrite <- E1 in F1, F2, F3. assert (tf' = tf) as -> by congruence.
  assert (te' = te) as -> by (rewrite E1 in Te'; cbn [set_mem p_eq] in Te'; rewrite <- E1 in Te'; congruence).
  assert (ti' = ti) as -> by (rewrite E1 in Ti'; cbn [set_mem p_ineq] in Ti'; rewrite <- E1 in Ti'; congruence).
  exists tf, te, ti. split; [exact Tf|]. split; [exact Te|]. split; [exact Ti|]. split; [exact Cst|]. destruct rn; tauto.
Qed.

Lemma c35 {U} E o fuel (cbs pcbs : list (callback Xn U)) sp p u clk st p' : lived sp p -> solve E o fuel cbs pcbs p u clk = Ok (st, p') ->
  exists rn x0 p1 x tf te ti, prepare p = Ok (rn, x0, p1) /\ x0 = map Fin (map (se_val (sp_se sp)) (sp_dec sp)) /\
    cost_type p = Ok tf /\ max_type p (p_eq p) = Ok te /\ max_type p (p_ineq p) = Ok ti /\
    (rn = RanNone <-> constant tf && constant te && constant ti = true) /\
    match rn with
    | RanNone => True
    | RanNewton _ => sp_eqs sp = [] /\ sp_ineqs sp = []
    | RanSqp _ => sp_eqs sp <> [] /\ sp_ineqs sp = []
    | RanIpm _ | RanBounds => sp_ineqs sp <> []
    end /\
    final E o fuel (cbs ++ pcbs) u clk rn x0 st x /\ length x = length (sp_dec sp) /\
    (forall i j k, nth_error (se_exp (sp_se sp)) i = Some (XVar k) -> nth_error (sp_dec sp) j = Some k ->
       exists p2, prun [PH (S := X_ops) (HValue i)] p' = Ok (p2, [PVal (S := X_ops) (nth j x NaN)])) /\
    cost_type p' = Ok tf /\ max_type p' (p_eq p') = Ok te /\ max_type p' (p_ineq p') = Ok ti /\
    length (p_dec p') = length (sp_dec sp) /\ length (p_eq p') = length (sp_eqs sp) /\ length (p_ineq p') = length (sp_ineqs sp) /\
    (forall y, x = map Fin y -> lived (at_point sp y) p').
Proof.
  intros Lv H. destruct (lived_ok _ _ Lv) as [Ip Lp]. destruct (solve_cases _ _ _ _ _ _ _ _ _ _ H) as (rn & x0 & p1 & x & Hp & Hf & Hw).
  destruct (prepare_inv sp p rn x0 p1 Ip Lp Hp) as (I1 & L1 & E0 & _ & Pk). destruct (prepare_mem p rn x0 p1 Ip Hp) as (e1 & s1 & E1 & K1 & N1).
  destruct (solve_picks sp p rn x0 p1 Lv Hp) as (tf & te & ti & Tf & Te & Ti & Cst & Pk').
  pose proof (cost_type_kept p e1 s1 tf K1 N1 Tf) as F1. pose proof (max_type_kept p e1 s1 _ K1 N1 te Te) as F2. pose proof (max_type_kept p e1 s1 _ K1 N1 ti Ti) as F3.
  rewrite <- E1 in F1, F2, F3.
  exists rn, x0, p1, x, tf, te, ti. split; [exact Hp|]. split; [exact E0|]. split; [exact Tf|]. split; [exact Te|]. split; [exact Ti|]. split; [exact Cst|]. split; [exact Pk'|].
  split; [exact Hf|].
  assert (Lens : length (p_dec p1) = length (sp_dec sp) /\ length (p_eq p1) = length (sp_eqs sp) /\ length (p_ineq p1) = length (sp_ineqs sp)).
  { destruct L1 as (EE & dv & _ & T). split; [exact (f2len _ _ _ (t_dec _ _ _ T))|]. split; [exact (f2len _ _ _ (t_eqs _ _ _ T))|exact (f2len _ _ _ (t_ineqs _ _ _ T))]. }
  pose proof (dec_nodup sp p1 I1 L1) as ND.
  destruct (no_solver rn) eqn:Nrn.
  - subst p'. assert (Ex : x = x0) by (destruct rn; try discriminate Nrn; apply Hf). subst x.
    split; [rewrite E0, !map_length; reflexivity|]. split.
    { intros i j k Hi Hj. destruct (read_now sp p1 i k L1 Hi) as (p2 & Hr). exists p2. rewrite Hr. do 3 f_equal. f_equal. rewrite E0. symmetry. apply nth_fin. rewrite nth_error_map, Hj. reflexivity. }
    split; [exact F1|]. split; [rewrite E1 at 2; exact F2|]. split; [rewrite E1 at 2; exact F3|]. split; [apply Lens|]. split; [apply Lens|]. split; [apply Lens|].
    intros y Ey. rewrite E0 in Ey. apply map_fin_inj in Ey. subst y.
    destruct (read_dec (S := X_ops) (FS := faith_X) sp p1 I1 L1) as (e2 & s2 & Hr2 & _). eapply lived_solve; [exact Lv|exact H|exact Hr2].
  - destruct (write_ok sp p1 p' x I1 L1 Hw) as (Lx & I2 & (e2 & s2 & E2) & He2 & Hn2 & _). split; [exact Lx|]. split.
    { intros i j k Hi Hj. exact (read_back sp p1 p' x i j k I1 L1 Hw Hi Hj). }
    assert (K2 : ProblemInv.keeps (p_env p1) e2) by (rewrite E2 in He2; cbn [set_mem p_env] in He2; rewrite He2; apply keeps_refl).
    assert (N2 : st_nodes s2 = st_nodes (p_st p1)) by (rewrite E2 in Hn2; exact Hn2).
    split; [rewrite E2; apply cost_type_kept; assumption|].
    split; [rewrite E2; apply max_type_kept; [exact K2|exact N2|]; cbn [set_mem p_eq]; rewrite E1 at 2; exact F2|].
    split; [rewrite E2; apply max_type_kept; [exact K2|exact N2|]; cbn [set_mem p_ineq]; rewrite E1 at 2; exact F3|].
    split; [rewrite E2; apply Lens|]. split; [rewrite E2; apply Lens|]. split; [rewrite E2; apply Lens|].
    intros y ->. pose proof (write_link sp p1 p' y I1 L1 Hw) as L2.
    destruct (read_dec (S := X_ops) (FS := faith_X) _ p' I2 L2) as (e3 & s3 & Hr3 & _).
    eapply lived_solve; [exact Lv|exact H|]. rewrite Hr3. f_equal. f_equal. f_equal. change (@inj X_ops faith_X) with Fin. f_equal.
    cbn [at_point set_se sp_se se_val sp_dec]. unfold point. apply place_read; [exact ND|]. rewrite map_length in Lx. exact Lx.
Qed.

(** Without inequality constraints the setup always succeeds. *)
Lemma prepare_total sp p : lived sp p -> sp_ineqs sp = [] -> exists rn x0 p1, prepare p = Ok (rn, x0, p1).
Proof.
  intros Lv Ei0. destruct (lived_ok _ _ Lv) as [Ip Lp]. destruct (read_dec (S := X_ops) (FS := faith_X) sp p Ip Lp) as (e & s & Hr & I1 & L1).
  unfold prepare. rewrite Hr. cbn [obind]. set (x := map inj (map (se_val (sp_se sp)) (sp_dec sp))) in *. set (p' := set_mem p e s) in *.
  assert (Htf : exists tf, cost_type p' = Ok tf).
  { unfold cost_type. destruct (p_f p') as [i|] eqn:Ef; [|eexists; reflexivity]. apply slot_type_ok; [exact I1|]. apply (i_f _ I1), Ef. }
  destruct Htf as (tf & Etf). destruct (max_type_ok p' (p_eq p') I1 (i_eq _ I1)) as (te & Ete). destruct (max_type_ok p' (p_ineq p') I1 (i_ineq _ I1)) as (ti & Eti).
  change (match p_f p' with Some i => slot_type p' i | None => Ok NONE end) with (cost_type p').
  rewrite Etf, Ete, Eti. cbn [obind]. destruct (_ && _ && _); [eexists _, _, _; reflexivity|].
  assert (Lx : length x = length (p_dec p')) by (unfold x; rewrite !map_length; symmetry; exact (dec_len (S := Xn) sp p' L1)).
  destruct (no_rels sp p' L1) as [_ K]. pose proof (proj2 K Ei0) as Ei. rewrite Ei. change (p_dec p) with (p_dec p').
  destruct (p_eq p') as [|d0 ds0] eqn:Ee.
  - destruct (newton_ready (S := Xn) p' I1 Ee Ei) as (nodes & t & q & Hs & D & Rd).
    assert (Hs' : newton_setup (S := Xn) p' (e, [], s) = Ok (t, q)) by exact Hs. rewrite Hs'. cbn [obind].
    destruct (g_at_ok (S := Xn) KNewton p' nodes t q Rd D x Lx) as (g & Hg). change (g_at (S := Xn) (length (p_dec p')) t q x = Ok g) in Hg.
    unfold newton_problem. rewrite Hg. cbn [obind]. eexists _, _, _. reflexivity.
  - destruct (sqp_ready (S := Xn) p' I1 Ei) as (nodes & t & q & Hs & D & Rd).
    assert (Hs' : sqp_setup (S := Xn) p' (e, [], s) = Ok (t, q)) by exact Hs. rewrite Hs'. cbn [obind].
    destruct (g_at_ok (S := Xn) KSqp p' nodes t q Rd D x Lx) as (g & Hg). change (g_at (S := Xn) (length (p_dec p')) t q x = Ok g) in Hg.
    destruct (A_at_ok (S := Xn) KSqp p' nodes t q Rd D (t_Ae t) (length (t_ce t)) x Lx) as (Ae & HA).
    { eapply made_lt; [|apply (rd_Ae _ _ _ _ _ Rd)]. exact I. discriminate. }
    change (A_at (S := Xn) (length (p_dec p')) t q (t_Ae t) (length (t_ce t)) x = Ok Ae) in HA.
    unfold sqp_problem. rewrite Hg. cbn [obind]. rewrite HA. cbn [obind]. eexists _, _, _. reflexivity.
Qed.
