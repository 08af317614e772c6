(** Proofs for C96. *)
From Coq Require Import ZArith QArith Reals List Bool Arith Lia Lra.
From Coquelicot Require Rcomplements.
From Verif Require Import Base XArith ExprModel MathSpec VarModel VarSpec ExprReal ExprXR HistProofs NumModel UtilModel UtilSpec UtilProofs ExitModel SolverModel SolverSpec SqpModel SqpSpec SqpProofs IpmModel IpmShape IpmSpec IpmProofs RestoreModel RestoreProofs NewtonModel NewtonSpec NewtonProofs
  FinEval XQ RunY SmoothSpec SmoothGraph SmoothUser LinR KktModel KktSpec ProblemModel ProblemSpec ProbSolveModel ProbSolvePrep ProbSolveSpec ProbSolveHist ProbSolveLived ProbSolveFacts LagrSpec ProbSolveDeriv ProbSolveBounds ProbSolveKkt ProbSolveKkt2 ProbEarly ProbSolveEnd
  FiniteSpec FiniteR FiniteS TermFine  FiniteUseSpec FiniteUse ConvexSpec ConvexProofs ConvexUse QuadSpec QuadProofs QuadUse SaddleSpec SaddleProofs SaddleUse EarlySpec InfeasSpec.
Import ListNotations.
Local Open Scope R_scope.

(** *** The tests on numbers *)
Lemma lit6 : lit (S := Xn) 1 6 = Fin (lit (S := Rn) 1 6).
Proof. rewrite q_lit, lit_R. reflexivity. Qed.
Lemma lit2 : lit (S := Xn) 1 2 = Fin (lit (S := Rn) 1 2).
Proof. rewrite q_lit, lit_R. reflexivity. Qed.
Lemma smin_f (a : R) : smin (S := Xn) (Fin a) (s_ofZ Xn 0) = Fin (smin (S := Rn) a (s_ofZ Rn 0)).
Proof. unfold smin. change (s_ltb Xn ?x ?y) with (X_ltb x y). cbn. unfold R_ltb. destruct (Rlt_dec _ _); reflexivity. Qed.
Lemma eq_test n A c : eq_infeasible (S := Xn) n (fm A) (fv c) = eq_infeasible (S := Rn) n A c.
Proof. unfold eq_infeasible. rewrite mtvec_f, !norm2_f, lit6, lit2. unfold fm. rewrite map_length. reflexivity. Qed.
Lemma ineq_test n A c : ineq_infeasible (S := Xn) n (fm A) (fv c) = ineq_infeasible (S := Rn) n A c.
Proof.
  unfold ineq_infeasible. rewrite (map_f _ (fun a => smin (S := Rn) a (s_ofZ Rn 0))) by (intros; apply smin_f). rewrite mtvec_f, !norm2_f, lit6. unfold fm. rewrite map_length. reflexivity.
Qed.

(** *** Combinations of the constraints *)
Section Given.
Variable sp : spec.
Hypothesis Nd : NoDup (sp_dec sp).
Hypothesis Sm : smooth_everywhere sp.
Hypothesis Cx : convex_problem sp.
Notation n := (length (sp_dec sp)).

Lemma combo_convex l : (forall r, In r l -> concave_fn sp (gap_fn r)) -> forall w a b th ga gb g, (forall v, In v w -> v <= 0) -> can_be sp a -> can_be sp b -> 0 <= th <= 1 ->
  Forall2 (gap a) l ga -> Forall2 (gap b) l gb -> Forall2 (gap (between th a b)) l g -> combo w g <= (1 - th) * combo w ga + th * combo w gb.
Proof.
  induction l as [|r l IH]; intros H nu a b th ga gb g P Ca Cb T A B C; inversion A as [|? x ? ga' A1 A2]; inversion B as [|? y ? gb' B1 B2]; inversion C as [|? z ? g' C1 C2]; subst; destruct nu as [|m nu]; cbn [combo]; try lra.
  pose proof (IH (fun r Q => H r (or_intror Q)) nu a b th ga' gb' g' (fun v Q => P v (or_intror Q)) Ca Cb T A2 B2 C2). pose proof (P m (or_introl eq_refl)).
  pose proof (H r (or_introl eq_refl) a b th x y z Ca Cb T A1 B1 C1). assert (- m * z >= - m * ((1 - th) * x + th * y)) by (apply Rmult_ge_compat_l; lra). lra.
Qed.
Lemma combo_neg rho l g : Forall2 (gap rho) l g -> List.Forall (rel_holds rho) l -> forall w, (forall v, In v w -> v <= 0) -> combo w g <= 0.
Proof.
  induction 1 as [|r x l g X _ IH]; intros H nu P; [destruct nu; cbn; lra|]. destruct nu as [|m nu]; cbn; [lra|]. inversion H as [|? ? H1 H2]; subst.
  pose proof (proj1 (holds_gap _ _ _ H1 X)). pose proof (P m (or_introl eq_refl)). pose proof (IH H2 nu (fun v Q => P v (or_intror Q))). nra.
Qed.
Lemma gap_len rho l g : Forall2 (gap rho) l g -> length g = length l.
Proof. induction 1; cbn; congruence. Qed.
Lemma gap_sum_det l w rho a b : gap_sum l w rho a -> gap_sum l w rho b -> a = b.
Proof. intros (g & G & ->) (g' & G' & ->). rewrite (gaps_det _ _ _ _ G G'). reflexivity. Qed.
Lemma gap_sum_ext l w rho rho' v : (forall k, rho k = rho' k) -> gap_sum l w rho v -> gap_sum l w rho' v.
Proof. intros E (g & G & ->). exists g. split; [eapply gaps_ext; eauto|reflexivity]. Qed.

(** A combination of gaps with small slopes at [y], convex, at most 0 wherever the relations hold and more than [b * d] at [y]: the relations hold only farther than [d] away. *)
Lemma far l y (M : list (list R)) ss w g b d : length y = n -> (forall rho, can_be sp rho -> all_smooth rho l) -> convex_fn sp (gap_sum l w) ->
  (forall rho v, feasible sp rho -> gap_sum l w rho v -> v <= 0) -> length w = length l -> 0 < b ->
  Forall2 (gap (point sp y)) l g -> b * d < combo w g ->
  (forall i r j k, nth_error l i = Some r -> nth_error (sp_dec sp) j = Some k -> exists e, ent M i j = ss.[i] * e /\ pd k (gap_fn r) (point sp y) e) ->
  (forall i, (i < length l)%nat -> ss.[i] <> 0) ->
  (forall j, (j < n)%nat -> Rabs (sumn (length l) (fun i => ent M i j / ss.[i] * w.[i])) <= b) -> farther sp y d.
Proof.
  intros Ly Sl Cf Ng Lw Pb G Hv J Nz Sb rho C Fe. destruct (gaps_total _ _ (Sl rho C)) as (g' & G').
  assert (T : forall rho, can_be sp rho -> exists v, gap_sum l w rho v) by (intros r Cr; destruct (gaps_total _ _ (Sl r Cr)) as (g0 & G0); eexists; exists g0; split; [exact G0|reflexivity]).
  assert (H1 : gap_sum l w (point sp y) (combo w g)) by (exists g; auto). assert (H2 : gap_sum l w rho (combo w g')) by (exists g'; auto).
  pose proof (slope_bound sp Nd (gap_sum l w) b (point sp y) rho _ _ T (gap_sum_det l w) (gap_sum_ext l w) Cf (point_can sp y) C H1 H2 (Rlt_le _ _ Pb)) as K.
  pose proof (Ng rho _ Fe H2) as N0. apply Rmult_lt_reg_l with b; [exact Pb|]. eapply Rlt_le_trans; [exact Hv|]. eapply Rle_trans; [apply K|lra].
  intros k Hk. apply In_nth_error in Hk as (j & Ek). assert (Hj : (j < n)%nat) by (apply nth_error_Some; congruence).
  eexists. split; [|exact (Sb j Hj)]. apply (pd_gaps k (point sp y) l w (fun i => ent M i j / ss.[i]) Lw).
  intros i r Er. destruct (J i r j k Er Ek) as (e & -> & Pe). assert (Hi : (i < length l)%nat) by (apply nth_error_Some; congruence). replace (ss.[i] * e / ss.[i]) with e; [exact Pe|]. field. apply Nz, Hi.
Qed.
Lemma small_sum (f : nat -> R) e j : 0 <= e -> (j < n)%nat -> sumn n (fun j => f j * f j) < e * e -> Rabs (f j) <= e.
Proof.
  intros Pe Hj H. pose proof (sumn_elem n (fun j => f j * f j) j (fun i _ => Rle_0_sqr (f i)) Hj) as B. cbv beta in B. apply Rsqr_incr_0_var; [|exact Pe]. rewrite <- Rsqr_abs. unfold Rsqr. lra.
Qed.

Lemma eq_far y de ge A : (forall r, In r (sp_eqs sp) -> r_cmp r = CEq) -> length y = n -> length de = length (sp_eqs sp) -> (forall v, In v de -> 0 < v) -> Forall2 (gap (point sp y)) (sp_eqs sp) ge ->
  wf (length (sp_eqs sp)) n A -> (forall i r j k, nth_error (sp_eqs sp) i = Some r -> nth_error (sp_dec sp) j = Some k -> exists e, ent A i j = de.[i] * e /\ pd k (gap_fn r) (point sp y) e) ->
  eq_infeasible (S := Xn) n (fm A) (fv (times de ge)) = true -> farther sp y 100.
Proof.
  intros Eq Ly Ld Pd G W J T. pose proof (gap_len _ _ _ G) as Lg. set (c := times de ge) in *. assert (Lc : length c = length (sp_eqs sp)) by (unfold c; rewrite times_length; lia).
  rewrite eq_test in T. apply (c64_eq _ _ _ _ W Lc) in T as (_ & T1 & T2). change (10 ^ 6)%Z with 1000000%Z in T1. change (10 ^ 2)%Z with 100%Z in T2.
  assert (Nz : forall i, (i < length (sp_eqs sp))%nat -> de.[i] <> 0) by (intros i Hi; assert (0 < de.[i]) by (apply Pd, nth_In; lia); lra).
  assert (Vw : forall i, (times de c).[i] = de.[i] * c.[i]) by (intros i; apply times_nth; lia).
  apply (far (sp_eqs sp) y A de (times de c) ge (1 / 1000000) 100); auto; try lra.
  - intros rho C. apply (can_smooth sp rho Sm C).
  - intros a b th va vb v Ca Cb Th (ga & Ga & ->) (gb & Gb & ->) (g & Gg & ->). apply Req_le, (combo_affine sp (sp_eqs sp) (proj1 (proj2 Cx)) (times de c) a b th ga gb g Ca Cb Th Ga Gb Gg).
  - intros rho v Fe (g & Gg & ->). apply List.Forall_app in Fe as [F1 _]. rewrite (combo_eq0 _ _ _ Gg Eq F1). lra.
  - rewrite times_length; lia.
  - rewrite combo_sum by (rewrite times_length; lia). rewrite Lg. rewrite (sumn_ext _ _ (fun i => c.[i] * c.[i])); [lra|]. intros i Hi. rewrite Vw. unfold c. rewrite times_nth by lia. ring.
  - intros j Hj. rewrite (sumn_ext _ _ (fun i => ent A i j * c.[i])) by (intros i Hi; rewrite Vw; field; apply Nz, Hi).
    apply (small_sum (fun j => sumn (length (sp_eqs sp)) (fun i => ent A i j * c.[i])) (1 / 1000000) j); [lra|exact Hj|exact T1].
Qed.

Lemma ineq_far y di gi A : length y = n -> length di = length (sp_ineqs sp) -> (forall v, In v di -> 0 < v) -> Forall2 (gap (point sp y)) (sp_ineqs sp) gi ->
  wf (length (sp_ineqs sp)) n A -> (forall i r j k, nth_error (sp_ineqs sp) i = Some r -> nth_error (sp_dec sp) j = Some k -> exists e, ent A i j = di.[i] * e /\ pd k (gap_fn r) (point sp y) e) ->
  ineq_infeasible (S := Xn) n (fm A) (fv (times di gi)) = true -> farther sp y (1 / 1000000).
Proof.
  intros Ly Ld Pd G W J T. pose proof (gap_len _ _ _ G) as Lg. set (c := times di gi) in *. assert (Lc : length c = length (sp_ineqs sp)) by (unfold c; rewrite times_length; lia).
  rewrite ineq_test in T. apply (c64_ineq _ _ _ _ W Lc) in T as (_ & T1 & T2). change (10 ^ 6)%Z with 1000000%Z in T1, T2.
  assert (Nz : forall i, (i < length (sp_ineqs sp))%nat -> di.[i] <> 0) by (intros i Hi; assert (0 < di.[i]) by (apply Pd, nth_In; lia); lra).
  set (cp := map (fun v => Rmin v 0) c). assert (Lp : length cp = length (sp_ineqs sp)) by (unfold cp; rewrite map_length; exact Lc).
  assert (Vp : forall i, (i < length (sp_ineqs sp))%nat -> cp.[i] = Rmin c.[i] 0) by (intros i Hi; apply (nth_map_lt (fun v => Rmin v 0)); lia).
  assert (Vw : forall i, (times di cp).[i] = di.[i] * cp.[i]) by (intros i; apply times_nth; lia).
  assert (Np : forall v, In v (times di cp) -> v <= 0).
  { intros v Iv. apply (In_nth _ _ 0) in Iv as (i & Hi & <-). rewrite times_length in Hi by lia. rewrite Vw, Vp by lia. pose proof (Rmin_r c.[i] 0). assert (0 < di.[i]) by (apply Pd, nth_In; lia). nra. }
  apply (far (sp_ineqs sp) y A di (times di cp) gi (1 / 1000000) (1 / 1000000)); auto; try lra.
  - intros rho C. apply (can_smooth sp rho Sm C).
  - intros a b th va vb v Ca Cb Th (ga & Ga & ->) (gb & Gb & ->) (g & Gg & ->). apply (combo_convex (sp_ineqs sp) (proj2 (proj2 Cx)) (times di cp) a b th ga gb g Np Ca Cb Th Ga Gb Gg).
  - intros rho v Fe (g & Gg & ->). apply List.Forall_app in Fe as [_ F1]. apply (combo_neg _ _ _ Gg F1 _ Np).
  - rewrite times_length; lia.
  - rewrite combo_sum by (rewrite times_length; lia). rewrite Lg. rewrite (sumn_ext _ _ (fun i => Rmin c.[i] 0 * Rmin c.[i] 0)); [lra|]. intros i Hi. rewrite Vw, Vp by exact Hi. replace (di.[i] * Rmin c.[i] 0 * gi.[i]) with (Rmin c.[i] 0 * (di.[i] * gi.[i])) by ring.
    rewrite <- (times_nth di gi i) by lia. fold c. unfold Rmin. destruct (Rle_dec c.[i] 0); ring.
  - intros j Hj. rewrite (sumn_ext _ _ (fun i => ent A i j * Rmin c.[i] 0)) by (intros i Hi; rewrite Vw, Vp by exact Hi; field; apply Nz, Hi).
    apply (small_sum (fun j => sumn (length (sp_ineqs sp)) (fun i => ent A i j * Rmin c.[i] 0)) (1 / 1000000) j); [lra|exact Hj|exact T1].
Qed.
End Given.

Section Use.
Context {U : Type}.
Variables (E : env Xn) (o : options Xn) (t : R).
Hypothesis Hs : solve_ok E.
Hypothesis Ht : o_tol o = Fin t.
Hypothesis Pt : (0 < t)%R.
Variable sp : spec.
Hypothesis Sm : smooth_everywhere sp.
Hypothesis Cx : convex_problem sp.
Hypothesis He : est_ok E.
Hypothesis Hl : lin_fin E.
Hypothesis Hf0 : est_fin E.

Lemma c96 (cbs pcbs : list (callback Xn U)) fuel p u clk p' : lived sp p -> solve E o fuel cbs pcbs p u clk = Ok (LOCALLY_INFEASIBLE, p') ->
  exists y, length y = length (sp_dec sp) /\ lived (at_point sp y) p' /\
    (by_restoration (U := U) E o fuel p (map Fin y) \/ farther sp y 100 \/ (sp_ineqs sp <> [] /\ farther sp y (1 / 1000000))).
Proof.
  intros Lv H. destruct (lived_dec sp p Lv) as [Nd Eq].
  destruct (c35 E o _ _ _ _ _ _ _ _ _ Lv H) as (rn & x0 & p1 & x & tf & te & ti & Hp & E0 & _ & _ & _ & _ & Pk & Hf & Lx & Rd & _ & _ & _ & _ & _ & _ & K).
  destruct (lived_ok _ _ Lv) as [Ip Lp]. destruct (prepare_inv sp p _ x0 p1 Ip Lp Hp) as (I1 & L1 & _ & _ & Pg).
  destruct rn as [|P|P|P|].
  - destruct Hf as [Hf _]. discriminate.
  - exfalso. destruct Hf as (fin & Hf & ->). apply c50_meaning in Hf as (Hm & _). exact Hm.
  - destruct Hf as (fin & Hf & ->). destruct (sqp_gives sp p Lv Sm P x0 p1 Hp) as (Ok & Ff & Lx' & Fx).
    assert (Vx : vfin (s_x E fin)) by apply (sqp_solve_fin E o Hl Hs He Hf0 (tol_pos o t Ht Pt) (fun _ => True) fuel P (cbs ++ pcbs) x0 u clk _ fin Ok Ff Lx' Fx (fun _ _ _ _ => I) I Hf).
    apply vfin_real in Vx as (y & Ey). rewrite Ey, map_length in Lx. exists y. split; [exact Lx|]. split; [apply K; exact Ey|].
    apply sqp_solve_meaning in Hf as (Hm & _); auto. cbn [sqp_means] in Hm. destruct Hm as [Hm|Hm].
    + right; left. destruct (c80_sqp sp p P x0 p1 Lv Hp (start_everywhere sp Sm)) as (f & de & E1 & E2 & Ei & Pf & Lde & Pde & Q). destruct (Q y Lx (Sm y Lx)) as (_ & (ge & Ge & Ec) & _ & J & _).
      destruct Pg as (tf' & te' & ti' & _ & _ & _ & _ & Nq & Ni & Gv). destruct (sqp_meaning sp p1 x0 P I1 L1 Gv) as (_ & En & Ee & _).
      destruct (Ok (map Fin y)) as (_ & _ & DA); [rewrite map_length, Lx; symmetry; exact En|]. rewrite Ee, En in DA. destruct (jac_real _ _ _ _ _ J DA) as (A & EA & WA & HA).
      rewrite Ey, EA, Ec, En in Hm. exact (eq_far sp Nd Sm Cx y de ge A Eq Lx Lde Pde Ge WA HA Hm).
    + left. destruct Hm as (cb & a & b & it & uf & ck & y' & it' & uf' & ck' & Hm). rewrite Ey in Hm. eapply by_sqp; eauto.
  - destruct Hf as (fin & Hf & ->). destruct (ipm_gives sp p Lv Sm P x0 p1 Hp) as (Ok & Ff & Ps & Lx' & Fx).
    assert (Vx : vfin (is_x E fin)) by apply (ipm_solve_fin E o Hl Hs He Hf0 (tol_pos o t Ht Pt) (fun _ => True) fuel P (cbs ++ pcbs) x0 u clk _ fin Ok Ff Ps Lx' Fx (fun _ _ _ _ => I) I Hf).
    apply vfin_real in Vx as (y & Ey). rewrite Ey, map_length in Lx. exists y. split; [exact Lx|]. split; [apply K; exact Ey|].
    apply ipm_solve_meaning in Hf as (Hm & _); auto. cbn [ipm_means] in Hm.
    destruct (c80_ipm sp p P x0 p1 Lv Hp (start_everywhere sp Sm)) as (f & de & di & E1 & E2 & E3 & Pf & Lde & Ldi & Pd & Q). destruct (Q y Lx (Sm y Lx)) as (_ & (ge & Ge & Ec) & (gi & Gi & Ed) & _ & J & J' & _).
    destruct Pg as (tf' & te' & ti' & _ & _ & _ & _ & Ni & Gv). destruct (ipm_meaning sp p1 x0 P I1 L1 Gv) as (_ & (En & Ee & Ei) & _).
    destruct (Ok (map Fin y)) as (_ & _ & _ & DA & DB); [rewrite map_length, Lx; symmetry; exact En|].
    destruct Hm as [Hm|[Hm|Hm]].
    + right; left. rewrite Ee, En in DA. destruct (jac_real _ _ _ _ _ J DA) as (A & EA & WA & HA). rewrite Ey, EA, Ec, En in Hm.
      exact (eq_far sp Nd Sm Cx y de ge A Eq Lx Lde (fun v I => Pd v (in_or_app _ _ _ (or_introl I))) Ge WA HA Hm).
    + right; right. split; [exact Pk|]. rewrite Ei, En in DB. destruct (jac_real _ _ _ _ _ J' DB) as (A & EA & WA & HA). rewrite Ey, EA, Ed, En in Hm.
      exact (ineq_far sp Nd Sm Cx y di gi A Lx Ldi (fun v I => Pd v (in_or_app _ _ _ (or_intror I))) Gi WA HA Hm).
    + left. destruct Hm as [[_ Hm]|(rst & cb & a & s & b & z & mu & it & uf & ck & q & Er & Hm & Eq')]; [discriminate|]. injection Er as <-. eapply by_ipm; eauto. rewrite <- Ey. exact Eq'.
  - destruct Hf as [Hf _]. discriminate.
Qed.
End Use.

(** *** Affine equalities: given up before the first step *)
Section Once.
Variables (E : env Xn) (o : options Xn) (t : R) (sp : spec) (Q A : nat -> nat -> R) (b e : nat -> R) (c m : R).
Notation n := (size sp).
Notation k := (length (sp_eqs sp)).
Hypothesis Ht : o_tol o = Fin t.
Hypothesis Pt : 0 < t.
Hypothesis Sm : smooth_everywhere sp.
Hypothesis Qd : quadratic sp Q b c.
Hypothesis Af : affine sp A e.
Hypothesis Kn : (k <= n)%nat.
Hypothesis Ns : not_steep sp m.
Hypothesis Nc : not_scaled sp.
Hypothesis Un : ~ settled sp t.
Variable ge : list R.
Hypothesis Ge : Forall2 (gap (se_val (sp_se sp))) (sp_eqs sp) ge.
Hypothesis Big : 1 / 10000 < norm_sq k (fun i => ge.[i]).
Hypothesis Flat : norm_sq n (fun j => sumn k (fun i => A i j * ge.[i])) < 1 / 1000000000000.

Lemma at_once {U : Type} (cbs : list (callback Xn U)) p P x0 p1 fuel u clk : lived sp p -> prepare p = Ok (RanSqp P, x0, p1) ->
  match sqp_solve E o fuel P cbs x0 u clk with
  | OutOfFuel => fuel = 0%nat
  | Ok (st, fin) => st = LOCALLY_INFEASIBLE /\ s_x E fin = map Fin (now sp) /\ s_u E fin = u
  | _ => False
  end.
Proof.
  intros Lv Hp. destruct (saddle_gives sp p Q A b e c m Lv Sm Qd Af Ns Nc P x0 p1 Hp) as (f & de & En & Ek & Pk & Es & Pf & Fm & Lde & D1 & -> & Hf & Hg & HH & Hc & HA).
  pose proof (now_len sp) as Ln. assert (Lx : length (fv (now sp)) = sp_n P) by (rewrite fv_len, En; exact Ln).
  assert (Lr : length (repeat 0 k) = k) by apply repeat_length.
  destruct (Hc (now sp) Ln) as (ce & Ec & Lc & Vc). destruct (HA (now sp) Ln) as (DA & M & EA & WM & VM). destruct (Hg (now sp) Ln) as (g & Eg & Lg & Vg). destruct (HH (now sp) (repeat 0 k) Ln Lr) as (DH & H & EH & _).
  destruct (gaps_affine sp A e Af _ ge (now_can sp) Ge) as [Lge Vge].
  assert (Cg : forall i, (i < k)%nat -> ce.[i] = ge.[i]). { intros i Hi. rewrite Vc, Vge by exact Hi. apply con_ext. intros j Lj. apply now_coord, Lj. }
  pose proof (Hf (now sp) Ln) as Ef.
  assert (Er : repeat (s_ofZ Xn 0) (sp_me P) = fv (repeat 0 k)) by (rewrite Ek; apply (rep_fin 0 (s_ofZ Xn 0) k eq_refl)).
  unfold sqp_solve, sqp, sqp_from. rewrite Er. cbn [sqp_init s_f s_g s_H s_ce s_Ae]. rewrite Ef, En, Ek, DH, DA. unfold vec_dim. rewrite Eg, Ec, EA, EH, !fv_len, Lg, Lc, !Nat.eqb_refl, !fv_fin, !fm_fin. cbn [andb orb negb oassert].
  replace (Nat.ltb (size sp) k) with false by (symmetry; apply Nat.ltb_ge; exact Kn).
  change (negb (s_finite Xn (Fin (f * quad n Q b c (fun i => (now sp).[i]))))) with false. cbn [orb].
  destruct fuel as [|fuel]; [reflexivity|]. cbn [drive]. 
  assert (Tst : s_ltb Xn (o_tol o) (s_E E (sqp_init E P (U := U) (fv (now sp)) (fv (repeat 0 k)) u clk)) = true).
  { cbn [sqp_init s_E]. rewrite Ht. destruct (s_ltb Xn (Fin t) _) eqn:El; [reflexivity|]. exfalso. apply Un.
    rewrite En in El.
    pose proof (err_iff t P n k (fun i j => f * Q i j) A (fun i => f * b i) e f de En Ek Pk Kn Es (proj1 Pf) Lde ltac:(intros v I; rewrite (D1 v I); lra) Pt) as K.
    specialize (K ltac:(intros y L; destruct (Hg y L) as (g0 & Eg0 & Lg0 & Vg0); exists g0; split; [exact Eg0|split; [exact Lg0|intros i Li; rewrite slope_scal; apply Vg0, Li]])).
    specialize (K Hc (fun y L => proj2 (HA y L)) (now sp) (repeat 0 k) Ln Lr). apply K in El as [S1 S2].
    assert (Z : forall i, (repeat 0 k).[i] = 0) by (intros i; destruct (le_lt_dec k i); [apply nth_overflow; rewrite repeat_length; lia|apply nth_repeat]).
    apply (start_settled t sp Q A b e c Sm Qd Af Kn p f de Lv (proj1 Pf) Lde D1); [|exact S2]. intros j Hj. specialize (S1 j Hj). unfold residual, pull in S1.
    rewrite (sumn_ext k (fun l => A l j * (repeat 0 k).[l]) (fun _ => 0)) in S1 by (intros; rewrite Z; ring). rewrite (sumn_none k), Rminus_0_r in S1.
    eapply Rle_trans; [exact S1|]. apply Rmult_le_compat_l; [lra|]. rewrite (sumn_ext k _ (fun _ => 0)) by (intros; rewrite Z; unfold Rdiv; rewrite Rmult_0_r, Rmult_0_l; apply Rabs_R0). rewrite (sumn_none k).
    unfold excuse, Rdiv. rewrite Rmult_0_l, Rmax_left by lra. lra. }
  rewrite Tst. unfold sqp_body. cbn [sqp_init s_Ae s_ce]. rewrite En, EA, Ec, eq_test.
  assert (Q0 : eq_infeasible (S := Rn) n M ce = true).
  { apply (c64_eq k n M ce WM Lc). change (10 ^ 6)%Z with 1000000%Z. change (10 ^ 2)%Z with 100%Z. split; [exact Pk|]. split.
    - rewrite (sumn_ext n _ (fun j => sumn k (fun i => A i j * ge.[i]) * sumn k (fun i => A i j * ge.[i]))); [unfold norm_sq in Flat; lra|].
      intros j Hj. rewrite (sumn_ext k (fun i => ent M i j * ce.[i]) (fun i => A i j * ge.[i])); [reflexivity|]. intros i Hi. rewrite VM, Cg by assumption. reflexivity.
    - rewrite (sumn_ext k _ (fun i => ge.[i] * ge.[i])) by (intros i Hi; rewrite Cg by exact Hi; reflexivity). unfold norm_sq in Big. lra. }
  rewrite Q0. cbn [obind]. cbn [sqp_init s_x s_u]. split; [reflexivity|]. split; reflexivity.
Qed.
Lemma c96_once {U : Type} (all : list (callback Xn U)) st x s y z l : sp_ineqs sp = [] -> ended E o all sp st x s y z l -> st = LOCALLY_INFEASIBLE /\ x = map Fin (now sp) /\ l = [].
Proof.
  intros Qi H. destruct H as [p P x0 p1 fuel u clk st fin Lv Hp H|p P x0 p1 fuel u clk st fin Lv Hp H].
  2: { exfalso. destruct (solve_picks sp p _ x0 p1 Lv Hp) as (tf & te & ti & _ & _ & _ & _ & M). contradiction. }
  pose proof (at_once (log_all all) p P x0 p1 fuel (u, []) clk Lv Hp) as K. rewrite H in K. destruct K as (-> & -> & ->). auto.
Qed.
End Once.
