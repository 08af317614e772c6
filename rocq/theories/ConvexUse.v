(** Proofs for C88, the user's problem. *)
From Coq Require Import ZArith Reals List Bool Arith Lia Lra.
From Coquelicot Require Rcomplements.
From Verif Require Import Base ExprModel MathSpec VarModel VarSpec ExprReal ExprXR HistProofs NumModel ExitModel SolverModel SolverSpec IpmShape RestoreModel RestoreProofs NewtonModel NewtonSpec NewtonProofs SmoothSpec SmoothGraph SmoothUser LinR KktSpec ProblemModel ProblemSpec
  ProbSolveModel ProbSolvePrep ProbSolveSpec ProbSolveHist ProbSolveLived ProbSolveFacts LagrSpec ProbSolveDeriv ProbSolveBounds ProbSolveKkt ProbSolveKkt2 ProbEarly ProbSolveEnd FiniteSpec FiniteUseSpec FiniteUse ConvexSpec ConvexProofs.
Import ListNotations.
Local Open Scope R_scope.

Lemma can_point sp rho : can_be sp rho -> forall k, point sp (map rho (sp_dec sp)) k = rho k.
Proof.
  intros C k. unfold point. rewrite (place_twice (sp_dec sp) _ rho (map rho (sp_dec sp))); [apply place_same|apply map_length|apply map_length|]. intros j H. symmetry. apply C, H.
Qed.
Lemma point_can sp y : can_be sp (point sp y).
Proof. intros k H. apply place_out, H. Qed.
Lemma can_smooth sp rho : smooth_everywhere sp -> can_be sp rho -> prob_smooth sp rho.
Proof. intros S C. eapply smooth_ext; [apply can_point, C|]. apply S, map_length. Qed.
Lemma cost_total sp rho : prob_smooth sp rho -> exists v, cost_is sp rho v.
Proof.
  intros (G & _). unfold goal_smooth in G. unfold cost_is. destruct (sp_goal sp) as [[m x]|]; [|eexists; reflexivity]. destruct G as (v & Hv).
  exists (if m then - v else v). split; [exact (XSm_pow00 _ _ _ Hv)|]. exists v. split; [exact (XSm_XEv _ _ _ Hv)|reflexivity].
Qed.
Lemma gaps_total rho l : all_smooth rho l -> exists g, Forall2 (gap rho) l g.
Proof. intros H. apply gaps_exist, all_smooth_defined, H. Qed.
Lemma gap_det rho r a b : gap rho r a -> gap rho r b -> a = b.
Proof. intros (x & y & X & Y & ->) (x' & y' & X' & Y' & ->). rewrite (XEv_det _ _ _ _ X X'), (XEv_det _ _ _ _ Y Y'). reflexivity. Qed.
Lemma gaps_det rho l : forall a b, Forall2 (gap rho) l a -> Forall2 (gap rho) l b -> a = b.
Proof. induction l as [|r l IH]; intros a b A B; inversion A; inversion B; subst; [reflexivity|]. f_equal; [eapply gap_det; eauto|eauto]. Qed.
Lemma gaps_ext rho rho' l g : (forall k, rho k = rho' k) -> Forall2 (gap rho) l g -> Forall2 (gap rho') l g.
Proof. intros E. induction 1; constructor; [eapply gap_ext; eauto|assumption]. Qed.

Lemma lagr_total sp f mu nu rho : prob_smooth sp rho -> exists v, lagrangian sp f mu nu rho v.
Proof.
  intros Q. destruct (cost_total _ _ Q) as (c & Hc). destruct Q as (_ & A & B). destruct (gaps_total _ _ A) as (ge & Ge). destruct (gaps_total _ _ B) as (gi & Gi).
  eexists. exists c. eexists. split; [exact Hc|]. split; [exists ge, gi; split; [exact Ge|split; [exact Gi|reflexivity]]|reflexivity].
Qed.
Lemma lagr_det sp f mu nu rho v w : lagrangian sp f mu nu rho v -> lagrangian sp f mu nu rho w -> v = w.
Proof.
  intros (c & p & C & (ge & gi & A & B & ->) & ->) (c' & p' & C' & (ge' & gi' & A' & B' & ->) & ->).
  rewrite (cost_det _ _ _ _ C C'), (gaps_det _ _ _ _ A A'), (gaps_det _ _ _ _ B B'). reflexivity.
Qed.
Lemma lagr_ext sp f mu nu rho rho' v : (forall k, rho k = rho' k) -> lagrangian sp f mu nu rho v -> lagrangian sp f mu nu rho' v.
Proof.
  intros E (c & p & C & (ge & gi & A & B & ->) & ->). exists c. eexists. split; [eapply cost_ext; eauto|]. split; [exists ge, gi; split; [eapply gaps_ext; eauto|split; [eapply gaps_ext; eauto|reflexivity]]|reflexivity].
Qed.

Section Given.
Variable sp : spec.
Lemma combo_affine l : (forall r, In r l -> convex_fn sp (gap_fn r) /\ concave_fn sp (gap_fn r)) -> forall mu a b th ga gb g, can_be sp a -> can_be sp b -> 0 <= th <= 1 ->
  Forall2 (gap a) l ga -> Forall2 (gap b) l gb -> Forall2 (gap (between th a b)) l g -> combo mu g = (1 - th) * combo mu ga + th * combo mu gb.
Proof.
  induction l as [|r l IH]; intros H mu a b th ga gb g Ca Cb T A B C; inversion A as [|? x ? ga' A1 A2]; inversion B as [|? y ? gb' B1 B2]; inversion C as [|? z ? g' C1 C2]; subst; destruct mu as [|m mu]; cbn [combo]; try lra.
  rewrite (IH (fun r Q => H r (or_intror Q)) mu a b th ga' gb' g' Ca Cb T A2 B2 C2). destruct (H r (or_introl eq_refl)) as [H1 H2].
  pose proof (H1 a b th x y z Ca Cb T A1 B1 C1). pose proof (H2 a b th x y z Ca Cb T A1 B1 C1). replace z with ((1 - th) * x + th * y) by lra. ring.
Qed.
Lemma combo_concave l : (forall r, In r l -> concave_fn sp (gap_fn r)) -> forall nu a b th ga gb g, (forall v, In v nu -> 0 < v) -> can_be sp a -> can_be sp b -> 0 <= th <= 1 ->
  Forall2 (gap a) l ga -> Forall2 (gap b) l gb -> Forall2 (gap (between th a b)) l g -> combo nu g >= (1 - th) * combo nu ga + th * combo nu gb.
Proof.
  induction l as [|r l IH]; intros H nu a b th ga gb g P Ca Cb T A B C; inversion A as [|? x ? ga' A1 A2]; inversion B as [|? y ? gb' B1 B2]; inversion C as [|? z ? g' C1 C2]; subst; destruct nu as [|m nu]; cbn [combo]; try lra.
  pose proof (IH (fun r Q => H r (or_intror Q)) nu a b th ga' gb' g' (fun v Q => P v (or_intror Q)) Ca Cb T A2 B2 C2). pose proof (P m (or_introl eq_refl)).
  pose proof (H r (or_introl eq_refl) a b th x y z Ca Cb T A1 B1 C1). assert (m * z >= m * ((1 - th) * x + th * y)) by (apply Rmult_ge_compat_l; lra). lra.
Qed.
Lemma lagr_convex lam nu : convex_problem sp -> (forall v, In v nu -> 0 < v) -> convex_fn sp (lagrangian sp 1 lam nu).
Proof.
  intros (H1 & H2 & H3) P a b th va vb v Ca Cb T (c & p & C & (ge & gi & A & B & ->) & ->) (c' & p' & C' & (ge' & gi' & A' & B' & ->) & ->) (c2 & p2 & C2 & (ge2 & gi2 & A2 & B2 & ->) & ->).
  pose proof (H1 a b th c c' c2 Ca Cb T C C' C2). rewrite (combo_affine _ H2 lam a b th ge ge' ge2 Ca Cb T A A' A2).
  pose proof (combo_concave _ H3 nu a b th gi gi' gi2 P Ca Cb T B B' B2). lra.
Qed.

Lemma holds_gap rho r g : rel_holds rho r -> gap rho r g -> 0 <= g /\ (r_cmp r = CEq -> g = 0).
Proof.
  intros (a & b & A & B & H) (a' & b' & A' & B' & ->). rewrite <- (XEv_det _ _ _ _ A A'), <- (XEv_det _ _ _ _ B B'). unfold cmp_holds in H. destruct (r_cmp r); split; try lra; discriminate.
Qed.
Lemma near_gap t rho r g : nearly t rho r -> r_cmp r = CEq -> gap rho r g -> Rabs g <= t.
Proof.
  intros (a & b & A & B & H) E (a' & b' & A' & B' & ->). rewrite <- (XEv_det _ _ _ _ A A'), <- (XEv_det _ _ _ _ B B'). rewrite E in *. exact H.
Qed.
Lemma combo_eq0 rho l g : Forall2 (gap rho) l g -> (forall r, In r l -> r_cmp r = CEq) -> List.Forall (rel_holds rho) l -> forall mu, combo mu g = 0.
Proof.
  induction 1 as [|r x l g X _ IH]; intros E H mu; [destruct mu; reflexivity|]. destruct mu as [|m mu]; [reflexivity|]. inversion H as [|? ? H1 H2]; subst. cbn [combo].
  rewrite (proj2 (holds_gap _ _ _ H1 X) (E r (or_introl eq_refl))), (IH (fun r Q => E r (or_intror Q)) H2 mu). lra.
Qed.
Lemma combo_pos rho l g : Forall2 (gap rho) l g -> List.Forall (rel_holds rho) l -> forall nu, (forall v, In v nu -> 0 < v) -> 0 <= combo nu g.
Proof.
  induction 1 as [|r x l g X _ IH]; intros H nu P; [destruct nu; cbn; lra|]. destruct nu as [|m nu]; cbn; [lra|]. inversion H as [|? ? H1 H2]; subst.
  pose proof (proj1 (holds_gap _ _ _ H1 X)). pose proof (P m (or_introl eq_refl)). pose proof (IH H2 nu (fun v Q => P v (or_intror Q))). nra.
Qed.
Lemma sum_abs_cons m l : sum_abs (m :: l) = Rabs m + sum_abs l.
Proof. unfold sum_abs. cbn [length]. rewrite sumn_shift. reflexivity. Qed.
Lemma combo_near t rho l g : Forall2 (gap rho) l g -> (forall r, In r l -> r_cmp r = CEq) -> List.Forall (nearly t rho) l -> forall mu, length mu = length l -> combo mu g <= t * sum_abs mu.
Proof.
  induction 1 as [|r x l g X _ IH]; intros E H mu L; destruct mu as [|m mu]; try discriminate; [cbn; unfold sum_abs; cbn; lra|]. inversion H as [|? ? H1 H2]; subst. cbn [combo]. rewrite sum_abs_cons.
  pose proof (near_gap _ _ _ _ H1 (E r (or_introl eq_refl)) X). pose proof (IH (fun r Q => E r (or_intror Q)) H2 mu ltac:(cbn in L; lia)).
  assert (m * x <= Rabs m * t). { apply Rle_trans with (Rabs (m * x)); [apply Rle_abs|]. rewrite Rabs_mult. apply Rmult_le_compat_l; [apply Rabs_pos|assumption]. } lra.
Qed.
Lemma combo_slack t b rho l g : Forall2 (gap rho) l g -> forall nu s, (forall v, In v nu -> 0 < v) -> length nu = length l ->
  (forall i r, nth_error l i = Some r -> 0 < s.[i] /\ Rabs (s.[i] * nu.[i]) <= b /\ exists g, gap rho r g /\ Rabs (g - s.[i]) <= t) ->
  combo nu g <= t * sum_abs nu + INR (length l) * b.
Proof.
  induction 1 as [|r x l g X _ IH]; intros nu s P L H; destruct nu as [|m nu]; try discriminate; [cbn; unfold sum_abs; cbn; lra|]. cbn [combo]. rewrite sum_abs_cons. cbn [length]. rewrite S_INR.
  pose proof (P m (or_introl eq_refl)). pose proof (IH nu (tl s) (fun v Q => P v (or_intror Q)) ltac:(cbn in L; lia)) as K.
  assert (Q : forall i r0, nth_error l i = Some r0 -> 0 < (tl s).[i] /\ Rabs ((tl s).[i] * nu.[i]) <= b /\ exists g, gap rho r0 g /\ Rabs (g - (tl s).[i]) <= t).
  { intros i r0 Hr. specialize (H (S i) r0 Hr). destruct s as [|s0 s]; [exfalso; destruct H as (H & _); cbn in H; lra|exact H]. }
  specialize (K Q). destruct (H 0%nat r eq_refl) as (H1 & H2 & g0 & G & H3). rewrite (gap_det _ _ _ _ G X) in H3. cbn [nth] in H2.
  rewrite (Rabs_pos_eq m) by lra. apply Rcomplements.Rabs_le_between in H2. apply Rcomplements.Rabs_le_between in H3. set (s0 := s.[0]) in *. assert (m * x <= m * (s0 + t)) by (apply Rmult_le_compat_l; lra). lra.
Qed.
Lemma lsum_bound D : forall ds v B, List.Forall (fun d => Rabs d <= B) ds -> length ds = length D -> 0 <= B -> - (B * fold_right (fun k s => Rabs (v k) + s) 0 D) <= lsum D ds v.
Proof.
  induction D as [|k D IH]; intros [|d ds] v B H L Pb; try discriminate; cbn [lsum fold_right]; [lra|]. inversion H as [|? ? H1 H2]; subst.
  pose proof (IH ds v B H2 ltac:(cbn in L; lia) Pb). assert (Rabs (d * v k) <= B * Rabs (v k)) by (rewrite Rabs_mult; apply Rmult_le_compat_r; [apply Rabs_pos|assumption]).
  pose proof (Rcomplements.Rabs_le_between (d * v k) (B * Rabs (v k))) as [K _]. specialize (K H3). lra.
Qed.
Lemma pick_list (Q : nat -> R -> Prop) l : (forall k, In k l -> exists d, Q k d) -> exists ds, Forall2 Q l ds.
Proof. induction l as [|k l IH]; intros H; [exists []; constructor|]. destruct (H k (or_introl eq_refl)) as (d & Hd). destruct IH as (ds & Hs); [intros; apply H; right; assumption|]. exists (d :: ds). constructor; assumption. Qed.

Hypothesis Nd : NoDup (sp_dec sp).
Hypothesis Sm : smooth_everywhere sp.

Lemma slope_bound (F : ufun) B rho rho' v v' : (forall rho, can_be sp rho -> exists v, F rho v) -> (forall rho v w, F rho v -> F rho w -> v = w) -> (forall rho rho' v, (forall k, rho k = rho' k) -> F rho v -> F rho' v) ->
  convex_fn sp F -> can_be sp rho -> can_be sp rho' -> F rho v -> F rho' v' -> 0 <= B -> (forall k, In k (sp_dec sp) -> exists d, pd k F rho d /\ Rabs d <= B) ->
  v <= v' + B * dist1 sp rho' rho.
Proof.
  intros T D X C Cr Cr' H H' Pb Hd. destruct (pick_list _ _ Hd) as (ds & Ds).
  assert (A1 : Forall2 (fun k d => pd k F rho d) (sp_dec sp) ds) by (clear - Ds; induction Ds as [|? ? ? ? [? ?]]; constructor; assumption).
  assert (A2 : List.Forall (fun d => Rabs d <= B) ds) by (clear - Ds; induction Ds as [|? ? ? ? [? ?]]; constructor; assumption).
  pose proof (subgradient (se_val (sp_se sp)) (sp_dec sp) F T D X C rho v Cr H ds Nd A1 rho' v' Cr' H') as K.
  assert (Ll : length ds = length (sp_dec sp)) by (clear - Ds; induction Ds; cbn; congruence).
  pose proof (lsum_bound (sp_dec sp) ds (fun k => rho' k - rho k) B A2 Ll Pb) as K2. unfold dist1. lra.
Qed.

Lemma near_optimal t rho lam nu sl : 0 < t -> convex_problem sp -> can_be sp rho -> (forall r, In r (sp_eqs sp) -> r_cmp r = CEq) -> List.Forall (nearly t rho) (sp_eqs sp ++ sp_ineqs sp) ->
  nearly_stationary sp t rho lam nu -> nearly_complementary sp t rho nu sl -> (forall v, In v nu -> 0 < v) ->
  forall rho' v v', can_be sp rho' -> feasible sp rho' -> cost_is sp rho v -> cost_is sp rho' v' ->
  v <= v' + t * (excuse (sum_abs lam + sum_abs nu) (length lam + length nu) * dist1 sp rho' rho + sum_abs lam + sum_abs nu + INR (length nu) * excuse (sum_abs nu) (length nu)).
Proof.
  intros Pt Cx Cr Eq Hn (Ll & Ln & St) (Ls & Co) P rho' v v' Cr' Fe Hv Hv'. apply List.Forall_app in Hn as [N1 _]. apply List.Forall_app in Fe as [F1 F2].
  pose proof (can_smooth _ _ Sm Cr) as Sr. pose proof (can_smooth _ _ Sm Cr') as Sr'.
  destruct (gaps_total _ _ (proj1 (proj2 Sr))) as (ge & Ge). destruct (gaps_total _ _ (proj2 (proj2 Sr))) as (gi & Gi).
  destruct (gaps_total _ _ (proj1 (proj2 Sr'))) as (ge' & Ge'). destruct (gaps_total _ _ (proj2 (proj2 Sr'))) as (gi' & Gi').
  assert (HL : lagrangian sp 1 lam nu rho (1 * v + (- combo lam ge - combo nu gi))) by (exists v; eexists; split; [exact Hv|]; split; [exists ge, gi; split; [exact Ge|split; [exact Gi|reflexivity]]|reflexivity]).
  assert (HL' : lagrangian sp 1 lam nu rho' (1 * v' + (- combo lam ge' - combo nu gi'))) by (exists v'; eexists; split; [exact Hv'|]; split; [exists ge', gi'; split; [exact Ge'|split; [exact Gi'|reflexivity]]|reflexivity]).
  set (Ex := excuse (sum_abs lam + sum_abs nu) (length lam + length nu)) in *.
  assert (Px : forall a b, 1 <= excuse a b). { intros a b. unfold excuse. pose proof (Rmax_l 100 (a / INR b)). lra. }
  assert (PE : 0 <= t * Ex) by (pose proof (Px (sum_abs lam + sum_abs nu) (length lam + length nu)%nat); unfold Ex; nra).
  pose proof (slope_bound (lagrangian sp 1 lam nu) (t * Ex) rho rho' _ _ (fun r C => lagr_total sp 1 lam nu r (can_smooth _ _ Sm C)) (lagr_det sp 1 lam nu) (lagr_ext sp 1 lam nu) (lagr_convex lam nu Cx P) Cr Cr' HL HL' PE St) as K.
  rewrite (combo_eq0 _ _ _ Ge' Eq F1 lam) in K. pose proof (combo_pos _ _ _ Gi' F2 nu P). pose proof (combo_near t _ _ _ Ge Eq N1 lam Ll).
  pose proof (combo_slack t _ _ _ _ Gi nu sl P Ln Co) as K3. rewrite <- Ln in K3. lra.
Qed.
End Given.

Section Use.
Context {U : Type}.
Variables (E : env Xn) (o : options Xn) (t : R).
Hypothesis Hs : solve_ok E.
Hypothesis Ht : o_tol o = Fin t.
Hypothesis Pt : (0 < t)%R.
Variable sp : spec.
Hypothesis Sm : smooth_everywhere sp.
Hypothesis Cx : convex_problem sp.

Lemma lived_dec p : lived sp p -> NoDup (sp_dec sp) /\ forall r, In r (sp_eqs sp) -> r_cmp r = CEq.
Proof. intros Lv. destruct (lived_ok _ _ Lv) as [Ip Lp]. split; [eapply ProbSolveFacts.dec_nodup; eauto|apply (all_eqs _ _ Lp)]. Qed.
Lemma c88 : est_ok E -> lin_fin E -> est_fin E -> forall (all : list (callback Xn U)) x s m z l, ended E o all sp SUCCESS x s m z l ->
  exists y, x = map Fin y /\ exists lam nu sl, nearly_stationary sp t (point sp y) lam nu /\ nearly_complementary sp t (point sp y) nu sl /\ (forall v, In v nu -> (0 < v)%R) /\
    forall rho v v', can_be sp rho -> feasible sp rho -> cost_is sp (point sp y) v -> cost_is sp rho v' ->
      v <= v' + t * (excuse (sum_abs lam + sum_abs nu) (length lam + length nu) * dist1 sp rho (point sp y) + sum_abs lam + sum_abs nu + INR (length nu) * excuse (sum_abs nu) (length nu)).
Proof.
  intros He Hl Hf all x s m z l H. destruct (c87_kkt E o t Hs Ht Pt sp Sm He Hl Hf all x s m z l H) as (y & -> & N & lam & nu & sl & A & B & C).
  assert (Lv : exists p, lived sp p) by (destruct H; eauto). destruct Lv as (p & Lv). destruct (lived_dec p Lv) as [Nd Eq].
  exists y. split; [reflexivity|]. exists lam, nu, sl. split; [exact A|]. split; [exact B|]. split; [exact C|]. intros rho v v'. apply (near_optimal sp Nd Sm t (point sp y) lam nu sl Pt Cx (point_can sp y) Eq N A B C).
Qed.
Lemma c88_newton :  lin_fin_any E -> forall (all : list (callback Xn U)) x l, ended_newton E o all sp SUCCESS x l ->
  exists y, x = map Fin y /\ forall rho v v', can_be sp rho -> cost_is sp (point sp y) v -> cost_is sp rho v' -> v <= v' + t * dist1 sp rho (point sp y).
Proof.
  intros Hl all x l H. destruct (c87_newton E o Hs sp Sm all SUCCESS x l Hl H) as [Fx _]. apply vfin_real in Fx as (y & Ey). exists y. split; [exact Ey|]. intros rho v v' C Hv Hv'.
  remember SUCCESS as st eqn:Es. destruct H as [p P x0 p1 fuel u clk s' fin Lv Hp H]. subst s'. destruct (lived_dec p Lv) as [Nd _].
  assert (L : length y = length (sp_dec sp)).
  { destruct (newton_gives sp p Lv Sm P x0 p1 Hp) as (Lg & _ & Lx & _). destruct (lived_ok _ _ Lv) as [Ip Lp]. destruct (prepare_inv sp p _ x0 p1 Ip Lp Hp) as (I1 & L1 & E0 & _ & Pk).
    destruct Pk as (tf & te & ti & _ & _ & _ & _ & _ & _ & Gv). destruct (newton_meaning sp p1 x0 P I1 L1 Gv) as (En & _).
    pose proof H as M. apply c50_meaning in M as (_ & (kk & _ & Pa & _)). pose proof (newton_len E Hs P (np_n P) Lg _ _ _ Pa Lx) as Lf. rewrite Ey, map_length in Lf. lia. }
  pose proof (c81_newton E o t Hs Ht Pt sp p P x0 p1 fuel _ _ clk fin y Lv Hp (start_everywhere sp Sm) H Ey (Sm y L)) as G.
  apply (slope_bound sp Nd (cost_is sp) t (point sp y) rho v v' (fun r C => cost_total sp r (can_smooth _ _ Sm C)) (cost_det sp) (cost_ext sp) (proj1 Cx) (point_can sp y) C Hv Hv' (Rlt_le _ _ Pt) G).
Qed.
End Use.
