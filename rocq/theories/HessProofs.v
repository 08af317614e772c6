(** Proofs for C100. *)
From Coq Require Import ZArith Reals List Bool Arith Lia Lra FunctionalExtensionality.
From Coquelicot Require Import Hierarchy Derive.
From Verif Require Import Base ExprModel ExprReal ExprXR MathSpec MathProofs DiffSpec OpDeriv VarSpec SmoothSpec SmoothGraph SmoothOpen SmoothUser SmoothSym PathDeriv
  LinR ProblemModel ProblemSpec ProbSolveSpec LagrSpec ProblemProofs ProbSolveBounds ProbSolveDeriv FiniteUseSpec FiniteUse ProbEarly ConvexSpec ConvexUse QuadSpec QuadUse RateCost RateUse HessSpec.
Import ListNotations.
Local Open Scope R_scope.

(** *** One dimension *)
Lemma bends_line (p p1 : R -> R) d : (forall t, is_derive p t (p1 t)) -> is_derive p1 0 d -> (forall s, 2 * p 0 <= p s + p (- s)) -> 0 <= d.
Proof.
  intros D1 D2 C. destruct (Rle_lt_dec 0 d) as [|N]; [assumption|exfalso].
  apply is_derive_Reals in D2. destruct (D2 (- d / 2)) as (e & He); [lra|]. pose proof (cond_pos e) as Pe.
  assert (B : forall h, h <> 0 -> Rabs h < e -> (p1 h - p1 0) / h < 0).
  { intros h Nh Lh. specialize (He h Nh Lh). rewrite Rplus_0_l in He. apply Rabs_def2 in He. lra. }
  set (s := e / 2). assert (Ps : 0 < s < e) by (unfold s; lra).
  assert (M : forall a b, a < b -> exists c, a < c < b /\ p b - p a = p1 c * (b - a)).
  { intros a b Lab. destruct (MVT_cor2 p p1 a b Lab) as (c & Ec & Hc); [intros c _; apply is_derive_Reals, D1|]. exists c. split; assumption. }
  destruct (M 0 s) as (c & Lc & Ec); [lra|]. destruct (M (- s) 0) as (c' & Lc' & Ec'); [lra|].
  assert (K1 : p1 c < p1 0). { assert (H := B c ltac:(lra) ltac:(rewrite Rabs_right; lra)). assert ((p1 c - p1 0) / c * c < 0 * c) by (apply Rmult_lt_compat_r; lra). replace ((p1 c - p1 0) / c * c) with (p1 c - p1 0) in H0 by (field; lra). lra. }
  assert (K2 : p1 0 < p1 c'). { assert (H := B c' ltac:(lra) ltac:(rewrite Rabs_left; lra)). assert (0 * - c' > (p1 c' - p1 0) / c' * - c') by (apply Rmult_gt_compat_r; lra). replace ((p1 c' - p1 0) / c' * - c') with (- (p1 c' - p1 0)) in H0 by (field; lra). lra. }
  specialize (C s). assert (p1 c * (s - 0) < p1 c' * (0 - - s)) by (replace (0 - - s) with (s - 0) by ring; apply Rmult_lt_compat_r; lra). lra.
Qed.

(** *** The cost *)
Lemma map_between sp th a b : map (ConvexSpec.between th a b) (sp_dec sp) = RateCost.between (map a (sp_dec sp)) (map b (sp_dec sp)) th.
Proof.
  apply list_eq; [rewrite between_len, !map_length; reflexivity|]. rewrite map_length. intros i L. rewrite between_nth by (rewrite map_length; exact L).
  rewrite !(nth_map_lt _ _ i 0%nat) by exact L. unfold ConvexSpec.between. ring.
Qed.
Lemma can_between sp th a b : can_be sp a -> can_be sp b -> can_be sp (ConvexSpec.between th a b).
Proof. intros A B k N. unfold ConvexSpec.between. rewrite (A k N), (B k N). ring. Qed.
Lemma cost_at sp a v : smooth_everywhere sp -> can_be sp a -> cost_is sp a v -> v = cnum sp (point sp (map a (sp_dec sp))).
Proof.
  intros Sm C H. apply (cost_det sp (point sp (map a (sp_dec sp)))); [eapply cost_ext; [|exact H]; intros k; symmetry; apply can_point, C|].
  apply cnum_is. exact (proj1 (Sm _ (map_length _ _))).
Qed.

Section Cost.
Variables (sp : spec).
Hypothesis Sm : smooth_everywhere sp.
Hypothesis Nd : NoDup (sp_dec sp).
Lemma cost_up : bends_up sp (cost_is sp) -> convex_fn sp (cost_is sp).
Proof.
  intros Up a b th va vb v Ca Cb T A B C.
  apply (cost_at sp) in A, B, C; auto using can_between. subst. rewrite map_between. set (y := map a (sp_dec sp)). set (z := map b (sp_dec sp)). set (c := RateCost.between y z th).
  assert (Ly : length y = size sp) by apply map_length. assert (Lz : length z = size sp) by apply map_length. assert (Lc : length c = size sp) by (unfold c; rewrite between_len; exact Ly).
  assert (TL := taylor_low sp Sm Nd 0 (fun y Q L H v => Rle_trans _ _ _ (Req_le _ _ (Rmult_0_l _)) (Up y Q L H v))).
  assert (T1 := TL c y Lc Ly). assert (T2 := TL c z Lc Lz). replace (0 / 2) with 0 in T1, T2 by field. rewrite Rmult_0_l, Rplus_0_r in T1, T2.
  assert (S0 : (1 - th) * sumn (size sp) (fun i => (grad sp c).[i] * (y.[i] - c.[i])) + th * sumn (size sp) (fun i => (grad sp c).[i] * (z.[i] - c.[i])) = 0).
  { rewrite <- !sumn_scal, <- sumn_plus. apply sumn_0. intros i Li. unfold c at 2 4. rewrite !between_nth by (rewrite Ly; exact Li). ring. }
  set (s1 := sumn (size sp) (fun i => (grad sp c).[i] * (y.[i] - c.[i]))) in *. set (s2 := sumn (size sp) (fun i => (grad sp c).[i] * (z.[i] - c.[i]))) in *.
  assert ((1 - th) * (cnum sp (point sp c) + s1) <= (1 - th) * cnum sp (point sp y)) by (apply Rmult_le_compat_l; lra).
  assert (th * (cnum sp (point sp c) + s2) <= th * cnum sp (point sp z)) by (apply Rmult_le_compat_l; lra). lra.
Qed.
Lemma cost_second_fun y Q Q' : second_at sp (cost_is sp) y Q -> second_at sp (cost_is sp) y Q' -> forall i j, (i < size sp)%nat -> (j < size sp)%nat -> Q i j = Q' i j.
Proof.
  intros H H' i j Li Lj. eapply pd_fun; [|exact (H i j Li Lj)|exact (H' i j Li Lj)]. intros r v w V W. eapply pd_fun; [|exact V|exact W]. intros r' v' w'. apply cost_det.
Qed.
Lemma cost_convex : convex_fn sp (cost_is sp) -> bends_up sp (cost_is sp).
Proof.
  intros Cv y Q Ly HQ v. set (z := map (fun i => y.[i] + v i) (seq 0 (size sp))). assert (Lz : length z = size sp) by (unfold z; rewrite map_length, seq_length; reflexivity).
  destruct (line_second sp Sm Nd y z Ly Lz) as (p2 & D1 & D2 & H). cbv zeta in *. destruct (H 0) as (Q' & HQ' & E). rewrite between_0 in HQ'.
  rewrite (form_ext (size sp) Q Q' v (cost_second_fun y Q Q' HQ HQ')). replace (form (size sp) Q' v) with (p2 0).
  2:{ rewrite E. unfold form. apply sumn_ext. intros i Li. apply sumn_ext. intros j Lj. rewrite !(nth_map_lt _ _ _ 0%nat) by (rewrite seq_length; assumption). rewrite !seq_nth by assumption.
      unfold z. rewrite !(nth_map_lt _ _ _ 0%nat) by (rewrite seq_length; assumption). rewrite !seq_nth by assumption. cbn [Nat.add]. ring. }
  apply (bends_line _ _ _ D1 (D2 0)). intros s.
  assert (P : forall t, length (RateCost.between y z t) = size sp) by (intros t; rewrite between_len; exact Ly).
  assert (K : cnum sp (point sp (RateCost.between y z 0)) <= (1 - / 2) * cnum sp (point sp (RateCost.between y z s)) + / 2 * cnum sp (point sp (RateCost.between y z (- s)))); [|lra].
  apply (Cv (point sp (RateCost.between y z s)) (point sp (RateCost.between y z (- s))) (/ 2)); [apply point_can|apply point_can|lra|apply cnum_is, (Sm _ (P _))|apply cnum_is, (Sm _ (P _))|].
  eapply cost_ext; [|apply cnum_is; exact (proj1 (Sm _ (P 0)))]. intros k.
  rewrite <- (can_point sp (ConvexSpec.between (/ 2) (point sp (RateCost.between y z s)) (point sp (RateCost.between y z (- s))))) by (apply can_between; apply point_can).
  f_equal. rewrite map_between. apply list_eq; [rewrite !between_len, map_length; exact Ly|]. rewrite between_len. intros i Li. rewrite Ly in Li.
  assert (Pt : forall t, (map (point sp (RateCost.between y z t)) (sp_dec sp)).[i] = y.[i] + t * (z.[i] - y.[i])).
  { intros t. rewrite (nth_map_lt _ _ i 0%nat) by exact Li. unfold point. rewrite place_coord; [|exact Nd|apply P|exact Li]. apply between_nth. rewrite Ly. exact Li. }
  rewrite !between_nth by (rewrite ?map_length, ?Ly; exact Li). rewrite !Pt. field.
Qed.
End Cost.

(** *** A relation as the cost of a problem without constraints *)
Definition as_goal (sp : spec) (mx : bool) (r : urel) : spec := mkS (sp_se sp) (sp_cons sp) (sp_dec sp) (Some (mx, rexp r)) [] [].
Section Rel.
Variables (sp : spec) (r : urel).
Hypothesis Sr : forall y, length y = size sp -> rel_smooth (point sp y) r.
Hypothesis Nd : NoDup (sp_dec sp).
Lemma as_goal_smooth mx : smooth_everywhere (as_goal sp mx r).
Proof. intros y L. destruct (rexp_smooth _ _ (Sr y L)) as (v & _ & X). split; [exists v; exact X|split; constructor]. Qed.
Lemma rexp_is rho g : XEv rho (rexp r) g -> gap rho r g.
Proof. unfold rexp, gap. intros H. destruct (r_cmp r); inversion H as [| | |? ? ? x y ? H1 H2 H3]; subst; inversion H3; subst; eauto 6. Qed.
Lemma is_rexp rho g : gap rho r g -> XEv rho (rexp r) g.
Proof. unfold rexp, gap. intros (a & b & A & B & ->). destruct (r_cmp r); econstructor; eauto; constructor. Qed.
Lemma as_goal_gap mx rho v : cost_is (as_goal sp mx r) rho v -> gap rho r (if mx then - v else v).
Proof. intros (_ & w & W & ->). destruct mx; [rewrite Ropp_involutive|]; apply rexp_is, W. Qed.
Lemma gap_as_goal mx rho v : can_be sp rho -> gap rho r v -> cost_is (as_goal sp mx r) rho (if mx then - v else v).
Proof.
  intros C H. assert (S : rel_smooth rho r). { pose proof (Sr _ (map_length rho (sp_dec sp))) as S. replace rho with (point sp (map rho (sp_dec sp))); [exact S|]. extensionality k. apply can_point, C. }
  destruct (rexp_smooth _ _ S) as (w & G & X). rewrite <- (gap_det _ _ _ _ G H). split; [exact (XSm_pow00 _ _ _ X)|]. exists w. split; [exact (XSm_XEv _ _ _ X)|]. destruct mx; reflexivity.
Qed.
(** Derivatives of the one are those of the other. *)
Definition signed (mx : bool) (v : R) : R := if mx then - v else v.
Lemma pd_signed mx k (F G : ufun) rho d : (forall r v, F r v -> G r (signed mx v)) -> pd k F rho d -> pd k G rho (signed mx d).
Proof.
  intros H (f & Lf & Df). exists (fun t => signed mx (f t)). split; [eapply loc_mono; [|exact Lf]; intros t; apply H|]. destruct mx; [apply opp_derive|]; exact Df.
Qed.
Lemma second_signed mx y Q : second_at (as_goal sp mx r) (cost_is (as_goal sp mx r)) y Q -> second_at sp (gap_fn r) y (fun i j => signed mx (Q i j)).
Proof. intros H i j Li Lj. eapply pd_signed; [|exact (H i j Li Lj)]. intros rho v. apply pd_signed. intros rho' v'. exact (as_goal_gap mx rho' v'). Qed.
Lemma form_signed mx n Q v : form n (fun i j => signed mx (Q i j)) v = signed mx (form n Q v).
Proof. destruct mx; [|reflexivity]. cbn [signed]. replace (- form n Q v) with (-1 * form n Q v) by ring. rewrite <- form_scale. apply form_ext. intros. ring. Qed.
Lemma rel_down : bends_down sp (gap_fn r) -> concave_fn sp (gap_fn r).
Proof.
  intros D a b th va vb v Ca Cb T A B C.
  assert (K : - v <= (1 - th) * - va + th * - vb); [|lra].
  apply (cost_up (as_goal sp true r) (as_goal_smooth true) Nd) with (a := a) (b := b); [|exact Ca|exact Cb|exact T|exact (gap_as_goal true a va Ca A)|exact (gap_as_goal true b vb Cb B)|exact (gap_as_goal true _ v (can_between sp th a b Ca Cb) C)].
  intros y Q L H w. pose proof (D y _ L (second_signed true y Q H) w) as E. rewrite form_signed in E. cbn [signed] in E. change (size (as_goal sp true r)) with (size sp). lra.
Qed.
Lemma rel_up : bends_up sp (gap_fn r) -> convex_fn sp (gap_fn r).
Proof.
  intros D a b th va vb v Ca Cb T A B C.
  apply (cost_up (as_goal sp false r) (as_goal_smooth false) Nd) with (a := a) (b := b); [|exact Ca|exact Cb|exact T|exact (gap_as_goal false a va Ca A)|exact (gap_as_goal false b vb Cb B)|exact (gap_as_goal false _ v (can_between sp th a b Ca Cb) C)].
  intros y Q L H w. pose proof (D y _ L (second_signed false y Q H) w) as E. rewrite form_signed in E. exact E.
Qed.
(** Conversely. Along the decision variables the points stay among those they can be put at. *)
Lemma can_upd rho k t : can_be sp rho -> In k (sp_dec sp) -> can_be sp (upd rho k t).
Proof. intros C I j N. unfold upd. destruct (Nat.eqb_spec j k) as [->|]; [contradiction|apply C, N]. Qed.
Lemma pd_signed_can mx k (F G : ufun) : (forall r v, can_be sp r -> F r v -> G r (signed mx v)) -> In k (sp_dec sp) -> forall rho d, can_be sp rho -> pd k F rho d -> pd k G rho (signed mx d).
Proof.
  intros H I rho d C (f & Lf & Df). exists (fun t => signed mx (f t)). split; [eapply loc_mono; [|exact Lf]; intros t; apply H, can_upd; assumption|]. destruct mx; [apply opp_derive|]; exact Df.
Qed.
Lemma signed_second mx y Q : second_at sp (gap_fn r) y Q -> second_at (as_goal sp mx r) (cost_is (as_goal sp mx r)) y (fun i j => signed mx (Q i j)).
Proof.
  intros H i j Li Lj. change (sp_dec (as_goal sp mx r)) with (sp_dec sp). change (point (as_goal sp mx r) y) with (point sp y). eapply pd_signed_can; [|apply nth_In, Lj|apply point_can|exact (H i j Li Lj)].
  intros rho v C. apply pd_signed_can; [|apply nth_In, Li|exact C]. intros rho' v' C'. exact (gap_as_goal mx rho' v' C').
Qed.
Lemma rel_concave : concave_fn sp (gap_fn r) -> bends_down sp (gap_fn r).
Proof.
  intros D y Q L H w. assert (0 <= - form (size sp) Q w); [|lra]. change (- form (size sp) Q w) with (signed true (form (size sp) Q w)). rewrite <- form_signed.
  apply (cost_convex (as_goal sp true r) (as_goal_smooth true) Nd) with (y := y); [|exact L|exact (signed_second true y Q H)].
  intros a b th va vb v Ca Cb T A B C. apply as_goal_gap in A, B, C. pose proof (D a b th _ _ _ Ca Cb T A B C) as E. cbv iota in E. lra.
Qed.
Lemma rel_convex : convex_fn sp (gap_fn r) -> bends_up sp (gap_fn r).
Proof.
  intros D y Q L H w. change (form (size sp) Q w) with (signed false (form (size sp) Q w)). rewrite <- form_signed.
  apply (cost_convex (as_goal sp false r) (as_goal_smooth false) Nd) with (y := y); [|exact L|exact (signed_second false y Q H)].
  intros a b th va vb v Ca Cb T A B C. apply as_goal_gap in A, B, C. exact (D a b th _ _ _ Ca Cb T A B C).
Qed.
(** Second derivatives do not depend on the order, so a form that is zero has zero entries. *)
Lemma straight_both : straight sp (gap_fn r) -> bends_up sp (gap_fn r) /\ bends_down sp (gap_fn r).
Proof.
  intros S. assert (Z : forall y Q, length y = size sp -> second_at sp (gap_fn r) y Q -> forall v, form (size sp) Q v = 0).
  { intros y Q L H v. unfold form. apply sumn_0. intros i Li. apply sumn_0. intros j Lj. rewrite (S y Q L H i j Li Lj). ring. }
  split; intros y Q L H v; rewrite (Z y Q L H v); lra.
Qed.
Definition ind (i k : nat) : R := if Nat.eqb k i then 1 else 0.
Lemma ind_pick n i f : (i < n)%nat -> sumn n (fun k => f k * ind i k) = f i.
Proof.
  revert f i. induction n as [|n IH]; intros f i L; [lia|]. rewrite sumn_shift. destruct i as [|i].
  - rewrite sumn_0 by (intros k _; unfold ind; cbn [Nat.eqb]; ring). unfold ind. cbn [Nat.eqb]. ring.
  - rewrite (sumn_ext n _ (fun k => f (S k) * ind i k)) by (intros k _; reflexivity). rewrite (IH (fun k => f (S k)) i) by lia. unfold ind. cbn [Nat.eqb]. ring.
Qed.
Lemma ind_form n Q i j : (i < n)%nat -> (j < n)%nat -> sumn n (fun a => sumn n (fun b => Q a b * ind i a * ind j b)) = Q i j.
Proof.
  intros Li Lj. rewrite (sumn_ext n _ (fun a => Q a j * ind i a)); [apply (ind_pick n i (fun a => Q a j) Li)|]. intros a _. exact (ind_pick n j (fun b => Q a b * ind i a) Lj).
Qed.
Lemma form_zero n Q : (forall i j, (i < n)%nat -> (j < n)%nat -> Q i j = Q j i) -> (forall v, form n Q v = 0) -> forall i j, (i < n)%nat -> (j < n)%nat -> Q i j = 0.
Proof.
  intros Sy Z i j Li Lj. pose proof (Z (ind i)) as Z1. pose proof (Z (ind j)) as Z2. pose proof (Z (fun k => ind i k + ind j k)) as Z3. unfold form in *. rewrite ind_form in Z1, Z2 by assumption.
  assert (E : sumn n (fun a => sumn n (fun b => Q a b * (ind i a + ind j a) * (ind i b + ind j b))) = Q i i + Q i j + Q j i + Q j j).
  { rewrite <- (ind_form n Q i i), <- (ind_form n Q i j), <- (ind_form n Q j i), <- (ind_form n Q j j) by assumption. rewrite <- !sumn_plus. apply sumn_ext. intros a _. rewrite <- !sumn_plus. apply sumn_ext. intros b _. ring. }
  rewrite E in Z3. pose proof (Sy i j Li Lj). lra.
Qed.
Lemma pd_incl k (F G : ufun) rho d : (forall r v, F r v -> G r v) -> pd k F rho d -> pd k G rho d.
Proof. intros H. exact (pd_signed false k F G rho d H). Qed.
Lemma second_sym y Q : length y = size sp -> second_at sp (gap_fn r) y Q -> forall i j, (i < size sp)%nat -> (j < size sp)%nat -> Q i j = Q j i.
Proof.
  intros L H i j Li Lj. destruct (rexp_smooth _ _ (Sr y L)) as (v & _ & X).
  eapply pd_fun; [|exact (H i j Li Lj)|].
  { intros rho a b A B. eapply pd_fun; [|exact A|exact B]. intros rho' a' b'. apply gap_det. }
  eapply pd_incl; [intros rho a; apply (pd_incl _ (fun s w => XEv s (rexp r) w)); exact rexp_is|]. eapply pd_sym; [exact X|].
  eapply pd_incl; [intros rho a; apply (pd_incl _ (gap_fn r)); exact is_rexp|]. exact (H j i Lj Li).
Qed.
Lemma both_straight : bends_up sp (gap_fn r) -> bends_down sp (gap_fn r) -> straight sp (gap_fn r).
Proof.
  intros U D y Q L H. apply (form_zero (size sp) Q (second_sym y Q L H)). intros v. pose proof (U y Q L H v). pose proof (D y Q L H v). lra.
Qed.
End Rel.

Lemma hess_iff sp : smooth_everywhere sp -> NoDup (sp_dec sp) -> (convex_problem sp <-> hessian_test sp).
Proof.
  intros Sm Nd.
  assert (Se : forall r, In r (sp_eqs sp) -> forall y, length y = size sp -> rel_smooth (point sp y) r). { intros r I y L. destruct (Sm y L) as (_ & E & _). exact (proj1 (List.Forall_forall _ _) E r I). }
  assert (Si : forall r, In r (sp_ineqs sp) -> forall y, length y = size sp -> rel_smooth (point sp y) r). { intros r I y L. destruct (Sm y L) as (_ & _ & E). exact (proj1 (List.Forall_forall _ _) E r I). }
  split; intros (C & E & I); (split; [|split]).
  - apply cost_convex; assumption.
  - intros r Hr. destruct (E r Hr) as [E1 E2]. apply both_straight; [apply Se, Hr|apply rel_convex; auto|apply rel_concave; auto].
  - intros r Hr. apply rel_concave; auto.
  - apply cost_up; assumption.
  - intros r Hr. destruct (straight_both sp r (E r Hr)) as [E1 E2]. split; [apply rel_up; auto|apply rel_down; auto].
  - intros r Hr. apply rel_down; auto.
Qed.
