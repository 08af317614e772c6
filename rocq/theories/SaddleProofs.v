(** Proofs for C91: SQP on a definite quadratic with independent affine constraints. *)
From Coq Require Import ZArith QArith Reals List Bool Arith Lia Lra.
From Verif Require Import Base ExprModel ExprReal ExprXR NumModel UtilModel KktModel FilterModel FilterProofs ExitModel SolverModel SolverSpec SolverProofs NewtonModel SqpModel XArith XQ FinEval LinR KktSpec KktProofs ScaleProofs IpmShape RunY ProbEarly ProbSolveFinal ProbSolveKkt2 ProbSolveRun SmoothSpec
  ProblemSpec LagrSpec QuadSpec QuadProofs SaddleSpec.
Import ListNotations.
Local Open Scope R_scope.

Lemma add_ok_viol (f : filter Xn) c t d a : s_finite Xn (fe_cost t) = true -> s_ltb Xn (f_max f) (fe_viol t) = false -> f_entries f = [] ->
  (s_leb Xn (fe_viol c) (f_min f) = true -> armijo c t d a = true) -> sufficient c t a = true -> exists f', try_add f c t d a = (f', true).
Proof.
  intros H1 H2 H3 H4 H5. unfold try_add. rewrite H1, H2, H5. cbn [negb orb]. unfold in_filter. rewrite H3. cbn [existsb].
  destruct (s_leb Xn _ _); [rewrite H4 by reflexivity|]; rewrite ?andb_true_r, ?andb_false_r; cbn [negb andb orb]; destruct (switching c d a); cbn [negb andb orb]; try destruct (armijo _ _ _ _); cbn [negb]; eexists; reflexivity.
Qed.
Lemma norm2_f l : norm2 (S := Xn) (fv l) = Fin (norm2 (S := Rn) l).
Proof.
  unfold norm2. rewrite (map_f _ (fun x => x * x)) by reflexivity. rewrite vsum_f. change (s_sqrt Xn (Fin (vsum (S := Rn) (map (fun x => x * x) l)))) with (if R_leb 0 (vsum (S := Rn) (map (fun x => x * x) l)) then Fin (sqrt (vsum (S := Rn) (map (fun x => x * x) l))) else NaN).
  replace (R_leb 0 _) with true; [reflexivity|]. symmetry. apply R_leb_true. rewrite vsum_R. apply sumn_nonneg. intros i Li. rewrite map_length in Li. rewrite (nth_map_lt _ l i 0 0) by exact Li. apply Rle_0_sqr.
Qed.

Section Algebra.
Variables (n k : nat) (Q A : nat -> nat -> R) (b e : nat -> R) (c : R).
Hypothesis Sy : forall i j, Q i j = Q j i.
Definition con (y : nat -> R) (l : nat) : R := sumn n (fun j => A l j * y j) + e l.
Definition pull (mu : nat -> R) (j : nat) : R := sumn k (fun l => A l j * mu l).
Lemma con_add y d l : con (fun j => y j + d j) l = con y l + sumn n (fun j => A l j * d j).
Proof. unfold con. rewrite (sumn_ext n _ (fun j => A l j * y j + A l j * d j)) by (intros; ring). rewrite sumn_plus. lra. Qed.
Lemma con_ext y z l : (forall j, (j < n)%nat -> y j = z j) -> con y l = con z l.
Proof. intros H. unfold con. f_equal. apply sumn_ext. intros j Lj. rewrite H by exact Lj. reflexivity. Qed.
Lemma pull_dot mu d : sumn n (fun j => pull mu j * d j) = sumn k (fun l => mu l * sumn n (fun j => A l j * d j)).
Proof.
  unfold pull. rewrite (sumn_ext n _ (fun j => sumn k (fun l => A l j * mu l * d j))) by (intros j _; rewrite (Rmult_comm _ (d j)), <- sumn_scal; apply sumn_ext; intros; ring).
  rewrite sumn_swap. apply sumn_ext. intros l _. rewrite <- sumn_scal. apply sumn_ext. intros; ring.
Qed.
(** Where the gradient is a combination of the constraints' gradients, the constrained minimum. *)
Lemma kkt_min m y z mu : definite n Q m -> (forall i, (i < n)%nat -> slope n Q b y i = pull mu i) -> (forall l, (l < k)%nat -> con y l = 0) -> (forall l, (l < k)%nat -> con z l = 0) ->
  quad n Q b c y + m / 2 * norm_sq n (fun i => z i - y i) <= quad n Q b c z.
Proof.
  intros D F Cy Cz. rewrite (quad_ext n Q b c z (fun i => y i + (z i - y i))) by (intros; ring). rewrite (quad_add n Q b c Sy y (fun i => z i - y i)).
  rewrite (sumn_ext n (fun i => slope n Q b y i * (z i - y i)) (fun i => pull mu i * (z i - y i))) by (intros i Li; rewrite F by exact Li; reflexivity). rewrite pull_dot.
  rewrite (sumn_0 k).
  - specialize (D (fun i => z i - y i)). lra.
  - intros l Ll. specialize (Cy l Ll). specialize (Cz l Ll). rewrite (con_ext z (fun j => y j + (z j - y j))) in Cz by (intros; ring). rewrite (con_add y (fun j => z j - y j)) in Cz. rewrite Cy in Cz. rewrite Rplus_0_l in Cz. rewrite Cz. ring.
Qed.
(** Violated constraints pull. *)
Lemma pull_large s w : 0 < s -> definite n Q s -> independent n k Q A s -> s * s * norm_sq k w <= norm_sq n (pull w).
Proof.
  intros Ps De In. destruct (In w) as (v & Hv). specialize (De v). rewrite <- pull_dot in Hv.
  assert (K : 0 <= norm_sq n (fun j => s * v j + pull w j)) by (apply sumn_nonneg; intros; apply Rle_0_sqr).
  assert (Ek : norm_sq n (fun j => s * v j + pull w j) = s * s * norm_sq n v + 2 * s * sumn n (fun j => pull w j * v j) + norm_sq n (pull w)).
  { unfold norm_sq. rewrite <- !sumn_scal, <- !sumn_plus. apply sumn_ext. intros; ring. }
  rewrite Ek in K. assert (s * (s * norm_sq n v + 2 * sumn n (fun j => pull w j * v j)) <= s * (- s * norm_sq k w)) by (apply Rmult_le_compat_l; lra). lra.
Qed.
End Algebra.

Section Run.
Context {U : Type}.
Variables (E : env Xn) (o : options Xn) (t : R) (P : sprob Xn) (cbs : list (callback Xn U)) (n k : nat) (Q A : nat -> nat -> R) (b e : nat -> R) (c f : R) (de : list R).
Variable restore : list (callback Xn (U * filter Xn)) -> list Xn -> list Xn -> Z -> U * filter Xn -> nat -> outcome (status * list Xn * list Xn * Z * (U * filter Xn) * nat).
Hypothesis Sy : forall i j, Q i j = Q j i.
Hypothesis En : sp_n P = n.
Hypothesis Ek : sp_me P = k.
Hypothesis Pk : (0 < k)%nat.
Hypothesis Kn : (k <= n)%nat.
Hypothesis Es : sp_sc P = fsc f de [].
Hypothesis Pf : 0 < f.
Hypothesis Lde : length de = k.
Hypothesis Pde : forall x, In x de -> 0 < x.
Hypothesis Ht : o_tol o = Fin t.
Hypothesis Pt : 0 < t.
Hypothesis De : definite n Q (1 / 10000).
Hypothesis Ind : independent n k Q A (1 / 10000).
Hypothesis Ex : exact_on_saddle E n k.
Let at_ (y : list R) : nat -> R := fun i => y.[i].
Hypothesis Hf : forall y, length y = n -> sp_f P (fv y) = Fin (quad n Q b c (at_ y)).
Hypothesis Hg : forall y, length y = n -> exists g, sp_g P (fv y) = fv g /\ length g = n /\ forall i, (i < n)%nat -> g.[i] = slope n Q b (at_ y) i.
Hypothesis HH : forall y mu, length y = n -> length mu = k -> exists H, sp_H P (fv y) (fv mu) = fm H /\ length H = n /\ (forall w, In w H -> length w = n) /\ forall i j, (i < n)%nat -> (j < n)%nat -> low H i j = Q i j.
Hypothesis Hc : forall y, length y = n -> exists ce, sp_ce P (fv y) = fv ce /\ length ce = k /\ forall l, (l < k)%nat -> ce.[l] = con n A e (at_ y) l.
Hypothesis HA : forall y, length y = n -> exists M, sp_Ae P (fv y) = fm M /\ wf k n M /\ forall l j, (l < k)%nat -> (j < n)%nat -> ent M l j = A l j.

Definition residual (y mu : list R) (j : nat) : R := slope n Q b (at_ y) j - pull k A (at_ mu) j.
Let err (y mu : list R) := unscaled_sqp (S := Xn) (sp_sc P) n (sp_g P (fv y)) (sp_Ae P (fv y)) (sp_ce P (fv y)) (fv mu).
Lemma err_iff y mu : length y = n -> length mu = k -> s_ltb Xn (Fin t) (err y mu) = false <->
  (forall j, (j < n)%nat -> Rabs (residual y mu j) <= f * (t * excuse (sumn k (fun i => Rabs (de.[i] * mu.[i] / f))) k)) /\ (forall l, (l < k)%nat -> Rabs (con n A e (at_ y) l) <= de.[l] * t).
Proof.
  intros L Lm. unfold err. destruct (Hg y L) as (g & Eg & Lg & Vg). destruct (HA y L) as (M & EM & WM & VM). destruct (Hc y L) as (ce & Ec & Lc & Vc). rewrite Es, Eg, EM, Ec.
  rewrite unscaled_sqp_f; [|lra|intros v I; specialize (Pde v I); lra|lia|lia]. rewrite xltb, R_ltb_false.
  pose (ge := map (fun l => ce.[l] / de.[l]) (seq 0 k)). assert (Lge : length ge = k) by (unfold ge; rewrite map_length, seq_length; reflexivity).
  assert (Dl : forall l, (l < k)%nat -> 0 < de.[l]) by (intros l Ll; apply Pde, nth_In; lia).
  assert (Vge : forall l, (l < k)%nat -> ge.[l] = ce.[l] / de.[l]). { intros l Ll. unfold ge. rewrite (nth_map_lt _ _ l 0%nat) by (rewrite seq_length; exact Ll). rewrite seq_nth by exact Ll. reflexivity. }
  pose (d' := mkData g M ce [] []). pose (d := mkData (map (fun v => v / f) g) (div_rows de M) ge [] []).
  assert (K : unscaled_sqp (S := Rn) (mkSc (S := Rn) f de []) n (D_g d') (D_Ae d') (D_ce d') mu <= t <-> within_eq n k d (fun i => de.[i] * mu.[i] / f) t).
  { apply c41_sqp; auto; try lra.
    - unfold d, data_ok; cbn [D_g D_Ae D_ce D_Ai D_ci]. split; [rewrite map_length; lia|]. split; [apply div_rows_wf; [lia|exact WM]|]. split; [exact Lge|]. split; [split; [reflexivity|intros ? []]|reflexivity].
    - split; [unfold d', data_ok; cbn [D_g D_Ae D_ce D_Ai D_ci]; split; [lia|split; [exact WM|split; [exact Lc|split; [split; [reflexivity|intros ? []]|reflexivity]]]]|].
      split; [intros j _; symmetry; apply div_nth, Pf|]. split; [intros i Hi; cbn [d d' D_ce]; rewrite Vge by exact Hi; specialize (Dl i Hi); field; lra|]. split; [intros i Hi; lia|].
      split; [intros i j Hi; eapply (div_rows_ent k n); [lia|exact WM|exact Hi|exact Pde]|intros i j Hi; lia]. }
  cbn [d' D_g D_Ae D_ce] in K. rewrite K. unfold within_eq. cbn [d D_g D_Ae D_ce].
  assert (R1 : forall j, (j < n)%nat -> (map (fun v => v / f) g).[j] - sumn k (fun i => ent (div_rows de M) i j * (de.[i] * mu.[i] / f)) = residual y mu j / f).
  { intros j Lj. rewrite (nth_map_lt _ g j 0 0) by lia. rewrite Vg by exact Lj. rewrite (sumn_ext k _ (fun i => / f * (A i j * mu.[i]))).
    - rewrite sumn_scal. unfold residual, pull, at_. field. lra.
    - intros i Li. rewrite <- (VM i j Li Lj). rewrite (div_rows_ent k n de M i j) by (try assumption; lia). field. lra. }
  split; intros [H1 H2]; split.
  - intros j Lj. specialize (H1 j Lj). rewrite R1 in H1 by exact Lj. unfold Rdiv in H1. rewrite Rabs_mult, (Rabs_right (/ f)) in H1 by (apply Rle_ge, Rlt_le, Rinv_0_lt_compat, Pf).
    apply Rmult_le_reg_r with (/ f); [apply Rinv_0_lt_compat, Pf|]. match goal with |- _ <= ?rr * / f => replace (rr * / f) with (t * excuse (sumn k (fun i => Rabs (de.[i] * mu.[i] / f))) k) by (field; lra) end. exact H1.
  - intros l Ll. specialize (H2 l Ll). rewrite Vge in H2 by exact Ll. rewrite <- Vc by exact Ll. specialize (Dl l Ll). unfold Rdiv in H2. rewrite Rabs_mult, (Rabs_right (/ _)) in H2 by (apply Rle_ge, Rlt_le, Rinv_0_lt_compat, Dl).
    apply Rmult_le_reg_r with (/ de.[l]); [apply Rinv_0_lt_compat, Dl|]. replace (de.[l] * t * / de.[l]) with t by (field; lra). exact H2.
  - intros j Lj. specialize (H1 j Lj). rewrite R1 by exact Lj. unfold Rdiv at 1. rewrite Rabs_mult, (Rabs_right (/ f)) by (apply Rle_ge, Rlt_le, Rinv_0_lt_compat, Pf).
    apply Rmult_le_reg_l with f; [exact Pf|]. replace (f * (Rabs (residual y mu j) * / f)) with (Rabs (residual y mu j)) by (field; lra). exact H1.
  - intros l Ll. specialize (H2 l Ll). rewrite Vge by exact Ll. rewrite <- Vc in H2 by exact Ll. specialize (Dl l Ll). unfold Rdiv. rewrite Rabs_mult, (Rabs_right (/ _)) by (apply Rle_ge, Rlt_le, Rinv_0_lt_compat, Dl).
    apply Rmult_le_reg_l with de.[l]; [exact Dl|]. replace (de.[l] * (Rabs ce.[l] * / de.[l])) with (Rabs ce.[l]) by (field; lra). exact H2.
Qed.
Lemma err_zero y mu : length y = n -> length mu = k -> (forall j, (j < n)%nat -> residual y mu j = 0) -> (forall l, (l < k)%nat -> con n A e (at_ y) l = 0) -> s_ltb Xn (Fin t) (err y mu) = false.
Proof.
  intros L Lm R0 C0. apply err_iff; [exact L|exact Lm|]. split.
  - intros j Lj. rewrite R0, Rabs_R0 by exact Lj. apply Rmult_le_pos; [lra|]. apply Rmult_le_pos; [lra|]. unfold excuse. pose proof (Rmax_l 100 (sumn k (fun i => Rabs (de.[i] * mu.[i] / f)) / INR k)). lra.
  - intros l Ll. rewrite C0, Rabs_R0 by exact Ll. apply Rmult_le_pos; [|lra]. apply Rlt_le, Pde, nth_In. lia.
Qed.
(** The constraints are never reported infeasible. *)
Lemma never_infeasible y : length y = n -> eq_infeasible (S := Xn) n (sp_Ae P (fv y)) (sp_ce P (fv y)) = false.
Proof.
  intros L. destruct (HA y L) as (M & -> & WM & VM). destruct (Hc y L) as (ce & -> & Lc & Vc). unfold eq_infeasible. rewrite mtvec_f, !norm2_f.
  destruct (mtvec_spec k n M ce WM Lc) as [Lm Vm]. rewrite !norm2_R. rewrite Lc. replace (@length (car (nbase Rn)) (mtvec (S := Rn) n M ce)) with n by (symmetry; exact Lm).
  assert (B : 1 / 10000 * (1 / 10000) * norm_sq k (fun l => ce.[l]) <= norm_sq n (pull k A (fun l => ce.[l]))) by (apply (pull_large n k Q A); [lra|exact De|exact Ind]).
  set (T := sumn n (fun i => (mtvec (S := Rn) n M ce : list R).[i] * (mtvec (S := Rn) n M ce : list R).[i])). set (W := sumn k (fun i => ce.[i] * ce.[i])).
  assert (ET : norm_sq n (pull k A (fun l => ce.[l])) = T). { apply sumn_ext. intros j Lj. rewrite !Vm. unfold pull. rewrite (sumn_ext k (fun l => A l j * ce.[l]) (fun i => ent M i j * ce.[i])); [reflexivity|]. intros i Li. rewrite VM by assumption. reflexivity. }
  rewrite ET in B. change (norm_sq k (fun l => ce.[l])) with W in B. assert (W0 : 0 <= W) by (apply sumn_nonneg; intros; apply Rle_0_sqr). assert (T0 : 0 <= T) by (apply sumn_nonneg; intros; apply Rle_0_sqr).
  assert (Sq : 1 / 10000 * sqrt W <= sqrt T).
  { replace (1 / 10000) with (sqrt (1 / 10000 * (1 / 10000))) by (apply sqrt_square; lra). rewrite <- sqrt_mult by lra. apply sqrt_le_1; lra. }
  assert (Ab : forall a b1 b2 : bool, (b2 = true -> b1 = false) -> a && b1 && b2 = false) by (intros [|] [|] [|] H; cbn; auto). apply Ab. intros E2.
  rewrite q_lit in E2 |- *. change (R_ltb (Q2R (Qred (inject_Z 1 / inject_Z 100))) (sqrt W) = true) in E2. apply R_ltb_true in E2.
  assert (Lm2 : @length R (mtvec (S := Rn) n M ce) = n) by exact Lm. rewrite Lm2.
  change (R_ltb (sqrt T) (Q2R (Qred (inject_Z 1 / inject_Z 1000000))) = false). apply R_ltb_false.
  replace (Q2R (Qred (inject_Z 1 / inject_Z 100))) with (1 / 100) in E2 by (cbn; unfold Q2R; cbn; lra).
  replace (Q2R (Qred (inject_Z 1 / inject_Z 1000000))) with (1 / 1000000) by (cbn; unfold Q2R; cbn; lra). lra.
Qed.

Definition fair (y : list R) : Prop := (forall l, (l < k)%nat -> con n A e (at_ y) l = 0) \/ 1 / 10000 < sumn k (fun l => Rabs (con n A e (at_ y) l)).
Lemma fv_firstn m (v : list R) : firstn m (fv v) = fv (firstn m v). Proof. unfold fv. apply firstn_map. Qed.
Lemma fv_skipn m (v : list R) : skipn m (fv v) = fv (skipn m v). Proof. unfold fv. apply skipn_map. Qed.
Lemma smax1 (v : R) : smax (S := Xn) (s_ofZ Xn 1) (Fin v) = Fin (Rmax 1 v).
Proof. change (s_ofZ Xn 1) with (Fin 1). rewrite smax_f, smax_R. reflexivity. Qed.
Lemma nth_repeat_0 m l : nth l (repeat 0 m) 0 = 0.
Proof. revert l. induction m as [|m IH]; intros [|l]; cbn; auto. Qed.
Lemma vneg_len (v : list R) : @length R (map Ropp v) = length v. Proof. apply map_length. Qed.

Lemma sqp_moves y mu cnt fuel st : length y = n -> length mu = k -> fair y -> (0 < fuel)%nat ->
  s_x E st = fv y -> s_y E st = fv mu -> s_f E st = sp_f P (fv y) -> s_g E st = sp_g P (fv y) -> s_H E st = sp_H P (fv y) (fv mu) -> s_ce E st = sp_ce P (fv y) -> s_Ae E st = sp_Ae P (fv y) ->
  s_flt (U := U) E st = filter_new (S := Xn) (norm1 (S := Xn) (sp_ce P (fv y))) -> s_ls E st = ls_new (e_lin E) n k false ->
  exists ls, ls_compute (e_lin E) (s_ls E st) (mkKkt (S := Xn) (s_H E st) (s_Ae E st)) = (ls, true) /\
  let d := sqp_dir E ls (length (s_x E st)) (sqp_rhs E P st) in
  exists y' mu' flt', length y' = n /\ length mu' = k /\ (forall j, (j < n)%nat -> residual y' mu' j = 0) /\ (forall l, (l < k)%nat -> con n A e (at_ y') l = 0) /\
    sqp_search E P fuel (sqp_ctx E P st ls d) d (s_ofZ Xn 1) (s_flt E st) cnt =
      Ok (mkSF (S := Xn) (Some (mkST (S := Xn) (fv y') (fv mu') (sp_f P (fv y')) (sp_ce P (fv y')))) (s_ofZ Xn 1) flt' cnt).
Proof.
  intros L Lm Fa Hfu Ex' Ey' Ef' Eg' EH' Ec' EA' Efl Els. rewrite Els, EH', EA'.
  destruct (Hg y L) as (g & Eg & Lg & Vg). destruct (HH y mu L Lm) as (H & EH & LH & WH & VH). destruct (HA y L) as (M & EM & WM & VM). destruct (Hc y L) as (ce & Ec & Lc & Vc).
  destruct (mtvec_spec k n M mu WM Lm) as [Lt Vt].
  pose (top := (vadd (S := Rn) (map Ropp g) (mtvec (S := Rn) n M mu) : list R)). assert (Ltop : length top = n).
  { unfold top, vadd. rewrite (vmap2_length_R Rplus), vneg_len. assert (Lm2 : @length R (mtvec (S := Rn) n M mu) = n) by exact Lt. rewrite Lm2. lia. }
  assert (Vtop : forall i, (i < n)%nat -> top.[i] = - slope n Q b (at_ y) i + pull k A (at_ mu) i).
  { intros i Li. unfold top. rewrite vadd_nth by (rewrite vneg_len; rewrite Lg; symmetry; exact Lt). rewrite Vt. rewrite (nth_map_lt Ropp g i 0 0) by lia. rewrite Vg by exact Li. f_equal. unfold pull, at_. apply sumn_ext. intros l Ll. rewrite VM by assumption. reflexivity. }
  pose (rhs := top ++ map Ropp ce). assert (Lr : length rhs = (n + k)%nat) by (unfold rhs; rewrite app_length, vneg_len; lia).
  assert (Er : sqp_rhs E P st = fv rhs).
  { unfold sqp_rhs. rewrite Eg', EA', Ey', Ec', Eg, EM, Ec, En, mtvec_f, !vneg_f, vadd_f. unfold rhs, fv. rewrite map_app. reflexivity. }
  destruct (Ex H M rhs LH WH (proj1 WM) (proj2 WM) Lr) as (ls & p & Ecm & Eso & Lp & R1 & R2).
  { intros v. eapply Rle_trans; [apply De|]. apply Req_le. apply sumn_ext. intros i Li. apply sumn_ext. intros j Lj. rewrite VH by assumption. reflexivity. }
  { intros w. destruct (Ind w) as (v & Hv). exists v. eapply Rle_trans; [|exact Hv]. apply Req_le. f_equal.
    - apply sumn_ext. intros i Li. apply sumn_ext. intros j Lj. rewrite VH by assumption. reflexivity.
    - f_equal. apply sumn_ext. intros l Ll. f_equal. apply sumn_ext. intros j Lj. rewrite VM by assumption. reflexivity. }
  exists ls. split; [rewrite EH, EM; exact Ecm|]. cbv zeta.
  pose (px := firstn n p). pose (q := skipn n p). assert (Lpx : length px = n) by (unfold px; rewrite firstn_length; lia). assert (Lq : length q = k) by (unfold q; rewrite skipn_length; lia).
  assert (Vpx : forall j, (j < n)%nat -> px.[j] = p.[j]). { intros j Lj. unfold px. rewrite <- (firstn_skipn n p) at 2. rewrite app_nth1 by (rewrite firstn_length; lia). reflexivity. }
  assert (Vq : forall l, q.[l] = p.[n + l]). { intros l. unfold q. rewrite <- (firstn_skipn n p) at 2. rewrite app_nth2 by (rewrite firstn_length; lia). rewrite firstn_length. f_equal. lia. }
  assert (Ed : sqp_dir E ls (length (s_x E st)) (sqp_rhs E P st) = (fv px, fv (map Ropp q))).
  { unfold sqp_dir. rewrite Er, Ex'. cbv zeta. rewrite fv_len, L. replace (ls_solve (e_lin E) ls (fv rhs)) with (fv p) by (symmetry; exact Eso). rewrite fv_firstn, fv_skipn. rewrite vneg_f. reflexivity. }
  rewrite Ed. destruct fuel as [|fuel]; [lia|]. cbn [sqp_search].
  pose (y' := (vadd (S := Rn) y (vscale (S := Rn) 1 px) : list R)). pose (mu' := (vadd (S := Rn) mu (vscale (S := Rn) 1 (map Ropp q)) : list R)).
  assert (Ly' : length y' = n). { unfold y', vadd. rewrite (vmap2_length_R Rplus), vscale_len. lia. }
  assert (Lmu' : length mu' = k). { unfold mu', vadd. rewrite (vmap2_length_R Rplus), vscale_len, vneg_len. lia. }
  assert (Ny : forall i, (i < n)%nat -> y'.[i] = y.[i] + p.[i]). { intros i Li. unfold y'. rewrite vadd_nth by (rewrite vscale_len; lia). rewrite vscale_nth, Vpx by exact Li. lra. }
  assert (Nm : forall l, (l < k)%nat -> mu'.[l] = mu.[l] - p.[n + l]). { intros l Ll. unfold mu'. rewrite vadd_nth by (rewrite vscale_len, vneg_len; lia). rewrite vscale_nth, (nth_map_lt Ropp q l 0 0), Vq by lia. lra. }
  assert (Vh : forall i, (i < n)%nat -> sumn n (fun j => Q i j * p.[j]) + sumn k (fun l => A l i * p.[n + l]) = - slope n Q b (at_ y) i + pull k A (at_ mu) i).
  { intros i Li. rewrite <- Vtop by exact Li. specialize (R1 i Li). unfold rhs in R1. rewrite app_nth1 in R1 by lia. rewrite <- R1. f_equal; apply sumn_ext; intros j Lj; [rewrite VH by assumption|rewrite VM by assumption]; reflexivity. }
  assert (Va : forall l, (l < k)%nat -> sumn n (fun j => A l j * p.[j]) = - con n A e (at_ y) l).
  { intros l Ll. specialize (R2 l Ll). unfold rhs in R2. rewrite app_nth2 in R2 by lia. rewrite Ltop in R2. replace (n + l - n)%nat with l in R2 by lia. rewrite (nth_map_lt Ropp ce l 0 0) in R2 by lia. rewrite Vc in R2 by exact Ll. rewrite <- R2. apply sumn_ext. intros j Lj. rewrite VM by assumption. reflexivity. }
  assert (Rz : forall j, (j < n)%nat -> residual y' mu' j = 0).
  { intros i Li. unfold residual. rewrite (slope_ext n Q b (at_ y') (fun j => y.[j] + p.[j])) by (intros; apply Ny; assumption). rewrite (slope_add n Q b (fun j => y.[j]) (fun j => p.[j])).
    assert (Pm : pull k A (at_ mu') i = pull k A (at_ mu) i - sumn k (fun l => A l i * p.[n + l])).
    { unfold pull, at_. rewrite <- sumn_minus. apply sumn_ext. intros l Ll. rewrite Nm by exact Ll. ring. }
    rewrite Pm. specialize (Vh i Li). unfold at_ in *. lra. }
  assert (Cz : forall l, (l < k)%nat -> con n A e (at_ y') l = 0).
  { intros l Ll. rewrite (con_ext n A e (at_ y') (fun j => y.[j] + p.[j])) by (intros; apply Ny; assumption). rewrite (con_add n A e (fun j => y.[j]) (fun j => p.[j])), Va by exact Ll. unfold at_. lra. }
  assert (Etr : sqp_trial P (sx_x E (sqp_ctx E P st ls (fv px, fv (map Ropp q)))) (sx_y E (sqp_ctx E P st ls (fv px, fv (map Ropp q)))) (s_ofZ Xn 1) (fv px, fv (map Ropp q)) = mkST (S := Xn) (fv y') (fv mu') (sp_f P (fv y')) (sp_ce P (fv y'))).
  { unfold sqp_trial, sqp_ctx. cbn [sx_x sx_y fst snd]. rewrite Ex', Ey'. unfold vstep. change (s_ofZ Xn 1) with (Fin 1). rewrite !vscale_f, !vadd_f. reflexivity. }
  rewrite Etr. cbn [st_f st_ce]. destruct (Hc y' Ly') as (ce' & Ec2 & Lc' & Vc').
  assert (Ez : norm1 (S := Xn) (sp_ce P (fv y')) = Fin 0). { rewrite Ec2, norm1_f. f_equal. rewrite norm1_R, Lc'. apply sumn_0. intros l Ll. rewrite Vc', Cz by exact Ll. apply Rabs_R0. }
  rewrite (Hf y' Ly'). change (s_finite Xn (Fin (quad n Q b c (at_ y')))) with true. cbn [negb orb]. rewrite Ec2, fv_fin. cbn [negb].
  unfold sqp_ctx at 1 2. cbn [sx_cur sx_d]. unfold st_entry, fe_sqp. cbn [st_f st_ce]. rewrite <- Ec2, Ez. rewrite Ef', Ec', Eg', (Hf y L), Eg. cbn [fst]. rewrite vdot_f, Efl.
  set (th := norm1 (S := Xn) (sp_ce P (fv y))). assert (Eth : th = Fin (sumn k (fun l => Rabs (con n A e (at_ y) l)))).
  { unfold th. rewrite Ec, norm1_f. f_equal. rewrite norm1_R, Lc. apply sumn_ext. intros l Ll. rewrite Vc by exact Ll. reflexivity. }
  set (v := sumn k (fun l => Rabs (con n A e (at_ y) l))) in *. assert (V0 : 0 <= v) by (apply sumn_nonneg; intros; apply Rabs_pos). rewrite Eth.
  set (G := vdot (S := Rn) g px).
  match goal with |- context [try_add ?F ?C ?T ?D ?A] => destruct (add_ok_viol F C T D A) as (flt' & Ea) end.
  - reflexivity.
  - unfold filter_new. cbn [f_max fe_viol]. rewrite smax1. change (R_ltb (IZR 10000 * Rmax 1 v) 0 = false). apply R_ltb_false. pose proof (Rmax_l 1 v). lra.
  - reflexivity.
  - cbn [fe_viol]. unfold filter_new. cbn [f_min]. intros Hle. rewrite smax1, q_lit in Hle. change (s_leb Xn (Fin v) (Fin (Q2R (Qred (inject_Z 1 / inject_Z 10000)) * Rmax 1 v)) = true) in Hle. rewrite xleb in Hle.
    replace (Q2R (Qred (inject_Z 1 / inject_Z 10000))) with (1 / 10000)%R in Hle by (cbn; unfold Q2R; cbn; lra).
    assert (C0 : forall l, (l < k)%nat -> con n A e (at_ y) l = 0).
    { destruct Fa as [Fa|Fa]; [exact Fa|]. exfalso. change (1 / 10000 < v) in Fa. unfold Rmax in Hle. destruct (Rle_dec 1 v); lra. }
    assert (Dv : G = sumn n (fun i => slope n Q b (at_ y) i * p.[i])).
    { unfold G. rewrite (vdot_R g px) by lia. rewrite Lg. apply sumn_ext. intros i Li. rewrite Vg, Vpx by exact Li. reflexivity. }
    assert (Fp : form n Q (fun j => p.[j]) = - G).
    { assert (F1 : form n Q (fun j => p.[j]) = sumn n (fun i => p.[i] * (- slope n Q b (at_ y) i + pull k A (fun l => mu.[l] - p.[n + l]) i))).
      { unfold form. apply sumn_ext. intros i Li. rewrite (sumn_ext n _ (fun j => p.[i] * (Q i j * p.[j]))) by (intros; ring). rewrite sumn_scal. f_equal. specialize (Vh i Li).
        assert (Pm : pull k A (fun l => mu.[l] - p.[n + l]) i = pull k A (at_ mu) i - sumn k (fun l => A l i * p.[n + l])).
        { unfold pull, at_. rewrite <- sumn_minus. apply sumn_ext. intros l Ll. ring. }
        rewrite Pm. lra. }
      rewrite F1, Dv. rewrite (sumn_ext n _ (fun i => - (slope n Q b (at_ y) i * p.[i]) + pull k A (fun l => mu.[l] - p.[n + l]) i * p.[i])) by (intros; ring).
      rewrite sumn_plus. rewrite (pull_dot n k A (fun l => mu.[l] - p.[n + l]) (fun j => p.[j])). rewrite (sumn_0 k _) by (intros l Ll; rewrite Va, C0 by exact Ll; ring). rewrite (sumn_ext n _ (fun i => -1 * (slope n Q b (at_ y) i * p.[i]))) by (intros; ring). rewrite sumn_scal. lra. }
    assert (NG : G <= 0). { specialize (De (fun j => p.[j])). assert (0 <= norm_sq n (fun i => p.[i])) by (apply sumn_nonneg; intros; apply Rle_0_sqr). rewrite Fp in De. lra. }
    assert (Vq' : quad n Q b c (at_ y') = quad n Q b c (at_ y) + 1 / 2 * G).
    { rewrite (quad_ext n Q b c _ (fun j => y.[j] + p.[j])) by (intros; apply Ny; assumption). rewrite (quad_add n Q b c Sy (fun j => y.[j]) (fun j => p.[j])), Fp. rewrite Dv. unfold at_. lra. }
    unfold armijo. cbn [fe_cost]. rewrite q_lit. cbn -[Qred Rle_dec Rmult Rplus].
    replace (Q2R (Qred (inject_Z 1 / inject_Z 100000000))) with (1 / 100000000)%R by (cbn; unfold Q2R; cbn; lra).
    apply xleb. rewrite Vq'. lra.
  - unfold sufficient. apply orb_true_intro. right. unfold margin. cbn [fe_viol].
    assert (Ep : s_pow Xn (s_ofZ Xn 1) (lit 15 1) = Fin 1) by apply one_pow. rewrite Ep. unfold g_constraint. rewrite q_lit. cbn -[Qred Rle_dec Rmult Rplus].
    replace (Q2R (Qred (inject_Z 1 / inject_Z 100000))) with (1 / 100000)%R by (cbn; unfold Q2R; cbn; lra).
    apply xleb. nra.
  - exists y', mu', flt'. split; [exact Ly'|]. split; [exact Lmu'|]. split; [exact Rz|]. split; [exact Cz|]. rewrite Ea. rewrite (Hf y' Ly'). reflexivity.
Qed.

Lemma vec_ok (v : list R) : vec_dim (S := Xn) (length v) (fv v) = true. Proof. unfold vec_dim. rewrite fv_len. apply Nat.eqb_refl. Qed.
Lemma sqp_quad fuel y0 u clk : length y0 = n -> mat_dims (S := Xn) n n (sp_H P (fv y0) (fv (repeat 0 k))) = true -> mat_dims (S := Xn) k n (sp_Ae P (fv y0)) = true -> fair y0 ->
  match sqp (U := U) E P o cbs restore fuel (fv y0) u clk with
  | OutOfFuel => (fuel < 2)%nat
  | Ok (st, fin) => exists y mu, s_x E fin = fv y /\ s_y E fin = fv mu /\ length y = n /\ length mu = k /\
    ((st = SUCCESS /\ y = y0 /\ s_u E fin = u /\ (forall j, (j < n)%nat -> Rabs (slope n Q b (at_ y0) j) <= f * t) /\ (forall l, (l < k)%nat -> Rabs (con n A e (at_ y0) l) <= de.[l] * t)) \/
     (st = DIVERGING_ITERATES /\ y = y0 /\ s_u E fin = u /\ exists i, (i < n)%nat /\ 10000000000 < Rabs y0.[i]) \/
     exists i, s_u E fin = fst (run_callbacks cbs i u) /\
       ((st = CALLBACK_REQUESTED_STOP /\ y = y0 /\ snd (run_callbacks cbs i u) = true) \/
        ((forall j, (j < n)%nat -> residual y mu j = 0) /\ (forall l, (l < k)%nat -> con n A e (at_ y) l = 0) /\ snd (run_callbacks cbs i u) = false /\
         (st = SUCCESS \/ (st = MAX_ITERATIONS_EXCEEDED /\ (o_max o <= 1)%Z) \/ (st = TIMEOUT /\ s_ltb Xn (o_timeout o) (s_sub Xn (e_clock E (S clk)) (e_clock E clk)) = true)))))
  | _ => False
  end.
Proof.
  intros L Md Ma Fa. pose (mu0 := repeat 0 k). assert (Lm : length mu0 = k) by apply repeat_length.
  destruct (Hg y0 L) as (g & Eg & Lg & _). destruct (HH y0 mu0 L Lm) as (H & EH & _). destruct (HA y0 L) as (M & EM & _). destruct (Hc y0 L) as (ce & Ec & Lc & _).
  assert (Ez : repeat (s_ofZ Xn 0) (sp_me P) = fv mu0). { rewrite Ek. unfold mu0, fv. clear. induction k as [|q IH]; [reflexivity|]. cbn [repeat map]. f_equal. exact IH. }
  unfold sqp, sqp_from. rewrite Ez. cbn [sqp_init s_g s_H s_f s_ce s_Ae]. rewrite En, Ek. fold mu0 in Md. rewrite Md, Ma, (Hf y0 L), Eg, EH, EM, Ec, !fv_fin, !fm_fin.
  replace (vec_dim (S := Xn) n (fv g)) with true by (symmetry; rewrite <- Lg; apply vec_ok). replace (vec_dim (S := Xn) k (fv ce)) with true by (symmetry; rewrite <- Lc; apply vec_ok). cbn [andb orb negb oassert].
  replace (Nat.ltb n k) with false by (symmetry; apply Nat.ltb_ge; exact Kn).
  change (s_finite Xn (Fin (quad n Q b c (at_ y0)))) with true. cbn [negb orb].
  destruct fuel as [|fuel]; [cbn; lia|]. cbn [drive sqp_init s_E]. rewrite Ht, En. change (unscaled_sqp (S := Xn) (sp_sc P) n (sp_g P (fv y0)) (sp_Ae P (fv y0)) (sp_ce P (fv y0)) (fv mu0)) with (err y0 mu0).
  destruct (s_ltb Xn (Fin t) (err y0 mu0)) eqn:Et.
  2: { cbv beta iota. exists y0, mu0. split; [reflexivity|]. split; [reflexivity|]. split; [exact L|]. split; [exact Lm|]. left. split; [reflexivity|]. split; [reflexivity|]. split; [reflexivity|]. apply err_iff in Et; [|exact L|exact Lm]. destruct Et as [E1 E2]. split; [|exact E2]. intros j Lj. specialize (E1 j Lj).
    assert (Zm : forall l, mu0.[l] = 0) by (intros l; unfold mu0; apply nth_repeat_0). unfold residual in E1. replace (pull k A (at_ mu0) j) with 0 in E1 by (symmetry; unfold pull, at_; apply sumn_0; intros l _; rewrite Zm; ring).
    rewrite (sumn_0 k) in E1 by (intros l _; rewrite Zm; unfold Rdiv; rewrite Rmult_0_r, Rmult_0_l; apply Rabs_R0). unfold excuse in E1. unfold Rdiv at 2 in E1. rewrite Rmult_0_l, Rmax_left in E1 by lra. replace (100 / 100) with 1 in E1 by field. rewrite Rmult_1_r, Rminus_0_r in E1. exact E1. }
  unfold sqp_body at 1. set (st0 := sqp_init E P (fv y0) (fv mu0) u clk). change (s_x E st0) with (fv y0). change (s_Ae E st0) with (sp_Ae P (fv y0)). change (s_ce E st0) with (sp_ce P (fv y0)). change (s_u E st0) with u. rewrite En, (never_infeasible y0 L).
  destruct (diverging (S := Xn) (fv y0)) eqn:Ed.
  { cbv beta iota. exists y0, mu0. split; [reflexivity|]. split; [reflexivity|]. split; [exact L|]. split; [exact Lm|]. right; left. split; [reflexivity|]. split; [reflexivity|]. split; [reflexivity|]. rewrite <- L. apply diverging_big, Ed. }
  set (inf := sqp_info _ _). clearbody inf.
  destruct (run_callbacks cbs inf u) as [u' stop] eqn:Ec'. destruct stop.
  { cbv beta iota. exists y0, mu0. split; [reflexivity|]. split; [reflexivity|]. split; [exact L|]. split; [exact Lm|]. right; right. exists inf. rewrite Ec'. split; [reflexivity|]. left. auto. }
  destruct (sqp_moves y0 mu0 0%Z (S fuel) st0 L Lm Fa) as (ls & Ecm & Esr); try reflexivity; [lia|unfold st0; cbn [sqp_init s_ls]; rewrite ?En, ?Ek; reflexivity|].
  cbv zeta in Esr. destruct Esr as (y & mu & flt & Ly & Lmu & Rz & Cz & Esr). change (s_Ae E st0) with (sp_Ae P (fv y0)) in Ecm. rewrite Ecm. cbn [negb]. change (s_x E st0) with (fv y0) in Esr. change (s_cnt E st0) with 0%Z. rewrite Esr. cbn [obind sf_t sf_a sf_flt st_x st_y st_f st_ce].
  unfold sqp_end. unfold limits. change (s_it E st0) with 0%Z. change (s_clk E st0) with (S clk). destruct (Z.leb_spec (o_max o) (0 + 1)) as [Hm|Hm]; cbv beta iota zeta.
  { cbn [SolverModel.finish]. cbv beta iota. exists y, mu. split; [reflexivity|]. split; [reflexivity|]. split; [exact Ly|]. split; [exact Lmu|]. right; right. exists inf. rewrite Ec'. split; [reflexivity|]. right. split; [exact Rz|]. split; [exact Cz|]. split; [reflexivity|]. right; left. split; [reflexivity|lia]. }
  destruct (s_ltb Xn (o_timeout o) _) eqn:Eto; cbn [SolverModel.finish obind].
  { cbv beta iota. exists y, mu. split; [reflexivity|]. split; [reflexivity|]. split; [exact Ly|]. split; [exact Lmu|]. right; right. exists inf. rewrite Ec'. split; [reflexivity|]. right. split; [exact Rz|]. split; [exact Cz|]. split; [reflexivity|]. right; right. split; reflexivity. }
  destruct fuel as [|fuel]; [cbn; lia|]. cbn [drive s_E]. rewrite En. change (unscaled_sqp (S := Xn) (sp_sc P) n (sp_g P (fv y)) (sp_Ae P (fv y)) (sp_ce P (fv y)) (fv mu)) with (err y mu).
  rewrite (err_zero y mu Ly Lmu Rz Cz).
  cbv beta iota. exists y, mu. split; [reflexivity|]. split; [reflexivity|]. split; [exact Ly|]. split; [exact Lmu|]. right; right. exists inf. rewrite Ec'. split; [reflexivity|]. right. auto.
Qed.
End Run.
