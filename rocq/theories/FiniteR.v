(** Proofs for C87: feasibility restoration, the interior-point method with it, and SQP. *)
From Coq Require Import ZArith Reals List Bool Lra Lia.
From Verif Require Import Base ExprModel ExprReal ExprXR NumModel UtilModel KktModel FilterModel FilterProofs ExitModel SolverModel SolverSpec SolverProofs
  NewtonModel NewtonProofs SqpModel SqpSpec SqpProofs IpmModel IpmShape IpmSpec IpmProofs RestoreModel RestoreProofs XArith PosX PosProofs FiniteSpec FiniteI.
Import ListNotations.
Local Open Scope R_scope.

Lemma f_diag n d : vfin d -> mfin (diag_in (S := Xn) n d).
Proof.
  intros H. unfold diag_in, mfin. rewrite List.Forall_map. apply List.Forall_forall. intros i _.
  destruct (Nat.ltb _ _); [apply unit_row_fin, f_nth, H|apply repeat_Forall; reflexivity].
Qed.
Lemma f_zeros r c : mfin (zeros (S := Xn) r c).
Proof. unfold zeros. apply List.Forall_forall. intros v I. apply repeat_spec in I. subst v. apply repeat_Forall. reflexivity. Qed.
Lemma f_D x : vfin x -> vfin (fr_D (S := Xn) x).
Proof.
  intros H. unfold vfin, fr_D. rewrite List.Forall_map. eapply List.Forall_impl; [|exact H]. intros v F. apply fin_Fin in F. destruct F as [r ->].
  change (s_mul Xn (Fin r) (Fin r)) with (Fin (r * r)). change (s_ofZ Xn 1) with (Fin 1). unfold smin. destruct (Req_dec (r * r) 0) as [Z|N].
  - rewrite Z. assert (Q : s_div Xn (Fin 1) (Fin 0) = PInf). { cbn. destruct (Req_EM_T 0 0); [|contradiction]. destruct (Rlt_dec 0 1); [|lra]. try reflexivity; destruct (Req_EM_T 1 0); try lra; reflexivity. }
    rewrite Q. reflexivity.
  - rewrite xdiv by exact N. rewrite xltb. destruct (R_ltb _ _); reflexivity.
Qed.
Lemma f_rows (Q : list XR -> Prop) (f : nat -> list XR -> list XR) m (A : list (list XR)) : mfin A -> (forall i r, vfin r -> vfin (f i r)) -> mfin (map (fun p => f (fst p) (snd p)) (combine (seq 0 m) A)).
Proof.
  intros HA Hf. unfold mfin. rewrite List.Forall_map. apply List.Forall_forall. intros [i r] I. cbn [fst snd]. apply Hf. apply in_combine_r in I.
  unfold mfin in HA. rewrite List.Forall_forall in HA. auto.
Qed.
Lemma f_app a b : vfin a -> vfin b -> vfin (a ++ b). Proof. intros. apply List.Forall_app. auto. Qed.
Lemma f_seg v a k : vfin v -> vfin (segment (S := Xn) v a k). Proof. apply segment_fin. Qed.
Lemma f_cost n k xr D zeta xp : vfin xr -> vfin D -> fin zeta -> vfin xp -> fin (fr_cost (S := Xn) n k xr D zeta xp).
Proof.
  intros Hr HD Hz Hx. unfold fr_cost. cbv zeta. assert (Q : vfin (vsub (S := Xn) (segment (S := Xn) xp 0 n) xr)) by (apply f_sub; [apply f_seg, Hx|exact Hr]).
  apply fin_add_r; [apply fin_mul_r; [reflexivity|apply vsum_Fin, f_seg, Hx]|]. apply vdot_fin; [|exact Q]. apply f_mul; [|exact HD]. apply f_scale; [|exact Q].
  apply fin_Fin in Hz. destruct Hz as [c ->]. change (s_ofZ Xn 2) with (Fin 2). rewrite xdiv by lra. reflexivity.
Qed.
Lemma f_grad n k xr D zeta xp : vfin xr -> vfin D -> fin zeta -> vfin xp -> vfin (fr_grad (S := Xn) n k xr D zeta xp).
Proof. intros Hr HD Hz Hx. unfold fr_grad. apply f_app; [apply f_mul; [apply f_scale; auto|apply f_sub; [apply f_seg, Hx|exact Hr]]|]. apply repeat_Forall. reflexivity. Qed.
Lemma f_ce n me (ce : list XR -> list XR) xp : vfin (ce (segment (S := Xn) xp 0 n)) -> vfin xp -> vfin (fr_ce (S := Xn) n me ce xp).
Proof. intros H Hx. unfold fr_ce. apply f_add; [apply f_sub; [exact H|]|]; apply f_seg, Hx. Qed.
Lemma f_Ae n me k (Ae : list XR -> list (list XR)) xp : mfin (Ae (segment (S := Xn) xp 0 n)) -> mfin (fr_Ae (S := Xn) n me k Ae xp).
Proof.
  intros H. unfold fr_Ae. apply (f_rows (fun _ => True) (fun i r => r ++ unit_row (S := Xn) me i (s_opp Xn (s_ofZ Xn 1)) ++ unit_row (S := Xn) me i (s_ofZ Xn 1) ++ repeat (s_ofZ Xn 0) k)); [exact H|].
  intros i r Hr. apply f_app; [exact Hr|]. apply f_app; [apply unit_row_fin; reflexivity|]. apply f_app; [apply unit_row_fin; reflexivity|apply repeat_Forall; reflexivity].
Qed.

Lemma fr_ipm_fin (P : iprob Xn) xr zeta : fin_ipm P -> length xr = ip_n P -> vfin xr -> fin zeta -> fin_ipm (fr_ipm_prob P xr zeta).
Proof.
  intros H Lr Hr Hz xp L F.
  assert (Iq : ineq_fin P). { intros x Lx Fx. destruct (H x Lx Fx) as (_ & _ & _ & _ & A & B & _). split; [apply all_fin_Forall, A|apply mat_fin_Forall, B]. }
  pose proof (fr_ineq_fin P xr zeta Iq xp L F) as [I1 I2]. apply all_fin_Forall in I1. apply mat_fin_Forall in I2.
  assert (Ls : length (segment (S := Xn) xp 0 (ip_n P)) = ip_n P) by (apply (segment_len (S := Xn)); cbn [fr_ipm_prob ip_n] in L; cbn in L |- *; lia).
  destruct (H _ Ls (f_seg _ _ _ F)) as (_ & _ & H3 & H4 & _). pose proof (f_D xr Hr) as HD.
  split; [apply f_cost; auto|]. split; [apply f_grad; auto|]. split; [apply f_ce; auto|]. split; [apply f_Ae; auto|]. split; [exact I1|]. split; [exact I2|].
  intros y z _ _ _ _. apply f_madd; [apply f_diag, f_scale; auto|apply f_zeros].
Qed.
Lemma fr_sqp_fin (P : sprob Xn) xr zeta : fin_sqp P -> length xr = sp_n P -> vfin xr -> fin zeta -> fin_ipm (fr_sqp_prob P xr zeta).
Proof.
  intros H Lr Hr Hz xp L F. pose proof (fr_sqp_ineq_fin P xr zeta xp L F) as [I1 I2]. apply all_fin_Forall in I1. apply mat_fin_Forall in I2.
  assert (Ls : length (segment (S := Xn) xp 0 (sp_n P)) = sp_n P) by (apply (segment_len (S := Xn)); cbn [fr_sqp_prob ip_n] in L; cbn in L |- *; lia).
  destruct (H _ Ls (f_seg _ _ _ F)) as (_ & _ & H3 & H4 & _). pose proof (f_D xr Hr) as HD.
  split; [apply f_cost; auto|]. split; [apply f_grad; auto|]. split; [apply f_ce; auto|]. split; [apply f_Ae; auto|]. split; [exact I1|]. split; [exact I2|].
  intros y z _ _ _ _. apply f_madd; [apply f_diag, f_scale; auto|apply f_zeros].
Qed.

(** The estimates. *)
Lemma f_mmt A : mfin A -> mfin (mmt (S := Xn) A).
Proof.
  intros H. unfold mmt, mfin. rewrite List.Forall_map. apply List.Forall_forall. intros r I. unfold vfin. rewrite List.Forall_map. apply List.Forall_forall. intros q J.
  unfold mfin in H. rewrite List.Forall_forall in H. apply vdot_fin; apply H; auto.
Qed.
Lemma f_Ahat Ae Ai s : mfin Ae -> mfin Ai -> vfin s -> mfin (A_hat (S := Xn) Ae Ai s).
Proof.
  intros He Hi Hs. unfold A_hat. apply List.Forall_app. split; rewrite List.Forall_map.
  - eapply List.Forall_impl; [|exact He]. intros r Hr. apply f_app; [exact Hr|apply repeat_Forall; reflexivity].
  - apply List.Forall_forall. intros [r [i v]] I. cbn [fst snd]. unfold mfin in Hi. unfold vfin in Hs. rewrite List.Forall_forall in Hi, Hs.
    pose proof (in_combine_l _ _ _ _ I) as I1. pose proof (in_combine_r _ _ _ _ I) as I2. apply in_combine_r in I2. apply f_app; [apply Hi, I1|]. apply unit_row_fin.
    specialize (Hs _ I2). apply fin_Fin in Hs. destruct Hs as [q ->]. reflexivity.
Qed.

Section Solve.
Variables (E : env Xn) (o : options Xn).
Context {U : Type}.
Hypothesis Hl : lin_fin E.
Hypothesis Hs : solve_ok E.
Hypothesis He : est_ok E.
Hypothesis Hef : est_fin E.
Hypothesis Ht : pos (o_tol o).
Variable V : U -> Prop.

Lemma fr_start_fin (P : iprob Xn) x s y z mu frx frs frz frmu : iprob_ok P -> fin_ipm P -> pt_ok P (mkPt x s y z) -> vfin x -> List.Forall pos s -> pos mu ->
  fr_ipm_start (S := Xn) P x s mu = (frx, frs, frz, frmu) -> vfin frx /\ pos frmu.
Proof.
  intros Hp Hf (LX & LS & _) Fx Ps (m & -> & Pm) H. cbn [pt_x pt_s] in *. unfold fr_ipm_start in H. cbv zeta in H.
  destruct (Hf _ LX Fx) as (_ & _ & F1 & _ & F3 & _). assert (F4 : vfin (vsub (S := Xn) (ip_ci P x) s)) by (apply f_sub; [exact F3|apply f_pos, Ps]).
  set (mu' := smax (S := Xn) _ _) in H.
  assert (Em : exists m', mu' = Fin m' /\ 0 < m').
  { unfold mu'. destruct (smax_X m _ (norminf_fin _ F1)) as (m1 & E1 & L1). destruct (smax_X m1 _ (norminf_fin _ F4)) as (m2 & E2 & L2).
    exists m2. split; [|lra]. etransitivity; [|exact E2]. f_equal. exact E1. }
  destruct Em as (m' & Em & Pm'). rewrite Em in *. change (fr_rho (S := Xn)) with (Fin 1000) in *.
  pose proof (compute_p_n_X _ 1000 m' ltac:(lra) Pm' F1) as [K1 K2]. pose proof (compute_p_n_X _ 1000 m' ltac:(lra) Pm' F4) as [K3 K4].
  destruct (compute_p_n _ _ _) as [pe ne] eqn:Q1. destruct (compute_p_n (vsub (S := Xn) _ _) _ _) as [pi ni] eqn:Q2. injection H as <- <- <- <-.
  cbn [fst snd] in *. split; [|apply pos_Fin, Pm']. repeat (apply f_app; [first [exact Fx|apply f_pos; assumption]|]). apply f_pos; assumption.
Qed.

Lemma ipm_restore_fin fuel (P : iprob Xn) : iprob_ok P -> fin_ipm P -> restore_fin P V (ipm_restore (U := U) E o fuel P).
Proof.
  intros Hp Hf cbs x s y z mu it uf clk st q H Pk (Gx & Gs & Gy & Gz) Pm Kp Vu.
  apply ipm_restore_inner in H. destruct H as (frx & frs & frz & frmu & s1 & fin0 & Hst & R & -> & Hx & Hsl & Hit & Huf & Hclk & Hes & Hno).
  pose proof (fr_ipm_start_ok _ _ _ _ _ _ _ _ _ _ Hp Pk Hst (s_sqrt Xn frmu)) as Fk.
  destruct (fr_start_fin _ _ _ _ _ _ _ _ _ _ Hp Hf Pk Gx Gs Pm Hst) as [Ffx Pfm].
  pose proof (fr_ipm_start_pos True _ _ _ _ _ _ _ _ _ _ Hp Pk Gs Pm Hst) as Fp. pose proof Pk as (LX & LS & LY & LZ). cbn [pt_x pt_s pt_y pt_z] in *.
  assert (Hzt : fin (s_sqrt Xn frmu)). { destruct Pfm as (m & -> & ?). rewrite xsqrt by lra. reflexivity. }
  assert (Hok : iprob_ok (fr_ipm_prob P x (s_sqrt Xn frmu))) by (apply fr_ipm_ok; auto).
  assert (Hff : fin_ipm (fr_ipm_prob P x (s_sqrt Xn frmu))) by (apply fr_ipm_fin; auto).
  assert (Pos : s_pos True frs frz). { destruct Fk as (L1 & _). cbn [pt_x] in L1. destruct (Hff _ L1 Ffx) as (_ & _ & A & _ & B & _). apply Fp; apply all_fin_Forall; assumption. }
  pose proof R as R'. apply ipm_meaning in R'; auto; [|discriminate]. destruct R' as (_ & _ & _ & _ & Pc).
  assert (G0 : good frx frs (repeat (s_ofZ Xn 0) (length (ip_ce P x))) frz). { split; [exact Ffx|]. split; [apply Pos|]. split; [apply repeat_Forall; reflexivity|apply Pos; exact I]. }
  apply (ipm_fin E _ o cbs None Hff Hl Hok Hs (fun w => V (fst w))) in R; auto; try discriminate; [|apply pos_Fin; lra].
  destruct R as (R1 & (R2 & R3 & R4 & R5)). rewrite Huf. split; [exact R1|].
  assert (Qx : vfin (ir_x q)) by (rewrite Hx; apply f_seg, R2). assert (Qs : List.Forall pos (ir_s q)) by (rewrite Hsl; apply segment_Forall; exact R3).
  split; [exact Qx|]. split; [exact Qs|].
  destruct s1; try (destruct (Hno ltac:(discriminate)) as [-> ->]; auto; fail).
  specialize (Hes eq_refl). specialize (Pc eq_refl). destruct Pc as (PX & PS & _). cbn [point_of pt_x pt_s fr_ipm_prob ip_n ip_mi] in PX, PS.
  assert (Lx : length (ir_x q) = ip_n P) by (rewrite Hx; refine (eq_trans (segment_len (S := Xn) _ _ _ _) LX); eapply Nat.le_trans; [|apply Nat.eq_le_incl; symmetry; exact PX]; apply (Nat.le_trans _ (ip_n P)); [apply Nat.eq_le_incl; exact LX|lia]).
  destruct (Hf _ Lx Qx) as (_ & H2 & _ & H4 & _ & H6 & _). pose proof Pm as Pm0. destruct Pm as (m & -> & Pm).
  unfold estimate_ipm in Hes. cbv zeta in Hes. set (sol := estimate_raw _ _ _ _ _ _) in Hes.
  assert (Fs : vfin sol).
  { unfold sol, estimate_raw. cbv zeta. assert (FA : mfin (A_hat (S := Xn) (ip_Ae P (ir_x q)) (ip_Ai P (ir_x q)) (ir_s q))) by (apply f_Ahat; auto; apply f_pos, Qs).
    apply Hef; [apply f_mmt, FA|]. apply f_mvec; [exact FA|]. apply f_app; [exact H2|apply repeat_Forall; reflexivity]. }
  apply obind_ok in Hes. destruct Hes as (zz & Cz & Hes). injection Hes as <- <-. split; [apply f_first, Fs|].
  pose proof (clamp_zs_len _ _ _ _ Cz) as [_ Lz].
  match type of Cz with clamp_zs _ ?s0 ?z0 = _ => destruct (clamp_zs_X m Pm s0 z0) as (vs & Ev & Hvs) end; auto.
  { eapply List.Forall_impl; [|exact Qs]. auto. }
  rewrite Ev in Cz. injection Cz as <-. apply Hvs; auto. apply (List.Forall_impl (P := fin)); [|apply f_first, f_skip, Fs]. intros v Fv. unfold num. destruct v; discriminate.
Qed.

Lemma ipm_solve_fin fuel (P : iprob Xn) (cbs : list (callback Xn U)) x (u : U) clk0 st fin : iprob_ok P -> fin_ipm P ->
  pos (sc_f (ip_sc P)) -> length x = ip_n P -> vfin x ->
  (forall i u, shownf i -> V u -> V (fst (run_callbacks cbs i u))) -> V u ->
  ipm_solve E o fuel P cbs x u clk0 = Ok (st, fin) -> V (is_u _ fin) /\ good (is_x _ fin) (is_s _ fin) (is_y _ fin) (is_z _ fin).
Proof.
  intros Hp Hf Hsc Lx Fx Hv Vu H. unfold ipm_solve, ipm in H.
  apply (ipm_fin E P o cbs _ Hf Hl Hp Hs V) in H; auto.
  - intros rst Q. injection Q as <-. apply ipm_restore_ok; auto.
  - intros rst Q. injection Q as <-. apply ipm_restore_fin; auto.
  - unfold pt_ok. cbn [pt_x pt_s pt_y pt_z]. rewrite !repeat_length. auto.
  - split; [exact Fx|]. split; [apply repeat_Forall, pos_Fin; lra|]. split; [apply repeat_Forall; reflexivity|apply repeat_Forall, pos_Fin; lra].
  - destruct Hsc as (f & -> & Pf). rewrite xlit. change (IZR (10 ^ Z.of_nat 1)) with 10. rewrite xmul. apply pos_Fin. lra.
Qed.
End Solve.
