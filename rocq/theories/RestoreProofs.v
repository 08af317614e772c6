(** Feasibility restoration: sizes and outcomes. *)
From Coq Require Import ZArith List Bool Lia.
From Verif Require Import Base ExprModel NumModel UtilModel KktModel FilterModel FilterProofs ExitModel SolverModel SolverSpec SolverProofs
  NewtonModel SqpModel IpmModel IpmShape IpmSpec IpmProofs RestoreModel.
Import ListNotations.

Section Sizes.
Context {S : nops}.
Lemma segment_len (v : list S) a k : a + k <= length v -> length (segment v a k) = k.
Proof. intros H. unfold segment. rewrite firstn_length, skipn_length. lia. Qed.
Lemma fr_D_len (x : list S) n : length x = n -> length (fr_D x) = n.
Proof. intros. unfold fr_D. rewrite map_length. auto. Qed.
Lemma compute_p_n_len (c : list S) rho mu p q : compute_p_n c rho mu = (p, q) -> length p = length c /\ length q = length c.
Proof. unfold compute_p_n. intros H. injection H as <- <-. rewrite !map_length. auto. Qed.
Lemma unit_row_len k i (v : S) : length (unit_row k i v) = k.
Proof. unfold unit_row. rewrite map_length, seq_length. auto. Qed.
Lemma zeros_dims r c : mat_dims r c (zeros (S := S) r c) = true.
Proof.
  apply mat_dims_ok. unfold zeros. split; [apply repeat_length|]. intros w I. apply repeat_spec in I. subst. apply repeat_length.
Qed.
Lemma fr_bounds_dims n k : mat_dims k (n + k) (fr_bounds (S := S) n k) = true.
Proof.
  apply mat_dims_ok. unfold fr_bounds. rewrite map_length, seq_length. split; auto. intros w I. apply in_map_iff in I.
  destruct I as (i & <- & _). rewrite app_length, repeat_length, unit_row_len. auto.
Qed.
Lemma fr_Ae_dims n me k (Ae : list S -> mat (S := S)) xp : mat_dims me n (Ae (segment xp 0 n)) = true ->
  mat_dims me (n + 2 * me + k) (fr_Ae n me k Ae xp) = true.
Proof.
  intros H. apply mat_dims_ok in H. destruct H as [H1 H2]. apply mat_dims_ok. unfold fr_Ae. rewrite map_length, combine_length, seq_length, H1.
  split; [lia|]. intros w I. apply in_map_iff in I. destruct I as ([i r] & <- & I). cbn [fst snd]. apply in_combine_r in I. apply H2 in I.
  rewrite !app_length, !unit_row_len, repeat_length. lia.
Qed.
Lemma fr_Ai_dims n me mi (Ai : list S -> mat (S := S)) xp : mat_dims mi n (Ai (segment xp 0 n)) = true ->
  mat_dims (mi + (2 * me + 2 * mi)) (n + (2 * me + 2 * mi)) (fr_Ai n me mi Ai xp) = true.
Proof.
  intros H. apply mat_dims_ok in H. destruct H as [H1 H2]. pose proof (fr_bounds_dims n (2 * me + 2 * mi)) as B. apply mat_dims_ok in B.
  destruct B as [B1 B2]. apply mat_dims_ok. unfold fr_Ai. rewrite app_length, map_length, combine_length, seq_length, H1, B1.
  split; [lia|]. intros w I. apply in_app_iff in I. destruct I as [I|I]; [|apply B2; exact I].
  apply in_map_iff in I. destruct I as ([i r] & <- & I). cbn [fst snd]. apply in_combine_r in I. apply H2 in I.
  rewrite !app_length, !unit_row_len, repeat_length. lia.
Qed.
Lemma fr_grad_len n k (xr D : list S) zeta xp : length xp = n + k -> length xr = n -> length D = n -> length (fr_grad n k xr D zeta xp) = n + k.
Proof.
  intros L LX LD. unfold fr_grad. rewrite app_length, repeat_length. f_equal. apply vmul_len; [apply vscale_len; auto|].
  apply vsub_len; auto. apply segment_len. lia.
Qed.
Lemma fr_ce_len n me k (ce : list S -> list S) xp : length xp = n + (2 * me + k) -> length (ce (segment xp 0 n)) = me -> length (fr_ce n me ce xp) = me.
Proof. intros L H. unfold fr_ce. apply vadd_len; [apply vsub_len; auto|]; apply segment_len; lia. Qed.
Lemma fr_ci_len n me mi (ci : list S -> list S) xp : length xp = n + (2 * me + 2 * mi) -> length (ci (segment xp 0 n)) = mi ->
  length (fr_ci n me mi ci xp) = mi + (2 * me + 2 * mi).
Proof.
  intros L H. unfold fr_ci. rewrite app_length, (segment_len xp n) by lia. f_equal. apply vadd_len; [apply vsub_len; auto|]; apply segment_len; lia.
Qed.
End Sizes.

Section Restore.
Context {S : nops}.
Variables (E : env S) (o : options S).
Context {U : Type}.

(** Sizes of what the SQP problem functions return. *)
Definition sprob_ok (P : sprob S) : Prop := forall x, length x = sp_n P ->
  length (sp_g P x) = sp_n P /\ length (sp_ce P x) = sp_me P /\ mat_dims (sp_me P) (sp_n P) (sp_Ae P x) = true.
Definition est_ok : Prop := forall A r, length (e_est E A r) = length r.

Lemma fr_ipm_ok (P : iprob S) xr zeta : iprob_ok P -> length xr = ip_n P -> iprob_ok (fr_ipm_prob P xr zeta).
Proof.
  intros Hp Lx xp L. unfold fr_ipm_prob in *. cbn [ip_n ip_me ip_mi ip_g ip_ce ip_ci ip_Ae ip_Ai] in *.
  assert (Ls : length (segment xp 0 (ip_n P)) = ip_n P) by (apply segment_len; lia).
  destruct (Hp _ Ls) as (Hg & Hce & Hci & HAe & HAi).
  split; [apply fr_grad_len; auto; apply fr_D_len; auto|]. split; [eapply fr_ce_len; eauto|]. split; [apply fr_ci_len; auto|].
  split; [|apply fr_Ai_dims; auto]. rewrite Nat.add_assoc. apply fr_Ae_dims; auto.
Qed.
Lemma fr_sqp_ok (P : sprob S) xr zeta : sprob_ok P -> length xr = sp_n P -> iprob_ok (fr_sqp_prob P xr zeta).
Proof.
  intros Hp Lx xp L. unfold fr_sqp_prob in *. cbn [ip_n ip_me ip_mi ip_g ip_ce ip_ci ip_Ae ip_Ai] in *.
  assert (Ls : length (segment xp 0 (sp_n P)) = sp_n P) by (apply segment_len; lia).
  destruct (Hp _ Ls) as (Hg & Hce & HAe).
  split; [apply fr_grad_len; auto; apply fr_D_len; auto|]. split; [eapply fr_ce_len with (k := 0); [lia|auto]|]. split; [apply segment_len; lia|].
  split; [|apply fr_bounds_dims]. replace (sp_n P + 2 * sp_me P) with (sp_n P + 2 * sp_me P + 0) by lia. apply fr_Ae_dims; auto.
Qed.

Lemma fr_status_cases s : fr_status s = SUCCESS \/ fr_status s = LOCALLY_INFEASIBLE \/ fr_status s = FEASIBILITY_RESTORATION_FAILED.
Proof. destruct s; cbn; auto. Qed.
Lemma fr_status_success s : fr_status s = SUCCESS -> s = CALLBACK_REQUESTED_STOP.
Proof. destruct s; cbn; intros; auto; discriminate. Qed.

Lemma fr_ipm_start_ok (P : iprob S) x s y z mu frx frs frz frmu : iprob_ok P -> pt_ok P (mkPt x s y z) -> fr_ipm_start P x s mu = (frx, frs, frz, frmu) -> forall zeta,
  pt_ok (fr_ipm_prob P x zeta) (mkPt frx frs (repeat (s_ofZ S 0) (length (ip_ce P x))) frz).
Proof.
  intros Hp (LX & LS & LY & LZ) H zeta. cbn [pt_x pt_s pt_y pt_z] in *. unfold fr_ipm_start in H. cbv zeta in H.
  destruct (compute_p_n _ _ _) as [pe ne] eqn:Q1. destruct (compute_p_n (vsub _ _) _ _) as [pi ni] eqn:Q2. 
  injection H as <- <- <- <-. apply compute_p_n_len in Q1, Q2. destruct Q1 as [Q1 Q1'], Q2 as [Q2 Q2'].
  destruct (Hp _ LX) as (Hg & Hce & Hci & HAe & HAi). rewrite Hce in *. rewrite (vsub_len _ _ (ip_mi P)) in Q2, Q2' by auto.
  unfold pt_ok. cbn [pt_x pt_s pt_y pt_z fr_ipm_prob ip_n ip_me ip_mi]. rewrite !app_length, !repeat_length.
  repeat rewrite (vscale_len _ _ _ eq_refl). repeat rewrite (vinv_len _ _ eq_refl). lia.
Qed.

Lemma ipm_restore_inner fuel (P : iprob S) cbs x s y z mu it (uf : U * filter S) clk st q : ipm_restore E o fuel P cbs x s y z mu it uf clk = Ok (st, q) ->
  exists frx frs frz frmu s1 fin, fr_ipm_start P x s mu = (frx, frs, frz, frmu) /\
    ipm_from E (fr_ipm_prob P x (s_sqrt S frmu)) o cbs None fuel true frx frs (repeat (s_ofZ S 0) (length (ip_ce P x))) frz frmu it uf clk = Ok (s1, fin) /\
    st = fr_status s1 /\ ir_x q = segment (is_x E fin) 0 (length x) /\ ir_s q = segment (is_s E fin) 0 (length s) /\
    ir_it q = is_it E fin /\ ir_uf q = is_u E fin /\ ir_clk q = is_clk E fin /\
    (s1 = CALLBACK_REQUESTED_STOP -> estimate_ipm (e_est E) (ip_g P (ir_x q)) (ip_Ae P (ir_x q)) (ip_Ai P (ir_x q)) (ir_s q) mu = Ok (ir_y q, ir_z q)) /\
    (s1 <> CALLBACK_REQUESTED_STOP -> ir_y q = y /\ ir_z q = z).
Proof.
  unfold ipm_restore. destruct (fr_ipm_start P x s mu) as [[[frx frs] frz] frmu]. intros H.
  apply obind_ok in H. destruct H as ([s1 fin] & R & H). cbv zeta in H. apply obind_ok in H. destruct H as ([y' z'] & Ey & H). injection H as <- <-.
  exists frx, frs, frz, frmu, s1, fin. cbn [ir_x ir_s ir_y ir_z ir_it ir_uf ir_clk]. do 8 (split; [auto|]). split.
  - intros ->. exact Ey.
  - intros Ne. destruct s1; try (injection Ey as <- <-; auto; fail). contradiction.
Qed.

Lemma ipm_restore_ok fuel (P : iprob S) : iprob_ok P -> solve_ok E -> est_ok -> restore_ok P o (ipm_restore (U := U) E o fuel P).
Proof.
  intros Hp Hs He cbs x s y z mu it uf clk st q H Pk.
  apply ipm_restore_inner in H. destruct H as (frx & frs & frz & frmu & s1 & fin & Hst & R & -> & Hx & Hsl & Hit & Huf & Hclk & Hes & Hno).
  pose proof (fr_ipm_start_ok _ _ _ _ _ _ _ _ _ _ Hp Pk Hst (s_sqrt S frmu)) as Fk. destruct Pk as (LX & LS & LY & LZ). cbn [pt_x pt_s pt_y pt_z] in *.
  apply ipm_meaning in R; auto; [|apply fr_ipm_ok; auto|discriminate].
  destruct R as (M & It & Itc & _ & Pc). split; [apply fr_status_cases|]. rewrite Hit. split; [|exact It].
  intros Su. apply fr_status_success in Su. specialize (Itc Su). specialize (Pc Su). specialize (Hes Su). split; [|exact Itc].
  destruct Pc as (PX & PS & PY & PZ). cbn [pt_x pt_s pt_y pt_z point_of fr_ipm_prob ip_n ip_me ip_mi] in *.
  assert (Lx : length (ir_x q) = ip_n P) by (rewrite Hx; rewrite segment_len; lia).
  assert (Ls : length (ir_s q) = ip_mi P) by (rewrite Hsl; rewrite segment_len; lia).
  destruct (Hp _ Lx) as (Hg & Hce & Hci & HAe & HAi). apply mat_dims_ok in HAe, HAi. destruct HAe as [HAe _], HAi as [HAi _].
  unfold q_pt, pt_ok. cbn [pt_x pt_s pt_y pt_z]. split; [auto|]. split; [auto|].
  unfold estimate_ipm in Hes. apply obind_ok in Hes. destruct Hes as (zz & Cz & Hes). injection Hes as <- <-.
  apply clamp_zs_len in Cz. destruct Cz as [Cz _]. rewrite Cz. split; [|auto].
  rewrite firstn_length. unfold estimate_raw. rewrite He, (mvec_len _ _ _ eq_refl). unfold A_hat. rewrite app_length, map_length. lia.
Qed.

(** The interior-point method with restoration. *)
Lemma ipm_solve_meaning fuel (P : iprob S) cbs x (u : U) clk0 st fin : iprob_ok P -> solve_ok E -> est_ok -> length x = ip_n P ->
  ipm_solve E o fuel P cbs x u clk0 = Ok (st, fin) ->
  ipm_means E P o (resto (Some (ipm_restore (U := U) E o fuel P))) 0 clk0 st fin /\ (0 <= is_it _ fin <= Z.max 1 (o_max o))%Z /\
  (exists k p, path (ipm_move E P o (restored (Some (ipm_restore (U := U) E o fuel P)))) k
      (mkPt x (repeat (s_ofZ S 1) (ip_mi P)) (repeat (s_ofZ S 0) (ip_me P)) (repeat (s_ofZ S 1) (ip_mi P))) p /\ (Z.of_nat k <= is_it _ fin)%Z /\
     (point_of E fin = p \/ st = LOCALLY_INFEASIBLE \/ st = FEASIBILITY_RESTORATION_FAILED)).
Proof.
  intros Hp Hs He Lx H. unfold ipm_solve, ipm in H. apply ipm_meaning in H; auto.
  - destruct H as (M & It & _ & (k & p & Q1 & Q2 & Q3) & _). split; [exact M|]. split; [exact It|]. exists k, p. split; [exact Q1|]. split; [lia|]. tauto.
  - intros rst Q. injection Q as <-. apply ipm_restore_ok; auto.
  - unfold pt_ok. cbn [pt_x pt_s pt_y pt_z]. rewrite !repeat_length. auto.
Qed.
End Restore.
