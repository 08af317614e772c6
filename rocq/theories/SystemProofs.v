(** Proofs for C54: what the reduced system solves. *)
From Coq Require Import ZArith Reals List Bool Lra Lia.
From Verif Require Import Base ExprModel ExprReal NumModel UtilModel KktModel FilterModel ExitModel SolverModel SolverSpec
  NewtonModel SqpModel IpmModel LinR IpmShape SystemSpec.
Import ListNotations.
Local Open Scope R_scope.

Ltac rr := match goal with |- ?a = ?b => change (@eq R a b) end.

Lemma vmul_nth (a b : list R) i : length a = length b -> nth i (vmul (S := Rn) a b : list R) 0 = nth i a 0 * nth i b 0.
Proof.
  intros E. destruct (Nat.lt_ge_cases i (length a)) as [L|L].
  - unfold vmul. apply (vmap2_nth Rmult); cbn in *; lia.
  - rewrite !nth_overflow; try lia; try lra. etransitivity; [apply Nat.eq_le_incl; apply (vmap2_length_R Rmult)|]. cbn in *. lia.
Qed.
Lemma vneg_nth (a : list R) i : nth i (vneg (S := Rn) a : list R) 0 = - nth i a 0.
Proof.
  destruct (Nat.lt_ge_cases i (length a)) as [L|L].
  - unfold vneg. apply (nth_map_lt Ropp); auto.
  - rewrite !nth_overflow; try lra; try lia. etransitivity; [apply Nat.eq_le_incl; apply (map_length Ropp)|]. cbn in *. lia.
Qed.
Lemma vinv_nth (a : list R) i : (i < length a)%nat -> nth i (vinv (S := Rn) a : list R) 0 = 1 / nth i a 0.
Proof. intros L. unfold vinv. apply (nth_map_lt (fun x => 1 / x)); auto. Qed.
Lemma ent_nth_map (f : nat -> nat -> R) n i j : (i < n)%nat -> (j < n)%nat -> ent (map (fun j => map (f j) (seq 0 n)) (seq 0 n)) i j = f i j.
Proof.
  intros Hi Hj. unfold ent. rewrite (nth_map_lt _ _ _ 0%nat) by (rewrite seq_length; lia). rewrite (nth_map_lt _ _ _ 0%nat) by (rewrite seq_length; lia).
  rewrite !seq_nth by lia. reflexivity.
Qed.
Lemma gram_ent n mi (A : list (list R)) (sg : list R) i j : wf mi n A -> length sg = mi -> (i < n)%nat -> (j < n)%nat ->
  ent (gram_lower (S := Rn) n A sg) i j = if Nat.leb j i then sumn mi (fun r => ent A r i * nth r sg 0 * ent A r j) else 0.
Proof.
  intros [W1 W2] L Hi Hj. unfold gram_lower.
  rewrite (ent_nth_map (fun j k => if Nat.leb k j then vsum (S := Rn) (map (fun p => nth j (fst p) 0 * snd p * nth k (fst p) 0) (combine A sg)) else 0)); auto.
  destruct (Nat.leb j i); [|reflexivity]. rewrite vsum_R, map_length, combine_length.
  replace (Nat.min _ _) with mi by (cbn in *; lia). apply sumn_ext. intros r Hr.
  rewrite (nth_map_lt _ _ _ ([], 0)) by (rewrite combine_length; cbn in *; lia). rewrite combine_nth by (etransitivity; [exact W1|symmetry; exact L]). reflexivity.
Qed.
Lemma madd_ent n (A B : list (list R)) i j : wf n n A -> wf n n B -> (i < n)%nat -> ent (madd (S := Rn) A B) i j = ent A i j + ent B i j.
Proof.
  intros [A1 A2] [B1 B2] Hi. unfold ent, madd. rewrite (nth_map_lt _ _ _ ([], [])) by (rewrite combine_length; cbn in *; lia).
  rewrite combine_nth by (etransitivity; [exact A1|symmetry; exact B1]). cbn [fst snd]. apply vadd_nth. rewrite (A2 (nth i A [])), (B2 (nth i B [])); auto; apply nth_In; lia.
Qed.
Lemma gram_wf n (A : list (list R)) (sg : list R) : wf n n (gram_lower (S := Rn) n A sg).
Proof.
  split; [unfold gram_lower; rewrite map_length; apply seq_length|]. intros r I. unfold gram_lower in I. apply in_map_iff in I. destruct I as (j & <- & _).
  rewrite map_length. apply seq_length.
Qed.
Lemma sym_madd n mi (H A : list (list R)) (sg : list R) i j : wf n n H -> wf mi n A -> length sg = mi -> (i < n)%nat -> (j < n)%nat ->
  sym (madd (S := Rn) H (gram_lower (S := Rn) n A sg)) i j = sym H i j + sumn mi (fun r => ent A r i * nth r sg 0 * ent A r j).
Proof.
  intros WH WA L Hi Hj. unfold sym. destruct (Nat.leb j i) eqn:C.
  - rewrite (madd_ent n) by (auto; apply gram_wf). rewrite (gram_ent n mi) by auto. rewrite C. reflexivity.
  - rewrite (madd_ent n) by (auto; apply gram_wf). rewrite (gram_ent n mi) by auto. apply Nat.leb_gt in C.
    replace (Nat.leb i j) with true by (symmetry; apply Nat.leb_le; lia). f_equal. apply sumn_ext. intros r _. ring.
Qed.
Lemma wf_dims m n (A : list (list R)) : mat_dims (S := Rn) m n A = true -> wf m n A.
Proof.
  intros H. unfold mat_dims in H. apply andb_true_iff in H. destruct H as [H1 H2]. apply Nat.eqb_eq in H1. split; [exact H1|].
  rewrite forallb_forall in H2. intros r I. apply Nat.eqb_eq. exact (H2 r I).
Qed.

(** The algebra, in index form. *)
Lemma kkt_algebra (n me mi : nat) (delta gamma : R) (H Ae Ai : list (list R)) (g ce cis s y z px ps py pz v t sg : list R) (mu : R) :
  wf n n H -> wf mi n Ai -> length sg = mi -> length t = n -> 
  (forall r, (r < mi)%nat -> nth r s 0 <> 0) ->
  (forall i, (i < n)%nat -> nth i t 0 = - nth i g 0 + sumn me (fun r => ent Ae r i * nth r y 0)
     + sumn mi (fun r => ent Ai r i * (mu / nth r s 0 - nth r z 0 / nth r s 0 * nth r cis 0))) ->
  solves n me delta gamma (madd (S := Rn) H (gram_lower (S := Rn) n Ai sg)) Ae v (t ++ vneg (S := Rn) ce) ->
  (forall j, (j < n)%nat -> nth j px 0 = nth j v 0) ->
  (forall r, (r < me)%nat -> nth r py 0 = - nth (n + r) v 0) ->
  (forall r, (r < mi)%nat -> nth r ps 0 = nth r cis 0 + sumn n (fun j => ent Ai r j * nth j px 0)) ->
  (forall r, (r < mi)%nat -> nth r sg 0 = nth r z 0 / nth r s 0) ->
  (forall r, (r < mi)%nat -> nth r pz 0 = mu / nth r s 0 - nth r z 0 - nth r z 0 / nth r s 0 * nth r ps 0) ->
  newton_kkt n me mi delta gamma H Ae Ai g ce cis s y z mu px ps py pz.
Proof.
  intros WH WAi Lsg Lt Hs Ht [S1 S2] Px Py Ps Sg Pz. split; [|split; [|split]].
  - intros i Hi. specialize (S1 i Hi). rewrite app_nth1 in S1 by lia. rewrite (Ht i Hi) in S1.
    rewrite (sumn_ext n _ (fun j => sym H i j * nth j px 0 + sumn mi (fun r => ent Ai r i * (nth r z 0 / nth r s 0) * (ent Ai r j * nth j px 0)))) in S1.
    2:{ intros j Hj. rewrite (sym_madd n mi) by auto. rewrite (Px j Hj). rewrite Rmult_plus_distr_r. f_equal. rewrite Rmult_comm, <- sumn_scal. apply sumn_ext.
        intros r Hr. rewrite (Sg r Hr). ring. }
    rewrite sumn_plus, sumn_swap in S1.
    rewrite (sumn_ext mi _ (fun r => ent Ai r i * (nth r z 0 / nth r s 0) * sumn n (fun j => ent Ai r j * nth j px 0))) in S1.
    2:{ intros r Hr. rewrite <- sumn_scal. reflexivity. }
    rewrite (sumn_ext me (fun r => ent Ae r i * nth (n + r) v 0) (fun r => -1 * (ent Ae r i * nth r py 0))) in S1.
    2:{ intros r Hr. rewrite (Py r Hr). ring. }
    rewrite sumn_scal in S1.
    rewrite (sumn_ext mi (fun r => ent Ai r i * nth r pz 0) (fun r => ent Ai r i * (mu / nth r s 0 - nth r z 0 / nth r s 0 * nth r cis 0)
       - ent Ai r i * (nth r z 0 / nth r s 0) * sumn n (fun j => ent Ai r j * nth j px 0) - ent Ai r i * nth r z 0)).
    2:{ intros r Hr. rewrite (Pz r Hr), (Ps r Hr). ring. }
    rewrite !sumn_minus, (Px i Hi). lra.
  - intros r Hr. specialize (S2 r Hr). rewrite app_nth2 in S2 by lia.
    replace (n + r - length t)%nat with r in S2 by lia. rewrite vneg_nth in S2. rewrite <- S2, (Py r Hr). unfold Rminus. rewrite Ropp_mult_distr_r. f_equal. apply sumn_ext. intros j Hj. rewrite (Px j Hj). reflexivity.
  - intros r Hr. rewrite (Ps r Hr). lra.
  - intros r Hr. rewrite (Pz r Hr). specialize (Hs r Hr). field. exact Hs.
Qed.

Section System.
Variables (E : env Rn) (P : iprob Rn).
Notation n := (ip_n P). Notation me := (ip_me P). Notation mi := (ip_mi P).

(** The right-hand sides of the system and of its second-order corrections have the form below. *)
Lemma step_solves (delta gamma : R) (H : list (list R)) (c : ictx E) (rhs ce cis t : list R) : c_ok E P c -> mat_dims (S := Rn) n n H = true ->
  (forall r, (r < mi)%nat -> nth r (ix_s E c) 0 <> 0) -> length cis = mi -> length ce = me -> length t = n ->
  rhs = t ++ vneg (S := Rn) ce ->
  (forall i, (i < n)%nat -> nth i t 0 = - nth i (ix_g E c) 0 + sumn me (fun r => ent (ix_Ae E c) r i * nth r (ix_y E c) 0)
     + sumn mi (fun r => ent (ix_Ai E c) r i * (ix_mu E c / nth r (ix_s E c) 0 - nth r (ix_z E c) 0 / nth r (ix_s E c) 0 * nth r cis 0))) ->
  length (ls_solve (e_lin E) (ix_ls E c) rhs) = length rhs ->
  solves n me delta gamma (k_tl (ipm_lhs E P H c)) (k_bl (ipm_lhs E P H c)) (ls_solve (e_lin E) (ix_ls E c) rhs) rhs ->
  let d := ipm_step E c rhs cis in
  newton_kkt n me mi delta gamma H (ix_Ae E c) (ix_Ai E c) (ix_g E c) ce cis (ix_s E c) (ix_y E c) (ix_z E c) (ix_mu E c) (p_x d) (p_s d) (p_y d) (p_z d).
Proof.
  intros (Lx & Ls & Ly & Lz & Lg & Lce & Lci & DAe & DAi) DH Hs Lcis Lc Lt -> Ht Lv [S1 S2].
  apply wf_dims in DAe, DAi, DH. set (v := ls_solve (e_lin E) (ix_ls E c) (t ++ vneg (S := Rn) ce)) in *.
  change (length v = length (t ++ vneg (S := Rn) ce)) in Lv. rewrite app_length in Lv. unfold vneg in Lv at 1. rewrite map_length in Lv.
  assert (Lv' : @length R v = (n + me)%nat) by (cbn in *; lia). clear Lv.
  unfold ipm_step. fold v. cbv zeta. cbn [p_x p_s p_y p_z]. set (px := firstn (length (ix_x E c)) v) in *.
  assert (Lpx : @length R px = n) by (unfold px; rewrite firstn_length; cbn in *; lia).
  assert (Px : forall j, (j < n)%nat -> nth j px 0 = nth j v 0).
  { intros j Hj. unfold px. rewrite <- (firstn_skipn (length (ix_x E c)) v) at 2. rewrite app_nth1; [reflexivity|]. fold px. cbn in *. lia. }
  set (py := vneg (S := Rn) (skipn (length (ix_x E c)) v)) in *.
  assert (Py : forall r, (r < me)%nat -> nth r py 0 = - nth (n + r) v 0).
  { intros r Hr. unfold py. rewrite vneg_nth. f_equal. rewrite <- (firstn_skipn (length (ix_x E c)) v) at 2. fold px. rewrite app_nth2 by (cbn in *; lia).
    match goal with |- nth ?a _ _ = nth ?b _ _ => replace b with a; [reflexivity|] end. replace (@length (car (nbase Rn)) px) with n by (symmetry; exact Lpx). lia. }
  set (ps := vadd (S := Rn) cis (mvec (S := Rn) (ix_Ai E c) px)) in *.
  assert (Lm : @length R (mvec (S := Rn) (ix_Ai E c) px) = mi) by (rewrite (mvec_length (S := Rn)); apply DAi).
  assert (Ps : forall r, (r < mi)%nat -> nth r ps 0 = nth r cis 0 + sumn n (fun j => ent (ix_Ai E c) r j * nth j px 0)).
  { intros r Hr. unfold ps. rewrite vadd_nth by (etransitivity; [exact Lcis|symmetry; exact Lm]). f_equal. apply (mvec_nth mi n); auto. }
  assert (Lps : @length R ps = mi) by (unfold ps; exact (vadd_len (S := Rn) _ _ mi Lcis Lm)).
  assert (Lsg : @length R (sigma (S := Rn) (ix_s E c) (ix_z E c)) = mi) by exact (vmul_len (S := Rn) _ _ mi (vinv_len (S := Rn) _ mi Ls) Lz).
  assert (Sg : forall r, (r < mi)%nat -> nth r (sigma (S := Rn) (ix_s E c) (ix_z E c)) 0 = nth r (ix_z E c) 0 / nth r (ix_s E c) 0).
  { intros r Hr. unfold sigma. rewrite vmul_nth by (etransitivity; [exact (vinv_len (S := Rn) _ mi Ls)|symmetry; exact Lz]).
    rewrite vinv_nth by (cbn in *; lia). rr. unfold Rdiv. cbn. ring. }
  set (pz := vsub (S := Rn) (vsub (S := Rn) (vscale (S := Rn) (ix_mu E c) (vinv (S := Rn) (ix_s E c))) (ix_z E c)) (vmul (S := Rn) (sigma (S := Rn) (ix_s E c) (ix_z E c)) ps)) in *.
  assert (Pz : forall r, (r < mi)%nat -> nth r pz 0 = ix_mu E c / nth r (ix_s E c) 0 - nth r (ix_z E c) 0 - nth r (ix_z E c) 0 / nth r (ix_s E c) 0 * nth r ps 0).
  { intros r Hr. pose proof (vscale_len (S := Rn) (ix_mu E c) _ mi (vinv_len (S := Rn) _ mi Ls)) as La.
    unfold pz. rewrite vsub_nth.
    2:{ etransitivity; [exact (vsub_len (S := Rn) _ _ mi La Lz)|symmetry; exact (vmul_len (S := Rn) _ _ mi Lsg Lps)]. }
    rewrite vsub_nth by (etransitivity; [exact La|symmetry; exact Lz]). rewrite vscale_nth, vinv_nth by (cbn in *; lia).
    rewrite vmul_nth by (etransitivity; [exact Lsg|symmetry; exact Lps]). rewrite Sg by auto. rr. unfold Rdiv. cbn. ring. }
  apply (kkt_algebra n me mi delta gamma H _ _ _ ce cis _ _ _ px ps py pz v t (sigma (S := Rn) (ix_s E c) (ix_z E c))); auto. split; auto.
Qed.

Lemma neg_g_plus (c : ictx E) i : c_ok E P c -> (i < n)%nat ->
  nth i (vadd (S := Rn) (vneg (S := Rn) (ix_g E c)) (mtvec (S := Rn) n (ix_Ae E c) (ix_y E c)) : list R) 0 = - nth i (ix_g E c) 0 + sumn me (fun r => ent (ix_Ae E c) r i * nth r (ix_y E c) 0).
Proof.
  intros (Lx & Ls & Ly & Lz & Lg & Lce & Lci & DAe & DAi) Hi. apply wf_dims in DAe. destruct (mtvec_spec me n _ _ DAe Ly) as [M1 M2].
  rewrite vadd_nth by (etransitivity; [exact (vneg_len (S := Rn) _ n Lg)|symmetry; exact M1]). rewrite vneg_nth. f_equal. apply M2.
Qed.

(** The system for the step. *)
Lemma c54 (delta gamma : R) (H : list (list R)) (c : ictx E) : c_ok E P c -> mat_dims (S := Rn) n n H = true -> solve_ok E ->
  (forall r, (r < mi)%nat -> nth r (ix_s E c) 0 <> 0) ->
  let rhs := ipm_rhs E P c in let cis := vsub (S := Rn) (ix_ci E c) (ix_s E c) in
  solves n me delta gamma (k_tl (ipm_lhs E P H c)) (k_bl (ipm_lhs E P H c)) (ls_solve (e_lin E) (ix_ls E c) rhs) rhs ->
  let d := ipm_step E c rhs cis in
  newton_kkt n me mi delta gamma H (ix_Ae E c) (ix_Ai E c) (ix_g E c) (ix_ce E c) cis (ix_s E c) (ix_y E c) (ix_z E c) (ix_mu E c) (p_x d) (p_s d) (p_y d) (p_z d).
Proof.
  intros Hc DH Ho Hs rhs cis So d. pose proof Hc as (Lx & Ls & Ly & Lz & Lg & Lce & Lci & DAe & DAi).
  assert (Lcis : @length R cis = mi) by exact (vsub_len (S := Rn) _ _ mi Lci Ls).
  pose proof (vmul_len (S := Rn) _ _ mi (vinv_len (S := Rn) _ mi Ls) Lz) as Lsg. fold (sigma (S := Rn) (ix_s E c) (ix_z E c)) in Lsg.
  pose proof (vneg_len (S := Rn) _ mi Lsg) as Lnsg. pose proof (vmul_len (S := Rn) _ _ mi Lnsg Lci) as Lm1.
  pose proof (vscale_len (S := Rn) (ix_mu E c) _ mi (vinv_len (S := Rn) _ mi Ls)) as La. pose proof (vadd_len (S := Rn) _ _ mi Lm1 La) as Lm2.
  pose proof (vadd_len (S := Rn) _ _ mi Lm2 Lz) as Lm3. pose proof (wf_dims _ _ _ DAi) as WAi. pose proof (wf_dims _ _ _ DAe) as WAe.
  destruct (mtvec_spec mi n _ _ WAi Lm3) as [M1 M2]. destruct (mtvec_spec me n _ _ WAe Ly) as [N1 _].
  pose proof (vadd_len (S := Rn) _ _ n (vneg_len (S := Rn) _ n Lg) N1) as Lt1.
  apply (step_solves delta gamma H c rhs (ix_ce E c) cis
    (vadd (S := Rn) (vadd (S := Rn) (vneg (S := Rn) (ix_g E c)) (mtvec (S := Rn) n (ix_Ae E c) (ix_y E c)))
       (mtvec (S := Rn) n (ix_Ai E c) (vadd (S := Rn) (vadd (S := Rn) (vmul (S := Rn) (vneg (S := Rn) (sigma (S := Rn) (ix_s E c) (ix_z E c))) (ix_ci E c)) (vscale (S := Rn) (ix_mu E c) (vinv (S := Rn) (ix_s E c)))) (ix_z E c))))); auto.
  - exact (vadd_len (S := Rn) _ _ n Lt1 M1).
  - intros i Hi. rewrite vadd_nth by (etransitivity; [exact Lt1|symmetry; exact M1]). rewrite (neg_g_plus c i Hc Hi). f_equal.
    etransitivity; [apply M2|]. apply sumn_ext. intros r Hr. f_equal.
    rewrite vadd_nth by (etransitivity; [exact Lm2|symmetry; exact Lz]). rewrite vadd_nth by (etransitivity; [exact Lm1|symmetry; exact La]).
    rewrite vmul_nth by (etransitivity; [exact Lnsg|symmetry; exact Lci]). rewrite vneg_nth, vscale_nth, vinv_nth by (cbn in *; lia).
    unfold sigma. rewrite vmul_nth by (etransitivity; [exact (vinv_len (S := Rn) _ mi Ls)|symmetry; exact Lz]). rewrite vinv_nth by (cbn in *; lia).
    unfold cis. rewrite vsub_nth by (etransitivity; [exact Lci|symmetry; exact Ls]). rr. cbn. field. apply Hs. exact Hr.
Qed.

(** The systems for the second-order corrections have the same matrix and the same blocks, with the corrected residuals. *)
Lemma c54_soc (delta gamma : R) (H : list (list R)) (c : ictx E) (ce cis : list R) : c_ok E P c -> mat_dims (S := Rn) n n H = true -> solve_ok E ->
  (forall r, (r < mi)%nat -> nth r (ix_s E c) 0 <> 0) -> length ce = me -> length cis = mi ->
  let rhs := ipm_rhs_soc E P c ce cis in
  solves n me delta gamma (k_tl (ipm_lhs E P H c)) (k_bl (ipm_lhs E P H c)) (ls_solve (e_lin E) (ix_ls E c) rhs) rhs ->
  let d := ipm_step E c rhs cis in
  newton_kkt n me mi delta gamma H (ix_Ae E c) (ix_Ai E c) (ix_g E c) ce cis (ix_s E c) (ix_y E c) (ix_z E c) (ix_mu E c) (p_x d) (p_s d) (p_y d) (p_z d).
Proof.
  intros Hc DH Ho Hs Lc Lcis rhs So d. pose proof Hc as (Lx & Ls & Ly & Lz & Lg & Lce & Lci & DAe & DAi).
  pose proof (vmul_len (S := Rn) _ _ mi (vinv_len (S := Rn) _ mi Ls) Lz) as Lsg. fold (sigma (S := Rn) (ix_s E c) (ix_z E c)) in Lsg.
  pose proof (vscale_len (S := Rn) (ix_mu E c) _ mi (vinv_len (S := Rn) _ mi Ls)) as La. pose proof (vmul_len (S := Rn) _ _ mi Lsg Lcis) as Lm1.
  pose proof (vsub_len (S := Rn) _ _ mi La Lm1) as Lm3. pose proof (wf_dims _ _ _ DAi) as WAi. pose proof (wf_dims _ _ _ DAe) as WAe.
  destruct (mtvec_spec mi n _ _ WAi Lm3) as [M1 M2]. destruct (mtvec_spec me n _ _ WAe Ly) as [N1 _].
  pose proof (vadd_len (S := Rn) _ _ n (vneg_len (S := Rn) _ n Lg) N1) as Lt1.
  apply (step_solves delta gamma H c rhs ce cis
    (vadd (S := Rn) (vadd (S := Rn) (vneg (S := Rn) (ix_g E c)) (mtvec (S := Rn) n (ix_Ae E c) (ix_y E c)))
       (mtvec (S := Rn) n (ix_Ai E c) (vsub (S := Rn) (vscale (S := Rn) (ix_mu E c) (vinv (S := Rn) (ix_s E c))) (vmul (S := Rn) (sigma (S := Rn) (ix_s E c) (ix_z E c)) cis))))); auto.
  - exact (vadd_len (S := Rn) _ _ n Lt1 M1).
  - intros i Hi. rewrite vadd_nth by (etransitivity; [exact Lt1|symmetry; exact M1]). rewrite (neg_g_plus c i Hc Hi). f_equal.
    etransitivity; [apply M2|]. apply sumn_ext. intros r Hr. f_equal.
    rewrite vsub_nth by (etransitivity; [exact La|symmetry; exact Lm1]).
    rewrite vmul_nth by (etransitivity; [exact Lsg|symmetry; exact Lcis]). rewrite vscale_nth, vinv_nth by (cbn in *; lia).
    unfold sigma. rewrite vmul_nth by (etransitivity; [exact (vinv_len (S := Rn) _ mi Ls)|symmetry; exact Lz]). rewrite vinv_nth by (cbn in *; lia).
    rr. cbn. field. apply Hs. exact Hr.
Qed.
End System.
