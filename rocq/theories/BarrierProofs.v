(** C53: the barrier parameter of the interior-point method. *)
From Coq Require Import ZArith Reals List Bool Lia Lra.
From Verif Require Import Base ExprModel ExprReal ExprXR NumModel UtilModel KktModel FilterModel ExitModel SolverModel SolverProofs
  FilterProofs SqpModel IpmModel IpmShape IpmProofs XArith PosX PosProofs BarrierSpec.
Import ListNotations.
Local Open Scope R_scope.

(** ** The sequence *)
Lemma next_ge k m : k <= next_barrier k m. Proof. apply Rmax_l. Qed.
Lemma next_lt k m : 0 < k < m -> next_barrier k m < m.
Proof.
  intros H. unfold next_barrier. apply Rmax_lub_lt; [lra|]. eapply Rle_lt_trans; [apply Rmin_l|lra].
Qed.
Lemma next_fifth k m : next_barrier k m = k \/ next_barrier k m <= m / 5.
Proof.
  unfold next_barrier, Rmax. destruct (Rle_dec _ _); auto. right. apply Rmin_l.
Qed.
Lemma after_S k j m : barrier_after k (S j) m = next_barrier k (barrier_after k j m). Proof. reflexivity. Qed.
Lemma after_pos k j m : 0 < k -> 0 < m -> 0 < barrier_after k j m.
Proof. intros Hk Hm. destruct j; [exact Hm|]. rewrite after_S. pose proof (next_ge k (barrier_after k j m)). lra. Qed.
Lemma after_at_floor k : 0 < k -> next_barrier k k = k.
Proof.
  intros H. unfold next_barrier. apply Rmax_left. eapply Rle_trans; [apply Rmin_l|lra].
Qed.
Lemma after_bound k m : 0 < k <= m -> forall j, barrier_after k j m = k \/ (k <= barrier_after k j m /\ barrier_after k j m * 5 ^ j <= m).
Proof.
  intros H. induction j as [|j [IH|[IH IL]]]; [right; cbn; lra| |].
  - left. rewrite after_S, IH. apply after_at_floor. lra.
  - rewrite after_S. destruct (next_fifth k (barrier_after k j m)) as [K|K]; [auto|]. right. split; [apply next_ge|].
    cbn [pow]. pose proof (pow_lt 5 j ltac:(lra)). nra.
Qed.
Lemma c53_reaches_floor k m : 0 < k <= m -> exists J, forall j, (J <= j)%nat -> barrier_after k j m = k.
Proof.
  intros H. destruct (Pow_x_infinity 5 ltac:(rewrite Rabs_right; lra) (m / k + 1)) as (J & HJ). exists J. intros j L.
  specialize (HJ j L). rewrite Rabs_right in HJ by (apply Rle_ge, pow_le; lra).
  destruct (after_bound k m H j) as [K|[K1 K2]]; auto. exfalso.
  assert (k * 5 ^ j <= m). { eapply Rle_trans; [|exact K2]. apply Rmult_le_compat_r; [apply pow_le; lra|lra]. }
  assert (k * (m / k + 1) <= k * 5 ^ j) by (apply Rmult_le_compat_l; lra).
  replace (k * (m / k + 1)) with (m + k) in * by (field; lra). lra.
Qed.
Lemma c53_update k m t m' t' : 0 < k -> 0 < m -> barrier_update k m t m' t' ->
  Rmin k m <= m' <= m /\ (m' < m \/ (m' = m /\ t' = t)) /\ (m <= k -> m' = m) /\ (99 / 100 <= t < 1 -> 99 / 100 <= t' < 1).
Proof.
  intros Hk Hm (j & -> & Hj & ->).
  assert (K : forall i, (i <= j)%nat -> (i = O \/ k <= barrier_after k i m) /\ (i <> O -> barrier_after k i m < m)).
  { induction i as [|i IH]; intros L; [split; [auto|contradiction]|]. split; [right; rewrite after_S; apply next_ge|].
    intros _. specialize (Hj i ltac:(lia)). rewrite after_S. eapply Rlt_le_trans; [apply next_lt; split; [exact Hk|exact Hj]|]. destruct (Nat.eq_dec i 0) as [ -> |N]; [cbn; lra|].
    destruct IH as [_ IH]; [lia|]. specialize (IH N). lra. }
  pose proof (after_pos k j m Hk Hm) as Ap. destruct (K j (le_n _)) as [K1 K2]. destruct j as [|j].
  - change (barrier_after k 0 m) with m in *. split; [split; [apply Rmin_r|apply Rle_refl]|]. split; [auto|]. split; auto.
  - specialize (K2 ltac:(lia)). destruct K1 as [K1|K1]; [discriminate|]. split; [split; [eapply Rle_trans; [apply Rmin_l|exact K1]|lra]|]. split; [auto|].
    split. { intros L. specialize (Hj O ltac:(lia)). cbn in Hj. lra. }
    intros _. split; [apply Rmax_l|]. apply Rmax_lub_lt; lra.
Qed.
Lemma update_trans k m0 t0 m t m' t' : barrier_update k m0 t0 m t -> barrier_update k m t m' t' -> barrier_update k m0 t0 m' t'.
Proof.
  intros (j & -> & Hj & ->) (i & -> & Hi & ->). 
  assert (A : forall a b, barrier_after k a (barrier_after k b m0) = barrier_after k (a + b) m0).
  { induction a as [|a IH]; intros b; [reflexivity|]. rewrite after_S, IH. reflexivity. }
  exists (i + j)%nat. rewrite A. split; [reflexivity|]. split.
  - intros a L. destruct (Nat.lt_ge_cases a j) as [C|C]; [auto|]. specialize (Hi (a - j)%nat ltac:(lia)). rewrite A in Hi.
    replace (a - j + j)%nat with a in Hi by lia. exact Hi.
  - destruct i as [|i]; [|reflexivity]. destruct j as [|j]; [reflexivity|]. reflexivity.
Qed.

(** ** The code computes it *)
Lemma int_not_half z : IZR z <> 15 / 10.
Proof.
  intros H. assert (K : IZR (z * 2) = IZR 3) by (rewrite mult_IZR, H; lra). apply eq_IZR in K. lia.
Qed.
Lemma xpow_3_2 m : 0 < m -> s_pow Xn (Fin m) (Fin (15 / 10)) = Fin (Rpower m (3 / 2)).
Proof.
  intros H. cbn [Xn nbase X_ops s_pow]. unfold X_pow. cbn [X_eqb]. destruct (R_eqb (15 / 10) 0) eqn:E; [apply R_eqb_true in E; lra|].
  replace (15 / 10) with (3 / 2) by lra. destruct (R_eqb m 1) eqn:E1.
  { apply R_eqb_true in E1. rewrite E1. unfold Rpower. rewrite ln_1, Rmult_0_r, exp_0. reflexivity. }
  destruct (Req_EM_T m 0); [lra|]. destruct (Rlt_dec m 0); [lra|]. unfold R_pow. destruct (Req_EM_T (IZR (Int_part (3 / 2))) (3 / 2)) as [K|K].
  { exfalso. apply (int_not_half (Int_part (3 / 2))). lra. }
  destruct (Req_EM_T m 0); [lra|]. reflexivity.
Qed.
Section Code.
Variables (E : env Xn) (P : iprob Xn) (o : options Xn) (f t : R).
Hypothesis Hf : sc_f (ip_sc P) = Fin f.
Hypothesis Pf : 0 < f.
Hypothesis Ht : o_tol o = Fin t.
Hypothesis Pt : 0 < t.
Notation k := (f * t / 10).
Lemma k_pos : 0 < k. Proof. assert (0 < f * t) by (apply Rmult_lt_0_compat; auto). lra. Qed.
Lemma mu_min_Fin : mu_min P o = Fin k.
Proof. unfold mu_min. rewrite Hf, Ht. change (s_ofZ Xn 10) with (Fin 10). rewrite xmul, xdiv by lra. reflexivity. Qed.
Lemma next_mu_Fin m : 0 < m -> next_mu P o (Fin m) = Fin (next_barrier k m).
Proof.
  intros Pm. unfold next_mu. rewrite mu_min_Fin, !xlit, xmul. change (IZR (10 ^ Z.of_nat 1)) with 10. rewrite xpow_3_2 by auto.
  assert (Q : smin (S := Xn) (Fin (2 / 10 * m)) (Fin (Rpower m (3 / 2))) = Fin (Rmin (m / 5) (Rpower m (3 / 2)))).
  { unfold smin. rewrite xltb. replace (2 / 10 * m) with (m / 5) by lra. unfold Rmin. destruct (R_ltb _ _) eqn:C.
    - apply R_ltb_true in C. destruct (Rle_dec _ _); [lra|reflexivity].
    - apply R_ltb_false in C. destruct (Rle_dec _ _); [reflexivity|]. f_equal. lra. }
  rewrite Q. unfold smax. rewrite xltb. unfold next_barrier, Rmax. destruct (R_ltb _ _) eqn:C.
  - apply R_ltb_true in C. destruct (Rle_dec _ _); [reflexivity|lra].
  - apply R_ltb_false in C. destruct (Rle_dec _ _); [f_equal; lra|reflexivity].
Qed.
Lemma mu_k_Fin j m : 0 < m -> mu_k P o j (Fin m) = Fin (barrier_after k j m).
Proof.
  intros Pm. induction j as [|j IH]; [reflexivity|]. change (next_mu P o (mu_k P o j (Fin m)) = Fin (barrier_after k (S j) m)). rewrite IH.
  apply next_mu_Fin. apply after_pos; auto. apply k_pos.
Qed.
Lemma tau_of_Fin m : tau_of (S := Xn) (Fin m) = Fin (Rmax (99 / 100) (1 - m)).
Proof.
  unfold tau_of, tau_min. rewrite xlit. change (IZR (10 ^ Z.of_nat 2)) with 100. change (s_ofZ Xn 1) with (Fin 1). rewrite xsub.
  unfold smax. rewrite xltb. unfold Rmax. destruct (R_ltb _ _) eqn:C.
  - apply R_ltb_true in C. destruct (Rle_dec _ _); [reflexivity|lra].
  - apply R_ltb_false in C. destruct (Rle_dec _ _); [f_equal; lra|reflexivity].
Qed.

Context {U : Type}.
Variable cbs : list (callback Xn U).
Variable restore : option (restorer (S := Xn) (U := U)).

Lemma end_barrier fuel start x s y z fx ce ci m tau flt cnt it (u : U) ls clk r : 0 < m ->
  ipm_end E P o fuel start x s y z fx ce ci (Fin m) (Fin tau) flt cnt it u ls clk = Ok r ->
  exists m' t', is_mu _ (state_of r) = Fin m' /\ is_tau _ (state_of r) = Fin t' /\ barrier_update k m tau m' t'.
Proof.
  intros Pm H. apply end_shape in H. destruct H as (j & tau' & flt' & l & clk' & _ & H0 & H1 & Hj & ->).
  exists (barrier_after k j m), (match j with O => tau | S _ => Rmax (99 / 100) (1 - barrier_after k j m) end).
  assert (Q : forall l0 (st0 : istate E (U := U)), state_of (finish l0 st0) = st0) by (intros [?|]; reflexivity).
  rewrite Q. cbn [is_mu is_tau]. split; [apply mu_k_Fin; auto|]. split.
  - destruct j as [|j]; [apply H0; reflexivity|]. destruct H1 as [ -> _]; [discriminate|]. rewrite mu_k_Fin by auto. apply tau_of_Fin.
  - exists j. split; [reflexivity|]. split; [|reflexivity]. intros i L. specialize (Hj i L). rewrite mu_k_Fin, mu_min_Fin, xltb in Hj by auto. apply R_ltb_true in Hj. exact Hj.
Qed.
Lemma c53_body fuel start (st : istate E (U := U)) r m tau : is_mu _ st = Fin m -> 0 < m -> is_tau _ st = Fin tau ->
  ipm_body E P o cbs restore fuel start st = Ok r ->
  exists m' t', is_mu _ (state_of r) = Fin m' /\ is_tau _ (state_of r) = Fin t' /\ barrier_update k m tau m' t'.
Proof.
  intros Em Pm Et H. apply body_shape in H.
  assert (Z : barrier_update k m tau m tau) by (exists O; split; [reflexivity|]; split; [lia|reflexivity]).
  destruct H as [Inf|Dv|u D1 D2 C|u ls D1 D2 C L|u ls rs tr z r D1 D2 C L c Se Am Ft Cz En|u ls rs D1 D2 C L c Se Am Rs
    |u ls rs rst status q D1 D2 C L c Se Am Rs Rr Su|u ls rs rst status q r D1 D2 C L c Se Am Rs Rr Su En]; try (exists m, tau; auto; fail).
  - rewrite Em, Et in En. eapply end_barrier; eauto.
  - rewrite Em, Et in En. eapply end_barrier; eauto.
Qed.
(** Every state reached by the loop. *)
Lemma c53_run fuel start (st0 st : istate E (U := U)) m tau : is_mu _ st0 = Fin m -> 0 < m -> is_tau _ st0 = Fin tau ->
  reaches (is_E E) (o_tol o) (ipm_body E P o cbs restore fuel start) st0 st ->
  exists m' t', is_mu _ st = Fin m' /\ is_tau _ st = Fin t' /\ barrier_update k m tau m' t'.
Proof.
  intros Em Pm Et. induction 1 as [|st st' R (m1 & t1 & E1 & E2 & B) L Bd].
  - exists m, tau. split; [auto|]. split; [auto|]. exists O. split; [reflexivity|]. split; [lia|reflexivity].
  - pose proof k_pos as Kp. destruct (c53_body fuel start st (Next st') m1 t1 E1) with (2 := E2) (3 := Bd) as (m2 & t2 & F1 & F2 & B2).
    { destruct B as (j & -> & _). apply after_pos; auto. }
    exists m2, t2. split; [exact F1|]. split; [exact F2|]. eapply update_trans; eauto.
Qed.
End Code.
