(** Proofs for C49: cost, gradient, what satisfies the relaxed constraints, Hessian. *)
From Coq Require Import ZArith Reals List Bool Lia Lra FunctionalExtensionality.
From Coquelicot Require Import Coquelicot.
From Verif Require Import Base ExprModel ExprReal ExprXR NumModel UtilModel KktModel FilterModel ExitModel SolverModel NewtonModel SqpModel IpmModel RestoreModel
  LinR XArith FinEval EstProofs SystemProofs IpmShape RestoreProofs RestoreSpec FrProofs.
Import ListNotations.
Local Open Scope R_scope.

(** ** Cost and gradient *)
Lemma fr_D_fin (xr : list R) : fr_D (S := Xn) (fv xr) = fv (map nearness xr).
Proof.
  unfold fr_D, fv. rewrite !map_map. apply map_ext. intros x. unfold nearness, smin. cbn.
  destruct (Req_EM_T (x * x) 0) as [E|E].
  - cbn. rewrite E. destruct (Rlt_dec 0 1) as [_|C]; [|exfalso; apply C; lra]. cbn. destruct (Rle_dec 0 1) as [_|C]; [reflexivity|exfalso; apply C; lra].
  - assert (0 < x * x). { apply (Rlt_0_sqr x). intros ->. apply E. ring. }
    assert (Ex : 1 / (x * x) * (x * x) = 1) by (field; intros ->; apply E; ring). destruct (Rle_dec (x * x) 1) as [L|L].
    + assert (1 <= 1 / (x * x)). { apply Rmult_le_reg_r with (x * x); [lra|]. rewrite Ex. lra. }
      unfold R_ltb. destruct (Rlt_dec 1 (1 / (x * x))); [reflexivity|]. f_equal. lra.
    + assert (1 / (x * x) < 1). { apply Rmult_lt_reg_r with (x * x); [lra|]. rewrite Ex. lra. }
      unfold R_ltb. destruct (Rlt_dec 1 (1 / (x * x))); [lra|]. f_equal. field. intros ->. apply E. ring.
Qed.

Section Cost.
Variables (n k : nat) (xr : list R) (zeta : R).
Hypothesis Hxr : length xr = n.
Notation D := (fr_D (S := Xn) (fv xr)).
Lemma fr_cost_fin v : length v = (n + k)%nat -> fr_cost (S := Xn) n k (fv xr) D (Fin zeta) (fv v) = Fin (restoration_cost n k xr zeta v).
Proof.
  intros Hv. unfold fr_cost. rewrite !seg_fv, fr_D_fin. cbn [skipn]. rewrite vsub_f.
  assert (E2 : s_div Xn (Fin zeta) (s_ofZ Xn 2) = Fin (zeta / 2)). { cbn. destruct (Req_EM_T 2 0); [lra|]. reflexivity. }
  rewrite E2. rewrite vscale_f, vmul_f. unfold vdot. nx. change (vmap2 (S := Xn) (s_mul Xn)) with (vmul (S := Xn)). rewrite vmul_f, !vsum_f. cbn.
  unfold restoration_cost. f_equal. change (car (nbase Rn)) with R. rewrite !vsum_R.
  rewrite firstn_length, skipn_length. replace (Nat.min k (length v - n)) with k by lia.
  rewrite (sumn_ext k _ (fun i => nth (n + i) v 0)).
  2: { intros i Hi. rewrite nth_firstn_lt by exact Hi. apply nth_skipn'. }
  f_equal. rewrite <- sumn_scal.
  assert (L0 : length (firstn n v) = n) by (rewrite firstn_length; lia).
  assert (L1 : @length R (vsub (S := Rn) (firstn n v) xr) = n) by (unfold vsub; rewrite vmap2_length_R; lia).
  assert (L2 : @length R (vscale (S := Rn) (zeta / 2) (vsub (S := Rn) (firstn n v) xr)) = n) by (eapply eq_trans; [apply (vscale_length (S := Rn))|exact L1]).
  assert (L3 : @length R (map nearness xr) = n) by (rewrite map_length; exact Hxr).
  assert (L4 : @length R (vmul (S := Rn) (vscale (S := Rn) (zeta / 2) (vsub (S := Rn) (firstn n v) xr)) (map nearness xr)) = n) by (unfold vmul; rewrite vmap2_length_R; lia).
  match goal with |- sumn ?m _ = _ => replace m with n end. 2: { symmetry. unfold vmul at 1. rewrite vmap2_length_R. lia. }
  apply sumn_ext. intros i Hi. rewrite vmul_nth by (rewrite L4; symmetry; exact L1). rewrite vmul_nth by (rewrite L2; symmetry; exact L3).
  rewrite vscale_nth, vsub_nth by lia. rewrite (nth_map_lt _ _ _ 0) by lia. rewrite nth_firstn_lt by exact Hi. ring.
Qed.

Lemma is_derive_sumn m (F : nat -> R -> R) (G : nat -> R) x : (forall i, (i < m)%nat -> is_derive (F i) x (G i)) -> is_derive (fun t => sumn m (fun i => F i t)) x (sumn m G).
Proof.
  induction m as [|m IH]; intros H; cbn. { apply (is_derive_const (K := R_AbsRing) (V := R_NormedModule) 0 x). }
  apply (is_derive_plus (K := R_AbsRing) (V := R_NormedModule)); [apply IH; intros; apply H; lia|apply H; lia].
Qed.
Lemma sumn_one m j f : (j < m)%nat -> sumn m (fun i => if Nat.eqb i j then f i else 0) = f j.
Proof.
  induction m as [|m IH]; intros H; [lia|]. cbn. destruct (Nat.eqb_spec m j) as [->|Hn].
  - rewrite sumn_0; [ring|]. intros i Hi. destruct (Nat.eqb_spec i j); [lia|reflexivity].
  - rewrite IH by lia. ring.
Qed.

Lemma fr_grad_fin v : length v = (n + k)%nat ->
  fr_grad (S := Xn) n k (fv xr) D (Fin zeta) (fv v) = fv (map (fun j => zeta * nearness (nth j xr 0) * (nth j v 0 - nth j xr 0)) (seq 0 n) ++ repeat 1000 k).
Proof.
  intros Hv. unfold fr_grad. rewrite seg_fv, fr_D_fin. cbn [skipn]. rewrite vscale_f, vsub_f, vmul_f. change (fr_rho (S := Xn)) with (Fin 1000). rewrite repeat_f. unfold fv at 3. rewrite map_app. f_equal.
  unfold fv. f_equal. assert (L0 : length (firstn n v) = n) by (rewrite firstn_length; lia).
  assert (L1 : @length R (vsub (S := Rn) (firstn n v) xr) = n) by (unfold vsub; rewrite vmap2_length_R; lia).
  assert (L3 : @length R (map nearness xr) = n) by (rewrite map_length; exact Hxr).
  assert (L2 : @length R (vscale (S := Rn) zeta (map nearness xr)) = n) by (eapply eq_trans; [apply (vscale_length (S := Rn))|exact L3]).
  apply (nth_ext _ _ 0 0). { rewrite map_length, seq_length. unfold vmul. change (car (nbase Rn)) with R. rewrite vmap2_length_R. lia. }
  intros i Hi. assert (Hi' : (i < n)%nat). { unfold vmul in Hi. change (car (nbase Rn)) with R in Hi. rewrite vmap2_length_R in Hi. lia. }
  rewrite (nth_map_lt _ _ _ 0%nat) by (rewrite seq_length; exact Hi'). rewrite seq_nth by exact Hi'. cbn [Nat.add].
  rewrite vmul_nth by (rewrite L2; symmetry; exact L1). rewrite vscale_nth, vsub_nth by lia. rewrite (nth_map_lt _ _ _ 0) by lia. rewrite nth_firstn_lt by exact Hi'. reflexivity.
Qed.

Lemma fr_gradient : gradient_of (n + k) (fr_cost (S := Xn) n k (fv xr) D (Fin zeta)) (fr_grad (S := Xn) n k (fv xr) D (Fin zeta)).
Proof.
  intros v Hv. rewrite fr_grad_fin by exact Hv. split. { rewrite fv_len, app_length, map_length, seq_length, repeat_length. reflexivity. }
  intros j Hj. rewrite fv_nth by (rewrite app_length, map_length, seq_length, repeat_length; exact Hj).
  exists (fun t => restoration_cost n k xr zeta (put v j t)). eexists. split; [|split; [|reflexivity]].
  { intros t. apply fr_cost_fin. rewrite put_len; lia. }
  unfold restoration_cost.
  assert (H1 : is_derive (fun t => sumn k (fun i => nth (n + i) (put v j t) 0)) (nth j v 0) (sumn k (fun i => if Nat.eqb (n + i) j then 1 else 0))).
  { apply (is_derive_sumn k (fun i t => nth (n + i) (put v j t) 0)). intros i Hi. apply (is_derive_ext (fun t => if Nat.eqb (n + i) j then t else nth (n + i) v 0)).
    { intros t. rewrite put_nth by lia. reflexivity. } destruct (Nat.eqb (n + i) j); auto_derive; trivial. }
  assert (H2 : is_derive (fun t => sumn n (fun i => nearness (nth i xr 0) * (nth i (put v j t) 0 - nth i xr 0) ^ 2)) (nth j v 0)
     (sumn n (fun i => if Nat.eqb i j then nearness (nth i xr 0) * (2 * (nth i v 0 - nth i xr 0)) else 0))).
  { apply (is_derive_sumn n (fun i t => nearness (nth i xr 0) * (nth i (put v j t) 0 - nth i xr 0) ^ 2)). intros i Hi.
    apply (is_derive_ext (fun t => nearness (nth i xr 0) * ((if Nat.eqb i j then t else nth i v 0) - nth i xr 0) ^ 2)).
    { intros t. rewrite put_nth by lia. reflexivity. } destruct (Nat.eqb_spec i j) as [->|]; auto_derive; trivial; ring. }
  match goal with |- is_derive _ _ ?d => replace d with (1000 * sumn k (fun i => if Nat.eqb (n + i) j then 1 else 0) + zeta / 2 * sumn n (fun i => if Nat.eqb i j then nearness (nth i xr 0) * (2 * (nth i v 0 - nth i xr 0)) else 0)) end.
  { apply (is_derive_plus (K := R_AbsRing) (V := R_NormedModule)); [apply is_derive_scal; exact H1|apply is_derive_scal; exact H2]. }
  destruct (Nat.lt_ge_cases j n) as [L|L].
  - rewrite (sumn_one n j (fun i => nearness (nth i xr 0) * (2 * (nth i v 0 - nth i xr 0)))) by exact L.
    rewrite sumn_0. 2: { intros i Hi. destruct (Nat.eqb_spec (n + i) j); [lia|reflexivity]. }
    rewrite app_nth1 by (rewrite map_length, seq_length; exact L). rewrite (nth_map_lt _ _ _ 0%nat) by (rewrite seq_length; exact L). rewrite seq_nth by exact L. cbn [Nat.add]. field.
  - rewrite (sumn_0 n). 2: { intros i Hi. destruct (Nat.eqb_spec i j); [lia|reflexivity]. }
    rewrite (sumn_ext k _ (fun i => if Nat.eqb i (j - n) then 1 else 0)). 2: { intros i Hi. destruct (Nat.eqb_spec (n + i) j), (Nat.eqb_spec i (j - n)); try lia; reflexivity. }
    rewrite (sumn_one k (j - n) (fun _ => 1)) by lia. rewrite app_nth2, map_length, seq_length by (rewrite map_length, seq_length; exact L).
    rewrite (nth_indep _ 0 1000) by (rewrite repeat_length; lia). rewrite nth_repeat. ring.
Qed.
End Cost.
