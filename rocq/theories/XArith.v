(** Arithmetic on finite extended reals, and what a finite result says about the operands. *)
From Coq Require Import ZArith Reals List Bool Lra Lia.
From Verif Require Import Base ExprModel ExprReal ExprXR NumModel FilterProofs NewtonModel SolverProofs.
Import ListNotations.
Local Open Scope R_scope.

Lemma pow10_pos k : 0 < IZR (10 ^ Z.of_nat k).
Proof. apply IZR_lt. apply Z.pow_pos_nonneg; lia. Qed.
Lemma xlit m k : lit (S := Xn) m k = Fin (IZR m / IZR (10 ^ Z.of_nat k)).
Proof.
  unfold lit. cbn [Xn nbase X_ops s_div s_ofZ X_div]. pose proof (pow10_pos k). destruct (Req_EM_T _ 0) as [E|_]; [lra|reflexivity].
Qed.
Lemma xadd a b : s_add Xn (Fin a) (Fin b) = Fin (a + b). Proof. reflexivity. Qed.
Lemma xsub a b : s_sub Xn (Fin a) (Fin b) = Fin (a - b). Proof. reflexivity. Qed.
Lemma xmul a b : s_mul Xn (Fin a) (Fin b) = Fin (a * b). Proof. reflexivity. Qed.
Lemma xopp a : s_opp Xn (Fin a) = Fin (- a). Proof. reflexivity. Qed.
Lemma xdiv a b : b <> 0 -> s_div Xn (Fin a) (Fin b) = Fin (a / b).
Proof. intros H. cbn. destruct (Req_EM_T b 0); [contradiction|reflexivity]. Qed.
Lemma xofZ z : s_ofZ Xn z = Fin (IZR z). Proof. reflexivity. Qed.
Lemma xltb a b : s_ltb Xn (Fin a) (Fin b) = R_ltb a b. Proof. reflexivity. Qed.
Lemma xleb a b : s_leb Xn (Fin a) (Fin b) = true <-> a <= b.
Proof. apply X_leb_fin. Qed.
Lemma xleb_false a b : s_leb Xn (Fin a) (Fin b) = false <-> b < a.
Proof. rewrite <- not_true_iff_false, xleb. lra. Qed.
Lemma xeqb a b : s_eqb Xn (Fin a) (Fin b) = R_eqb a b. Proof. reflexivity. Qed.
Lemma xpow_pos b p : 0 < b -> exists q, 0 < q /\ s_pow Xn (Fin b) (Fin p) = Fin q.
Proof.
  intros H. cbn [Xn nbase X_ops s_pow]. unfold X_pow. destruct (X_eqb (Fin p) (Fin 0)); [exists 1; split; [lra|reflexivity]|].
  destruct (X_eqb (Fin b) (Fin 1)); [exists 1; split; [lra|reflexivity]|]. destruct (Req_EM_T b 0); [lra|]. destruct (Rlt_dec b 0); [lra|].
  exists (R_pow b p). split; [apply R_pow_pos_base; auto|reflexivity].
Qed.
Lemma xpow_0 p : 0 < p -> s_pow Xn (Fin 0) (Fin p) = Fin 0.
Proof.
  intros H. cbn [Xn nbase X_ops s_pow]. unfold X_pow. cbn [X_eqb]. destruct (R_eqb p 0) eqn:E; [apply R_eqb_true in E; lra|].
  destruct (R_eqb 0 1) eqn:E1; [apply R_eqb_true in E1; lra|]. destruct (Req_EM_T 0 0); [|contradiction]. destruct (Rlt_dec 0 p); [reflexivity|lra].
Qed.

(** Halving. *)
Lemma xhalve a : halve (S := Xn) (Fin a) = Fin (a / 2).
Proof. unfold halve. rewrite xlit, xmul. f_equal. change (IZR (10 ^ Z.of_nat 1)) with 10. lra. Qed.
Lemma xhalves k a : halves (S := Xn) k (Fin a) = Fin (a / 2 ^ k).
Proof.
  induction k as [|k IH]. { cbn. f_equal. lra. }
  rewrite halves_S', IH, xhalve. f_equal. cbn [pow]. field. apply pow_nonzero. lra.
Qed.
Lemma two_pow_Z k : 2 ^ k = IZR (2 ^ Z.of_nat k).
Proof.
  induction k as [|k IH]; [reflexivity|]. rewrite Nat2Z.inj_succ, Z.pow_succ_r by lia. rewrite mult_IZR, <- IH. reflexivity.
Qed.
Lemma small_20 a : 0 <= a <= 1 -> s_ltb Xn (halves (S := Xn) 67 (Fin a)) (lit 1 20) = true.
Proof.
  intros H. rewrite xhalves, xlit, xltb. apply R_ltb_true. rewrite two_pow_Z. 
  apply Rle_lt_trans with (1 / IZR (2 ^ Z.of_nat 67)).
  - apply Rmult_le_compat_r; [|lra]. left. apply Rinv_0_lt_compat. apply IZR_lt. reflexivity.
  - unfold Rdiv. rewrite !Rmult_1_l. apply Rinv_lt_contravar; [|apply IZR_lt; reflexivity].
    apply Rmult_lt_0_compat; apply IZR_lt; reflexivity.
Qed.
Lemma small_7 a : 0 <= a <= 1 -> s_ltb Xn (halves (S := Xn) 24 (Fin a)) (lit 1 7) = true.
Proof.
  intros H. rewrite xhalves, xlit, xltb. apply R_ltb_true. rewrite two_pow_Z. 
  apply Rle_lt_trans with (1 / IZR (2 ^ Z.of_nat 24)).
  - apply Rmult_le_compat_r; [|lra]. left. apply Rinv_0_lt_compat. apply IZR_lt. reflexivity.
  - unfold Rdiv. rewrite !Rmult_1_l. apply Rinv_lt_contravar; [|apply IZR_lt; reflexivity].
    apply Rmult_lt_0_compat; apply IZR_lt; reflexivity.
Qed.

(** Finite results have finite operands. *)
Definition fin (x : XR) : Prop := s_finite Xn x = true.
Lemma fin_Fin x : fin x <-> exists r, x = Fin r.
Proof. split. { destruct x; intros H; try discriminate; eauto. } intros [r ->]. reflexivity. Qed.
Lemma fin_add x y : fin (s_add Xn x y) -> fin x /\ fin y.
Proof. destruct x, y; intros H; try discriminate; split; reflexivity. Qed.
Lemma fin_sub x y : fin (s_sub Xn x y) -> fin x /\ fin y.
Proof. destruct x, y; intros H; try discriminate; split; reflexivity. Qed.
Lemma fin_mul m y : m <> 0 -> fin (s_mul Xn (Fin m) y) -> fin y.
Proof.
  intros M H. destruct y; auto; exfalso; unfold fin in H; cbn -[Rlt_dec] in H; destruct (Rlt_dec 0 m); try discriminate;
    destruct (Rlt_dec m 0); try discriminate; lra.
Qed.
