(** Evaluation of extended reals that are rational constants. *)
From Coq Require Import ZArith QArith Qreals Reals List Bool Lia Lra.
From Verif Require Import Base ExprModel ExprReal ExprXR NumModel FilterProofs XArith.
Import ListNotations.
Local Open Scope R_scope.

Definition xq (a : Q) : XR := Fin (Q2R a).
Definition Qltb (a b : Q) : bool := negb (Qle_bool b a).
Lemma Q2R_red a : Q2R (Qred a) = Q2R a. Proof. apply Qeq_eqR. apply Qred_correct. Qed.
Lemma R_ltb_Q a b : R_ltb (Q2R a) (Q2R b) = Qltb a b.
Proof.
  unfold Qltb. destruct (Qle_bool b a) eqn:E; cbn [negb].
  - apply Qle_bool_iff in E. apply Qle_Rle in E. apply R_ltb_false. exact E.
  - apply R_ltb_true. apply Qlt_Rlt. apply Qnot_le_lt. intros H. apply Qle_bool_iff in H. congruence.
Qed.
Lemma q_ofZ z : s_ofZ Xn z = xq (inject_Z z). Proof. unfold xq. cbn. f_equal. unfold Q2R, inject_Z. cbn. field. Qed.
Lemma q_Fin z : Fin (IZR z) = xq (inject_Z z). Proof. apply q_ofZ. Qed.
Lemma q_Fin_div a b : Fin (IZR a / IZR (Zpos b)) = xq (a # b). Proof. reflexivity. Qed.
Lemma q_add a b : s_add Xn (xq a) (xq b) = xq (Qred (a + b)). Proof. unfold xq. rewrite Q2R_red, Q2R_plus. reflexivity. Qed.
Lemma q_sub a b : s_sub Xn (xq a) (xq b) = xq (Qred (a - b)). Proof. unfold xq. rewrite Q2R_red, Q2R_minus. reflexivity. Qed.
Lemma q_mul a b : s_mul Xn (xq a) (xq b) = xq (Qred (a * b)). Proof. unfold xq. rewrite Q2R_red, Q2R_mult. reflexivity. Qed.
Lemma q_opp a : s_opp Xn (xq a) = xq (Qred (- a)). Proof. unfold xq. rewrite Q2R_red, Q2R_opp. reflexivity. Qed.
Lemma q_div a b : Qeq_bool b 0 = false -> s_div Xn (xq a) (xq b) = xq (Qred (a / b)).
Proof.
  intros H. assert (N : ~ b == 0) by (intros K; apply Qeq_bool_iff in K; congruence). unfold xq. rewrite Q2R_red, Q2R_div by auto. apply xdiv.
  intros K. apply N. apply eqR_Qeq. rewrite K. unfold Q2R. cbn. lra.
Qed.
Lemma q_div0 a : s_div Xn (xq a) (xq 0) = if Qltb 0 a then PInf else if Qltb a 0 then MInf else NaN.
Proof.
  unfold xq. replace (Q2R 0) with 0 by (unfold Q2R; cbn; lra). cbn -[Rlt_dec Req_EM_T]. destruct (Req_EM_T 0 0); [|contradiction].
  rewrite <- !R_ltb_Q. unfold R_ltb. replace (Q2R 0) with 0 by (unfold Q2R; cbn; lra). destruct (Rlt_dec 0 (Q2R a)); [reflexivity|].
  destruct (Rlt_dec (Q2R a) 0); reflexivity.
Qed.
Lemma q_abs a : s_abs Xn (xq a) = xq (Qred (Qabs.Qabs a)).
Proof.
  unfold xq. rewrite Q2R_red. change (s_abs Xn (Fin (Q2R a))) with (Fin (Rabs (Q2R a))). f_equal. apply Qabs.Qabs_case; intros H; apply Qle_Rle in H;
    replace (Q2R 0) with 0 in H by (unfold Q2R; cbn; lra); [rewrite Rabs_right; lra|rewrite Rabs_left1, Q2R_opp; lra].
Qed.
Lemma q_ltb a b : s_ltb Xn (xq a) (xq b) = Qltb a b. Proof. apply R_ltb_Q. Qed.
Lemma q_leb a b : s_leb Xn (xq a) (xq b) = Qle_bool a b.
Proof.
  destruct (Qle_bool a b) eqn:E; [apply xleb; apply Qle_Rle, Qle_bool_iff; exact E|]. apply xleb_false. apply Qlt_Rlt. apply Qnot_le_lt. intros H. apply Qle_bool_iff in H. congruence.
Qed.
Lemma q_eqb a b : s_eqb Xn (xq a) (xq b) = Qeq_bool a b.
Proof.
  unfold xq. rewrite xeqb. destruct (Qeq_bool a b) eqn:E; [apply R_eqb_true; apply Qeq_eqR, Qeq_bool_iff; exact E|].
  destruct (R_eqb (Q2R a) (Q2R b)) eqn:F; auto. apply R_eqb_true in F. apply eqR_Qeq in F. apply Qeq_bool_iff in F. congruence.
Qed.
Lemma q_ltb_pinf a : s_ltb Xn (xq a) PInf = true. Proof. reflexivity. Qed.
Lemma q_pinf_ltb a : s_ltb Xn PInf (xq a) = false. Proof. reflexivity. Qed.
Lemma q_lit z k : lit (S := Xn) z k = xq (Qred (inject_Z z / inject_Z (10 ^ Z.of_nat k))).
Proof.
  unfold lit. rewrite !q_ofZ. apply q_div. destruct (Qeq_bool _ 0) eqn:E; auto. apply Qeq_bool_iff in E. exfalso.
  unfold Qeq in E. cbn -[Z.pow] in E. assert (0 < 10 ^ Z.of_nat k)%Z by (apply Z.pow_pos_nonneg; lia). lia.
Qed.
Lemma q_sqrt a b : Qle_bool 0 b = true -> Qeq_bool (b * b) a = true -> s_sqrt Xn (xq a) = xq b.
Proof.
  intros H K. apply Qle_bool_iff in H. apply Qle_Rle in H. apply Qeq_bool_iff in K. apply Qeq_eqR in K. rewrite Q2R_mult in K.
  replace (Q2R 0) with 0 in H by (unfold Q2R; cbn; lra). unfold xq. rewrite <- K. cbn -[sqrt]. unfold R_leb.
  destruct (Rle_dec 0 (Q2R b * Q2R b)) as [|N]; [|exfalso; apply N; nra]. f_equal. apply sqrt_square. exact H.
Qed.
Lemma q_finite a : s_finite Xn (xq a) = true. Proof. reflexivity. Qed.
Lemma q_log a : Qltb 0 a = true -> s_log Xn (xq a) = Fin (ln (Q2R a)).
Proof.
  intros H. rewrite <- R_ltb_Q in H. apply R_ltb_true in H. replace (Q2R 0) with 0 in H by (unfold Q2R; cbn; lra). unfold xq. cbn -[ln Req_EM_T Rlt_dec].
  destruct (Req_EM_T (Q2R a) 0); [lra|]. destruct (Rlt_dec 0 (Q2R a)); [reflexivity|lra].
Qed.
(** x^p for 0 < x <= 1 <= p. *)
Lemma q_pow_le1 a p : Qltb 0 a = true -> Qle_bool a 1 = true -> 0 < p -> exists r, 0 < r <= 1 /\ s_pow Xn (xq a) (Fin p) = Fin r.
Proof.
  intros H L Pp. rewrite <- R_ltb_Q in H. apply R_ltb_true in H. replace (Q2R 0) with 0 in H by (unfold Q2R; cbn; lra).
  apply Qle_bool_iff in L. apply Qle_Rle in L. replace (Q2R 1) with 1 in L by (unfold Q2R; cbn; lra).
  destruct (xpow_pos (Q2R a) p H) as (r & Pr & Er). exists r. split; [|exact Er]. split; [exact Pr|].
  cbn [Xn nbase X_ops s_pow] in Er. unfold xq, X_pow in Er. cbn [X_eqb] in Er. destruct (R_eqb p 0); [injection Er as <-; lra|].
  destruct (R_eqb (Q2R a) 1); [injection Er as <-; lra|]. destruct (Req_EM_T (Q2R a) 0); [lra|]. destruct (Rlt_dec (Q2R a) 0); [lra|]. injection Er as <-.
  unfold R_pow. destruct (Req_EM_T (IZR (Int_part p)) p) as [Ei|].
  - assert (Iz : (0 < Int_part p)%Z) by (apply lt_IZR; rewrite Ei; exact Pp). destruct (Int_part p) as [|k|k]; try lia. cbn [powerRZ].
    rewrite <- (pow1 (Pos.to_nat k)). apply pow_incr. lra.
  - destruct (Req_EM_T (Q2R a) 0); [lra|]. unfold Rpower. rewrite <- exp_0. 
    assert (Ln : ln (Q2R a) <= 0). { destruct (Req_dec (Q2R a) 1) as [ -> |Ne]; [rewrite ln_1; lra|]. left. rewrite <- ln_1. apply ln_increasing; lra. }
    assert (p * ln (Q2R a) <= 0) by nra. destruct (Req_dec (p * ln (Q2R a)) 0) as [ -> |]; [lra|]. left. apply exp_increasing. lra.
Qed.

Lemma q_max a b : smax (S := Xn) (xq a) (xq b) = xq (Qred (if Qltb a b then b else a)).
Proof. unfold smax. rewrite q_ltb. unfold xq. rewrite Q2R_red. destruct (Qltb a b); reflexivity. Qed.
Lemma q_min a b : smin (S := Xn) (xq a) (xq b) = xq (Qred (if Qltb b a then b else a)).
Proof. unfold smin. rewrite q_ltb. unfold xq. rewrite Q2R_red. destruct (Qltb b a); reflexivity. Qed.
Lemma q_min_pinf a : smin (S := Xn) PInf (xq a) = xq a. Proof. reflexivity. Qed.

Ltac qnorm := repeat match goal with
  | |- context [Qred ?e] => let v := eval vm_compute in (Qred e) in change (Qred e) with v
  | |- context [inject_Z ?e] => let v := eval vm_compute in (inject_Z e) in change (inject_Z e) with v
  | |- context [Qltb ?a ?b] => let v := eval vm_compute in (Qltb a b) in change (Qltb a b) with v
  | |- context [Qle_bool ?a ?b] => let v := eval vm_compute in (Qle_bool a b) in change (Qle_bool a b) with v
  | |- context [Qeq_bool ?a ?b] => let v := eval vm_compute in (Qeq_bool a b) in change (Qeq_bool a b) with v
  end.
Ltac qstep := first
  [rewrite q_add|rewrite q_sub|rewrite q_mul|rewrite q_opp|rewrite q_abs|rewrite q_ltb|rewrite q_leb|rewrite q_eqb|rewrite q_lit|rewrite q_ofZ|rewrite q_finite
  |rewrite q_Fin|rewrite q_Fin_div|rewrite q_ltb_pinf|rewrite q_max|rewrite q_min|rewrite q_min_pinf|rewrite q_pinf_ltb
  |rewrite q_div by (vm_compute; reflexivity)|rewrite q_div0].
Ltac qcbn := cbn -[s_add s_sub s_mul s_div s_opp s_abs s_ltb s_leb s_eqb s_ofZ s_sqrt s_log s_pow s_finite lit xq smax smin Qred Qltb Qle_bool Qeq_bool inject_Z Z.pow].
Ltac qeval := repeat (progress (qcbn; repeat (qstep; qnorm); cbv iota)).
