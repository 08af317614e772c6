(** Proofs about the fraction-to-the-boundary rule in double arithmetic. *)
From Coq Require Import ZArith Reals List Bool Lra Lia Psatz.
From Flocq Require Import Core IEEE754.BinarySingleNaN Relative Plus_error.
From Verif Require Import Base ExprModel ExprReal ExprXR NumModel UtilModel FloatModel FloatArith.
Import ListNotations.
Local Open Scope R_scope.

Notation b2 := (bpow radix2).
(** ** Rounding *)
Lemma fx_FLT : fx = FLT_exp (-1074) 53. Proof. reflexivity. Qed.
Lemma rnd_bpow k : (-1074 <= k)%Z -> rnd (b2 k) = b2 k.
Proof.
  intros H. apply round_generic; [apply valid_rnd_round_mode|]. apply generic_format_bpow. rewrite fx_FLT. unfold FLT_exp. lia.
Qed.
Lemma rnd_opp r : rnd (- r) = - rnd r.
Proof. apply round_NE_opp. Qed.
Lemma rnd_ge0 r : 0 <= r -> 0 <= rnd r.
Proof. intros H. rewrite <- rnd_0. apply rnd_le. exact H. Qed.
Lemma rnd_abs r : Rabs (rnd r) = rnd (Rabs r).
Proof. unfold Rabs. destruct (Rcase_abs r) as [H|H].
  - rewrite rnd_opp. pose proof (rnd_le r 0 ltac:(lra)) as L. rewrite rnd_0 in L. destruct (Rcase_abs (rnd r)); lra.
  - pose proof (rnd_ge0 r ltac:(lra)). destruct (Rcase_abs (rnd r)); lra.
Qed.
Lemma rX_small r : Rabs r <= b2 1023 -> rX (Fin r) = Fin (rnd r).
Proof.
  intros H. unfold rX. rewrite Rlt_bool_true; [reflexivity|]. rewrite rnd_abs. apply Rle_lt_trans with (rnd (b2 1023)); [apply rnd_le; exact H|].
  rewrite rnd_bpow by lia. apply bpow_lt. reflexivity.
Qed.
Lemma rX_bounded r s : (0 <= s) -> s < big -> rnd s = s -> Rabs r <= s -> rX (Fin r) = Fin (rnd r).
Proof.
  intros H0 H1 H2 H. unfold rX. rewrite Rlt_bool_true; [reflexivity|]. rewrite rnd_abs. apply Rle_lt_trans with (rnd s); [apply rnd_le; exact H|]. lra.
Qed.
(** Relative error of normal results, absolute error of all. *)
Lemma rnd_rel r : b2 (-1022) <= Rabs r -> Rabs (rnd r - r) <= b2 (-53) * Rabs r.
Proof.
  intros H. pose proof (relative_error_N_FLT radix2 (-1074) 53 eq_refl (fun x => negb (Z.even x)) r H) as K.
  replace (b2 (-53)) with (/ 2 * b2 (-53 + 1)); [exact K|]. change (-53 + 1)%Z with (1 + (-53))%Z. rewrite bpow_plus. cbn -[bpow]. change (b2 1) with 2. lra.
Qed.
Lemma rnd_tiny r : Rabs r <= b2 (-1022) -> Rabs (rnd r - r) <= b2 (-1075).
Proof.
  intros H. destruct (Req_dec r 0) as [->|N].
  { rewrite rnd_0, Rminus_0_r, Rabs_R0. apply bpow_ge_0. }
  assert (K : Rabs (rnd r - r) <= / 2 * ulp radix2 fx r) by apply error_le_half_ulp, vfx.
  assert (U : ulp radix2 fx r <= b2 (-1074)).
  { rewrite ulp_neq_0 by exact N. apply bpow_le. unfold cexp. rewrite fx_FLT. unfold FLT_exp.
    destruct (mag radix2 r) as [e He]. cbn [mag_val]. specialize (He N). assert (H0 : b2 (e - 1) <= b2 (-1022)) by (eapply Rle_trans; [apply He|exact H]). apply le_bpow in H0. lia. }
  replace (b2 (-1075)) with (/ 2 * b2 (-1074)). { eapply Rle_trans; [exact K|]. lra. }
  change (-1074)%Z with (1 + (-1075))%Z. rewrite bpow_plus. change (b2 1) with 2. lra.
Qed.
(** The difference of two doubles does not underflow to zero. *)
Lemma sub_pos (x y : dbl) : B2R y < B2R x -> 0 < rnd (B2R x - B2R y).
Proof.
  intros H. pose proof (rnd_ge0 (B2R x - B2R y) ltac:(lra)) as L. destruct (Req_dec (rnd (B2R x - B2R y)) 0) as [E|]; [|lra].
  exfalso. assert (K : B2R x + - B2R y = 0); [|lra].
  apply (round_plus_eq_0 radix2 fx (round_mode mode_NE)).
  - apply generic_format_B2R.
  - apply generic_format_opp. apply generic_format_B2R.
  - exact E.
Qed.

(** ** One component of the rule *)
Definition de : R := b2 (-49).
Definition tiny_d : R := b2 (-1022).
Lemma b2_49 : b2 (-49) = 16 * b2 (-53). Proof. change (-49)%Z with (4 + (-53))%Z. rewrite bpow_plus. change (b2 4) with 16. reflexivity. Qed.
Lemma b2_50 : b2 (-50) = 8 * b2 (-53). Proof. change (-50)%Z with (3 + (-53))%Z. rewrite bpow_plus. change (b2 3) with 8. reflexivity. Qed.
Lemma b2_53 : 0 < b2 (-53) <= 1 / 1000000.
Proof. split; [apply bpow_gt_0|]. cbn [bpow]. unfold Rdiv. rewrite Rmult_1_l. apply Rinv_le; [lra|]. apply IZR_le. compute. discriminate. Qed.

Definition ftb1 (tau v w a : dbl) : dbl :=
  if d_ltb (d_mul a w) (d_mul (d_opp tau) v) then d_mul (d_div (d_opp tau) w) v else a.

(** The quotient of the rule, for finite negative w. *)
Lemma quot_bound (t w : R) : 1 / 2 <= t < 1 -> 0 < w < big -> t / w <= b2 1002 ->
  0 < t / w /\ Rabs (rnd (t / w) - t / w) <= b2 (-50) * (t / w).
Proof.
  intros Ht Hw Ho. assert (Q : 0 < t / w) by (apply Rmult_lt_0_compat; [lra|apply Rinv_0_lt_compat; lra]). split; [exact Q|].
  pose proof b2_50. pose proof b2_53. destruct (Rle_dec (b2 (-1022)) (t / w)) as [L|L].
  - pose proof (rnd_rel (t / w)) as K. rewrite (Rabs_pos_eq (t / w)) in K by lra. specialize (K L). rewrite b2_50. nra.
  - pose proof (rnd_tiny (t / w)) as K. rewrite (Rabs_pos_eq (t / w)) in K by lra. specialize (K ltac:(lra)).
    eapply Rle_trans; [exact K|]. change (-1075)%Z with (-50 + (-1025))%Z. rewrite bpow_plus. apply Rmult_le_compat_l; [apply bpow_ge_0|].
    apply Rmult_le_reg_r with w; [lra|]. replace (t / w * w) with t by (field; lra). apply Rle_trans with (b2 (-1025) * big).
    + apply Rmult_le_compat_l; [apply bpow_ge_0|lra].
    + unfold big, emax. rewrite <- bpow_plus. change (b2 (-1025 + 1024)) with (/ 2). lra.
Qed.

Section One.
Variables (tau v a : dbl).
Hypothesis Ft : is_finite tau = true.
Hypothesis Fv : is_finite v = true.
Hypothesis Fa : is_finite a = true.
Hypothesis Ht : 1 / 2 <= B2R tau < 1.
Hypothesis Hv : b2 (-1000) <= B2R v.
Hypothesis Ha : 0 <= B2R a <= 2.

Lemma v_pos : 0 < B2R v. Proof. pose proof (bpow_gt_0 radix2 (-1000)). lra. Qed.
Lemma tv_X : dX (d_mul (d_opp tau) v) = Fin (- rnd (B2R tau * B2R v)).
Proof.
  pose proof v_pos. rewrite mul_X, opp_X, (dX_fin _ Ft), (dX_fin _ Fv). cbn [X_opp X_mul].
  rewrite (rX_bounded _ (B2R v)).
  - f_equal. rewrite <- rnd_opp. f_equal. lra.
  - lra.
  - pose proof (lt_big v) as L. rewrite Rabs_pos_eq in L by lra. exact L.
  - apply rnd_B2R.
  - rewrite Rabs_left1 by nra. nra.
Qed.

(** What the comparison of the products says about the exact products. *)
Lemma cmp_true (w : dbl) : is_finite w = true -> d_ltb (d_mul a w) (d_mul (d_opp tau) v) = true -> B2R w < 0 /\ 0 < B2R a /\ B2R tau * B2R v < B2R a * - B2R w.
Proof.
  intros Fw H. pose proof v_pos as Pv. rewrite lt_X, tv_X, mul_X, (dX_fin _ Fa), (dX_fin _ Fw) in H. cbn [X_mul] in H.
  assert (K : B2R tau * B2R v < B2R a * - B2R w).
  { destruct (Rlt_dec (B2R tau * B2R v) (B2R a * - B2R w)) as [|N]; [assumption|exfalso]. apply Rnot_lt_le in N.
    assert (L : - rnd (B2R tau * B2R v) <= rnd (B2R a * B2R w)). { rewrite <- rnd_opp. apply rnd_le. lra. }
    unfold rX in H. destruct (Rlt_bool_spec (Rabs (rnd (B2R a * B2R w))) big) as [B|B].
    - cbn [X_ltb] in H. unfold R_ltb in H. destruct (Rlt_dec _ _); [lra|discriminate].
    - destruct (Rlt_bool_spec (B2R a * B2R w) 0) as [C|C]; [|discriminate].
      assert (Rabs (rnd (B2R a * B2R w)) <= B2R v).
      { rewrite rnd_abs, <- (rnd_B2R v). apply rnd_le. rewrite Rabs_left by lra. nra. }
      pose proof (lt_big v) as Lv. rewrite Rabs_pos_eq in Lv by lra. lra. }
  assert (J : 0 < B2R a * - B2R w) by nra. assert (Nw : B2R w < 0). { destruct (Rlt_dec (B2R w) 0); [assumption|exfalso]. assert (0 <= B2R a * B2R w) by (apply Rmult_le_pos; lra). lra. }
  split; [exact Nw|]. split; [|exact K]. destruct (Req_dec (B2R a) 0) as [E0|]; [exfalso; rewrite E0 in J; lra|lra].
Qed.
Lemma cmp_false (w : dbl) : is_finite w = true -> B2R w < 0 -> d_ltb (d_mul a w) (d_mul (d_opp tau) v) = false -> B2R a * - B2R w <= B2R tau * B2R v * (1 + de).
Proof.
  intros Fw Nw H. pose proof v_pos as Pv. rewrite lt_X, tv_X, mul_X, (dX_fin _ Fa), (dX_fin _ Fw) in H. cbn [X_mul] in H.
  assert (L : rnd (B2R a * - B2R w) <= rnd (B2R tau * B2R v)).
  { replace (B2R a * - B2R w) with (- (B2R a * B2R w)) by lra. rewrite rnd_opp. unfold rX in H. destruct (Rlt_bool_spec (Rabs (rnd (B2R a * B2R w))) big) as [B|B].
    - cbn [X_ltb] in H. unfold R_ltb in H. destruct (Rlt_dec _ _); [discriminate|]. lra.
    - destruct (Rlt_bool_spec (B2R a * B2R w) 0) as [C|C]; [discriminate|]. assert (B2R a * B2R w <= 0) by nra.
      exfalso. assert (E : B2R a * B2R w = 0) by lra. rewrite E, rnd_0, Rabs_R0 in B. pose proof big_pos. lra. }
  pose proof b2_53 as U. unfold de. rewrite b2_49. set (u := b2 (-53)) in *.
  assert (T : b2 (-1001) <= B2R tau * B2R v). { change (-1001)%Z with (-1 + (-1000))%Z. rewrite bpow_plus. change (b2 (-1)) with (/ 2). pose proof (bpow_gt_0 radix2 (-1000)). nra. }
  pose proof (bpow_le radix2 (-1022) (-1001) ltac:(lia)) as T'.
  pose proof (rnd_rel (B2R tau * B2R v)) as R1. rewrite (Rabs_pos_eq (B2R tau * B2R v)) in R1 by nra. specialize (R1 ltac:(lra)). apply Rabs_le_inv in R1. fold u in R1.
  destruct (Rle_dec (b2 (-1022)) (B2R a * - B2R w)) as [B|B]; [|nra].
  pose proof (rnd_rel (B2R a * - B2R w)) as R2. rewrite (Rabs_pos_eq (B2R a * - B2R w)) in R2 by nra. specialize (R2 B). apply Rabs_le_inv in R2. fold u in R2.
  set (p := B2R a * - B2R w) in *. set (q := B2R tau * B2R v) in *. assert (0 < q) by (pose proof (bpow_gt_0 radix2 (-1001)); lra).
  assert (p * (1 - u) <= q * (1 + u)) by lra. nra.
Qed.

(** The new step. *)
Lemma new_step (w : dbl) : is_finite w = true -> d_ltb (d_mul a w) (d_mul (d_opp tau) v) = true ->
  let a' := d_mul (d_div (d_opp tau) w) v in
  is_finite a' = true /\ 0 <= B2R a' <= 4 /\ (B2R a' <= tiny_d \/ (B2R a' * - B2R w <= B2R tau * B2R v * (1 + de) /\ B2R a' <= B2R a * (1 + de))) /\
  B2R tau * B2R v / (- B2R w) * (1 - de) <= B2R a' + b2 (-1074).
Proof.
  intros Fw C. destruct (cmp_true w Fw C) as (Nw & Pa & K). pose proof v_pos as Pv. cbv zeta.
  assert (Bw : - B2R w < big). { pose proof (lt_big w) as L. rewrite Rabs_left in L by exact Nw. exact L. }
  set (q := B2R tau / - B2R w).
  assert (Hq : q * B2R v <= B2R a). { unfold q. apply Rmult_le_reg_r with (- B2R w); [lra|]. replace (B2R tau / - B2R w * B2R v * - B2R w) with (B2R tau * B2R v) by (field; lra). lra. }
  assert (Q2 : q <= b2 1002).
  { assert (q * b2 (-1000) <= 2). { assert (0 < q) by (apply Rmult_lt_0_compat; [lra|apply Rinv_0_lt_compat; lra]). nra. }
    apply Rmult_le_reg_r with (b2 (-1000)); [apply bpow_gt_0|]. rewrite <- bpow_plus. change (b2 (1002 + -1000)) with 4. lra. }
  destruct (quot_bound (B2R tau) (- B2R w) ltac:(lra) ltac:(lra) Q2) as [Pq Eq]. fold q in Pq, Eq. apply Rabs_le_inv in Eq.
  pose proof b2_53 as U. rewrite b2_50 in Eq. unfold de. rewrite b2_49. set (u := b2 (-53)) in *.
  assert (D1 : dX (d_div (d_opp tau) w) = Fin (rnd q)).
  { rewrite div_X by (rewrite (dX_fin _ Fw); intros E; injection E; lra). rewrite opp_X, (dX_fin _ Ft), (dX_fin _ Fw). cbn [X_opp X_div].
    destruct (Req_EM_T (B2R w) 0); [lra|]. replace (- B2R tau / B2R w) with q by (unfold q; field; lra). apply rX_small.
    rewrite Rabs_pos_eq by lra. eapply Rle_trans; [exact Q2|]. apply bpow_le. lia. }
  assert (T : rnd q * B2R v <= B2R a * (1 + 8 * u)). { assert (q * (1 + 8 * u) * B2R v <= B2R a * (1 + 8 * u)) by nra. assert (rnd q <= q * (1 + 8 * u)) by lra. nra. }
  assert (T0 : 0 <= rnd q * B2R v). { pose proof (rnd_ge0 q ltac:(lra)). nra. }
  assert (T4 : rnd q * B2R v <= 4) by nra.
  assert (D2 : dX (d_mul (d_div (d_opp tau) w) v) = Fin (rnd (rnd q * B2R v))).
  { rewrite mul_X, D1, (dX_fin _ Fv). cbn [X_mul]. apply rX_small. rewrite Rabs_pos_eq by lra. apply Rle_trans with (b2 2); [exact T4|apply bpow_le; lia]. }
  apply fin_dX in D2. destruct D2 as [F2 V2]. split; [exact F2|]. rewrite V2. set (t := rnd q * B2R v) in *.
  assert (W : q * - B2R w = B2R tau) by (unfold q; field; lra).
  split; [split; [apply rnd_ge0; exact T0|]|].
  { change 4 with (b2 2). rewrite <- (rnd_bpow 2) by lia. apply rnd_le. exact T4. }
  assert (Lo : q * B2R v * (1 - 8 * u) <= t) by (unfold t; assert (q * (1 - 8 * u) <= rnd q) by lra; nra).
  assert (Hi : t <= q * B2R v * (1 + 8 * u)) by (unfold t; assert (rnd q <= q * (1 + 8 * u)) by lra; nra).
  assert (Pqv : 0 < q * B2R v) by nra.
  assert (Er : Rabs (rnd t - t) <= u * t \/ (t <= b2 (-1022) /\ Rabs (rnd t - t) <= b2 (-1075))).
  { destruct (Rle_dec (b2 (-1022)) t) as [B|B].
    - left. pose proof (rnd_rel t) as R1. rewrite (Rabs_pos_eq t) in R1 by exact T0. apply R1. exact B.
    - right. pose proof (rnd_tiny t) as R1. rewrite (Rabs_pos_eq t) in R1 by exact T0. split; [lra|apply R1; lra]. }
  split.
  - destruct Er as [Er|[Er _]].
    + right. apply Rabs_le_inv in Er. assert (rnd t <= q * B2R v * (1 + 16 * u)). { apply Rle_trans with (t * (1 + u)); [lra|]. apply Rle_trans with (q * B2R v * (1 + 8 * u) * (1 + u)); [apply Rmult_le_compat_r; lra|]. nra. }
      split; [|nra]. replace (B2R tau * B2R v * (1 + 16 * u)) with (q * B2R v * (1 + 16 * u) * - B2R w) by (rewrite <- W; ring). apply Rmult_le_compat_r; lra.
    + left. unfold tiny_d. rewrite <- (rnd_bpow (-1022)) by lia. apply rnd_le. exact Er.
  - replace (B2R tau * B2R v / - B2R w) with (q * B2R v) by (unfold q; field; lra).
    assert (b2 (-1075) <= b2 (-1074)) by (apply bpow_le; lia). pose proof (bpow_gt_0 radix2 (-1074)).
    destruct Er as [Er|[_ Er]]; apply Rabs_le_inv in Er.
    + assert (t * (1 - u) <= rnd t) by lra. assert (q * B2R v * (1 - 8 * u) * (1 - u) <= t * (1 - u)) by (apply Rmult_le_compat_r; lra). nra.
    + nra.
Qed.
End One.

(** ** All components *)
Definition held (tau : R) (g b : R) (v w : dbl) : Prop :=
  b <= tiny_d * g \/ w = B754_nan \/ w = B754_infinity false \/ (is_finite w = true /\ (0 <= B2R w \/ b * - B2R w <= tau * B2R v * g)).
Definition blocks (tau b : R) (vw : dbl * dbl) : Prop :=
  let '(v, w) := vw in w = B754_infinity true \/ (is_finite w = true /\ B2R w < 0 /\ tau * B2R v / (- B2R w) * (1 - de) <= b + b2 (-1074)).
Lemma de_pos : 0 < de. Proof. apply bpow_gt_0. Qed.
Lemma grow_ge1 n : 1 <= (1 + de) ^ n.
Proof. apply pow_R1_Rle. pose proof de_pos. lra. Qed.
Lemma tiny_pos : 0 < tiny_d. Proof. apply bpow_gt_0. Qed.
Lemma tiny_lt1 : tiny_d <= 1. Proof. unfold tiny_d. change 1 with (b2 0). apply bpow_le. lia. Qed.

Lemma d_opp_fin t : is_finite t = true -> is_finite (d_opp t) = true.
Proof. unfold d_opp. rewrite is_finite_Bopp. auto. Qed.
Lemma ftb1_ok tau v w a : is_finite tau = true -> is_finite v = true -> is_finite a = true -> 1 / 2 <= B2R tau < 1 -> b2 (-1000) <= B2R v -> 0 <= B2R a <= 2 ->
  let a' := ftb1 tau v w a in
  is_finite a' = true /\ 0 <= B2R a' /\ B2R a' <= Rmax tiny_d (B2R a) * (1 + de) /\
  (B2R a' <= tiny_d \/ w = B754_nan \/ w = B754_infinity false \/ (is_finite w = true /\ (0 <= B2R w \/ B2R a' * - B2R w <= B2R tau * B2R v * (1 + de)))) /\
  (a' = a \/ blocks (B2R tau) (B2R a') (v, w)).
Proof.
  intros Ft Fv Fa Ht Hv Ha. cbv zeta. unfold ftb1. pose proof de_pos as Pd. pose proof tiny_pos as Pt. pose proof (v_pos _ Hv) as Pv.
  assert (Same : B2R a <= Rmax tiny_d (B2R a) * (1 + de)). { pose proof (Rmax_r tiny_d (B2R a)). nra. }
  destruct (is_finite w) eqn:Fw.
  - destruct (d_ltb (d_mul a w) (d_mul (d_opp tau) v)) eqn:C.
    + destruct (new_step tau v a Ft Fv Fa Ht Hv Ha w Fw C) as (A1 & A2 & A3 & A4). destruct (cmp_true tau v a Ft Fv Fa Ht Hv Ha w Fw C) as (Nw & _).
      split; [exact A1|]. split; [apply A2|]. split.
      { pose proof (Rmax_l tiny_d (B2R a)). pose proof (Rmax_r tiny_d (B2R a)). destruct A3 as [A3|[_ A3]]; nra. }
      split; [|right; right; auto]. destruct A3 as [A3|[A3 _]]; [left; exact A3|]. right. right. right. auto.
    + split; [exact Fa|]. split; [apply Ha|]. split; [exact Same|]. split; [|left; reflexivity]. right. right. right. split; [reflexivity|].
      destruct (Rle_dec 0 (B2R w)); [auto|]. right. apply cmp_false; auto. lra.
  - destruct w as [|s| |]; try discriminate.
    + assert (Tv := tv_X tau v Ft Fv Ht Hv). rewrite lt_X, Tv, mul_X, (dX_fin _ Fa). destruct s; cbn [dX].
      * unfold X_mul. destruct (Rlt_dec 0 (B2R a)) as [Q|Q].
        -- replace (xsgn (Fin (B2R a))) with (Some 1%Z) by (cbn; destruct (Rlt_dec 0 (B2R a)); [reflexivity|contradiction]). cbn [xsgn Z.mul Pos.mul xinf Z.ltb Z.compare rX X_ltb].
           assert (Z : dX (d_mul (d_div (d_opp tau) (B754_infinity true)) v) = Fin 0).
           { rewrite mul_X, div_X by discriminate. rewrite opp_X, (dX_fin _ Ft), (dX_fin _ Fv). cbn [dX X_opp X_div]. rewrite rX_0. cbn [X_mul]. rewrite Rmult_0_l. apply rX_0. }
           apply fin_dX in Z. destruct Z as [Z1 Z2]. rewrite Z2. split; [exact Z1|]. split; [lra|]. split; [pose proof (Rmax_r tiny_d (B2R a)); nra|].
           split; [left; lra|]. right. left. reflexivity.
        -- assert (E0 : B2R a = 0) by lra. rewrite E0, xsgn_0. cbn [xsgn Z.mul xinf Z.ltb Z.compare rX X_ltb]. split; [exact Fa|]. split; [lra|]. split; [|split; [left; lra|left; reflexivity]]. pose proof (Rmax_r tiny_d 0). nra.
      * assert (K : X_ltb (rX (X_mul (Fin (B2R a)) PInf)) (Fin (- rnd (B2R tau * B2R v))) = false).
        { unfold X_mul. destruct (Rlt_dec 0 (B2R a)) as [Q|Q].
          - replace (xsgn (Fin (B2R a))) with (Some 1%Z) by (cbn; destruct (Rlt_dec 0 (B2R a)); [reflexivity|contradiction]). reflexivity.
          - assert (E0 : B2R a = 0) by lra. rewrite E0, xsgn_0. reflexivity. }
        rewrite K. split; [exact Fa|]. split; [apply Ha|]. split; [exact Same|]. split; [|left; reflexivity]. auto.
    + assert (K : d_ltb (d_mul a B754_nan) (d_mul (d_opp tau) v) = false). { rewrite lt_X, mul_X. destruct (dX a) as [r| | |]; cbn; try reflexivity; destruct (if Rlt_dec 0 r then _ else _); reflexivity. }
      rewrite K. split; [exact Fa|]. split; [apply Ha|]. split; [exact Same|]. split; [|left; reflexivity]. auto.
Qed.

Section Ftb.
Context {M : libm}.
Notation ftbD := (ftb (S := Dn M)).
Variable tau : dbl.
Hypothesis Ft : is_finite tau = true.
Hypothesis Ht : 1 / 2 <= B2R tau < 1.
Lemma held_mono (g g' b : R) (x p : list dbl) : List.Forall (fun v => is_finite v = true /\ b2 (-1000) <= B2R v) x -> g <= g' ->
  List.Forall2 (held (B2R tau) g b) x p -> List.Forall2 (held (B2R tau) g' b) x p.
Proof.
  intros F G H. revert F. induction H as [|v w x p H _ IH]; intros F; constructor.
  - inversion F as [|? ? [_ Hv] ?]; subst. pose proof (v_pos _ Hv). pose proof tiny_pos.
    destruct H as [H|[H|[H|[H H']]]]; [left; apply Rle_trans with (tiny_d * g); [exact H|apply Rmult_le_compat_l; lra]|right; left; exact H|right; right; left; exact H|].
    right. right. right. split; [exact H|]. destruct H' as [H'|H']; [auto|]. right. eapply Rle_trans; [exact H'|]. assert (0 < B2R tau * B2R v) by nra. apply Rmult_le_compat_l; lra.
  - apply IH. inversion F; auto.
Qed.
Lemma ftb_from_D : forall (x p : list dbl) (a : dbl), List.Forall (fun v => is_finite v = true /\ b2 (-1000) <= B2R v) x -> length x = length p ->
  is_finite a = true -> 0 <= B2R a -> Rmax tiny_d (B2R a) * (1 + de) ^ length x <= 2 ->
  let b := ftb_from (S := Dn M) x p tau a in
  is_finite b = true /\ 0 <= B2R b /\ B2R b <= Rmax tiny_d (B2R a) * (1 + de) ^ length x /\
  List.Forall2 (held (B2R tau) ((1 + de) ^ length x) (B2R b)) x p /\
  (b = a \/ exists vw, In vw (combine x p) /\ blocks (B2R tau) (B2R b) vw).
Proof.
  induction x as [|v x IH]; intros p a F L Fa Ha Hg; (destruct p as [|w p]; try discriminate); cbv zeta.
  { cbn. split; [exact Fa|]. split; [exact Ha|]. split; [rewrite Rmult_1_r; apply Rmax_r|]. split; [constructor|auto]. }
  inversion F as [|? ? [Fv Hv] F']; subst. injection L as L.
  change (ftb_from (S := Dn M) (v :: x) (w :: p) tau a) with (ftb_from (S := Dn M) x p tau (ftb1 tau v w a)).
  cbn [length pow] in Hg |- *. pose proof de_pos as Pd. pose proof (grow_ge1 (length x)) as G1. pose proof tiny_pos as Pt.
  set (g := (1 + de) ^ length x) in *. set (m := Rmax tiny_d (B2R a)) in *.
  assert (Pm : 0 < m) by (unfold m; pose proof (Rmax_l tiny_d (B2R a)); lra).
  assert (H2 : B2R a <= 2). { pose proof (Rmax_r tiny_d (B2R a)). fold m in H. assert (1 <= (1 + de) * g) by nra. assert (m <= m * ((1 + de) * g)) by nra. lra. }
  destruct (ftb1_ok tau v w a Ft Fv Fa Ht Hv ltac:(lra)) as (B1 & B2 & B3 & B4 & B5). set (a' := ftb1 tau v w a) in *. fold m in B3.
  assert (Mx : Rmax tiny_d (B2R a') <= m * (1 + de)). { apply Rmax_lub; [|exact B3]. pose proof (Rmax_l tiny_d (B2R a)). fold m in H. nra. }
  destruct (IH p a' F' L B1 B2) as (C1 & C2 & C3 & C4 & C5); [fold g; nra|]. set (b := ftb_from (S := Dn M) x p tau a') in *. fold g in C3, C4.
  split; [exact C1|]. split; [exact C2|]. split; [eapply Rle_trans; [exact C3|]; nra|]. split.
  - constructor.
    + destruct B4 as [B4|[B4|[B4|[B4 B6]]]].
      * left. rewrite Rmax_left in C3 by exact B4. nra.
      * right. left. exact B4.
      * right. right. left. exact B4.
      * destruct (Rle_dec (B2R a') tiny_d) as [Sm|Sm]; [left; rewrite Rmax_left in C3 by exact Sm; nra|].
        rewrite Rmax_right in C3 by lra. right. right. right. split; [exact B4|]. destruct B6 as [B6|B6]; [auto|].
        destruct (Rle_dec 0 (B2R w)) as [|Nw]; [auto|]. right.
        apply Rle_trans with (B2R a' * g * - B2R w); [apply Rmult_le_compat_r; lra|].
        replace (B2R a' * g * - B2R w) with (B2R a' * - B2R w * g) by ring. replace (B2R tau * B2R v * ((1 + de) * g)) with (B2R tau * B2R v * (1 + de) * g) by ring. apply Rmult_le_compat_r; lra.
    + eapply held_mono; [exact F'| |exact C4]. nra.
  - destruct C5 as [C5|(vw & I & C5)].
    + rewrite C5. destruct B5 as [B5|B5]; [auto|]. right. exists (v, w). split; [left; reflexivity|exact B5].
    + right. exists vw. split; [right; exact I|exact C5].
Qed.

(** From the bound on the number of components to the bound used above. *)
Lemma grow_bound n : INR n * de <= 1 / 2 -> (1 + de) ^ n * (1 - INR n * de) <= 1.
Proof.
  pose proof de_pos as Pd. induction n as [|n IH]; intros H; [cbn; lra|]. rewrite S_INR in *. pose proof (pos_INR n) as Pn.
  assert (H' : INR n * de <= 1 / 2) by nra. specialize (IH H'). cbn [pow]. set (g := (1 + de) ^ n) in *. assert (1 <= g) by apply grow_ge1.
  replace ((1 + de) * g * (1 - (INR n + 1) * de)) with (g * (1 - INR n * de) - g * de * de * (INR n + 1)) by ring. assert (0 <= g * de * de * (INR n + 1)) by (repeat apply Rmult_le_pos; lra). lra.
Qed.
Lemma moved_pos (v w b : dbl) g : is_finite v = true -> b2 (-1000) <= B2R v -> is_finite b = true -> 0 <= B2R b -> is_finite w = true ->
  (0 <= B2R w \/ B2R b * - B2R w <= B2R tau * B2R v * g) -> B2R tau * g <= 1 - b2 (-52) ->
  d_ltb (d_ofZ 0) (d_add v (d_mul b w)) = true /\ (B2R w <= 0 -> is_finite (d_add v (d_mul b w)) = true).
Proof.
  intros Fv Hv Fb Hb Fw K G. pose proof (v_pos _ Hv) as Pv.
  assert (Z : dX (d_ofZ 0) = Fin 0) by reflexivity. rewrite lt_X, Z, add_X, mul_X, (dX_fin _ Fv), (dX_fin _ Fb), (dX_fin _ Fw). cbn [X_mul].
  destruct (Rle_dec 0 (B2R w)) as [W|W].
  - split.
    + assert (P : 0 <= B2R b * B2R w) by nra. unfold rX at 2. destruct (Rlt_bool_spec (Rabs (rnd (B2R b * B2R w))) big) as [B|B].
      * pose proof (rnd_ge0 _ P) as P'. cbn [X_add]. set (s := B2R v + rnd (B2R b * B2R w)). assert (Rs : B2R v <= rnd s). { rewrite <- (rnd_B2R v). apply rnd_le. unfold s. lra. }
        unfold rX. destruct (Rlt_bool_spec (Rabs (rnd s)) big).
        -- cbn. unfold R_ltb. destruct (Rlt_dec 0 (rnd s)); [reflexivity|lra].
        -- rewrite Rlt_bool_false by (unfold s; lra). reflexivity.
      * rewrite Rlt_bool_false by lra. reflexivity.
    + intros W'. assert (E0 : B2R w = 0) by lra. rewrite finite_dX, add_X, mul_X, (dX_fin _ Fv), (dX_fin _ Fb), (dX_fin _ Fw), E0. cbn [X_mul]. rewrite Rmult_0_r, rX_0. cbn [X_add]. rewrite Rplus_0_r.
      rewrite <- (dX_fin _ Fv), rX_dX, (dX_fin _ Fv). reflexivity.
  - destruct K as [K|K]; [lra|]. set (t := B2R b * - B2R w) in *. assert (T0 : 0 <= t) by (unfold t; nra).
    assert (T : t <= B2R v * (1 - b2 (-52))). { eapply Rle_trans; [exact K|]. replace (B2R tau * B2R v * g) with (B2R v * (B2R tau * g)) by ring. apply Rmult_le_compat_l; lra. }
    (* the product rounds to a double below v *)
    assert (Pr : rnd t < B2R v).
    { assert (Gp : rnd (pred radix2 fx (B2R v)) = pred radix2 fx (B2R v)). { apply round_generic; [apply valid_rnd_round_mode|]. apply generic_format_pred; [apply vfx|]. apply generic_format_B2R. }
      assert (Lp : pred radix2 fx (B2R v) < B2R v) by (apply pred_lt_id; lra).
      apply Rle_lt_trans with (2 := Lp). rewrite <- Gp. apply rnd_le. eapply Rle_trans; [exact T|].
      assert (Up : B2R v - ulp radix2 fx (B2R v) <= pred radix2 fx (B2R v)).
      { rewrite pred_eq_pos by lra. unfold pred_pos. destruct (Req_bool_spec (B2R v) (b2 (mag radix2 (B2R v) - 1))) as [Eb|_]; [|lra].
        assert (b2 (fx (mag radix2 (B2R v) - 1)) <= ulp radix2 fx (B2R v)); [|lra]. rewrite ulp_neq_0 by lra. apply bpow_le. unfold cexp. rewrite fx_FLT. unfold FLT_exp. lia. }
      assert (Uu : ulp radix2 fx (B2R v) <= B2R v * b2 (-52)); [|lra].
      pose proof (ulp_FLT_le radix2 (-1074) 53 (B2R v)) as Ul. rewrite <- fx_FLT in Ul. rewrite (Rabs_pos_eq (B2R v)) in Ul by lra. apply Ul.
      eapply Rle_trans; [|exact Hv]. apply bpow_le. lia. }
    assert (Bt : rX (Fin (B2R b * B2R w)) = Fin (- rnd t)).
    { rewrite (rX_bounded _ (B2R v)); [f_equal; rewrite <- rnd_opp; f_equal; unfold t; lra|lra| |apply rnd_B2R|].
      - pose proof (lt_big v) as Lv. rewrite Rabs_pos_eq in Lv by lra. exact Lv.
      - rewrite Rabs_left1 by nra. pose proof (bpow_gt_0 radix2 (-52)). unfold t in T. nra. }
    rewrite Bt. cbn [X_add]. assert (Dm : exists m : dbl, is_finite m = true /\ B2R m = rnd t).
    { assert (Q : dX (d_mul b (d_opp w)) = Fin (rnd t)). { rewrite mul_X, opp_X, (dX_fin _ Fb), (dX_fin _ Fw). cbn [X_opp X_mul]. fold t. apply (rX_bounded _ (B2R v)); [lra| |apply rnd_B2R|].
        - pose proof (lt_big v) as Lv. rewrite Rabs_pos_eq in Lv by lra. exact Lv.
        - rewrite Rabs_pos_eq by lra. pose proof (bpow_gt_0 radix2 (-52)). nra. }
      apply fin_dX in Q. exists (d_mul b (d_opp w)). exact Q. }
    destruct Dm as (m & Fm & Vm). assert (Ps : 0 < rnd (B2R v + - rnd t)). { rewrite <- Vm. apply sub_pos. lra. }
    assert (Fs : rX (Fin (B2R v + - rnd t)) = Fin (rnd (B2R v + - rnd t))).
    { pose proof (rnd_ge0 t T0). apply (rX_bounded _ (B2R v)); [lra| |apply rnd_B2R|rewrite Rabs_pos_eq; lra]. pose proof (lt_big v) as Lv. rewrite Rabs_pos_eq in Lv by lra. exact Lv. }
    rewrite Fs. split.
    + cbn. unfold R_ltb. destruct (Rlt_dec 0 _); [reflexivity|contradiction].
    + intros _. rewrite finite_dX, add_X, mul_X, (dX_fin _ Fv), (dX_fin _ Fb), (dX_fin _ Fw). cbn [X_mul]. rewrite Bt. cbn [X_add]. rewrite Fs. reflexivity.
Qed.
End Ftb.
