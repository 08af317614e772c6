(** The derivative rules are the derivatives of the mathematical operators (C23, C24). *)
From Coq Require Import ZArith Reals List Lra Lia.
From Coquelicot Require Import Coquelicot.
From Verif Require Import Base ExprModel ExprReal MathSpec MathProofs DiffSpec OpDeriv.
Open Scope R_scope.

Lemma un_math u x : (match u with UAcos | UAsin => -1 <= x <= 1 | ULog | ULog10 => 0 < x | USqrt => 0 <= x | UTan => cos x <> 0 | _ => True end) ->
  math_un u x (un_value (S := R_ops) u x).
Proof.
  destruct u; cbn; intros H.
  - constructor.
  - constructor.
  - constructor; [lra|apply acos_bound|apply cos_acos; lra].
  - constructor; [lra|apply asin_bound|apply sin_asin; lra].
  - apply M_atan; [pose proof (atan_bound x); lra|apply tan_atan].
  - constructor. apply R_cbrt_cube.
  - constructor.
  - constructor.
  - constructor.
  - constructor.
  - unfold R_leb. destruct (Rle_dec 0 x); constructor; lra.
  - unfold R_ltb. destruct (Rlt_dec 0 x); constructor; lra.
  - constructor. apply exp_ln, H.
  - constructor. unfold R_log10, Rpower. assert (ln 10 <> 0).
    { assert (0 < ln 10); [|lra]. rewrite <- ln_1. apply ln_increasing; lra. }
    replace (ln x / ln 10 * ln 10) with (ln x) by (field; assumption). apply exp_ln, H.
  - unfold R_ltb, R_eqb. destruct (Rlt_dec x 0) as [L|L]; [constructor; exact L|].
    destruct (Req_EM_T x 0) as [->|N]; [constructor|]. constructor. lra.
  - constructor.
  - constructor.
  - constructor; [apply sqrt_pos|apply sqrt_sqrt, H].
  - apply (M_tan x H).
  - replace (tanh x) with ((exp x - exp (- x)) / (exp x + exp (- x))); [constructor|].
    unfold tanh, sinh, cosh. pose proof (exp_pos x). pose proof (exp_pos (- x)). field. lra.
Qed.

Lemma un_around u x : regular_un u x -> locally x (fun t => math_un u t (un_value (S := R_ops) u t)).
Proof.
  intros H. assert (T : forall P : R -> Prop, locally x P -> (forall t, P t -> math_un u t (un_value (S := R_ops) u t)) ->
    locally x (fun t => math_un u t (un_value (S := R_ops) u t))).
  { intros P HP HI. eapply loc_mono; [|exact HP]. exact HI. }
  destruct u; cbn in H; try (apply (filter_forall (F := locally x)); intros t; apply un_math; exact I).
  - apply (T (fun t => -1 < t /\ t < 1)); [|intros t Ht; apply un_math; lra].
    apply loc_and; [apply loc_id_lt; lra|apply loc_id_gt; lra].
  - apply (T (fun t => -1 < t /\ t < 1)); [|intros t Ht; apply un_math; lra].
    apply loc_and; [apply loc_id_lt; lra|apply loc_id_gt; lra].
  - apply (T (fun t => 0 < t)); [apply loc_id_lt, H|intros t Ht; apply un_math; exact Ht].
  - apply (T (fun t => 0 < t)); [apply loc_id_lt, H|intros t Ht; apply un_math; exact Ht].
  - apply (T (fun t => 0 < t)); [apply loc_id_lt, H|intros t Ht; apply un_math; lra].
  - apply (T (fun t => cos t <> 0)); [|intros t Ht; apply un_math; exact Ht].
    apply (continuous_cos x (fun y => y <> 0)). apply open_neq, H.
Qed.

Lemma c23_un u x : regular_un u x -> ~ kink_un u x ->
  derivative_at (math_un u) x (un_grad (S := R_ops) u 1 x) /\
  forall a, un_grad (S := R_ops) u a x = a * un_grad (S := R_ops) u 1 x.
Proof.
  intros Hr Hk. split; [|intros a; apply un_grad_lin].
  exists (un_value (S := R_ops) u). split; [apply un_around, Hr|apply un_derive; assumption].
Qed.

(** Polar coordinates. *)
Lemma atan2_math y x : math_bin BAtan2 y x (R_atan2 y x).
Proof.
  destruct (Req_dec x 0) as [Zx|Nx]; [destruct (Req_dec y 0) as [Zy|Ny]|].
  - subst. unfold R_atan2. repeat (destruct (Rlt_dec _ _) as [L|_]; [exfalso; lra|]). constructor.
  - subst x. unfold R_atan2. destruct (Rlt_dec 0 0) as [L|_]; [exfalso; lra|]. pose proof PI_RGT_0.
    destruct (Rlt_dec 0 y) as [P|P]; [|destruct (Rlt_dec y 0) as [P'|P']; [|exfalso; lra]];
      unfold Rdiv at 2; rewrite Rmult_0_l, atan_0.
    + replace (PI / 2 - 0) with (PI / 2) by lra. apply (M_atan2 y 0 y); [exact P|lra| |].
      * rewrite cos_PI2; ring.
      * rewrite sin_PI2; ring.
    + replace (- (PI / 2) - 0) with (- (PI / 2)) by lra. apply (M_atan2 y 0 (- y)); [lra|lra| |].
      * rewrite cos_neg, cos_PI2; ring.
      * rewrite sin_neg, sin_PI2; ring.
  - assert (S0 : 0 < x * x + y * y) by nra. set (r := sqrt (x * x + y * y)).
    assert (Hr : 0 < r) by (apply sqrt_lt_R0, S0).
    assert (Hrr : r * r = x * x + y * y) by (apply sqrt_sqrt; lra).
    pose proof PI_RGT_0.
    assert (K : forall z, 0 < 1 + z * z) by (intros z; nra).
    assert (CA : forall z, cos (atan z) = / sqrt (1 + z * z)) by (intros z; rewrite cos_atan; unfold Rsqr, Rdiv; ring).
    assert (SA : forall z, sin (atan z) = z / sqrt (1 + z * z)) by (intros z; rewrite sin_atan; unfold Rsqr; reflexivity).
    unfold R_atan2. destruct (Rlt_dec 0 x) as [P|P].
    { assert (E : sqrt (1 + y / x * (y / x)) = r / x).
      { replace (1 + y / x * (y / x)) with ((r / x) * (r / x)).
        - apply sqrt_square. apply Rlt_le, Rdiv_lt_0_compat; assumption.
        - replace (r / x * (r / x)) with (r * r / (x * x)) by (field; lra). rewrite Hrr. field. lra. }
      pose proof (atan_bound (y / x)). apply (M_atan2 y x r); [exact Hr|lra| |]; rewrite ?CA, ?SA, E; field; lra. }
    destruct (Rlt_dec 0 y) as [Q|Q]; [|destruct (Rlt_dec y 0) as [Q'|Q']].
    + assert (E : sqrt (1 + x / y * (x / y)) = r / y).
      { replace (1 + x / y * (x / y)) with ((r / y) * (r / y)).
        - apply sqrt_square. apply Rlt_le, Rdiv_lt_0_compat; assumption.
        - replace (r / y * (r / y)) with (r * r / (y * y)) by (field; lra). rewrite Hrr. field. lra. }
      pose proof (atan_bound (x / y)). apply (M_atan2 y x r); [exact Hr|lra| |].
      * rewrite cos_shift, SA, E. field. lra.
      * rewrite sin_shift, CA, E. field. lra.
    + assert (E : sqrt (1 + x / y * (x / y)) = r / (- y)).
      { replace (1 + x / y * (x / y)) with ((r / (- y)) * (r / (- y))).
        - apply sqrt_square. apply Rlt_le, Rdiv_lt_0_compat; lra.
        - replace (r / - y * (r / - y)) with (r * r / (y * y)) by (field; lra). rewrite Hrr. field. lra. }
      assert (Neg : x / y >= 0).
      { apply Rle_ge. replace (x / y) with ((- x) / (- y)) by (field; lra). apply Rmult_le_pos; [lra|]. apply Rlt_le, Rinv_0_lt_compat. lra. }
      assert (0 <= atan (x / y)).
      { destruct (Req_dec (x / y) 0) as [->|Nz]; [rewrite atan_0; lra|]. rewrite <- atan_0. apply Rlt_le, atan_increasing. lra. }
      pose proof (atan_bound (x / y)).
      assert (EC : cos (- (PI / 2) - atan (x / y)) = - sin (atan (x / y))).
      { replace (- (PI / 2) - atan (x / y)) with (- (PI / 2 + atan (x / y))) by ring. rewrite cos_neg, sin_cos. ring. }
      assert (ES : sin (- (PI / 2) - atan (x / y)) = - cos (atan (x / y))).
      { replace (- (PI / 2) - atan (x / y)) with (- (PI / 2 + atan (x / y))) by ring. rewrite sin_neg, cos_sin. ring. }
      apply (M_atan2 y x r); [exact Hr|lra| |]; rewrite ?EC, ?ES, ?CA, ?SA, E; field; lra.
    + assert (y = 0) by lra. subst y. destruct (Rlt_dec x 0) as [N|N]; [|exfalso; lra].
      apply (M_atan2 0 x (- x)); [lra|lra|rewrite cos_PI; ring|rewrite sin_PI; ring].
Qed.

Lemma bin_math b x y : (match b with BDiv => y <> 0 | BPow => 0 < x | _ => True end) ->
  math_bin b x y (bin_value (S := R_ops) b x y).
Proof.
  destruct b; cbn; intros H.
  - constructor.
  - constructor.
  - constructor.
  - constructor. exact H.
  - apply atan2_math.
  - constructor; [apply sqrt_pos|apply sqrt_sqrt; nra].
  - replace (s_max (S := R_ops) x y) with (Rmax x y); [constructor|]. symmetry. apply (bin_value_math BMax x y). constructor.
  - replace (s_min (S := R_ops) x y) with (Rmin x y); [constructor|]. symmetry. apply (bin_value_math BMin x y). constructor.
  - rewrite R_pow_pos by exact H. constructor. exact H.
Qed.

Lemma bin_around_l b x y : regular_bin b x y -> locally x (fun t => math_bin b t y (bin_value (S := R_ops) b t y)).
Proof.
  intros H. destruct b; cbn in H; try (apply (filter_forall (F := locally x)); intros t; apply bin_math; exact I).
  - apply (filter_forall (F := locally x)); intros t. apply bin_math. exact H.
  - eapply loc_mono; [|apply loc_id_lt, H]. intros t Ht. apply bin_math. exact Ht.
Qed.
Lemma bin_around_r b x y : regular_bin b x y -> locally y (fun t => math_bin b x t (bin_value (S := R_ops) b x t)).
Proof.
  intros H. destruct b; cbn in H; try (apply (filter_forall (F := locally y)); intros t; apply bin_math; exact I).
  - assert (L : locally y (fun t => t <> 0)) by (apply open_neq, H). eapply loc_mono; [|exact L]. intros t Ht. apply bin_math. exact Ht.
  - apply (filter_forall (F := locally y)); intros t. apply bin_math. exact H.
Qed.

Lemma c23_bin b x y : regular_bin b x y -> ~ kink_bin b x y ->
  derivative_at (fun t => math_bin b t y) x (bin_grad_l (S := R_ops) b 1 x y) /\
  derivative_at (fun t => math_bin b x t) y (bin_grad_r (S := R_ops) b 1 x y) /\
  forall a, bin_grad_l (S := R_ops) b a x y = a * bin_grad_l (S := R_ops) b 1 x y /\
            bin_grad_r (S := R_ops) b a x y = a * bin_grad_r (S := R_ops) b 1 x y.
Proof.
  intros Hr Hk. split; [|split; [|intros a; split; [apply bin_grad_l_lin|apply bin_grad_r_lin]]].
  - exists (fun t => bin_value (S := R_ops) b t y). split; [apply bin_around_l, Hr|].
    eapply eq_derive; [apply (bin_chain b (fun t => t) (fun _ => y) x 1 0); auto|cbv beta; ring].
    + apply (is_derive_id (K := R_AbsRing)).
    + apply (is_derive_const (V := R_NormedModule)).
  - exists (fun t => bin_value (S := R_ops) b x t). split; [apply bin_around_r, Hr|].
    eapply eq_derive; [apply (bin_chain b (fun _ => x) (fun t => t) y 0 1); auto|cbv beta; ring].
    + apply (is_derive_const (V := R_NormedModule)).
    + apply (is_derive_id (K := R_AbsRing)).
Qed.

(** Powers with a constant integer exponent, negative bases included. *)
Lemma c23_pow z x : x <> 0 \/ (1 <= z)%Z ->
  derivative_at (fun t => math_bin BPow t (IZR z)) x (bin_grad_l (S := R_ops) BPow 1 x (IZR z)).
Proof.
  intros H. exists (fun t => bin_value (S := R_ops) BPow t (IZR z)). split.
  - assert (L : locally x (fun t => t <> 0 \/ (0 <= z)%Z)).
    { destruct H as [H|H].
      - eapply loc_mono; [|apply open_neq, H]. auto.
      - apply (filter_forall (F := locally x)). intros t. right. lia. }
    eapply loc_mono; [|exact L]. intros t Ht. cbn. rewrite R_pow_int. apply M_pow_int, Ht.
  - eapply eq_derive; [apply (pow_chain (fun t => t) x 1 (IZR z)); [|apply (is_derive_id (K := R_AbsRing))]|cbv beta; ring].
    exists z. auto.
Qed.

(** C24: at every point, kinks included, the numbers used are subgradients (abs, max) or supergradients (min). *)
Lemma c24_abs x t : Rabs t >= Rabs x + un_grad (S := R_ops) UAbs 1 x * (t - x).
Proof.
  cbn. unfold R_ltb. destruct (Rlt_dec x 0); [|destruct (Rlt_dec 0 x)].
  - rewrite (Rabs_left x) by lra. pose proof (Rle_abs (- t)). rewrite Rabs_Ropp in H. lra.
  - rewrite (Rabs_pos_eq x) by lra. pose proof (Rle_abs t). lra.
  - assert (x = 0) by lra. subst. rewrite Rabs_R0. pose proof (Rabs_pos t). lra.
Qed.

Lemma c24_max x y u v :
  Rmax u v >= Rmax x y + (bin_grad_l (S := R_ops) BMax 1 x y * (u - x) + bin_grad_r (S := R_ops) BMax 1 x y * (v - y)).
Proof.
  cbn. unfold R_leb. pose proof (Rmax_l u v). pose proof (Rmax_r u v). destruct (Rle_dec y x).
  - rewrite (Rmax_left x y) by lra. lra.
  - rewrite (Rmax_right x y) by lra. lra.
Qed.
Lemma c24_min x y u v :
  Rmin u v <= Rmin x y + (bin_grad_l (S := R_ops) BMin 1 x y * (u - x) + bin_grad_r (S := R_ops) BMin 1 x y * (v - y)).
Proof.
  cbn. unfold R_leb. pose proof (Rmin_l u v). pose proof (Rmin_r u v). destruct (Rle_dec x y).
  - rewrite (Rmin_left x y) by lra. lra.
  - rewrite (Rmin_right x y) by lra. lra.
Qed.
