(** The real-number value rules compute the mathematical operators, and simplification does not change
    the result on their domain (C17, C19). *)
From Coq Require Import ZArith Reals Lra Lia List Bool.
From Coquelicot Require Import Coquelicot.
From Verif Require Import Base ExprModel ExprInv ExprReal MathSpec.
Open Scope R_scope.

Lemma R_eqb_eq x y : R_eqb x y = true <-> x = y.
Proof. unfold R_eqb. destruct (Req_EM_T x y); split; intros; congruence. Qed.
Lemma R_ltb_lt x y : R_ltb x y = true <-> x < y.
Proof. unfold R_ltb. destruct (Rlt_dec x y); split; intros; auto; discriminate. Qed.
Lemma R_ltb_ge x y : R_ltb x y = false <-> y <= x.
Proof. unfold R_ltb. destruct (Rlt_dec x y); split; intros; try lra; try discriminate; auto. Qed.
Lemma R_leb_le x y : R_leb x y = true <-> x <= y.
Proof. unfold R_leb. destruct (Rle_dec x y); split; intros; auto; discriminate. Qed.
Lemma R_leb_gt x y : R_leb x y = false <-> y < x.
Proof. unfold R_leb. destruct (Rle_dec x y); split; intros; try lra; try discriminate; auto. Qed.

Lemma Int_part_IZR z : Int_part (IZR z) = z.
Proof.
  unfold Int_part. assert (H : up (IZR z) = (z + 1)%Z).
  { symmetry. apply tech_up; rewrite plus_IZR; lra. }
  rewrite H. lia.
Qed.

Lemma R_pow_int x z : R_pow x (IZR z) = powerRZ x z.
Proof.
  unfold R_pow. rewrite Int_part_IZR. destruct (Req_EM_T (IZR z) (IZR z)); [reflexivity|congruence].
Qed.

Lemma R_pow_pos x y : 0 < x -> R_pow x y = Rpower x y.
Proof.
  intros H. unfold R_pow. destruct (Req_EM_T (IZR (Int_part y)) y) as [E|E].
  - rewrite (powerRZ_Rpower x _ H), E. reflexivity.
  - destruct (Req_EM_T x 0); [lra|reflexivity].
Qed.

Lemma R_pow_zero y : 0 < y -> R_pow 0 y = 0.
Proof.
  intros H. unfold R_pow. destruct (Req_EM_T (IZR (Int_part y)) y) as [E|E].
  - rewrite <- E in H. apply lt_IZR in H. destruct (Int_part y) as [|p|p]; [lia| |lia].
    cbn. apply pow_i. lia.
  - destruct (Req_EM_T 0 0); [reflexivity|congruence].
Qed.

Lemma cube_inj a b : a * a * a = b * b * b -> a = b.
Proof.
  intros H. assert (H1 : (a - b) * (a * a + a * b + b * b) = 0) by nra.
  apply Rmult_integral in H1 as [H1|H1]; [lra|].
  assert (a * a + a * b + b * b = (a + b / 2) * (a + b / 2) + 3 / 4 * (b * b)) by field.
  assert (0 <= (a + b / 2) * (a + b / 2)) by (apply Rle_0_sqr).
  assert (0 <= b * b) by apply Rle_0_sqr.
  assert (b * b = 0) by lra. assert (b = 0) by (apply Rsqr_0_uniq; exact H4). subst b.
  assert ((a + 0/2) * (a + 0/2) = 0) by lra. apply Rsqr_0_uniq in H5. lra.
Qed.

Lemma Rpower_third x : 0 < x -> Rpower x (1/3) * Rpower x (1/3) * Rpower x (1/3) = x.
Proof.
  intros H. rewrite <- !Rpower_plus. replace (1/3 + 1/3 + 1/3) with 1 by field. apply Rpower_1, H.
Qed.

Lemma R_cbrt_cube x : R_cbrt x * R_cbrt x * R_cbrt x = x.
Proof.
  unfold R_cbrt. destruct (Req_EM_T x 0) as [->|N]; [lra|].
  destruct (Rlt_dec 0 x) as [P|P]; [apply Rpower_third; exact P|].
  pose proof (Rpower_third (- x)). assert (0 < - x) by lra. specialize (H H0). lra.
Qed.

Lemma cbrt_unique x y : y * y * y = x -> R_cbrt x = y.
Proof. intros H. apply cube_inj. rewrite R_cbrt_cube. symmetry; exact H. Qed.

Lemma sqrt_unique x y : 0 <= y -> y * y = x -> sqrt x = y.
Proof. intros H <-. apply sqrt_square, H. Qed.

(** atan2 from the polar angle. *)
Lemma tan_half_pi_minus a : tan (PI / 2 - a) = cos a / sin a.
Proof. unfold tan. rewrite sin_shift, cos_shift. reflexivity. Qed.

Lemma cos_range_neg a : - PI < a <= PI -> cos a < 0 -> a < - (PI / 2) \/ PI / 2 < a.
Proof.
  intros H C. destruct (Rlt_dec a (-(PI/2))); [left; assumption|].
  destruct (Rlt_dec (PI/2) a); [right; assumption|].
  assert (0 <= cos a) by (apply cos_ge_0; lra). lra.
Qed.

Lemma sin_pos_range a : - PI < a <= PI -> 0 < sin a -> 0 < a < PI.
Proof.
  intros H C. split.
  - destruct (Rlt_dec 0 a); [assumption|]. assert (sin a <= 0).
    { rewrite <- (Ropp_involutive (sin a)), <- sin_neg. assert (0 <= sin (- a)) by (apply sin_ge_0; lra). lra. }
    lra.
  - destruct (Req_dec a PI) as [->|N]; [rewrite sin_PI in C; lra|lra].
Qed.

Lemma sin_neg_range a : - PI < a <= PI -> sin a < 0 -> - PI < a < 0.
Proof.
  intros H C. split; [lra|]. destruct (Rlt_dec a 0); [assumption|].
  assert (0 <= sin a) by (apply sin_ge_0; lra). lra.
Qed.

Lemma atan2_polar y x r a : 0 < r -> - PI < a <= PI -> x = r * cos a -> y = r * sin a -> R_atan2 y x = a.
Proof.
  intros Hr Ha -> ->. unfold R_atan2.
  destruct (Rlt_dec 0 (r * cos a)) as [C|C].
  - assert (C' : 0 < cos a) by nra.
    assert (- (PI / 2) < a < PI / 2).
    { split.
      - destruct (Rlt_dec (-(PI/2)) a); [assumption|]. exfalso.
        assert (cos a <= 0). { rewrite <- cos_neg. apply cos_le_0; lra. } lra.
      - destruct (Rlt_dec a (PI/2)); [assumption|]. exfalso.
        assert (cos a <= 0) by (apply cos_le_0; lra). lra. }
    replace (r * sin a / (r * cos a)) with (tan a) by (unfold tan; field; lra).
    apply atan_tan; assumption.
  - assert (C' : cos a <= 0) by nra.
    destruct (Rlt_dec 0 (r * sin a)) as [Sp|Sp].
    + assert (S' : 0 < sin a) by nra. pose proof (sin_pos_range a Ha S').
      replace (r * cos a / (r * sin a)) with (tan (PI / 2 - a)).
      * rewrite atan_tan; lra.
      * rewrite tan_half_pi_minus. field. lra.
    + destruct (Rlt_dec (r * sin a) 0) as [Sn|Sn].
      * assert (S' : sin a < 0) by nra. pose proof (sin_neg_range a Ha S').
        replace (r * cos a / (r * sin a)) with (tan (- (PI / 2) - a)).
        -- rewrite atan_tan; lra.
        -- replace (- (PI / 2) - a) with ((PI / 2 - a) - PI) by field.
           unfold tan. rewrite (sin_minus (PI / 2 - a) PI), (cos_minus (PI / 2 - a) PI), sin_PI, cos_PI.
           rewrite sin_shift, cos_shift. field. lra.
      * assert (S0 : sin a = 0) by nra.
        assert (C1 : cos a < 0).
        { pose proof (sin2_cos2 a) as H. rewrite S0 in H. unfold Rsqr in H.
          destruct (Req_dec (cos a) 0) as [Z|Z]; [rewrite Z in H; lra|lra]. }
        destruct (Rlt_dec (r * cos a) 0) as [Cn|Cn]; [|nra].
        destruct (Rtotal_order a 0) as [L|[E|G]].
        -- exfalso. assert (0 < sin (- a)) by (apply sin_gt_0; lra). rewrite sin_neg in H. lra.
        -- exfalso. subst a. rewrite cos_0 in C1. lra.
        -- destruct (Req_dec a PI) as [->|N]; [reflexivity|exfalso].
           assert (0 < sin a) by (apply sin_gt_0; lra). lra.
Qed.

Lemma R_atan2_00 : R_atan2 0 0 = 0.
Proof. unfold R_atan2. destruct (Rlt_dec 0 0); [lra|]. reflexivity. Qed.

Ltac toR := repeat change (@eq (car R_ops)) with (@eq R) in *.

(** Every value rule gives the mathematical value on the operator's domain. *)
Lemma un_value_math u x v : math_un u x v -> un_value (S := R_ops) u x = v.
Proof.
  intros H. destruct H; cbn [un_value s_opp s_abs s_acos s_asin s_atan s_cbrt s_cos s_cosh s_erf s_exp s_ofZ s_leb s_ltb
    s_eqb s_log s_log10 s_sin s_sinh s_sqrt s_tan s_tanh R_ops]; try reflexivity; toR.
  - subst x. apply acos_cos. lra.
  - subst x. apply asin_sin. lra.
  - subst x. apply atan_tan. lra.
  - apply cbrt_unique. assumption.
  - rewrite (proj2 (R_leb_le 0 x)) by assumption. reflexivity.
  - rewrite (proj2 (R_leb_gt 0 x)) by assumption. reflexivity.
  - rewrite (proj2 (R_ltb_lt 0 x)) by assumption. reflexivity.
  - rewrite (proj2 (R_ltb_ge 0 x)) by assumption. reflexivity.
  - subst x. apply ln_exp.
  - subst x. unfold R_log10, Rpower. rewrite ln_exp. field.
    assert (0 < ln 10) by (rewrite <- ln_1; apply ln_increasing; lra). lra.
  - rewrite (proj2 (R_ltb_ge x 0)) by lra.
    destruct (R_eqb x 0) eqn:E; [apply R_eqb_eq in E; lra|reflexivity].
  - rewrite (proj2 (R_ltb_ge 0 0)) by lra. rewrite (proj2 (R_eqb_eq 0 0)) by reflexivity. reflexivity.
  - rewrite (proj2 (R_ltb_lt x 0)) by assumption. reflexivity.
  - apply sqrt_unique; assumption.
  - unfold tanh, sinh, cosh. field.
    pose proof (exp_pos x). pose proof (exp_pos (- x)). lra.
Qed.

Lemma bin_value_math b x y v : math_bin b x y v -> bin_value (S := R_ops) b x y = v.
Proof.
  intros H. destruct H; cbn [bin_value s_add s_sub s_mul s_div s_atan2 s_hypot s_pow R_ops]; try reflexivity; toR.
  - eapply atan2_polar; eauto.
  - apply R_atan2_00.
  - unfold R_hypot. apply sqrt_unique; assumption.
  - unfold s_max; cbn. destruct (R_ltb x y) eqn:E.
    + apply R_ltb_lt in E. rewrite Rmax_right by lra. reflexivity.
    + apply R_ltb_ge in E. rewrite Rmax_left by lra. reflexivity.
  - unfold s_min; cbn. destruct (R_ltb y x) eqn:E.
    + apply R_ltb_lt in E. rewrite Rmin_right by lra. reflexivity.
    + apply R_ltb_ge in E. rewrite Rmin_left by lra. reflexivity.
  - apply R_pow_pos. assumption.
  - apply R_pow_zero. assumption.
  - apply R_pow_int.
Qed.

(** Simplification does not change the value (unary operators). *)
Lemma simp_un_math u x v v' : math_un u x v -> simp_un (S := R_ops) u x v' -> v' = v.
Proof.
  intros H [E|E]; [rewrite E; apply un_value_math; exact H|].
  destruct H; cbn [s_eqb s_ltb s_ofZ s_div s_pi R_ops] in E; toR;
  try (destruct E as [E ->]; apply R_eqb_eq in E; subst).
  - lra.
  - rewrite Rabs_R0. reflexivity.
  - rewrite <- (acos_cos y) by lra. rewrite E. symmetry. apply acos_0.
  - assert (Y : y = 0) by (rewrite <- (asin_sin y) by lra; rewrite E; apply asin_0). lra.
  - assert (Y : y = 0) by (rewrite <- (atan_tan y) by lra; rewrite E; apply atan_0). lra.
  - destruct E as [E ->].
    destruct E as [E|[E|E]]; apply R_eqb_eq in E; apply cube_inj; rewrite H, E; lra.
  - symmetry. apply cos_0.
  - rewrite Ropp_0, exp_0. lra.
  - rewrite RInt_point. unfold zero; cbn. lra.
  - symmetry. apply exp_0.
  - destruct E.
  - destruct E.
  - destruct E.
  - destruct E.
  - pose proof (exp_pos y). lra.
  - unfold Rpower in E. pose proof (exp_pos (y * ln 10)). lra.
  - destruct E as (E1 & E2 & ->). apply R_eqb_eq in E2. lra.
  - destruct E as (E1 & E2 & ->). reflexivity.
  - destruct E as (E1 & E2 & ->). apply R_eqb_eq in E2. lra.
  - rewrite sin_0. reflexivity.
  - rewrite Ropp_0, exp_0. lra.
  - destruct E as [E ->]. destruct E as [E|E]; apply R_eqb_eq in E.
    + assert (y = 0) by (apply Rsqr_0_uniq; unfold Rsqr; lra). lra.
    + assert (y = 1) by nra. lra.
  - rewrite sin_0. unfold Rdiv. lra.
  - rewrite Ropp_0, exp_0. unfold Rdiv. lra.
Qed.

Lemma math_pow_inv x y v : math_bin BPow x y v ->
  (0 < x /\ v = Rpower x y) \/ (x = 0 /\ 0 < y /\ v = 0) \/
  (exists z, y = IZR z /\ (x <> 0 \/ (0 <= z)%Z) /\ v = powerRZ x z).
Proof. intros H. inversion H; subst; auto. right; right; eauto. Qed.

(** Simplification does not change the value, except possibly for 0 to the power 0. *)
Lemma simp_bin_math b x y v v' : math_bin b x y v -> (b = BPow -> ~ (x = 0 /\ y = 0)) ->
  simp_bin (S := R_ops) b x y v' -> v' = v.
Proof.
  intros H Hz [E|E]; [rewrite E; apply bin_value_math; exact H|].
  destruct b; cbn [s_eqb s_ltb s_ofZ s_mul R_ops] in E; toR.
  - inversion H; subst. destruct E as [[E ->]|[E ->]]; apply R_eqb_eq in E; subst; lra.
  - inversion H; subst. destruct E as [(E & E2 & ->)|[[E E2]|[E ->]]]; apply R_eqb_eq in E; subst.
    + apply R_eqb_eq in E2. lra.
    + apply (simp_un_math UNeg y (- y)) in E2; [lra|constructor].
    + lra.
  - inversion H; subst. destruct E as [[E ->]|[[E ->]|[[E ->]|[E ->]]]]; apply R_eqb_eq in E; subst; lra.
  - inversion H; subst. destruct E as [[E ->]|[E ->]]; apply R_eqb_eq in E; subst; field; assumption.
  - destruct E.
  - apply bin_value_math in H. cbn in H. rewrite <- H. unfold R_hypot.
    destruct E as [[E E2]|[E E2]]; apply R_eqb_eq in E; subst.
    + apply (simp_un_math UAbs y (Rabs y)) in E2; [|constructor]. rewrite E2.
      replace (0 * 0 + y * y) with (Rsqr y) by (unfold Rsqr; lra). symmetry. apply sqrt_Rsqr_abs.
    + apply (simp_un_math UAbs x (Rabs x)) in E2; [|constructor]. rewrite E2.
      replace (x * x + 0 * 0) with (Rsqr x) by (unfold Rsqr; lra). symmetry. apply sqrt_Rsqr_abs.
  - destruct E.
  - destruct E.
  - specialize (Hz eq_refl). apply math_pow_inv in H.
    destruct E as [[E ->]|[[E ->]|[[E ->]|[[E ->]|[E ->]]]]]; apply R_eqb_eq in E; subst;
      destruct H as [[P ->]|[(X0 & P & ->)|(z & Y & P & ->)]]; try lra.
    + destruct P as [C|C]; [congruence|].
      destruct z as [|p|p]; [exfalso; apply Hz; auto| |lia]. symmetry. apply pow_i. lia.
    + unfold Rpower. rewrite ln_1, Rmult_0_r, exp_0. reflexivity.
    + symmetry. destruct z as [|p|p]; cbn; [reflexivity|apply pow1|rewrite pow1; field].
    + unfold Rpower. rewrite Rmult_0_l, exp_0. reflexivity.
    + apply eq_IZR in Y. subst z. reflexivity.
    + symmetry. apply Rpower_1. assumption.
    + apply eq_IZR in Y. subst z. unfold powerRZ; change (Pos.to_nat 1) with 1%nat; change (Pos.to_nat 2) with 2%nat; cbn [pow]; lra.
    + replace 2 with (1 + 1) by lra. rewrite Rpower_plus, !Rpower_1 by assumption. reflexivity.
    + subst x. lra.
    + apply eq_IZR in Y. subst z. unfold powerRZ; change (Pos.to_nat 1) with 1%nat; change (Pos.to_nat 2) with 2%nat; cbn [pow]; lra.
Qed.
