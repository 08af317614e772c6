(** Proofs for C20. *)
From Coq Require Import ZArith Reals Lra Lia Bool List.
From Coquelicot Require Import Coquelicot.
From Verif Require Import Base ExprModel GraphSpec ExprInv ExprReal MathProofs ExprXR.
Import ListNotations.
Open Scope R_scope.

Lemma X_eqb_fin x r : X_eqb x (Fin r) = true -> x = Fin r.
Proof. destruct x; cbn; try discriminate. intros H. apply R_eqb_eq in H. congruence. Qed.

Ltac xr := repeat change (@eq (car X_ops)) with (@eq XR) in *.

Lemma xr_un u x v : simp_un (S := X_ops) u x v -> ~ ((u = ULog \/ u = ULog10) /\ x = Fin 0) -> v = un_value (S := X_ops) u x.
Proof.
  intros [E|E] Hn; [exact E|]. destruct u; cbn [s_eqb s_ltb s_ofZ s_div s_pi X_ops] in E;
    try (destruct E as [E ->]; apply X_eqb_fin in E; subst x);
    cbn [un_value s_opp s_abs s_acos s_asin s_atan s_cbrt s_cos s_cosh s_erf s_exp s_sin s_sinh s_sqrt s_tan s_tanh
         lift lift_dom X_ops X_opp]; xr; try reflexivity.
  - f_equal. lra.
  - rewrite Rabs_R0. reflexivity.
  - unfold in_unit. rewrite (proj2 (R_leb_le (-1) 0)), (proj2 (R_leb_le 0 1)) by lra. cbn [andb]. cbn.
    destruct (Req_EM_T 2 0); [lra|]. rewrite acos_0. reflexivity.
  - unfold in_unit. rewrite (proj2 (R_leb_le (-1) 0)), (proj2 (R_leb_le 0 1)) by lra. cbn [andb]. rewrite asin_0. reflexivity.
  - rewrite atan_0. reflexivity.
  - destruct E as [E ->]. destruct E as [E|[E|E]]; apply X_eqb_fin in E; subst x; cbn; f_equal; symmetry;
      apply cbrt_unique; lra.
  - rewrite cos_0. reflexivity.
  - rewrite cosh_0. reflexivity.
  - unfold R_erf. rewrite RInt_point. unfold zero; cbn. f_equal. lra.
  - rewrite exp_0. reflexivity.
  - destruct E.
  - destruct E.
  - exfalso. apply Hn. auto.
  - exfalso. apply Hn. auto.
  - destruct E as (E1 & E2 & ->). apply X_eqb_fin in E2. subst x. cbn.
    rewrite (proj2 (R_ltb_ge 0 0)) by lra. rewrite (proj2 (R_eqb_eq 0 0)) by reflexivity. reflexivity.
  - rewrite sin_0. reflexivity.
  - rewrite sinh_0. reflexivity.
  - destruct E as [E ->]. destruct E as [E|E]; apply X_eqb_fin in E; subst x; cbn.
    + rewrite (proj2 (R_leb_le 0 0)), sqrt_0 by lra. reflexivity.
    + rewrite (proj2 (R_leb_le 0 1)), sqrt_1 by lra. reflexivity.
  - rewrite tan_0. reflexivity.
  - unfold tanh. rewrite sinh_0. f_equal. unfold Rdiv. lra.
Qed.

Lemma X_hypot_0_l y : X_hypot (Fin 0) y = lift Rabs PInf PInf y.
Proof.
  destruct y; cbn; try reflexivity. unfold R_hypot. f_equal.
  replace (0 * 0 + r * r) with (Rsqr r) by (unfold Rsqr; lra). apply sqrt_Rsqr_abs.
Qed.
Lemma X_hypot_0_r x : X_hypot x (Fin 0) = lift Rabs PInf PInf x.
Proof.
  destruct x; cbn; try reflexivity. unfold R_hypot. f_equal.
  replace (r * r + 0 * 0) with (Rsqr r) by (unfold Rsqr; lra). apply sqrt_Rsqr_abs.
Qed.

Lemma X_add_0_l y : X_add (Fin 0) y = y.
Proof. destruct y; cbn; try reflexivity. f_equal. lra. Qed.
Lemma X_add_0_r y : X_add y (Fin 0) = y.
Proof. destruct y; cbn; try reflexivity. f_equal. lra. Qed.

Lemma X_mul_1_l y : X_mul (Fin 1) y = y.
Proof.
  destruct y; cbn; try reflexivity.
  - f_equal. lra.
  - destruct (Rlt_dec 0 1); [reflexivity|lra].
  - destruct (Rlt_dec 0 1); [reflexivity|lra].
Qed.
Lemma X_mul_1_r y : X_mul y (Fin 1) = y.
Proof.
  destruct y; cbn; try reflexivity.
  - f_equal. lra.
  - destruct (Rlt_dec 0 1); [reflexivity|lra].
  - destruct (Rlt_dec 0 1); [reflexivity|lra].
Qed.
Lemma X_div_1 x : X_div x (Fin 1) = x.
Proof.
  destruct x; cbn; try reflexivity.
  - destruct (Req_EM_T 1 0); [lra|]. f_equal. field.
  - destruct (Rlt_dec 1 0); [lra|reflexivity].
  - destruct (Rlt_dec 1 0); [lra|reflexivity].
Qed.

Lemma X_pow_0_r x : X_pow x (Fin 0) = Fin 1.
Proof. unfold X_pow. cbn. rewrite (proj2 (R_eqb_eq 0 0)) by reflexivity. reflexivity. Qed.

Lemma R_pow_1 r : R_pow r 1 = r.
Proof. rewrite (R_pow_int r 1). unfold powerRZ. change (Pos.to_nat 1) with 1%nat. cbn. lra. Qed.
Lemma R_pow_2 r : R_pow r 2 = r * r.
Proof. rewrite (R_pow_int r 2). unfold powerRZ. change (Pos.to_nat 2) with 2%nat. cbn. lra. Qed.

Lemma is_int_IZR z : is_int (IZR z) = true.
Proof. unfold is_int. rewrite Int_part_IZR. apply R_eqb_eq. reflexivity. Qed.

Lemma X_pow_1_r x : X_pow x (Fin 1) = x.
Proof.
  unfold X_pow. cbn [X_eqb]. destruct (R_eqb 1 0) eqn:E; [apply R_eqb_eq in E; lra|].
  destruct x as [r| | |]; cbn [X_eqb].
  - destruct (R_eqb r 1) eqn:E1; [apply R_eqb_eq in E1; congruence|].
    destruct (Req_EM_T r 0) as [->|N]; [destruct (Rlt_dec 0 1); [reflexivity|lra]|].
    rewrite R_pow_1. rewrite (is_int_IZR 1). destruct (Rlt_dec r 0); reflexivity.
  - destruct (Rlt_dec 0 1); [reflexivity|lra].
  - destruct (Rlt_dec 0 1); [|lra]. unfold is_odd. rewrite (is_int_IZR 1), (Int_part_IZR 1). reflexivity.
  - reflexivity.
Qed.

Lemma X_pow_2_r x : X_mul x x = X_pow x (Fin 2).
Proof.
  unfold X_pow. cbn [X_eqb]. destruct (R_eqb 2 0) eqn:E; [apply R_eqb_eq in E; lra|].
  destruct x as [r| | |]; cbn [X_eqb X_mul xsgn].
  - destruct (R_eqb r 1) eqn:E1; [apply R_eqb_eq in E1; subst; f_equal; lra|].
    destruct (Req_EM_T r 0) as [->|N]; [destruct (Rlt_dec 0 2); [f_equal; lra|lra]|].
    rewrite R_pow_2. rewrite (is_int_IZR 2). destruct (Rlt_dec r 0); reflexivity.
  - destruct (Rlt_dec 0 2); [reflexivity|lra].
  - destruct (Rlt_dec 0 2); [|lra]. unfold is_odd. rewrite (is_int_IZR 2), (Int_part_IZR 2). reflexivity.
  - reflexivity.
Qed.

Lemma xr_bin b x y v : simp_bin (S := X_ops) b x y v -> ~ xr_bad b x y -> v = bin_value (S := X_ops) b x y.
Proof.
  intros [E|E] Hn; [exact E|]. destruct b; cbn [s_eqb s_ltb s_ofZ s_mul X_ops] in E; cbn [xr_bad] in Hn;
    cbn [bin_value s_add s_sub s_mul s_div s_hypot s_pow X_ops]; xr.
  - destruct E as [[E ->]|[E ->]]; apply X_eqb_fin in E; subst.
    + symmetry. apply X_add_0_l.
    + symmetry. apply X_add_0_r.
  - destruct E as [(E & E2 & ->)|[[E E2]|[E ->]]]; apply X_eqb_fin in E; subst.
    + apply X_eqb_fin in E2; subst. cbn. f_equal. lra.
    + apply xr_un in E2; [|intros [[C|C] _]; discriminate]. rewrite E2. cbn [un_value s_opp X_ops].
      unfold X_sub. rewrite X_add_0_l. reflexivity.
    + unfold X_sub. cbn [X_opp]. rewrite Ropp_0, X_add_0_r. reflexivity.
  - destruct E as [[E ->]|[[E ->]|[[E ->]|[E ->]]]]; apply X_eqb_fin in E; subst.
    + destruct y as [r| | |]; [cbn; f_equal; lra| | |]; exfalso; apply Hn; left; split; auto; intros (r & C); discriminate.
    + destruct x as [r| | |]; [cbn; f_equal; lra| | |]; exfalso; apply Hn; right; split; auto; intros (r & C); discriminate.
    + symmetry. apply X_mul_1_l.
    + symmetry. apply X_mul_1_r.
  - destruct E as [[E ->]|[E ->]]; apply X_eqb_fin in E; subst.
    + destruct y as [r| | |]; cbn; try reflexivity.
      * destruct (Req_EM_T r 0) as [->|N]; [exfalso; apply Hn; auto|]. f_equal. field. exact N.
      * exfalso. apply Hn; auto.
    + symmetry. apply X_div_1.
  - destruct E.
  - destruct E as [[E E2]|[E E2]]; apply X_eqb_fin in E; subst;
      (apply xr_un in E2; [|intros [[C|C] _]; discriminate]); rewrite E2; cbn [un_value s_abs X_ops]; symmetry.
    + apply X_hypot_0_l.
    + apply X_hypot_0_r.
  - destruct E.
  - destruct E.
  - destruct E as [[E ->]|[[E ->]|[[E ->]|[[E ->]|[E ->]]]]]; apply X_eqb_fin in E; subst.
    + destruct y as [p| | |].
      * destruct (Rlt_dec 0 p) as [P|P].
        -- unfold X_pow. cbn [X_eqb]. destruct (R_eqb p 0) eqn:E1; [apply R_eqb_eq in E1; lra|].
           destruct (R_eqb 0 1) eqn:E2; [apply R_eqb_eq in E2; lra|].
           destruct (Req_EM_T 0 0); [|congruence]. destruct (Rlt_dec 0 p); [reflexivity|contradiction].
        -- exfalso. apply Hn. split; [reflexivity|]. split; [|discriminate]. intros (q & Q & [= ->]). contradiction.
      * unfold X_pow. cbn [X_eqb]. destruct (R_eqb 0 1) eqn:E2; [apply R_eqb_eq in E2; lra|].
        rewrite Rabs_R0. destruct (Rlt_dec 0 1); [reflexivity|lra].
      * exfalso. apply Hn. split; [reflexivity|]. split; [|discriminate]. intros (q & _ & C); discriminate.
      * exfalso. apply Hn. split; [reflexivity|]. split; [|discriminate]. intros (q & _ & C); discriminate.
    + unfold X_pow. cbn [X_eqb]. rewrite (proj2 (R_eqb_eq 1 1)) by reflexivity.
      destruct y as [p| | |]; cbn [X_eqb]; try reflexivity. destruct (R_eqb p 0); reflexivity.
    + symmetry. apply X_pow_0_r.
    + symmetry. apply X_pow_1_r.
    + apply X_pow_2_r.
Qed.
