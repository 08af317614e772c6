(** The extended reals compute the user's mathematics exactly wherever it is defined. *)
From Coq Require Import ZArith Reals List Bool Lra Lia.
From Verif Require Import Base ExprModel GraphSpec GraphProofs ExprInv VarModel ExprReal MathSpec MathProofs ExprXR XRProofs Faith.
Open Scope R_scope.

Lemma X_leb_fin a b : X_leb (Fin a) (Fin b) = R_leb a b.
Proof.
  unfold X_leb. cbn [X_ltb X_eqb]. destruct (R_leb a b) eqn:E.
  - apply R_leb_le in E. apply orb_true_iff. rewrite R_ltb_lt, R_eqb_eq. lra.
  - apply R_leb_gt in E. apply orb_false_iff. split; [apply R_ltb_ge; lra|].
    destruct (R_eqb a b) eqn:Q; [apply R_eqb_eq in Q; lra|reflexivity].
Qed.

Lemma X_un_fin u x v : math_un u x v -> un_value (S := X_ops) u (Fin x) = Fin (un_value (S := R_ops) u x).
Proof.
  intros H. destruct H; cbn [un_value s_opp s_abs s_acos s_asin s_atan s_cbrt s_cos s_cosh s_erf s_exp s_sin s_sinh s_sqrt s_tan s_tanh s_log s_log10 s_leb s_ltb s_eqb s_ofZ
    X_ops R_ops lift lift_dom X_opp X_ltb X_eqb X_log_of]; try reflexivity.
  all: try (unfold in_unit; rewrite (proj2 (R_leb_le (-1) x)), (proj2 (R_leb_le x 1)) by lra; reflexivity).
  all: rewrite ?X_leb_fin; try (repeat match goal with |- context [if ?b then _ else _] => destruct b end; reflexivity).
  - pose proof (exp_pos y). destruct (Req_EM_T x 0); [lra|]. destruct (Rlt_dec 0 x); [reflexivity|lra].
  - unfold Rpower in H. pose proof (exp_pos (y * ln 10)). destruct (Req_EM_T x 0); [lra|]. destruct (Rlt_dec 0 x); [reflexivity|lra].
  - rewrite (proj2 (R_leb_le 0 x)) by nra. reflexivity.
Qed.

Lemma is_int_IZR z : is_int (IZR z) = true.
Proof.
  unfold is_int. apply R_eqb_eq. f_equal. pose proof (base_Int_part (IZR z)) as [A B].
  apply le_IZR in A. assert (IZR z < IZR (Int_part (IZR z) + 1)) as C by (rewrite plus_IZR; lra). apply lt_IZR in C. lia.
Qed.

Lemma X_pow_fin x y : (y = 0 -> x <> 0) -> (0 < x \/ (x = 0 /\ 0 < y) \/ exists z, y = IZR z /\ (x <> 0 \/ (0 <= z)%Z)) ->
  X_pow (Fin x) (Fin y) = Fin (R_pow x y).
Proof.
  intros Hz H. unfold X_pow. cbn [X_eqb].
  destruct (R_eqb y 0) eqn:Y0.
  { apply R_eqb_eq in Y0. subst y. specialize (Hz eq_refl).
    replace 0 with (IZR 0) by reflexivity. rewrite R_pow_int. reflexivity. }
  assert (Y : y <> 0) by (intros ->; rewrite (proj2 (R_eqb_eq 0 0) eq_refl) in Y0; discriminate).
  destruct (R_eqb x 1) eqn:X1.
  { apply R_eqb_eq in X1. subst x. rewrite R_pow_pos by lra. unfold Rpower. rewrite ln_1, Rmult_0_r, exp_0. reflexivity. }
  destruct (Req_EM_T x 0) as [->|Nx].
  - assert (P : 0 < y).
    { destruct H as [H|[[_ H]|(z & -> & [H|H])]]; [lra|exact H|congruence|]. apply IZR_lt. assert (z <> 0)%Z by (intros ->; apply Y; reflexivity). lia. }
    destruct (Rlt_dec 0 y); [|lra]. rewrite R_pow_zero by assumption. reflexivity.
  - destruct (Rlt_dec x 0) as [Lx|Gx]; [|reflexivity].
    destruct H as [H|[[H _]|(z & -> & _)]]; [lra|congruence|]. rewrite is_int_IZR. reflexivity.
Qed.

Lemma X_bin_fin b x y v : math_bin b x y v -> (b = BPow -> ~ (x = 0 /\ y = 0)) ->
  bin_value (S := X_ops) b (Fin x) (Fin y) = Fin (bin_value (S := R_ops) b x y).
Proof.
  intros H Hz. destruct b; cbn [bin_value s_add s_sub s_mul s_div s_atan2 s_hypot s_pow X_ops R_ops X_add X_sub X_opp X_mul X_atan2 X_hypot]; try reflexivity.
  - inversion H; subst. cbn [X_div]. destruct (Req_EM_T y 0); [congruence|reflexivity].
  - unfold s_max. cbn. destruct (R_ltb x y); reflexivity.
  - unfold s_min. cbn. destruct (R_ltb y x); reflexivity.
  - apply X_pow_fin.
    + intros -> ->. apply (Hz eq_refl). auto.
    + apply math_pow_inv in H. destruct H as [[H _]|[(H1 & H2 & _)|(z & H1 & H2 & _)]]; [auto|auto|right; right; eauto].
Qed.

Lemma X_un_math u x v w : math_un u x v -> simp_un (S := X_ops) u (Fin x) w -> w = Fin v.
Proof.
  intros H Hs. rewrite (xr_un _ _ _ Hs).
  - rewrite (X_un_fin _ _ _ H). f_equal. apply un_value_math. exact H.
  - intros [U [= ->]]. destruct U as [-> | ->]; inversion H; subst.
    + match goal with E : exp ?y = 0 |- _ => pose proof (exp_pos y); lra end.
    + match goal with E : Rpower 10 ?y = 0 |- _ => unfold Rpower in E; pose proof (exp_pos (y * ln 10)); lra end.
Qed.

Lemma X_bin_math b x y v w : math_bin b x y v -> (b = BPow -> ~ (x = 0 /\ y = 0)) -> simp_bin (S := X_ops) b (Fin x) (Fin y) w -> w = Fin v.
Proof.
  intros H Hz Hs. rewrite (xr_bin _ _ _ _ Hs).
  - rewrite (X_bin_fin _ _ _ _ H Hz). f_equal. apply bin_value_math. exact H.
  - destruct b; cbn [xr_bad]; try tauto.
    + intros [[_ N]|[_ N]]; apply N; eexists; reflexivity.
    + intros [[= ->] [[= ->]|[=]]]. inversion H; congruence.
    + intros ([= ->] & N & _). apply math_pow_inv in H. destruct H as [[H _]|[(_ & H2 & _)|(z & -> & [H|H] & _)]]; [lra| |congruence|].
      * apply N. exists y. auto.
      * apply N. exists (IZR z). split; [|reflexivity]. apply IZR_lt.
        assert (z <> 0)%Z by (intros ->; apply (Hz eq_refl); auto). lia.
Qed.

Lemma X_eqb0 x : X_eqb (Fin x) (Fin 0) = true <-> x = 0.
Proof. apply R_eqb_eq. Qed.
Lemma X_leb0 x : X_leb (Fin 0) (Fin x) = true <-> 0 <= x.
Proof. rewrite X_leb_fin. apply R_leb_le. Qed.

Global Instance faith_X : faith X_ops := mkFaith X_ops Fin (fun _ => eq_refl) X_un_math X_bin_math X_eqb0 X_leb0.
