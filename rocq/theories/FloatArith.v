(** Double arithmetic as rounded extended-real arithmetic. *)
From Coq Require Import ZArith Reals List Bool Lra Lia.
From Coq Require SpecFloat.
From Flocq Require Import Core IEEE754.BinarySingleNaN.
From Verif Require Import Base ExprModel ExprReal ExprXR NumModel FloatModel.
Import ListNotations.
Local Open Scope R_scope.

Definition fx : Z -> Z := SpecFloat.fexp prec emax.
Definition rnd (r : R) : R := round radix2 fx (round_mode mode_NE) r.
(** Rounding with overflow to infinity. *)
Definition big : R := bpow radix2 emax.
Definition rX (x : XR) : XR :=
  match x with Fin r => if Rlt_bool (Rabs (rnd r)) big then Fin (rnd r) else if Rlt_bool r 0 then MInf else PInf | x => x end.
(** What a double stands for (the sign of zero forgotten). *)
Definition dX (x : dbl) : XR :=
  match x with B754_nan => NaN | B754_infinity s => if s then MInf else PInf | x => Fin (B2R x) end.

#[global] Instance vfx : Valid_exp fx. Proof. apply fexp_correct. exact prec_gt_0. Qed.
Lemma dX_fin x : is_finite x = true -> dX x = Fin (B2R x).
Proof. destruct x; try discriminate; reflexivity. Qed.
Lemma fin_dX x r : dX x = Fin r -> is_finite x = true /\ B2R x = r.
Proof. destruct x as [|s| |]; cbn; try discriminate; [| |]; try (destruct s; discriminate); intros [= <-]; auto. Qed.
Lemma finite_dX x : is_finite x = (match dX x with Fin _ => true | _ => false end).
Proof. destruct x as [|[]| |]; reflexivity. Qed.

Lemma B2SF_inf (x : dbl) s : B2SF x = SpecFloat.S754_infinity s -> x = B754_infinity s.
Proof. destruct x; cbn; try discriminate. intros [= ->]. reflexivity. Qed.
Lemma over_NE s : binary_overflow prec emax mode_NE s = SpecFloat.S754_infinity s.
Proof. destruct s; reflexivity. Qed.

(** ** Comparisons *)
Lemma lt_X x y : d_ltb x y = X_ltb (dX x) (dX y).
Proof.
  destruct (is_finite x) eqn:Fx, (is_finite y) eqn:Fy.
  - rewrite (dX_fin _ Fx), (dX_fin _ Fy). unfold d_ltb. rewrite Bltb_correct; auto. cbn. unfold R_ltb.
    destruct (Rlt_bool_spec (B2R x) (B2R y)), (Rlt_dec (B2R x) (B2R y)); auto; lra.
  - rewrite (dX_fin _ Fx). destruct y as [|[]| |]; try discriminate; destruct x as [|[]| |[]]; try discriminate; reflexivity.
  - rewrite (dX_fin _ Fy). destruct x as [|[]| |]; try discriminate; destruct y as [|[]| |[]]; try discriminate; reflexivity.
  - destruct x as [|[]| |[]]; try discriminate; destruct y as [|[]| |[]]; try discriminate; reflexivity.
Qed.
Lemma eq_X x y : d_eqb x y = X_eqb (dX x) (dX y).
Proof.
  destruct (is_finite x) eqn:Fx, (is_finite y) eqn:Fy.
  - rewrite (dX_fin _ Fx), (dX_fin _ Fy). unfold d_eqb. rewrite Beqb_correct; auto. cbn. unfold R_eqb.
    destruct (Req_bool_spec (B2R x) (B2R y)), (Req_EM_T (B2R x) (B2R y)); auto; lra.
  - rewrite (dX_fin _ Fx). destruct y as [|[]| |]; try discriminate; destruct x as [|[]| |[]]; try discriminate; reflexivity.
  - rewrite (dX_fin _ Fy). destruct x as [|[]| |]; try discriminate; destruct y as [|[]| |[]]; try discriminate; reflexivity.
  - destruct x as [|[]| |[]]; try discriminate; destruct y as [|[]| |[]]; try discriminate; reflexivity.
Qed.
Lemma le_X x y : d_leb x y = X_leb (dX x) (dX y).
Proof.
  destruct (is_finite x) eqn:Fx, (is_finite y) eqn:Fy.
  - rewrite (dX_fin _ Fx), (dX_fin _ Fy). unfold d_leb. rewrite Bleb_correct; auto. unfold X_leb. cbn. unfold R_eqb, R_ltb.
    destruct (Rle_bool_spec (B2R x) (B2R y)), (Req_EM_T (B2R x) (B2R y)), (Rlt_dec (B2R x) (B2R y)); auto; cbn; lra.
  - rewrite (dX_fin _ Fx). destruct y as [|[]| |]; try discriminate; destruct x as [|[]| |[]]; try discriminate; reflexivity.
  - rewrite (dX_fin _ Fy). destruct x as [|[]| |]; try discriminate; destruct y as [|[]| |[]]; try discriminate; reflexivity.
  - destruct x as [|[]| |[]]; try discriminate; destruct y as [|[]| |[]]; try discriminate; reflexivity.
Qed.

(** ** Exact operations *)
Lemma opp_X x : dX (d_opp x) = X_opp (dX x).
Proof.
  destruct (is_finite x) eqn:Fx.
  - rewrite (dX_fin x Fx). rewrite dX_fin by (unfold d_opp; rewrite is_finite_Bopp; auto). unfold d_opp. rewrite B2R_Bopp. reflexivity.
  - destruct x as [|[]| |]; try discriminate; reflexivity.
Qed.
Lemma abs_X x : dX (d_abs x) = lift Rabs PInf PInf (dX x).
Proof.
  destruct (is_finite x) eqn:Fx.
  - rewrite (dX_fin x Fx). rewrite dX_fin by (unfold d_abs; rewrite is_finite_Babs; auto). unfold d_abs. rewrite B2R_Babs. reflexivity.
  - destruct x as [|[]| |]; try discriminate; reflexivity.
Qed.

(** ** Rounded operations *)
Lemma rnd_0 : rnd 0 = 0. Proof. apply round_0. apply valid_rnd_round_mode. Qed.
Lemma big_pos : 0 < big. Proof. apply bpow_gt_0. Qed.
Lemma rX_0 : rX (Fin 0) = Fin 0.
Proof. cbn. rewrite rnd_0, Rabs_R0. rewrite Rlt_bool_true; [reflexivity|apply big_pos]. Qed.
Lemma rnd_le a b : a <= b -> rnd a <= rnd b.
Proof. apply round_le; [apply vfx|apply valid_rnd_round_mode]. Qed.
Lemma rnd_B2R (x : dbl) : rnd (B2R x) = B2R x.
Proof. apply round_generic; [apply valid_rnd_round_mode|]. apply generic_format_B2R. Qed.
Lemma lt_big (x : dbl) : Rabs (B2R x) < big.
Proof. apply abs_B2R_lt_emax. Qed.
Lemma rX_dX x : rX (dX x) = dX x.
Proof.
  destruct (is_finite x) eqn:Fx.
  - rewrite (dX_fin x Fx). unfold rX. rewrite rnd_B2R, Rlt_bool_true; [reflexivity|apply lt_big].
  - destruct x as [|[]| |]; try discriminate; reflexivity.
Qed.

Lemma sgn_le (x : dbl) : (Bsign x = true -> B2R x <= 0) /\ (Bsign x = false -> 0 <= B2R x).
Proof.
  destruct x as [s|s| |s m e H]; cbn; split; intros E; subst; try lra; try discriminate.
  - apply F2R_le_0. cbn. lia.
  - apply F2R_ge_0. cbn. lia.
Qed.
Lemma fin_sgn (x : dbl) : (B2R x < 0 -> Bsign x = true) /\ (0 < B2R x -> Bsign x = false).
Proof. pose proof (sgn_le x) as [A B]. destruct (Bsign x); split; intros H; auto; [specialize (A eq_refl)|specialize (B eq_refl)]; lra. Qed.
Lemma rnd_big r : big <= Rabs (rnd r) -> r <> 0.
Proof. intros H ->. rewrite rnd_0, Rabs_R0 in H. pose proof big_pos. lra. Qed.

Lemma add_X x y : dX (d_add x y) = rX (X_add (dX x) (dX y)).
Proof.
  destruct (is_finite x) eqn:Fx, (is_finite y) eqn:Fy.
  - rewrite (dX_fin _ Fx), (dX_fin _ Fy). cbn [X_add rX]. pose proof (Bplus_correct prec emax _ _ mode_NE x y Fx Fy) as H.
    fold (d_add x y) in H. fold fx in H. fold (rnd (B2R x + B2R y)) in H. fold big in H. destruct (Rlt_bool_spec (Rabs (rnd (B2R x + B2R y))) big) as [L|L].
    + destruct H as (H1 & H2 & _). rewrite (dX_fin _ H2), H1. reflexivity.
    + destruct H as [H1 H2]. rewrite over_NE in H1. apply B2SF_inf in H1. rewrite H1. cbn [dX].
      pose proof (rnd_big _ L). destruct (sgn_le x), (sgn_le y). destruct (Bsign x), (Bsign y); try discriminate.
      * rewrite Rlt_bool_true; [reflexivity|]. specialize (H0 eq_refl). specialize (H4 eq_refl). lra.
      * rewrite Rlt_bool_false; [reflexivity|]. specialize (H3 eq_refl). specialize (H5 eq_refl). lra.
  - rewrite (dX_fin _ Fx). destruct y as [|[]| |]; try discriminate; destruct x as [|[]| |[]]; try discriminate; reflexivity.
  - rewrite (dX_fin _ Fy). destruct x as [|[]| |]; try discriminate; destruct y as [|[]| |[]]; try discriminate; reflexivity.
  - destruct x as [|[]| |[]]; try discriminate; destruct y as [|[]| |[]]; try discriminate; reflexivity.
Qed.
Lemma sub_add x y : dX (d_sub x y) = dX (d_add x (d_opp y)).
Proof. destruct x as [[]|[]| |], y as [[]|[]| |]; reflexivity. Qed.
Lemma sub_X x y : dX (d_sub x y) = rX (X_sub (dX x) (dX y)).
Proof. rewrite sub_add, add_X, opp_X. reflexivity. Qed.

Lemma xsgn_finite s m e H : xsgn (Fin (B2R (B754_finite s m e H : dbl))) = Some (if s then -1 else 1)%Z.
Proof.
  cbn -[Rlt_dec]. destruct s.
  - assert (L : F2R (Float radix2 (Zneg m) e) < 0) by (apply F2R_lt_0; cbn; lia).
    destruct (Rlt_dec 0 _) as [A|A]; cbn in *; [lra|]. destruct (Rlt_dec _ 0); [reflexivity|lra].
  - assert (L : 0 < F2R (Float radix2 (Zpos m) e)) by (apply F2R_gt_0; cbn; lia).
    destruct (Rlt_dec 0 _) as [A|A]; cbn in *; [reflexivity|lra].
Qed.
Lemma xsgn_0 : xsgn (Fin 0) = Some 0%Z.
Proof. cbn. destruct (Rlt_dec 0 0); [lra|reflexivity]. Qed.
Lemma mul_X x y : dX (d_mul x y) = rX (X_mul (dX x) (dX y)).
Proof.
  destruct (is_finite x) eqn:Fx, (is_finite y) eqn:Fy.
  - rewrite (dX_fin _ Fx), (dX_fin _ Fy). cbn [X_mul rX]. pose proof (Bmult_correct prec emax _ _ mode_NE x y) as H.
    fold (d_mul x y) in H. fold fx in H. fold (rnd (B2R x * B2R y)) in H. fold big in H. destruct (Rlt_bool_spec (Rabs (rnd (B2R x * B2R y))) big) as [L|L].
    + destruct H as (H1 & H2 & _). rewrite Fx, Fy in H2. rewrite (dX_fin _ H2), H1. reflexivity.
    + rewrite over_NE in H. apply B2SF_inf in H. rewrite H. cbn [dX].
      pose proof (rnd_big _ L). destruct (sgn_le x), (sgn_le y). destruct (Bsign x), (Bsign y); cbn [xorb].
      * rewrite Rlt_bool_false; [reflexivity|]. specialize (H1 eq_refl). specialize (H3 eq_refl). nra.
      * rewrite Rlt_bool_true; [reflexivity|]. specialize (H1 eq_refl). specialize (H4 eq_refl). nra.
      * rewrite Rlt_bool_true; [reflexivity|]. specialize (H2 eq_refl). specialize (H3 eq_refl). nra.
      * rewrite Rlt_bool_false; [reflexivity|]. specialize (H2 eq_refl). specialize (H4 eq_refl). nra.
  - rewrite (dX_fin _ Fx). destruct y as [|s| |]; try discriminate; [|destruct x as [|[]| |[]]; try discriminate; reflexivity].
    destruct x as [s'| | |s' m e Hb]; try discriminate.
    + change (B2R (B754_zero s')) with 0. unfold X_mul. rewrite xsgn_0. destruct s; reflexivity.
    + unfold X_mul. rewrite xsgn_finite. destruct s, s'; reflexivity.
  - rewrite (dX_fin _ Fy). destruct x as [|s| |]; try discriminate; [|destruct y as [|[]| |[]]; try discriminate; reflexivity].
    destruct y as [s'| | |s' m e Hb]; try discriminate.
    + change (B2R (B754_zero s')) with 0. unfold X_mul, dX at 2. destruct s; rewrite xsgn_0; reflexivity.
    + unfold X_mul, dX at 2. destruct s; rewrite xsgn_finite; destruct s'; reflexivity.
  - destruct x as [|[]| |[]]; try discriminate; destruct y as [|[]| |[]]; try discriminate; reflexivity.
Qed.
(** The divisor must not be a zero, whose sign matters. *)
Lemma div_X x y : dX y <> Fin 0 -> dX (d_div x y) = rX (X_div (dX x) (dX y)).
Proof.
  intros Ny. destruct (is_finite y) eqn:Fy.
  - rewrite (dX_fin _ Fy) in Ny |- *. assert (Ny' : B2R y <> 0) by congruence. destruct (is_finite x) eqn:Fx.
    + rewrite (dX_fin _ Fx). cbn [X_div]. destruct (Req_EM_T (B2R y) 0); [contradiction|]. cbn [rX].
      pose proof (Bdiv_correct prec emax _ _ mode_NE x y Ny') as H.
      fold (d_div x y) in H. fold fx in H. fold (rnd (B2R x / B2R y)) in H. fold big in H. destruct (Rlt_bool_spec (Rabs (rnd (B2R x / B2R y))) big) as [L|L].
      * destruct H as (H1 & H2 & _). rewrite Fx in H2. rewrite (dX_fin _ H2), H1. reflexivity.
      * rewrite over_NE in H. apply B2SF_inf in H. rewrite H. cbn [dX].
        pose proof (rnd_big _ L) as N. assert (Nx : B2R x <> 0). { intros E. apply N. rewrite E. unfold Rdiv. lra. }
        destruct (fin_sgn x), (fin_sgn y).
        destruct (Rtotal_order (B2R x) 0) as [Sx|[Sx|Sx]]; [|contradiction|]; destruct (Rtotal_order (B2R y) 0) as [Sy|[Sy|Sy]]; try contradiction.
        -- rewrite H0, H2 by auto. rewrite Rlt_bool_false; [reflexivity|]. apply Rlt_le. unfold Rdiv. replace (B2R x * / B2R y) with ((- B2R x) * / (- B2R y)) by (field; auto).
           apply Rmult_lt_0_compat; [lra|apply Rinv_0_lt_compat; lra].
        -- rewrite H0, H3 by auto. rewrite Rlt_bool_true; [reflexivity|]. replace (B2R x / B2R y) with (- ((- B2R x) * / B2R y)) by (field; auto).
           apply Ropp_lt_gt_0_contravar. apply Rmult_lt_0_compat; [lra|apply Rinv_0_lt_compat; lra].
        -- rewrite H1, H2 by auto. rewrite Rlt_bool_true; [reflexivity|]. replace (B2R x / B2R y) with (- (B2R x * / (- B2R y))) by (field; auto).
           apply Ropp_lt_gt_0_contravar. apply Rmult_lt_0_compat; [lra|apply Rinv_0_lt_compat; lra].
        -- rewrite H1, H3 by auto. rewrite Rlt_bool_false; [reflexivity|]. apply Rlt_le. apply Rmult_lt_0_compat; [lra|apply Rinv_0_lt_compat; lra].
    + destruct x as [|s| |]; try discriminate; [|destruct y as [|[]| |[]]; try discriminate; reflexivity].
      destruct y as [s'| | |s' m e Hb]; try discriminate; [cbn in Ny'; lra|]. unfold X_div. cbn [dX].
      pose proof (xsgn_finite s' m e Hb) as K. unfold xsgn in K. destruct (Rlt_dec 0 (B2R (B754_finite s' m e Hb))), (Rlt_dec (B2R (B754_finite s' m e Hb)) 0), s, s'; try discriminate; try lra; reflexivity.
  - destruct y as [|s| |]; try discriminate; [|destruct x as [|[]| |[]]; try discriminate; reflexivity].
    destruct (is_finite x) eqn:Fx.
    + rewrite (dX_fin _ Fx). transitivity (Fin 0); [destruct x; try discriminate; reflexivity|]. cbn [dX]. destruct s; cbn [X_div]; rewrite rX_0; reflexivity.
    + destruct x as [|[]| |]; try discriminate; destruct s; reflexivity.
Qed.
Lemma sqrt_X x : dX (d_sqrt x) = rX (lift_dom (R_leb 0) sqrt PInf (dX x)).
Proof.
  destruct (is_finite x) eqn:Fx.
  - rewrite (dX_fin _ Fx). destruct (Bsqrt_correct prec emax _ _ mode_NE x) as (H1 & H2 & _). fold (d_sqrt x) in H1, H2. fold fx in H1. fold (rnd (sqrt (B2R x))) in H1.
    cbn [lift_dom]. assert (S0 : B2R x < 0 -> sqrt (B2R x) = 0) by (intros; apply sqrt_neg_0; lra).
    destruct x as [s| | |s m e Hb]; try discriminate.
    + change (B2R (B754_zero s)) with 0. unfold R_leb. destruct (Rle_dec 0 0); [|lra]. rewrite sqrt_0, rX_0. destruct s; reflexivity.
    + destruct s.
      * unfold R_leb. assert (L : B2R (B754_finite true m e Hb : dbl) < 0) by (apply F2R_lt_0; cbn; lia). destruct (Rle_dec 0 _); [lra|].
        reflexivity.
      * unfold R_leb. assert (L : 0 < B2R (B754_finite false m e Hb : dbl)) by (apply F2R_gt_0; cbn; lia). destruct (Rle_dec 0 _); [|lra].
        cbn [rX]. rewrite (dX_fin _ H2), H1. rewrite Rlt_bool_true; [reflexivity|]. rewrite <- H1. apply lt_big.
  - destruct x as [|[]| |]; try discriminate; reflexivity.
Qed.
