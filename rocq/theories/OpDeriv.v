(** Derivatives of the operators (C23) along curves. *)
From Coq Require Import ZArith Reals List Lra Lia.
From Coquelicot Require Import Coquelicot.
From Verif Require Import Base ExprModel ExprReal MathSpec MathProofs DiffSpec.
Open Scope R_scope.

Lemma is_derive_lim f x l : derivable_pt_lim f x l -> is_derive f x l.
Proof. apply is_derive_Reals. Qed.

Lemma loc_lt (u : R -> R) t a : continuous u t -> a < u t -> locally t (fun s => a < u s).
Proof.
  intros C H. apply (C (fun y => a < y)). exists (mkposreal (u t - a) ltac:(lra)). intros y Hy.
  unfold ball in Hy; cbn in Hy. unfold AbsRing_ball, abs, minus, plus, opp in Hy; cbn in Hy.
  apply Rabs_def2 in Hy. lra.
Qed.
Lemma loc_gt (u : R -> R) t a : continuous u t -> u t < a -> locally t (fun s => u s < a).
Proof.
  intros C H. apply (C (fun y => y < a)). exists (mkposreal (a - u t) ltac:(lra)). intros y Hy.
  unfold ball in Hy; cbn in Hy. unfold AbsRing_ball, abs, minus, plus, opp in Hy; cbn in Hy.
  apply Rabs_def2 in Hy. lra.
Qed.
Lemma loc_and (P Q : R -> Prop) t : locally t P -> locally t Q -> locally t (fun s => P s /\ Q s).
Proof. intros [e He] [f Hf]. exists (mkposreal (Rmin e f) (Rmin_stable_in_posreal e f)). cbn. intros y Hy.
  split; [apply He|apply Hf]; eapply ball_le; [|exact Hy| |exact Hy]; cbn; [apply Rmin_l|apply Rmin_r]. Qed.
Lemma loc_mono (P Q : R -> Prop) t : (forall s, P s -> Q s) -> locally t P -> locally t Q.
Proof. intros H [e He]. exists e. auto. Qed.

Lemma ex_cont (u : R -> R) t d : is_derive u t d -> continuous u t.
Proof. intros H. apply (ex_derive_continuous (V := R_NormedModule)). exists d. exact H. Qed.

Lemma asin_derive x : -1 < x < 1 -> is_derive asin x (1 / sqrt (1 - x * x)).
Proof.
  intros H. apply is_derive_lim. pose proof (derive_pt_asin x H) as D. unfold Rsqr in D. rewrite <- D.
  unfold derive_pt. destruct (derivable_pt_asin x H) as [l Hl]. exact Hl.
Qed.
Lemma acos_derive x : -1 < x < 1 -> is_derive acos x (-1 / sqrt (1 - x * x)).
Proof.
  intros H. apply is_derive_lim. pose proof (derive_pt_acos x H) as D. unfold Rsqr in D. rewrite <- D.
  unfold derive_pt. destruct (derivable_pt_acos x H) as [l Hl]. exact Hl.
Qed.
Lemma atan_derive x : is_derive atan x (/ (1 + x * x)).
Proof. apply is_derive_lim. pose proof (derivable_pt_lim_atan x) as H. replace (x * x) with (x ^ 2) by ring. exact H. Qed.

Lemma cosh_pos x : 0 < cosh x.
Proof. unfold cosh. pose proof (exp_pos x). pose proof (exp_pos (- x)). lra. Qed.
Lemma cosh2_sinh2 x : cosh x * cosh x - sinh x * sinh x = 1.
Proof.
  unfold cosh, sinh. pose proof (exp_plus x (- x)) as H. replace (x + - x) with 0 in H by lra. rewrite exp_0 in H. nra.
Qed.
Lemma tanh_derive x : is_derive tanh x (1 / (cosh x * cosh x)).
Proof.
  apply (is_derive_ext (fun t => sinh t / cosh t)); [reflexivity|].
  pose proof (cosh_pos x).
  evar_last. { apply (is_derive_div sinh cosh); [apply is_derive_lim, derivable_pt_lim_sinh|apply is_derive_lim, derivable_pt_lim_cosh|lra]. }
  pose proof (cosh2_sinh2 x). unfold minus, plus, opp, scal; cbn. unfold mult; cbn. field_simplify_eq; [|lra].
  replace (cosh x ^ 2) with (cosh x * cosh x) by ring. replace (sinh x ^ 2) with (sinh x * sinh x) by ring. lra.
Qed.
Lemma tan_derive x : cos x <> 0 -> is_derive tan x (1 / (cos x * cos x)).
Proof.
  intros H. apply (is_derive_ext (fun t => sin t / cos t)); [reflexivity|].
  auto_derive; [exact H|]. pose proof (sin2_cos2 x) as E. unfold Rsqr in E. field_simplify_eq; [|exact H].
  replace (cos x ^ 2) with (cos x * cos x) by ring. replace (sin x ^ 2) with (sin x * sin x) by ring. lra.
Qed.

Lemma cbrt_derive x : x <> 0 -> is_derive R_cbrt x (1 / (3 * R_cbrt x * R_cbrt x)).
Proof.
  intros H. assert (C0 : R_cbrt x <> 0).
  { intros C. pose proof (R_cbrt_cube x) as E. rewrite C in E. lra. }
  destruct (Rlt_dec 0 x) as [P|N].
  - apply (is_derive_ext_loc (fun t => Rpower t (1/3))).
    { eapply loc_mono; [|apply (loc_lt (fun t => t) x 0); [apply continuous_id|exact P]].
      intros t Ht. unfold R_cbrt. destruct (Req_EM_T t 0); [lra|]. destruct (Rlt_dec 0 t); [reflexivity|lra]. }
    assert (E : R_cbrt x = Rpower x (1/3)).
    { unfold R_cbrt. destruct (Req_EM_T x 0); [lra|]. destruct (Rlt_dec 0 x); [reflexivity|lra]. }
    pose proof (R_cbrt_cube x) as Q. rewrite E in *. unfold Rpower at 1. auto_derive; [exact P|].
    fold (Rpower x (1/3)). field_simplify_eq; [|auto]. rewrite <- Q at 2. ring.
  - assert (P : x < 0) by lra.
    apply (is_derive_ext_loc (fun t => - Rpower (- t) (1/3))).
    { eapply loc_mono; [|apply (loc_gt (fun t => t) x 0); [apply continuous_id|exact P]].
      intros t Ht. unfold R_cbrt. destruct (Req_EM_T t 0); [lra|]. destruct (Rlt_dec 0 t); [lra|reflexivity]. }
    assert (E : R_cbrt x = - Rpower (- x) (1/3)).
    { unfold R_cbrt. destruct (Req_EM_T x 0); [lra|]. destruct (Rlt_dec 0 x); [lra|reflexivity]. }
    pose proof (R_cbrt_cube x) as Q. rewrite E in *. unfold Rpower at 1. auto_derive; [lra|].
    fold (Rpower (- x) (1/3)). assert (Rpower (- x) (1/3) <> 0) by lra.
    set (c := Rpower (- x) (1 / 3)) in *. field_simplify_eq; [|auto]. rewrite <- Q. ring.
Qed.

Lemma erf_derive x : is_derive R_erf x (2 / sqrt PI * exp (- x * x)).
Proof.
  unfold R_erf. replace (- x * x) with (- (x * x)) by ring.
  apply (is_derive_scal (fun x => RInt (fun t => exp (- (t * t))) 0 x) x (2 / sqrt PI)).
  apply (is_derive_RInt (fun t => exp (- (t * t))) _ 0).
  - apply filter_forall. intros b. apply (RInt_correct (fun t => exp (- (t * t)))).
    apply (ex_RInt_continuous (V := R_CompleteNormedModule)). intros z _.
    apply (ex_derive_continuous (V := R_NormedModule)). auto_derive. exact I.
  - apply (ex_derive_continuous (V := R_NormedModule)). auto_derive. exact I.
Qed.

Lemma eq_derive (f : R -> R) (x d d' : R) : is_derive f x d -> d = d' -> is_derive f x d'.
Proof. intros H <-. exact H. Qed.

Lemma const_loc (f : R -> R) x c : locally x (fun t => f t = c) -> is_derive f x 0.
Proof.
  intros H. apply (is_derive_ext_loc (fun _ => c)).
  - eapply loc_mono; [|exact H]. intros t ->. reflexivity.
  - apply (is_derive_const (V := R_NormedModule)).
Qed.

Lemma loc_id_lt x a : a < x -> locally x (fun t => a < t).
Proof. apply (loc_lt (fun t => t) x a). apply continuous_id. Qed.
Lemma loc_id_gt x a : x < a -> locally x (fun t => t < a).
Proof. apply (loc_gt (fun t => t) x a). apply continuous_id. Qed.

Ltac lcase := unfold R_ltb, R_leb, R_eqb; repeat match goal with
  | |- context [Rlt_dec ?a ?b] => destruct (Rlt_dec a b); try lra
  | |- context [Rle_dec ?a ?b] => destruct (Rle_dec a b); try lra
  | |- context [Req_EM_T ?a ?b] => destruct (Req_EM_T a b); try lra
  end.

Lemma step_derive (f : R -> R) (x : R) : x <> 0 -> (forall t, 0 < t -> f t = f 1) -> (forall t, t < 0 -> f t = f (-1)) -> is_derive f x 0.
Proof.
  intros H P N. destruct (Rlt_dec 0 x).
  - apply (const_loc f x (f 1)). eapply loc_mono; [|apply loc_id_lt; eassumption]. exact P.
  - apply (const_loc f x (f (-1))). eapply loc_mono; [|apply (loc_id_gt x 0); lra]. exact N.
Qed.

(** C23 for unary operators. *)
Lemma un_derive u x : regular_un u x -> ~ kink_un u x ->
  is_derive (un_value (S := R_ops) u) x (un_grad (S := R_ops) u 1 x).
Proof.
  intros Hr Hk. destruct u; cbn in Hr, Hk.
  - apply (eq_derive (fun t => - t) x (-1)); [auto_derive; [exact I|lra]|cbn; lra].
  - destruct (Rlt_dec 0 x) as [P|P].
    + apply (is_derive_ext_loc (fun t => t)).
      { eapply loc_mono; [|apply loc_id_lt, P]. intros t Ht. cbn. rewrite Rabs_pos_eq by lra. reflexivity. }
      eapply eq_derive; [apply (is_derive_id (K := R_AbsRing))|]. cbn. lcase; reflexivity.
    + assert (x < 0) by lra. apply (is_derive_ext_loc (fun t => - t)).
      { eapply loc_mono; [|apply loc_id_gt, H]. intros t Ht. cbn. rewrite Rabs_left by lra. reflexivity. }
      apply (eq_derive (fun t => - t) x (-1)); [auto_derive; [exact I|lra]|]. cbn. lcase; reflexivity.
  - cbn. eapply eq_derive; [apply acos_derive, Hr|]. unfold Rdiv. ring.
  - cbn. eapply eq_derive; [apply asin_derive, Hr|]. reflexivity.
  - cbn. eapply eq_derive; [apply atan_derive|]. unfold Rdiv. ring.
  - cbn. eapply eq_derive; [apply cbrt_derive, Hr|]. reflexivity.
  - cbn. eapply eq_derive; [apply is_derive_lim, derivable_pt_lim_cos|]. ring.
  - cbn. eapply eq_derive; [apply is_derive_lim, derivable_pt_lim_cosh|]. ring.
  - cbn. eapply eq_derive; [apply erf_derive|]. ring.
  - cbn. eapply eq_derive; [apply is_derive_lim, derivable_pt_lim_exp|]. ring.
  - cbn [un_grad]. apply (step_derive (un_value (S := R_ops) UIsNonneg) x Hk); intros t Ht; cbn; lcase; reflexivity.
  - cbn [un_grad]. apply (step_derive (un_value (S := R_ops) UIsPos) x Hk); intros t Ht; cbn; lcase; reflexivity.
  - cbn. eapply eq_derive; [apply is_derive_lim, derivable_pt_lim_ln, Hr|]. unfold Rdiv. ring.
  - cbn. unfold R_log10. apply (eq_derive (fun t => ln t / ln 10) x (1 / x * / ln 10)).
    + auto_derive; [exact Hr|]. unfold Rdiv. ring.
    + unfold Rdiv. rewrite Rinv_mult. ring.
  - cbn [un_grad]. apply (step_derive (un_value (S := R_ops) USign) x Hk); intros t Ht; cbn; lcase; reflexivity.
  - cbn. eapply eq_derive; [apply is_derive_lim, derivable_pt_lim_sin|]. ring.
  - cbn. eapply eq_derive; [apply is_derive_lim, derivable_pt_lim_sinh|]. ring.
  - cbn. eapply eq_derive; [apply is_derive_lim, derivable_pt_lim_sqrt, Hr|]. unfold Rdiv. ring.
  - cbn. eapply eq_derive; [apply tan_derive, Hr|]. reflexivity.
  - cbn. eapply eq_derive; [apply tanh_derive|]. reflexivity.
Qed.

(** Chain rule for unary operators. *)
Lemma un_chain u (f : R -> R) t df : regular_un u (f t) -> ~ kink_un u (f t) -> is_derive f t df ->
  is_derive (fun t => un_value (S := R_ops) u (f t)) t (un_grad (S := R_ops) u 1 (f t) * df).
Proof.
  intros Hr Hk Hf. eapply eq_derive; [apply (is_derive_comp (un_value (S := R_ops) u) f t); [apply un_derive; assumption|exact Hf]|].
  unfold scal; cbn. unfold mult; cbn. ring.
Qed.

Lemma d_of (f : R -> R) (t d : R) : is_derive f t d -> ex_derive f t /\ Derive f t = d.
Proof. intros H. split; [exists d; exact H|apply is_derive_unique, H]. Qed.

Lemma powZ_derive (z : Z) (x : R) : x <> 0 \/ (1 <= z)%Z -> is_derive (fun t => powerRZ t z) x (IZR z * powerRZ x (z - 1)).
Proof.
  intros H.
  assert (PN : forall n, is_derive (fun t => t ^ (S n)) x (INR (S n) * x ^ n)).
  { intros n. apply (eq_derive (fun t => t ^ S n) x (INR (S n) * 1 * x ^ n)); [|ring].
    apply (is_derive_pow (fun t => t) (S n) x 1). apply (is_derive_id (K := R_AbsRing)). }
  destruct z as [|p|p].
  - cbn [powerRZ]. eapply eq_derive; [apply (is_derive_const (V := R_NormedModule))|]. cbn. unfold zero; cbn. ring.
  - apply (is_derive_ext (fun t => t ^ Pos.to_nat p)); [reflexivity|].
    destruct (Pos.to_nat p) as [|n] eqn:E; [lia|].
    eapply eq_derive; [apply PN|].
    assert (EZ : Z.pos p = Z.of_nat (S n)) by lia. rewrite EZ, <- INR_IZR_INZ.
    replace (Z.of_nat (S n) - 1)%Z with (Z.of_nat n) by lia. rewrite <- pow_powerRZ. reflexivity.
  - destruct H as [H|H]; [|lia].
    apply (is_derive_ext (fun t => / (t ^ Pos.to_nat p))); [reflexivity|].
    destruct (Pos.to_nat p) as [|n] eqn:E; [lia|].
    apply (eq_derive (fun t => / t ^ S n) x (- (INR (S n) * x ^ n) / (x ^ S n) ^ 2)).
    { apply (is_derive_inv (fun t => t ^ S n)); [apply PN|apply pow_nonzero, H]. }
    assert (EZ : Z.neg p = (- Z.of_nat (S n))%Z) by lia.
    replace (Z.neg p - 1)%Z with (- Z.of_nat (S (S n)))%Z by lia.
    rewrite EZ, opp_IZR, <- INR_IZR_INZ.
    assert (E2 : powerRZ x (- Z.of_nat (S (S n))) = / x ^ S (S n)).
    { rewrite powerRZ_neg', <- pow_powerRZ. reflexivity. }
    rewrite E2. cbn [pow]. pose proof (pow_nonzero x n H). field. auto.
Qed.

Lemma loc_eq_derive (f g : R -> R) t d : locally t (fun s => g s = f s) -> is_derive g t d -> is_derive f t d.
Proof. intros H Hg. eapply (is_derive_ext_loc g); [|exact Hg]. eapply loc_mono; [|exact H]. auto. Qed.

(** Chain rule for binary operators. *)
Lemma bin_chain b (f g : R -> R) t df dg : regular_bin b (f t) (g t) -> ~ kink_bin b (f t) (g t) ->
  is_derive f t df -> is_derive g t dg ->
  is_derive (fun t => bin_value (S := R_ops) b (f t) (g t)) t
    (bin_grad_l (S := R_ops) b 1 (f t) (g t) * df + bin_grad_r (S := R_ops) b 1 (f t) (g t) * dg).
Proof.
  intros Hr Hk Hf Hg. destruct (d_of _ _ _ Hf) as [Ef Df], (d_of _ _ _ Hg) as [Eg Dg].
  pose proof (ex_cont _ _ _ Hf) as Cf. pose proof (ex_cont _ _ _ Hg) as Cg.
  assert (Df' : Derive (fun x => f x) t = df) by exact Df.
  assert (Dg' : Derive (fun x => g x) t = dg) by exact Dg.
  Ltac useD := repeat match goal with H : Derive _ _ = _ |- _ => rewrite H end.
  destruct b; cbn in Hr, Hk.
  - cbn. auto_derive; [auto|]. useD. ring.
  - cbn. auto_derive; [auto|]. useD. ring.
  - cbn. auto_derive; [auto|]. useD. ring.
  - cbn. auto_derive; [auto|]. useD. field. exact Hr.
  - (* atan2 *)
    destruct (Rlt_dec 0 (g t)) as [P|P].
    + apply (loc_eq_derive _ (fun s => atan (f s / g s))).
      { eapply loc_mono; [|apply (loc_lt g t 0 Cg P)]. intros s Hs. cbn. unfold R_atan2.
        destruct (Rlt_dec 0 (g s)); [reflexivity|lra]. }
      assert (g t <> 0) by lra. assert (SQ : f t * f t + g t * g t <> 0) by nra.
      auto_derive; [auto|]. useD. cbn. field; repeat split; try assumption; intros Z; apply SQ; rewrite <- Z; ring.
    + assert (F0 : f t <> 0).
      { intros F0. apply Hk. split; [exact F0|]. destruct Hr as [Hr|Hr]; lra. }
      assert (SQ : f t * f t + g t * g t <> 0) by (assert (0 < f t * f t) by nra; nra).
      destruct (Rlt_dec 0 (f t)) as [Q|Q].
      * apply (loc_eq_derive _ (fun s => PI / 2 - atan (g s / f s))).
        { eapply loc_mono; [|apply (loc_lt f t 0 Cf Q)]. intros s Hs. cbn. unfold R_atan2.
          destruct (Rlt_dec 0 (g s)) as [G|G]; [|destruct (Rlt_dec 0 (f s)); [reflexivity|lra]].
          assert (HH : f s / g s = / (g s / f s)) by (field; split; lra). rewrite HH.
          pose proof (atan_inv (g s / f s)) as AI. rewrite AI; [reflexivity|].
          apply Rdiv_lt_0_compat; assumption. }
        auto_derive; [auto|]. useD. cbn. field; repeat split; try assumption; intros Z; apply SQ; rewrite <- Z; ring.
      * assert (Q' : f t < 0) by lra.
        apply (loc_eq_derive _ (fun s => - (PI / 2) - atan (g s / f s))).
        { eapply loc_mono; [|apply (loc_gt f t 0 Cf Q')]. intros s Hs. cbn. unfold R_atan2.
          destruct (Rlt_dec 0 (g s)) as [G|G];
            [|destruct (Rlt_dec 0 (f s)); [lra|]; destruct (Rlt_dec (f s) 0); [reflexivity|lra]].
          assert (HH : f s / g s = - / (g s / (- f s))) by (field; split; lra). rewrite HH, atan_opp.
          assert (HG : 0 < g s / (- f s)) by (apply Rdiv_lt_0_compat; lra).
          rewrite (atan_inv _ HG).
          replace (g s / f s) with (- (g s / - f s)) by (field; lra). rewrite atan_opp. lra. }
        auto_derive; [auto|]. useD. cbn. field; repeat split; try assumption; intros Z; apply SQ; rewrite <- Z; ring.
  - (* hypot *)
    assert (P : 0 < f t * f t + g t * g t) by (destruct Hr as [Hr|Hr]; nra).
    cbn. unfold R_hypot. auto_derive; [repeat split; auto|]. useD.
    pose proof (sqrt_lt_R0 _ P). field. lra.
  - (* max *)
    destruct (Rlt_dec (f t) (g t)) as [P|P].
    + apply (loc_eq_derive _ g).
      { eapply loc_mono; [|apply (loc_lt (fun s => g s - f s) t 0); [|lra]].
        - intros s Hs. cbn. unfold s_max. cbn. lcase; reflexivity.
        - apply (ex_cont _ _ (dg - df)). auto_derive; [auto|]. useD. ring. }
      eapply eq_derive; [exact Hg|]. cbn. lcase; ring.
    + assert (P' : g t < f t) by lra. apply (loc_eq_derive _ f).
      { eapply loc_mono; [|apply (loc_lt (fun s => f s - g s) t 0); [|lra]].
        - intros s Hs. cbn. unfold s_max. cbn. lcase; reflexivity.
        - apply (ex_cont _ _ (df - dg)). auto_derive; [auto|]. useD. ring. }
      eapply eq_derive; [exact Hf|]. cbn. lcase; ring.
  - (* min *)
    destruct (Rlt_dec (f t) (g t)) as [P|P].
    + apply (loc_eq_derive _ f).
      { eapply loc_mono; [|apply (loc_lt (fun s => g s - f s) t 0); [|lra]].
        - intros s Hs. cbn. unfold s_min. cbn. lcase; reflexivity.
        - apply (ex_cont _ _ (dg - df)). auto_derive; [auto|]. useD. ring. }
      eapply eq_derive; [exact Hf|]. cbn. lcase; ring.
    + assert (P' : g t < f t) by lra. apply (loc_eq_derive _ g).
      { eapply loc_mono; [|apply (loc_lt (fun s => f s - g s) t 0); [|lra]].
        - intros s Hs. cbn. unfold s_min. cbn. lcase; reflexivity.
        - apply (ex_cont _ _ (df - dg)). auto_derive; [auto|]. useD. ring. }
      eapply eq_derive; [exact Hg|]. cbn. lcase; ring.
  - (* pow *)
    apply (loc_eq_derive _ (fun s => exp (g s * ln (f s)))).
    { eapply loc_mono; [|apply (loc_lt f t 0 Cf Hr)]. intros s Hs. cbn. rewrite (R_pow_pos _ _ Hs). reflexivity. }
    auto_derive; [auto|]. useD. cbn. rewrite !(R_pow_pos _ _ Hr).
    unfold Rminus. rewrite Rpower_plus, Rpower_Ropp, Rpower_1 by exact Hr. unfold Rpower. field. lra.
Qed.

(** A power with a constant integer exponent. *)
Lemma pow_chain (f : R -> R) t df p : int_power (f t) p -> is_derive f t df ->
  is_derive (fun t => bin_value (S := R_ops) BPow (f t) p) t (bin_grad_l (S := R_ops) BPow 1 (f t) p * df).
Proof.
  intros (z & -> & Hz) Hf.
  apply (is_derive_ext (fun t => powerRZ (f t) z)); [intros s; cbn; rewrite R_pow_int; reflexivity|].
  cbn. replace (IZR z - 1) with (IZR (z - 1)) by (rewrite minus_IZR; reflexivity). rewrite R_pow_int.
  eapply eq_derive; [apply (is_derive_comp (fun y => powerRZ y z) f t); [apply powZ_derive, Hz|exact Hf]|].
  unfold scal; cbn. unfold mult; cbn. ring.
Qed.

(** Derivative contributions are linear in the adjoint. *)
Lemma un_grad_lin u (a x : R) : un_grad (S := R_ops) u a x = a * un_grad (S := R_ops) u 1 x.
Proof. destruct u; cbn; unfold Rdiv; lcase; match goal with |- @eq _ ?p ?q => change (@eq R p q) end; ring. Qed.
Lemma bin_grad_l_lin b (a x y : R) : bin_grad_l (S := R_ops) b a x y = a * bin_grad_l (S := R_ops) b 1 x y.
Proof. destruct b; cbn; unfold Rdiv; lcase; match goal with |- @eq _ ?p ?q => change (@eq R p q) end; ring. Qed.
Lemma bin_grad_r_lin b (a x y : R) : bin_grad_r (S := R_ops) b a x y = a * bin_grad_r (S := R_ops) b 1 x y.
Proof. destruct b; cbn; unfold Rdiv; lcase; match goal with |- @eq _ ?p ?q => change (@eq R p q) end; ring. Qed.
