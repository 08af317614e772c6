(** Derivative formulas and derivative expressions at smooth points, over any scalar type that computes the user's
    mathematics. *)
From Coq Require Import ZArith Reals List Bool Arith Lia Lra Psatz.
From Coquelicot Require Import Coquelicot.
From Verif Require Import Base ExprModel GraphSpec GraphProofs ExprInv VarModel VarReach VarProofs ExprReal MathSpec MathProofs DiffSpec OpDeriv OpMath
  Faith SmoothGraph.
Import ListNotations.
Open Scope R_scope.

Section Grad.
Context {K : sops} {FK : faith K} {FK2 : faith2 K}.
Implicit Types s : st K.
Notation J := (inj (K := K)).

Lemma k_add x y : s_add K (J x) (J y) = J (x + y). Proof. exact (f_bin2 BAdd x y I). Qed.
Lemma k_sub x y : s_sub K (J x) (J y) = J (x - y). Proof. exact (f_bin2 BSub x y I). Qed.
Lemma k_mul x y : s_mul K (J x) (J y) = J (x * y). Proof. exact (f_bin2 BMul x y I). Qed.
Lemma k_div x y : y <> 0 -> s_div K (J x) (J y) = J (x / y). Proof. intros H. exact (f_bin2 BDiv x y H). Qed.
Lemma k_hypot x y : x <> 0 \/ y <> 0 -> s_hypot K (J x) (J y) = J (R_hypot x y). Proof. intros H. exact (f_bin2 BHypot x y H). Qed.
Lemma k_pow x y : 0 < x -> s_pow K (J x) (J y) = J (R_pow x y). Proof. intros H. exact (f_bin2 BPow x y H). Qed.
Lemma k_opp x : s_opp K (J x) = J (- x). Proof. exact (f_un2 UNeg x I). Qed.
Lemma k_sqrt x : 0 < x -> s_sqrt K (J x) = J (sqrt x). Proof. intros H. exact (f_un2 USqrt x H). Qed.
Lemma k_cbrt x : x <> 0 -> s_cbrt K (J x) = J (R_cbrt x). Proof. intros H. exact (f_un2 UCbrt x H). Qed.
Lemma k_log x : 0 < x -> s_log K (J x) = J (ln x). Proof. intros H. exact (f_un2 ULog x H). Qed.
Lemma k_cos x : s_cos K (J x) = J (cos x). Proof. exact (f_un2 UCos x I). Qed.
Lemma k_cosh x : s_cosh K (J x) = J (cosh x). Proof. exact (f_un2 UCosh x I). Qed.
Lemma k_sin x : s_sin K (J x) = J (sin x). Proof. exact (f_un2 USin x I). Qed.
Lemma k_sinh x : s_sinh K (J x) = J (sinh x). Proof. exact (f_un2 USinh x I). Qed.
Lemma k_exp x : s_exp K (J x) = J (exp x). Proof. exact (f_un2 UExp x I). Qed.

Lemma nz_sqrt x : 0 < x -> sqrt x <> 0. Proof. intros H. pose proof (sqrt_lt_R0 x H). lra. Qed.
Lemma nz_cbrt x : x <> 0 -> 3 * R_cbrt x * R_cbrt x <> 0.
Proof. intros H E. apply H. pose proof (R_cbrt_cube x) as Q. assert (R_cbrt x = 0) as Z by nra. rewrite Z in Q. lra. Qed.
Lemma nz_ln10 : ln 10 <> 0. Proof. assert (0 < ln 10); [|lra]. rewrite <- ln_1. apply ln_increasing; lra. Qed.
Lemma nz_hypot x y : x <> 0 \/ y <> 0 -> R_hypot x y <> 0.
Proof. intros H. unfold R_hypot. apply nz_sqrt. destruct H; nra. Qed.
Lemma nz_sq x y : x <> 0 \/ y <> 0 -> x * x + y * y <> 0. Proof. intros [H|H]; nra. Qed.
Lemma nz_cosh x : cosh x * cosh x <> 0. Proof. pose proof (cosh_pos x). nra. Qed.

(** Numbers. *)
Lemma un_grad_K u g x : good_un u x -> un_grad (S := K) u (J g) (J x) = J (un_grad (S := R_ops) u g x).
Proof.
  intros [Hr Hk]. destruct u; cbn in Hr, Hk;
    cbn [un_grad s_ofZ s_add s_sub s_mul s_div s_opp s_cbrt s_cos s_cosh s_exp s_sin s_sinh s_sqrt s_ltb s_2isqrtpi s_ln10 R_ops];
    rewrite ?f_ofZ, ?f_ltb, ?f_k1, ?f_k2; rewrite ?k_opp, ?k_mul, ?k_add, ?k_sub; try reflexivity.
  - destruct (R_ltb x 0); [reflexivity|]. destruct (R_ltb 0 x); reflexivity.
  - rewrite k_sqrt by nra. apply k_div. apply nz_sqrt. nra.
  - rewrite k_sqrt by nra. apply k_div. apply nz_sqrt. nra.
  - apply k_div. nra.
  - rewrite k_cbrt by exact Hr. rewrite !k_mul. apply k_div, nz_cbrt, Hr.
  - rewrite k_sin, k_opp. apply k_mul.
  - rewrite k_sinh. apply k_mul.
  - rewrite k_exp. apply k_mul.
  - rewrite k_exp. apply k_mul.
  - apply k_div. lra.
  - apply k_div. pose proof nz_ln10. nra.
  - rewrite k_cos. apply k_mul.
  - rewrite k_cosh. apply k_mul.
  - rewrite k_sqrt by exact Hr. rewrite k_mul. apply k_div. pose proof (nz_sqrt x Hr). lra.
  - rewrite k_cos, k_mul. apply k_div. nra.
  - rewrite k_cosh, k_mul. apply k_div, nz_cosh.
Qed.

Lemma bin_grad_l_K c b g x y : good_bin c b x y -> bin_grad_l (S := K) b (J g) (J x) (J y) = J (bin_grad_l (S := R_ops) b g x y).
Proof.
  intros [Hr Hk].
  destruct b; cbn in Hk; cbn [bin_grad_l s_ofZ s_add s_sub s_mul s_div s_opp s_hypot s_pow s_leb R_ops];
    rewrite ?f_ofZ, ?f_leb; rewrite ?k_mul, ?k_add, ?k_sub, ?k_opp; try reflexivity;
    try (destruct Hr as [Hr|(Hr & _)]; [cbn in Hr|discriminate]).
  - apply k_div, Hr.
  - apply k_div, nz_sq, Hr.
  - rewrite k_hypot by exact Hr. apply k_div, nz_hypot, Hr.
  - destruct (R_leb y x); reflexivity.
  - destruct (R_leb x y); reflexivity.
  - assert (E : s_pow K (J x) (J (y - 1)) = J (R_pow x (y - 1))).
    { destruct Hr as [Hr|(_ & _ & z & -> & Hz)]; [apply k_pow, Hr|]. replace (IZR z - 1) with (IZR (z - 1)) by (rewrite minus_IZR; reflexivity).
      apply f_powi. destruct Hz; [auto|right; lia]. }
    rewrite E, !k_mul. reflexivity.
Qed.

Lemma bin_grad_r_K c b g x y : good_bin c b x y -> ~ c -> bin_grad_r (S := K) b (J g) (J x) (J y) = J (bin_grad_r (S := R_ops) b g x y).
Proof.
  intros [[Hr|(_ & C & _)] Hk] Nc; [|contradiction].
  destruct b; cbn in Hr, Hk; cbn [bin_grad_r s_ofZ s_add s_sub s_mul s_div s_opp s_hypot s_pow s_leb s_log R_ops];
    rewrite ?f_ofZ, ?f_leb; rewrite ?k_opp, ?k_mul, ?k_add, ?k_sub; try reflexivity.
  - apply k_div. nra.
  - apply k_div, nz_sq, Hr.
  - rewrite k_hypot by exact Hr. apply k_div, nz_hypot, Hr.
  - destruct (R_leb y x); reflexivity.
  - destruct (R_leb x y); reflexivity.
  - rewrite k_pow, k_log by exact Hr. rewrite !k_mul. reflexivity.
Qed.

(** Expressions. *)
Lemma GS_eq s o lv v v' : v = v' -> GS s o lv v -> GS s o lv v'. Proof. intros ->. auto. Qed.
Lemma GS_ofZ s z lv : wf s -> GS s (constant_ptr (s_ofZ K z) s) lv (IZR z). Proof. intros W. rewrite f_ofZ. apply GS_const, W. Qed.
Lemma GS_k1 s lv : wf s -> GS s (constant_ptr (s_2isqrtpi K) s) lv (2 / sqrt PI). Proof. intros W. rewrite f_k1. apply GS_const, W. Qed.
Lemma GS_k2 s lv : wf s -> GS s (constant_ptr (s_ln10 K) s) lv (ln 10). Proof. intros W. rewrite f_k2. apply GS_const, W. Qed.
Lemma g_un u s a lv x : regular_un u x -> ~ kink_un u x -> wf s -> (a < nlen s)%nat -> G s lv a x -> GS s (e_un u (Some a) s) lv (un_value (S := R_ops) u x).
Proof. intros A B W H Hx. apply e_un_S; auto. split; assumption. Qed.
Lemma g_bin b s a c lv x y : regular_bin b x y -> ~ kink_bin b x y -> wf s -> (a < nlen s)%nat -> (c < nlen s)%nat -> G s lv a x -> G s lv c y ->
  GS s (e_bin b (Some a) (Some c) s) lv (bin_value (S := R_ops) b x y).
Proof. intros A B W H1 H2 Hx Hy. apply e_bin_S; auto. split; [left|]; assumption. Qed.

(** Bring what is known about [s] to the later state [s']. *)
Ltac lift X :=
  let L := fresh "L" in pose proof (ext_nlen _ _ X) as L;
  match type of X with ext ?s ?s' =>
    repeat match goal with
    | H : G s ?lv ?p ?v |- _ => apply (G_ext s s' lv p v X) in H
    | H : (?p < nlen s)%nat |- _ => pose proof (Nat.lt_le_trans _ _ _ H L); clear H
    end
  end; clear L.
Ltac un u := refine (g_un u _ _ _ _ _ _ _ _ _); cycle 2; [eassumption|eassumption|eassumption| |]; cbn; try tauto.
Ltac bin b := refine (g_bin b _ _ _ _ _ _ _ _ _ _ _ _ _); cycle 2; [eassumption|eassumption|eassumption|eassumption|eassumption| |]; cbn; try tauto.
Ltac next := let p := fresh "p" in let s' := fresh "s" in let X := fresh "X" in let W := fresh "W" in let Hp := fresh "Hp" in let HG := fresh "HG" in
  intros p s' X W Hp HG; cbn [un_value bin_value s_ofZ s_add s_sub s_mul s_div s_opp s_cbrt s_cos s_cosh s_exp s_sin s_sinh s_sqrt s_ltb s_leb s_eqb s_2isqrtpi s_ln10 s_hypot s_pow s_log R_ops] in HG; lift X.
Ltac bindu u := eapply GS_bind; [un u|next].
Ltac bindb b := eapply GS_bind; [bin b|next].
Ltac bindz := eapply GS_bind; [apply GS_ofZ; assumption|next].

Lemma un_grad_S u s a x lv g xv : wf s -> (a < nlen s)%nat -> (x < nlen s)%nat -> G s lv a g -> G s lv x xv -> good_un u xv ->
  GS s (un_grad_expr u (Some a) (Some x) s) lv (un_grad (S := R_ops) u g xv).
Proof.
  intros W Ha Hx Ga Gx [Hr Hk]. destruct u; cbn in Hr, Hk; cbn [un_grad_expr].
  - un UNeg.
  - bindu USign. eapply GS_eq; [|bin BMul]. cbn. unfold R_ltb, R_eqb. destruct (Rlt_dec xv 0), (Req_EM_T xv 0), (Rlt_dec 0 xv); try lra; ring.
  - bindu UNeg. bindz. bindb BMul. bindb BSub. bindu USqrt; [nra|]. eapply GS_eq; [|bin BDiv]; [reflexivity|]. apply nz_sqrt. nra.
  - bindz. bindb BMul. bindb BSub. bindu USqrt; [nra|]. eapply GS_eq; [|bin BDiv]; [reflexivity|]. apply nz_sqrt. nra.
  - bindz. bindb BMul. bindb BAdd. eapply GS_eq; [|bin BDiv]; [reflexivity|]. nra.
  - bindu UCbrt. bindz. bindb BMul. bindb BMul. eapply GS_eq; [|bin BDiv]; [reflexivity|]. apply nz_cbrt, Hr.
  - bindu USin. bindu UNeg. bin BMul.
  - bindu USinh. bin BMul.
  - eapply GS_bind; [apply GS_k1; assumption|next]. bindb BMul. bindu UNeg. bindb BMul. bindu UExp. bin BMul.
  - bindu UExp. bin BMul.
  - apply GS_ofZ, W.
  - apply GS_ofZ, W.
  - bin BDiv. lra.
  - eapply GS_bind; [apply GS_k2; assumption|next]. bindb BMul. bin BDiv. pose proof nz_ln10. nra.
  - apply GS_ofZ, W.
  - bindu UCos. bin BMul.
  - bindu UCosh. bin BMul.
  - bindz. bindu USqrt. bindb BMul. bin BDiv. pose proof (nz_sqrt xv Hr). lra.
  - bindu UCos. bindb BMul. bin BDiv. nra.
  - bindu UCosh. bindb BMul. bin BDiv. apply nz_cosh.
Qed.

(** The difference of two constants is a constant. *)
Lemma kconst_typ (ns : list node) n : wfn ns -> is_kconst ns n -> typ ns n = CONSTANT.
Proof. intros W (nd & E & Kd). rewrite (typ_some _ _ _ E). destruct (W n _ E) as [_ T]. rewrite Kd in T. cbn in T. congruence. Qed.
Lemma sub_kconst s a c p s' : wf s -> (a < nlen s)%nat -> (c < nlen s)%nat -> is_kconst (st_nodes s) a -> is_kconst (st_nodes s) c ->
  e_sub (Some a) (Some c) s = Ok (Some p, s') -> is_kconst (st_nodes s') p.
Proof.
  intros W Ha Hc Ka Kc E. destruct (e_bin_built BSub s a c W Ha Hc) as (p' & s2 & E' & X & W' & Hp & _). cbn [e_bin] in E'. rewrite E in E'. injection E' as <- <-.
  assert (T : forall n, is_kconst (st_nodes s) n -> (n < nlen s)%nat -> typ (st_nodes s') n = CONSTANT).
  { intros n Kn Hn. rewrite (ext_typ s s' n X Hn). apply kconst_typ; assumption. }
  pose proof (e_bin_shape BSub s a c W Ha Hc p s' E) as [H|[(t & H)|[[[-> | ->] Es]|(t & H)]]].
  - exact H.
  - destruct (W' p _ H) as [_ Ty]. cbn in Ty. rewrite (T a Ka Ha), (T c Kc Hc) in Ty. discriminate.
  - subst s'. exact Ka.
  - subst s'. exact Kc.
  - destruct (W' p _ H) as [_ Ty]. cbn in Ty. rewrite (T c Kc Hc) in Ty. discriminate.
Qed.

Lemma g_pow0 s l r lv : wf s -> (l < nlen s)%nat -> (r < nlen s)%nat -> typ (st_nodes s) l <> CONSTANT -> is_kconst (st_nodes s) r -> G s lv r 0 ->
  GS s (e_pow (Some l) (Some r) s) lv 1.
Proof.
  intros W Hl Hr Tl Kr Gr. destruct (e_bin_built BPow s l r W Hl Hr) as (p & s' & E & X & W' & Hp & _). cbn [e_bin] in E. exists p, s'. repeat (split; [assumption|]).
  intros A. pose proof (ext_agrees _ _ _ X A) as A0. assert (Vr : st_val s r = J 0).
  { rewrite <- (A0 r Kr). pose proof (GSm_ev _ _ _ _ W (Gr A0)) as Q. destruct Kr as (nd & En & Kd). rewrite (eval_leaf _ _ _ nd W En (or_introl Kd)) in Q. exact Q. }
  destruct (e_pow0_S s l r lv W Hl Hr Tl Kr Vr) as (p2 & s2 & E2 & _ & _ & _ & G2). rewrite E in E2. injection E2 as <- <-. apply G2, A.
Qed.

Lemma bin_grad_l_S b s a x y lv g xv yv : wf s -> (a < nlen s)%nat -> (x < nlen s)%nat -> (y < nlen s)%nat -> typ (st_nodes s) x <> CONSTANT ->
  G s lv a g -> G s lv x xv -> G s lv y yv -> good_bin (is_kconst (st_nodes s) y) b xv yv ->
  GS s (bin_grad_expr_l b (Some a) (Some x) (Some y) s) lv (bin_grad_l (S := R_ops) b g xv yv).
Proof.
  intros W Ha Hx Hy Tx Ga Gx Gy [Hr Hk]. destruct b; cbn in Hk; cbn [bin_grad_expr_l]; try (destruct Hr as [Hr|(Hr & _)]; [cbn in Hr|discriminate]).
  - apply GS_ret; assumption.
  - apply GS_ret; assumption.
  - bin BMul.
  - bin BDiv.
  - bindb BMul. bindb BMul. bindb BMul. bindb BAdd. bin BDiv. apply nz_sq, Hr.
  - bindb BMul. bindb BHypot. bin BDiv. apply nz_hypot, Hr.
  - bindb BSub. bindu UIsNonneg; [lra|]. eapply GS_eq; [|bin BMul]. cbn. unfold R_leb. destruct (Rle_dec 0 (xv - yv)), (Rle_dec yv xv); lra.
  - bindb BSub. bindu UIsNonneg; [lra|]. eapply GS_eq; [|bin BMul]. cbn. unfold R_leb. destruct (Rle_dec 0 (yv - xv)), (Rle_dec xv yv); lra.
  - assert (P : (forall s1, ext s s1 -> wf s1 -> forall p1, (p1 < nlen s1)%nat -> G s1 lv p1 (yv - 1) -> (is_kconst (st_nodes s) y -> is_kconst (st_nodes s1) p1) ->
      GS s1 (e_pow (Some x) (Some p1) s1) lv (R_pow xv (yv - 1)))).
    { intros s1 X W1 p1 Hp1 G1 C1. assert (Hx1 : (x < nlen s1)%nat) by (pose proof (ext_nlen _ _ X); lia). pose proof (G_ext _ _ _ _ _ X Gx) as Gx1.
      destruct Hr as [Hr|(_ & C & z & -> & Hz)].
      - apply (g_bin BPow); auto.
      - assert (Ez : IZR z - 1 = IZR (z - 1)) by (rewrite minus_IZR; reflexivity). rewrite Ez in *.
        assert (D : (xv <> 0 \/ (1 <= z - 1)%Z) \/ (xv = 0 /\ z = 1%Z)). { destruct (Req_dec xv 0) as [->|N]; [|auto]. destruct Hz as [Hz|Hz]; [congruence|]. destruct (Z.eq_dec z 1); [auto|left; right; lia]. }
        destruct D as [D|[-> ->]].
        + apply (e_bin_S BPow); auto. split; [|intros []]. right. split; [reflexivity|]. split; [apply C1, C|]. exists (z - 1)%Z. auto.
        + cbn [Z.sub Z.add Z.opp Z.pos_sub] in *. rewrite R_pow_int. cbn [powerRZ]. apply g_pow0; auto. rewrite (ext_typ s s1 x X Hx). exact Tx. }
    unfold ebind at 1. destruct (GS_ofZ s 1 lv W) as (u1 & s1 & E1 & X1 & W1 & Hu1 & G1). rewrite E1. cbn [obind].
    assert (Ku : is_kconst (st_nodes s1) u1). { exact (sh_const s _ (fun p s' => is_kconst (st_nodes s') p) (fun _ _ H => H) u1 s1 E1). }
    pose proof (ext_nlen _ _ X1) as L1. pose proof (G_ext _ _ _ _ _ X1 Gy) as Gy1.
    assert (R1 : GS s1 (e_sub (Some y) (Some u1) s1) lv (yv - 1)).
    { apply (g_bin BSub); auto; try lia; try exact I; intros []. }
    destruct R1 as (p1 & s2 & E2 & X2 & W2 & Hp1 & G2).
    assert (C2 : is_kconst (st_nodes s) y -> is_kconst (st_nodes s2) p1).
    { intros C. eapply (sub_kconst s1 y u1); eauto; [lia|]. destruct X1 as ((more & En) & _). rewrite En. apply kconst_grow, C. }
    pose proof (ext_trans _ _ _ X1 X2) as X02.
    destruct (P s2 X02 W2 p1 Hp1 G2 C2) as (pw & s3 & E3 & X3 & W3 & Hpw & G3). pose proof (ext_trans _ _ _ X02 X3) as X03. clear P C2.
    assert (R3 : GS s3 ((do m <- e_mul (Some a) (Some pw); e_mul m (Some y)) s3) lv (g * R_pow xv (yv - 1) * yv)).
    { lift X03. bindb BMul. bin BMul. }
    destruct R3 as (p4 & s4 & E4 & X4 & W4 & Hp4 & G4). exists p4, s4. unfold ebind at 1. rewrite E2. cbn [obind]. unfold ebind at 1. rewrite E3. cbn [obind].
    split; [exact E4|]. split; [eapply ext_trans; eauto|auto].
Qed.

Lemma bin_grad_r_S b s a x y lv g xv yv : wf s -> (a < nlen s)%nat -> (x < nlen s)%nat -> (y < nlen s)%nat -> ~ is_kconst (st_nodes s) y ->
  G s lv a g -> G s lv x xv -> G s lv y yv -> good_bin (is_kconst (st_nodes s) y) b xv yv ->
  GS s (bin_grad_expr_r b (Some a) (Some x) (Some y) s) lv (bin_grad_r (S := R_ops) b g xv yv).
Proof.
  intros W Ha Hx Hy Ty Ga Gx Gy [[Hr|(_ & C & _)] Hk]; [|contradiction]. destruct b; cbn in Hr, Hk; cbn [bin_grad_expr_r].
  - apply GS_ret; assumption.
  - un UNeg.
  - bin BMul.
  - bindu UNeg. bindb BMul. bindb BMul. bin BDiv. nra.
  - bindu UNeg. bindb BMul. bindb BMul. bindb BMul. bindb BAdd. bin BDiv. apply nz_sq, Hr.
  - bindb BMul. bindb BHypot. bin BDiv. apply nz_hypot, Hr.
  - bindb BSub. bindu UIsPos; [lra|]. eapply GS_eq; [|bin BMul]. cbn. unfold R_leb, R_ltb. destruct (Rlt_dec 0 (yv - xv)), (Rle_dec yv xv); lra.
  - bindb BSub. bindu UIsPos; [lra|]. eapply GS_eq; [|bin BMul]. cbn. unfold R_leb, R_ltb. destruct (Rlt_dec 0 (xv - yv)), (Rle_dec xv yv); lra.
  - bindb BPow. bindb BMul. bindu ULog. bin BMul.
Qed.

End Grad.
