(** Nodes used at smooth points, over any scalar type that computes the user's mathematics: their values, what the
    constructors return at such points, and what happens when one leaf is moved a little. *)
From Coq Require Import ZArith Reals List Bool Arith Lia Lra.
From Coquelicot Require Import Coquelicot.
From Verif Require Import Base ExprModel GraphSpec GraphProofs ExprInv VarModel VarReach VarProofs ExprReal MathSpec MathProofs DiffSpec OpDeriv OpMath
  ExprXR XRProofs Faith FaithX.
Import ListNotations.
Open Scope R_scope.

(** What the derivative formulas need beyond [faith]. *)
Class faith2 (K : sops) {F : faith K} := mkFaith2 {
  pr : car K -> R;
  f_pr : forall x, pr (inj x) = x;
  f_un2 : forall u x, regular_un u x -> un_value (S := K) u (inj x) = inj (un_value (S := R_ops) u x);
  f_bin2 : forall b x y, regular_bin b x y -> bin_value (S := K) b (inj x) (inj y) = inj (bin_value (S := R_ops) b x y);
  f_powi : forall x z, x <> 0 \/ (0 <= z)%Z -> s_pow K (inj x) (inj (IZR z)) = inj (R_pow x (IZR z));
  f_ltb : forall x y, s_ltb K (inj x) (inj y) = R_ltb x y;
  f_leb : forall x y, s_leb K (inj x) (inj y) = R_leb x y;
  f_eqb : forall x y, s_eqb K (inj x) (inj y) = R_eqb x y;
  f_k1 : s_2isqrtpi K = inj (2 / sqrt PI);
  f_k2 : s_ln10 K = inj (ln 10) }.

Lemma reg_math_un u x : regular_un u x -> math_un u x (un_value (S := R_ops) u x).
Proof. intros H. apply un_math. destruct u; cbn in *; auto; lra. Qed.
Lemma reg_math_bin b x y : regular_bin b x y -> math_bin b x y (bin_value (S := R_ops) b x y).
Proof. intros H. apply bin_math. destruct b; cbn in *; auto. Qed.
Lemma int_math x y : int_power x y -> math_bin BPow x y (bin_value (S := R_ops) BPow x y).
Proof. intros (z & -> & Hz). cbn. rewrite R_pow_int. apply M_pow_int. destruct Hz; [auto|right; lia]. Qed.

Lemma R_un2 u x : regular_un u x -> un_value (S := R_ops) u x = un_value (S := R_ops) u x. Proof. reflexivity. Qed.
Global Instance faith2_R : faith2 R_ops.
Proof. apply (mkFaith2 R_ops faith_R (fun x => x)); reflexivity. Defined.

Definition X_pr (x : XR) : R := match x with Fin r => r | _ => 0 end.
Global Instance faith2_X : faith2 X_ops.
Proof.
  apply (mkFaith2 X_ops faith_X X_pr); try reflexivity.
  - intros u x H. exact (X_un_fin u x _ (reg_math_un u x H)).
  - intros b x y H. apply (X_bin_fin b x y _ (reg_math_bin b x y H)). intros ->. cbn in H. lra.
  - intros x z H. destruct (Z.eq_dec z 0) as [->|N].
    + change (X_pow (Fin x) (Fin 0) = Fin (R_pow x (IZR 0))). rewrite R_pow_int. unfold X_pow. cbn [X_eqb].
      rewrite (proj2 (R_eqb_eq 0 0) eq_refl). reflexivity.
    + apply (X_pow_fin x (IZR z)); [|right; right; eauto]. intros E. exfalso. apply N. apply eq_IZR. exact E.
  - intros x y. apply X_leb_fin.
Defined.

Section Smooth.
Context {K : sops} {FK : faith K} {FK2 : faith2 K}.
Implicit Types s : st K.

Lemma inj_inj x y : inj (K := K) x = inj y -> x = y.
Proof. intros E. rewrite <- (f_pr x), <- (f_pr y), E. reflexivity. Qed.

(** Operands at which the operator is smooth. *)
Definition good_un (u : uop) (x : R) : Prop := regular_un u x /\ ~ kink_un u x.
Definition good_bin (const : Prop) (b : bop) (x y : R) : Prop :=
  (regular_bin b x y \/ (b = BPow /\ const /\ int_power x y)) /\ ~ kink_bin b x y.

Lemma good_math c b x y : good_bin c b x y -> math_bin b x y (bin_value (S := R_ops) b x y).
Proof. intros [[H|(-> & _ & H)] _]; [apply reg_math_bin, H|apply int_math, H]. Qed.
Lemma good_00 c b x y : good_bin c b x y -> b = BPow -> ~ (x = 0 /\ y = 0).
Proof.
  intros [[H|(_ & _ & z & -> & Hz)] _] E0 [-> E]; [subst b; cbn in H; lra|]. destruct Hz as [Hz|Hz]; [congruence|]. apply eq_IZR in E. lia.
Qed.
Lemma good_value c b x y : good_bin c b x y -> bin_value (S := K) b (inj x) (inj y) = inj (bin_value (S := R_ops) b x y).
Proof. intros H. apply (f_bin b x y); [eapply good_math; eauto|eapply good_00; eauto|left; reflexivity]. Qed.
Lemma good_bin_mono (c c' : Prop) b x y : (c -> c') -> good_bin c b x y -> good_bin c' b x y.
Proof. intros H [[A|(A & B & C)] D]; split; auto. Qed.

(** Node [n] has value [v] and everything it is made of is used at smooth points. *)
Inductive GSm (ns : list node) (lv : nat -> K) : nat -> R -> Prop :=
| GS_leaf n nd v : nth_error ns n = Some nd -> n_kind nd = KConst \/ n_kind nd = KVar -> lv n = inj v -> GSm ns lv n v
| GS_un n u a t x : nth_error ns n = Some (mkN (KUn u a) t) -> GSm ns lv a x -> good_un u x -> GSm ns lv n (un_value (S := R_ops) u x)
| GS_bin n b l r t x y : nth_error ns n = Some (mkN (KBin b l r) t) -> GSm ns lv l x -> GSm ns lv r y -> good_bin (is_kconst ns r) b x y ->
    GSm ns lv n (bin_value (S := R_ops) b x y).

Lemma GSm_ev ns lv n v : wfn ns -> GSm ns lv n v -> eval ns lv n = inj v.
Proof.
  intros W. induction 1 as [n nd v E Kd L|n u a t x E _ IH [G _]|n b l r t x y E _ IHl _ IHr G].
  - rewrite (eval_leaf ns lv n nd W E Kd). exact L.
  - rewrite (eval_eq ns lv n W), E. cbn [n_kind]. rewrite IH. apply f_un2, G.
  - rewrite (eval_eq ns lv n W), E. cbn [n_kind]. rewrite IHl, IHr. eapply good_value, G.
Qed.
Lemma GSm_fun ns lv n v v' : wfn ns -> GSm ns lv n v -> GSm ns lv n v' -> v = v'.
Proof. intros W A B. apply inj_inj. rewrite <- (GSm_ev _ _ _ _ W A). apply GSm_ev; assumption. Qed.

Lemma GSm_reach ns lv r v n : GSm ns lv r v -> reach ns r n -> exists w, GSm ns lv n w.
Proof.
  intros G. induction 1 as [|n a _ [w Gw] Ha]; [eauto|]. unfold args in Ha. destruct Gw as [n nd v0 E Kd L|n u a0 t x E Ga Hu|n b l0 r0 t x y E Gl Gr Hb]; rewrite E in Ha.
  - unfold n_args in Ha. destruct Kd as [Kd|Kd]; rewrite Kd in Ha; destruct Ha.
  - destruct Ha as [<-|[]]. eauto.
  - destruct Ha as [<-|[<-|[]]]; eauto.
Qed.

Lemma kconst_grow ns more n : is_kconst ns n -> is_kconst (ns ++ more) n.
Proof. intros (nd & E & Kd). exists nd. split; [|exact Kd]. rewrite nth_error_app1; [exact E|]. apply nth_error_Some. congruence. Qed.
Lemma GSm_app ns more lv n v : GSm ns lv n v -> GSm (ns ++ more) lv n v.
Proof.
  assert (A : forall m nd, nth_error ns m = Some nd -> nth_error (ns ++ more) m = Some nd).
  { intros m nd E. rewrite nth_error_app1; [exact E|]. apply nth_error_Some. congruence. }
  induction 1 as [n nd v E Kd L|n u a t x E _ IH G|n b l r t x y E _ IHl _ IHr G].
  - econstructor; eauto.
  - econstructor 2; eauto.
  - econstructor 3; eauto. eapply good_bin_mono; [|exact G]. apply kconst_grow.
Qed.
Lemma GSm_leaves ns lv lv' n v : (forall m, reach ns n m -> (is_kconst ns m \/ is_kvar ns m) -> lv' m = lv m) -> GSm ns lv n v -> GSm ns lv' n v.
Proof.
  intros H G. induction G as [n nd v E Kd L|n u a t x E _ IH G|n b l r t x y E _ IHl _ IHr G].
  - econstructor 1; [exact E|exact Kd|]. rewrite H; [exact L|constructor|]. destruct Kd; [left|right]; exists nd; auto.
  - econstructor 2; [exact E| |exact G]. apply IH. intros m R. apply H. clear - R E. induction R as [|m b R IH Hb].
    + econstructor; [constructor|]. unfold args. rewrite E. left. reflexivity.
    + econstructor; eauto.
  - assert (T : forall c m, In c [l; r] -> reach ns c m -> reach ns n m).
    { intros c m Hc R. induction R as [|m d R IHR Hb]; [|econstructor; eauto]. econstructor; [constructor|]. unfold args. rewrite E. exact Hc. }
    econstructor 3; [exact E| | |exact G]; [apply IHl|apply IHr]; intros m R; apply H; eapply T; eauto; cbn; auto.
Qed.

(** [p] is smooth with value [v] at [lv], as soon as [lv] knows the constants of [s]. *)
Definition G s (lv : nat -> K) (p : nat) (v : R) : Prop := agrees s lv -> GSm (st_nodes s) lv p v.
Definition GS s (o : outcome (@ptr * st K)) (lv : nat -> K) (v : R) : Prop :=
  exists p s', o = Ok (Some p, s') /\ ext s s' /\ wf s' /\ (p < nlen s')%nat /\ G s' lv p v.

Lemma G_ext s s' lv p v : ext s s' -> G s lv p v -> G s' lv p v.
Proof. intros X H A. specialize (H (ext_agrees _ _ _ X A)). destruct X as ((more & E) & _). rewrite E. apply GSm_app, H. Qed.

Lemma GS_bind s (m : E K (@ptr)) k lv v v' : GS s (m s) lv v ->
  (forall p s', ext s s' -> wf s' -> (p < nlen s')%nat -> G s' lv p v -> GS s' (k (Some p) s') lv v') -> GS s (ebind m k s) lv v'.
Proof.
  intros (p & s' & E & X & W' & Hp & HQ) Hk. unfold ebind. rewrite E. cbn [obind].
  destruct (Hk p s' X W' Hp HQ) as (p2 & s2 & E2 & X2 & W2 & Hp2 & HQ2).
  exists p2, s2. split; [exact E2|]. split; [eapply ext_trans; eauto|]. auto.
Qed.
Lemma GS_ret s p lv v : wf s -> (p < nlen s)%nat -> G s lv p v -> GS s (eret (Some p) s) lv v.
Proof. intros W Hp H. exists p, s. auto using ext_refl. Qed.
Lemma GS_const s c lv : wf s -> GS s (constant_ptr (inj c) s) lv c.
Proof.
  intros W. destruct (built_const s (inj c) (fun _ v => v = inj c) W (fun _ _ => eq_refl)) as (p & s' & E & X & W' & Hp & Q).
  exists p, s'. repeat (split; [assumption|]). intros A. specialize (Q lv A). unfold constant_ptr, alloc in E. injection E as E1 E2.
  assert (En : nth_error (st_nodes s') p = Some (mkN KConst CONSTANT)).
  { rewrite <- E2, <- E1. cbn [st_nodes]. rewrite nth_error_app2 by lia. rewrite Nat.sub_diag. reflexivity. }
  econstructor 1; [exact En|left; reflexivity|]. unfold ev in Q. rewrite (eval_leaf _ _ _ _ W' En) in Q by (left; reflexivity). exact Q.
Qed.

(** What the constructors may return. *)
Definition shaped (o : outcome (@ptr * st K)) (P : nat -> st K -> Prop) : Prop := forall p s', o = Ok (Some p, s') -> P p s'.

Lemma typ_kconst s p : wf s -> typ (st_nodes s) p = CONSTANT -> is_kconst (st_nodes s) p.
Proof. intros W T. exact (typ_const _ _ W T). Qed.
Lemma isc_kconst s p c : wf s -> isc s p c = true -> is_kconst (st_nodes s) p.
Proof. intros W H. unfold isc in H. apply andb_true_iff in H as [H _]. apply etype_eqb_eq in H. apply typ_kconst; assumption. Qed.
Lemma sh_ret s p (P : nat -> st K -> Prop) : P p s -> shaped (eret (Some p) s) P.
Proof. intros H p' s' E. injection E as <- <-. exact H. Qed.
Lemma sh_const s c (P : nat -> st K -> Prop) : (forall p s', is_kconst (st_nodes s') p -> P p s') -> shaped (constant_ptr c s) P.
Proof.
  intros H p s' E. apply H. unfold constant_ptr, alloc in E. injection E as <- <-. cbn [st_nodes].
  exists (mkN KConst CONSTANT). split; [|reflexivity]. rewrite nth_error_app2 by lia. rewrite Nat.sub_diag. reflexivity.
Qed.
Lemma sh_node s k t v (P : nat -> st K -> Prop) : (forall p s', nth_error (st_nodes s') p = Some (mkN k t) -> P p s') -> shaped (alloc k t v s) P.
Proof.
  intros H p s' E. apply H. unfold alloc in E. injection E as <- <-. cbn [st_nodes].
  rewrite nth_error_app2 by lia. rewrite Nat.sub_diag. reflexivity.
Qed.

Definition un_shape (u : uop) (a p : nat) s' : Prop := is_kconst (st_nodes s') p \/ exists t, nth_error (st_nodes s') p = Some (mkN (KUn u a) t).

Local Notation zero := (s_ofZ K 0%Z).
Definition bin_shape (b : bop) (l r : nat) s p s' : Prop :=
  is_kconst (st_nodes s') p \/ (exists t, nth_error (st_nodes s') p = Some (mkN (KBin b l r) t)) \/ ((p = l \/ p = r) /\ s' = s) \/
  match b with
  | BSub => exists t, nth_error (st_nodes s') p = Some (mkN (KUn UNeg r) t)
  | BHypot => (isc s l zero = true /\ un_shape UAbs r p s') \/ (isc s r zero = true /\ un_shape UAbs l p s')
  | BPow => exists t, nth_error (st_nodes s') p = Some (mkN (KBin BMul l l) t)
  | _ => False
  end.

Ltac start := unfold ebind; rewrite ?is_constant_eq, ?is_const_eq, ?ptype_eq, ?pval_eq by assumption; cbn [obind].
Ltac step := repeat (rewrite ?is_constant_eq, ?is_const_eq, ?ptype_eq, ?pval_eq by assumption; cbn [obind eret andb]; cbv beta).
Ltac case_isc :=
  match goal with
  | |- context [isc ?s ?p ?c] => let H := fresh "Hc" in destruct (isc s p c) eqn:H; step
  end.
Ltac case_ty :=
  match goal with
  | |- context [etype_eqb ?a ?b] =>
      let H := fresh "Ht" in destruct (etype_eqb a b) eqn:H; [apply etype_eqb_eq in H|]; cbn [andb]; step
  end.
Ltac fin W := first
  [ apply sh_ret; first [ left; first [eapply isc_kconst; [exact W|eassumption] | eapply typ_kconst; [exact W|eassumption]] | right; right; left; solve [auto] ]
  | apply sh_const; intros; left; assumption
  | unfold mk_un; apply sh_node; intros; right; eexists; eassumption
  | unfold mk_bin; apply sh_node; intros; right; left; eexists; eassumption
  | unfold mk_bin; apply sh_node; intros; right; right; right; eexists; eassumption ].

Lemma e_un_shape u s a : wf s -> (a < nlen s)%nat -> shaped (e_un u (Some a) s) (un_shape u a).
Proof.
  intros W Ha. destruct u; cbn [e_un]; unfold e_neg, e_abs, e_asin, e_atan, e_erf, e_log, e_log10, e_sin, e_sinh, e_tan, e_tanh, e_acos, e_cos, e_cosh, e_exp,
    e_cbrt, e_is_nonneg, e_is_pos, e_sign, e_sqrt, un_zero_fixed, un_zero_to; start;
  try (case_isc; [fin W|]); case_ty; try (fin W);
  repeat match goal with |- shaped ((if ?b then _ else _) _) _ => destruct b end; try (fin W).
Qed.

Lemma bin_fold_shape b s l r : wf s -> (l < nlen s)%nat -> (r < nlen s)%nat -> shaped (bin_fold b (Some l) (Some r) s) (bin_shape b l r s).
Proof. intros W Hl Hr. unfold bin_fold. start. case_ty; [case_ty|]; fin W. Qed.

Lemma e_bin_shape b s l r : wf s -> (l < nlen s)%nat -> (r < nlen s)%nat -> shaped (e_bin b (Some l) (Some r) s) (bin_shape b l r s).
Proof.
  intros W Hl Hr. destruct b; cbn [e_bin].
  - unfold e_add. start. case_isc; [fin W|]. case_isc; [fin W|]. destruct (etype_eqb _ _ && _); step; [fin W|]. cbv zeta.
    repeat case_ty; fin W.
  - unfold e_sub. start. case_isc.
    { case_isc; [fin W|]. intros p s' E. destruct (e_un_shape UNeg s r W Hr p s' E) as [H|(t & H)]; [left; exact H|]. right. right. right. eauto. }
    case_isc; [fin W|]. destruct (etype_eqb _ _ && _); step; [fin W|]. cbv zeta. repeat case_ty; fin W.
  - unfold e_mul. start. do 4 (case_isc; [fin W|]). repeat (case_ty; try (fin W)).
  - unfold e_div. start. do 2 (case_isc; [fin W|]). repeat (case_ty; try (fin W)).
  - apply bin_fold_shape; assumption.
  - unfold e_hypot. start.
    case_isc. { intros p s' E. right. right. right. left. split; [exact Hc|]. exact (e_un_shape UAbs s r W Hr p s' E). }
    case_isc. { intros p s' E. right. right. right. right. split; [exact Hc0|]. exact (e_un_shape UAbs s l W Hl p s' E). }
    apply bin_fold_shape; assumption.
  - apply bin_fold_shape; assumption.
  - apply bin_fold_shape; assumption.
  - unfold e_pow. start. do 4 (case_isc; [fin W|]). case_ty.
    + case_ty; [fin W|]. case_isc; [case_ty|]; fin W.
    + case_isc; [case_ty|]; fin W.
Qed.

(** A leaf with the right value is smooth. *)
Lemma const_G s lv p v : wf s -> is_kconst (st_nodes s) p -> ev s lv p = inj v -> GSm (st_nodes s) lv p v.
Proof.
  intros W (nd & E & Kd) Hv. econstructor 1; [exact E|left; exact Kd|]. unfold ev in Hv. rewrite (eval_leaf _ _ _ nd W E (or_introl Kd)) in Hv. exact Hv.
Qed.

Lemma e_un_S u s a lv x : wf s -> (a < nlen s)%nat -> G s lv a x -> good_un u x -> GS s (e_un u (Some a) s) lv (un_value (S := R_ops) u x).
Proof.
  intros W Ha Hx Hu. destruct (e_un_built u s a W Ha) as (p & s' & E & X & W' & Hp & Q). exists p, s'. repeat (split; [assumption|]).
  intros A. pose proof (ext_agrees _ _ _ X A) as A0. specialize (Hx A0). specialize (Q lv A). cbv beta in Q. pose proof (GSm_ev _ _ _ _ W Hx) as Ex. unfold ev in Q at 1. rewrite Ex in Q.
  apply (f_un u x _ _ (reg_math_un u x (proj1 Hu))) in Q. destruct (e_un_shape u s a W Ha p s' E) as [H|(t & H)]; [apply const_G; assumption|].
  econstructor 2; [exact H| |exact Hu]. destruct X as ((more & ->) & _). apply GSm_app, Hx.
Qed.

Lemma GSm_value ns lv n v v' : wfn ns -> GSm ns lv n v -> eval ns lv n = inj v' -> GSm ns lv n v'.
Proof. intros W H E. rewrite (GSm_ev _ _ _ _ W H) in E. apply inj_inj in E. subst. exact H. Qed.

Lemma e_bin_S b s l r lv x y : wf s -> (l < nlen s)%nat -> (r < nlen s)%nat -> G s lv l x -> G s lv r y -> good_bin (is_kconst (st_nodes s) r) b x y ->
  GS s (e_bin b (Some l) (Some r) s) lv (bin_value (S := R_ops) b x y).
Proof.
  intros W Hl Hr Hx Hy Hb. destruct (e_bin_built b s l r W Hl Hr) as (p & s' & E & X & W' & Hp & Q). exists p, s'. repeat (split; [assumption|]).
  intros A. pose proof (ext_agrees _ _ _ X A) as A0. specialize (Hx A0). specialize (Hy A0). specialize (Q lv A). cbv beta in Q.
  pose proof (GSm_ev _ _ _ _ W Hx) as Ex. pose proof (GSm_ev _ _ _ _ W Hy) as Ey. unfold ev in Q at 1. unfold ev in Q at 1. rewrite Ex, Ey in Q.
  apply (f_bin b x y _ _ (good_math _ _ _ _ Hb) (good_00 _ _ _ _ Hb)) in Q. fold (ev s' lv p) in Q. pose proof X as ((more & En) & _).
  pose proof (e_bin_shape b s l r W Hl Hr p s' E) as [H|[(t & H)|[[[-> | ->] Es]|H]]].
  - apply const_G; assumption.
  - econstructor 3; [exact H| | |]; rewrite ?En; try (apply GSm_app; eassumption). eapply good_bin_mono; [|exact Hb]. apply kconst_grow.
  - subst s'. eapply GSm_value; eauto.
  - subst s'. eapply GSm_value; eauto.
  - destruct b; try contradiction.
    + destruct H as (t & H). apply (GSm_value _ _ _ (un_value (S := R_ops) UNeg y) _ W'); [|exact Q].
      econstructor 2; [exact H|rewrite En; apply GSm_app, Hy|]. split; [exact I|intros []].
    + assert (Z : forall a z, isc s a zero = true -> GSm (st_nodes s) lv a z -> z = 0).
      { intros a z Hi Hz. pose proof (isc_ev s a zero lv W Hi A0) as Hq. unfold ev in Hq. rewrite (GSm_ev _ _ _ _ W Hz), f_ofZ in Hq. apply f_eqb0 in Hq. exact Hq. }
      destruct Hb as [[Hb|(Hb & _)] _]; [|discriminate]. cbn in Hb.
      destruct H as [[Hi [H|(t & H)]]|[Hi [H|(t & H)]]]; try (apply const_G; assumption).
      * pose proof (Z _ _ Hi Hx) as Zx. apply (GSm_value _ _ _ (un_value (S := R_ops) UAbs y) _ W'); [|exact Q].
        econstructor 2; [exact H|rewrite En; apply GSm_app, Hy|]. split; [exact I|]. cbn. lra.
      * pose proof (Z _ _ Hi Hy) as Zy. apply (GSm_value _ _ _ (un_value (S := R_ops) UAbs x) _ W'); [|exact Q].
        econstructor 2; [exact H|rewrite En; apply GSm_app, Hx|]. split; [exact I|]. cbn. lra.
    + destruct H as (t & H). apply (GSm_value _ _ _ (bin_value (S := R_ops) BMul x x) _ W'); [|exact Q].
      econstructor 3; [exact H|rewrite En; apply GSm_app, Hx|rewrite En; apply GSm_app, Hx|]. split; [left; exact I|intros []].
Qed.

(** The zeroth power of an expression that is not a constant. *)
Lemma e_pow0_S s l r lv : wf s -> (l < nlen s)%nat -> (r < nlen s)%nat -> typ (st_nodes s) l <> CONSTANT -> is_kconst (st_nodes s) r -> st_val s r = inj 0 ->
  GS s (e_pow (Some l) (Some r) s) lv 1.
Proof.
  intros W Hl Hr Tl Kr Vr. unfold e_pow. start.
  assert (Nl : forall c, isc s l c = false). { intros c. unfold isc. destruct (etype_eqb (typ (st_nodes s) l) CONSTANT) eqn:T; [apply etype_eqb_eq in T; contradiction|reflexivity]. }
  rewrite (Nl zero). step. rewrite (Nl (s_ofZ K 1)). step.
  assert (I0 : isc s r zero = true).
  { unfold isc. destruct Kr as (nd & E & Kd). pose proof (W r nd E) as [_ T]. rewrite Kd in T. cbn in T. rewrite (typ_some _ _ _ E). injection T as <-. cbn [etype_eqb andb].
    rewrite Vr, f_ofZ. apply f_eqb0. reflexivity. }
  rewrite I0. rewrite f_ofZ. apply GS_const, W.
Qed.

End Smooth.
