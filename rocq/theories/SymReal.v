(** Over R the symbolic gradient has the value of the numeric one (C25). *)
From Coq Require Import ZArith Reals List Bool Arith Lia Lra.
From Coquelicot Require Import Coquelicot.
From Verif Require Import Base ExprModel GraphSpec GraphProofs ExprInv ExprReal MathSpec MathProofs VarModel VarReach VarProofs
  DiffSpec OpDeriv AdjProofs JacModel JacProofs SymProofs GradProofs.
Import ListNotations.
Local Open Scope nat_scope.

Lemma simp_un_R u (x v : R) : simp_un (S := R_ops) u x v -> v = un_value (S := R_ops) u x.
Proof.
  intros [H|H]; [exact H|]. cbn [s_eqb s_ltb s_ofZ s_div s_pi R_ops] in H. toR.
  destruct u; cbn in H |- *; toR; repeat match goal with H : _ /\ _ |- _ => destruct H end;
    try contradiction; try (match goal with H : R_eqb x 0 = true |- _ => apply R_eqb_eq in H; subst x end); subst v; toR.
  - lra.
  - symmetry. apply Rabs_R0.
  - symmetry. apply acos_0.
  - symmetry. apply asin_0.
  - symmetry. apply atan_0.
  - symmetry. apply cbrt_unique. repeat match goal with H : _ \/ _ |- _ => destruct H as [H|H] | H : R_eqb _ _ = true |- _ => apply R_eqb_eq in H; subst x end; lra.
  - symmetry. apply cos_0.
  - symmetry. apply cosh_0.
  - unfold R_erf. rewrite RInt_point. symmetry. apply Rmult_0_r.
  - symmetry. apply exp_0.
  - symmetry. unfold ln. destruct (Rlt_dec 0 0) as [L|L]; [destruct (Rlt_irrefl 0 L)|reflexivity].
  - unfold R_log10. replace (ln 0) with 0%R by (unfold ln; destruct (Rlt_dec 0 0) as [L|L]; [destruct (Rlt_irrefl 0 L)|reflexivity]). unfold Rdiv. ring.
  - lcase.
  - symmetry. apply sin_0.
  - symmetry. apply sinh_0.
  - destruct H as [H|H]; apply R_eqb_eq in H; subst x; symmetry; [apply sqrt_0|apply sqrt_1].
  - symmetry. apply tan_0.
  - unfold tanh. rewrite sinh_0. unfold Rdiv. ring.
Qed.

Lemma R_pow_0 (x : R) : R_pow x 0 = 1%R. Proof. change 0%R with (IZR 0). rewrite R_pow_int. reflexivity. Qed.
Lemma R_pow_1 (x : R) : R_pow x 1 = x. Proof. change (R_pow x (IZR 1) = x). rewrite R_pow_int. apply powerRZ_1. Qed.
Lemma R_pow_2 (x : R) : R_pow x 2 = (x * x)%R. Proof. change (R_pow x (IZR 2) = (x * x)%R). rewrite R_pow_int. change (x * (x * 1) = x * x)%R. ring. Qed.

Lemma simp_bin_R b (x y v : R) : simp_bin (S := R_ops) b x y v -> (b = BPow -> x <> 0%R) -> v = bin_value (S := R_ops) b x y.
Proof.
  intros [H|H] Hp; [exact H|]. cbn [s_eqb s_ofZ s_mul R_ops] in H. toR.
  destruct b; cbn [bin_value s_add s_sub s_mul s_div s_atan2 s_hypot s_pow R_ops] in H |- *; toR; try contradiction;
  repeat match goal with
  | H : _ \/ _ |- _ => destruct H as [H|H]
  | H : _ /\ _ |- _ => destruct H
  | H : R_eqb _ _ = true |- _ => apply R_eqb_eq in H
  | H : simp_un _ _ _ |- _ => apply simp_un_R in H; cbn in H; toR
  end; subst; toR; try lra.
  - unfold R_hypot. rewrite <- sqrt_Rsqr_abs. unfold Rsqr. f_equal. ring.
  - unfold R_hypot. rewrite <- sqrt_Rsqr_abs. unfold Rsqr. f_equal. ring.
  - exfalso. apply Hp; reflexivity.
  - rewrite R_pow_pos by lra. unfold Rpower. rewrite ln_1, Rmult_0_r, exp_0. reflexivity.
  - symmetry. apply R_pow_0.
  - symmetry. apply R_pow_1.
  - symmetry. apply R_pow_2.
Qed.

(** Constructors over R. *)
Lemma bR_un u (s : st R_ops) a : wf s -> a < nlen s ->
  built s (e_un u (Some a) s) (fun lv v => v = un_value (S := R_ops) u (ev s lv a)).
Proof. intros W H. eapply built_mono; [|apply e_un_built; assumption]. intros lv v _. apply simp_un_R. Qed.
Lemma bR_bin b (s : st R_ops) x y : wf s -> x < nlen s -> y < nlen s -> b <> BPow ->
  built s (e_bin b (Some x) (Some y) s) (fun lv v => v = bin_value (S := R_ops) b (ev s lv x) (ev s lv y)).
Proof.
  intros W Hx Hy Hb. eapply built_mono; [|apply e_bin_built; assumption]. intros lv v _ H. apply simp_bin_R; [exact H|].
  intros ->. contradiction.
Qed.
Lemma bR_pow_pos (s : st R_ops) x y : wf s -> x < nlen s -> y < nlen s ->
  built s (e_pow (Some x) (Some y) s) (fun lv v => ev s lv x <> 0%R -> v = R_pow (ev s lv x) (ev s lv y)).
Proof.
  intros W Hx Hy. eapply built_mono; [|apply (e_bin_built BPow); assumption]. intros lv v _ H Hp.
  apply (simp_bin_R BPow); [exact H|]. auto.
Qed.
(* The tactics of ExprInv.v. *)
Ltac start := unfold ebind; rewrite ?is_constant_eq, ?is_const_eq, ?ptype_eq, ?pval_eq by assumption; cbn [obind].
Ltac step := repeat (rewrite ?is_constant_eq, ?is_const_eq, ?ptype_eq, ?pval_eq by assumption; cbn [obind eret andb]; cbv beta).

Ltac case_isc :=
  match goal with
  | |- context [isc ?s ?p ?c] => let H := fresh "Hc" in destruct (isc s p c) eqn:H; step
  end.
Ltac case_ty :=
  match goal with
  | |- context [etype_eqb ?a ?b] =>
      let H := fresh "Ht" in destruct (etype_eqb a b) eqn:H; [apply etype_eqb_eq in H|]; cbn [andb]; step
  end.

(** The value of a node of constant type is its stored value. *)
Ltac use_const :=
  repeat match goal with
  | W : wf ?s, T : typ (st_nodes ?s) ?p = CONSTANT, A : agrees ?s ?lv |- _ =>
      rewrite <- (const_ev s p lv W T A); clear T
  end.
Ltac use_isc :=
  repeat match goal with
  | W : wf ?s, T : isc ?s ?p ?c = true, A : agrees ?s ?lv |- _ =>
      apply (isc_ev s p c lv W) in T; [|exact A]
  end.

Ltac solve_ty W :=
  cbn [ty_of];
  repeat match goal with
  | H : ?p < nlen ?s |- context [typ (st_nodes ?s) ?p] =>
      let T := fresh "T" in destruct (typ_cases s p W H) as [T|[T|[T|T]]]; rewrite T in *
  end; cbn in *; try congruence; try reflexivity.

Ltac fin W :=
  first
  [ apply built_ret; [exact W|assumption|]
  | apply built_const; [exact W|]
  | apply built_un; [exact W|assumption|solve_ty W|]
  | apply built_bin; [exact W|assumption|assumption|solve_ty W|] ].

(** A base that is not of constant type is never simplified away. *)
Lemma bR_pow_var (s : st R_ops) x y : wf s -> x < nlen s -> y < nlen s -> typ (st_nodes s) x <> CONSTANT ->
  built s (e_pow (Some x) (Some y) s) (fun lv v => v = R_pow (ev s lv x) (ev s lv y)).
Proof.
  intros W Hl Hr T. assert (NC : forall c, isc s x c = false).
  { intros c. unfold isc. destruct (etype_eqb _ _) eqn:E; [|reflexivity]. apply etype_eqb_eq in E. contradiction. }
  unfold e_pow. start. rewrite NC. step. rewrite NC. step.
  case_isc. { fin W. intros lv A. use_isc. cbn [s_eqb s_ofZ R_ops] in Hc. apply R_eqb_eq in Hc. rewrite Hc. symmetry. apply R_pow_0. }
  case_isc. { fin W. intros lv A. use_isc. cbn [s_eqb s_ofZ R_ops] in Hc0. apply R_eqb_eq in Hc0. rewrite Hc0. symmetry. apply R_pow_1. }
  case_ty; [contradiction|].
  case_isc.
  - case_ty; fin W; intros lv A; use_isc; cbn [s_eqb s_ofZ R_ops] in Hc1; apply R_eqb_eq in Hc1; rewrite Hc1; symmetry; apply R_pow_2.
  - fin W. intros lv A. reflexivity.
Qed.

(** ** Derivative expressions, operator by operator. *)
Lemma ext_ev' (s s' : st R_ops) lv n : wf s -> wf s' -> ext s s' -> n < nlen s -> ev s' lv n = ev s lv n.
Proof. apply ext_ev. Qed.

Ltac bR1 W :=
  first [ eapply (bR_un UNeg) | eapply (bR_un UAbs) | eapply (bR_un UAcos) | eapply (bR_un UAsin) | eapply (bR_un UAtan)
        | eapply (bR_un UCbrt) | eapply (bR_un UCos) | eapply (bR_un UCosh) | eapply (bR_un UErf) | eapply (bR_un UExp)
        | eapply (bR_un UIsNonneg) | eapply (bR_un UIsPos) | eapply (bR_un ULog) | eapply (bR_un ULog10) | eapply (bR_un USign)
        | eapply (bR_un USin) | eapply (bR_un USinh) | eapply (bR_un USqrt) | eapply (bR_un UTan) | eapply (bR_un UTanh)
        | eapply (bR_bin BAdd) | eapply (bR_bin BSub) | eapply (bR_bin BMul) | eapply (bR_bin BDiv) | eapply (bR_bin BAtan2)
        | eapply (bR_bin BHypot) | eapply (bR_bin BMax) | eapply (bR_bin BMin)
        | eapply (built_const _ _ (fun lv v => v = _)); [|intros; reflexivity] ]; first [assumption | lia | discriminate].
(** Run the constructors one after the other, remembering the value of each result. *)
Ltac bRs :=
  match goal with
  | W : wf ?s |- built ?s (ebind _ _ ?s) _ =>
      let p := fresh "p" in let s' := fresh "s" in let X := fresh "X" in let W' := fresh "W" in let Hp := fresh "Hp" in
      let Q := fresh "Q" in
      eapply (built_bind s); [exact W|bR1 W|intros p s' X W' Hp Q; cbv beta in Q; pose proof (ext_nlen _ _ X); bRs]
  | W : wf ?s |- built ?s _ _ => eapply built_mono; [|bR1 W]; cbv beta
  end.
(** Rewrite everything to values in the first state. *)
Ltac unwind :=
  repeat match goal with
  | X : ext ?s ?s', A : agrees ?s' ?lv |- _ =>
      let A' := fresh "A" in pose proof (ext_agrees _ _ _ X A) as A';
      repeat match goal with Q : forall lv, agrees s' lv -> _ |- _ => specialize (Q lv A) end;
      repeat match goal with
      | H : context [ev s' lv ?n] |- _ => rewrite (ext_ev' s s' lv n) in H by (first [assumption | lia])
      end;
      clear X
  end.
Ltac wrap := let lv := fresh "lv" in let v := fresh "v" in let A := fresh "A" in let H := fresh "Hv" in intros lv v A H.


Ltac values :=
  match goal with Hv : ?v = _ |- ?v = _ => rewrite Hv end;
  repeat match goal with Q : ev ?s ?lv ?p = _ |- context [ev ?s ?lv ?p] => rewrite Q end;
  cbn [un_value bin_value un_grad bin_grad_l bin_grad_r s_ofZ s_add s_sub s_mul s_div s_opp s_abs s_acos s_asin s_atan s_cbrt s_cos
    s_cosh s_erf s_exp s_log s_log10 s_sin s_sinh s_sqrt s_tan s_tanh s_atan2 s_hypot s_pow s_ltb s_leb s_eqb s_pi s_2isqrtpi s_ln10 R_ops].
Ltac gen x := generalize x; let y := fresh "y" in intros y; change (car R_ops) with R in y.
Ltac gens :=
  repeat match goal with |- context [ev (S := R_ops) ?s ?lv ?n] => generalize (ev (S := R_ops) s lv n : R); intros end;
  match goal with |- @eq _ ?p ?q => change (@eq R p q) end.

Lemma un_grad_expr_R u s a x : wf s -> a < nlen s -> x < nlen s ->
  built s (un_grad_expr (S := R_ops) u (Some a) (Some x) s) (fun lv v => v = un_grad (S := R_ops) u (ev s lv a) (ev s lv x)).
Proof.
  intros W Ha Hx. destruct u; cbn [un_grad_expr]; bRs; wrap; unwind; values; gens; unfold Rdiv; try ring.
  lcase; ring.
Qed.
Lemma bin_grad_l_R b s a x y : wf s -> a < nlen s -> x < nlen s -> y < nlen s ->
  typ (st_nodes s) x <> CONSTANT ->
  built s (bin_grad_expr_l (S := R_ops) b (Some a) (Some x) (Some y) s)
    (fun lv v => v = bin_grad_l (S := R_ops) b (ev s lv a) (ev s lv x) (ev s lv y)).
Proof.
  intros W Ha Hx Hy T. destruct b; cbn [bin_grad_expr_l].
  all: try solve [apply built_ret; [exact W|assumption|reflexivity]].
  all: try solve [bRs; wrap; unwind; values; gens; unfold Rdiv; try ring; lcase; ring].
  eapply (built_bind s); [exact W|bR1 W|intros p s0 X W0 Hp Q; cbv beta in Q; pose proof (ext_nlen _ _ X)].
  eapply (built_bind s0); [exact W0|bR1 W0|intros p0 s1 X0 W1 Hp0 Q0; cbv beta in Q0; pose proof (ext_nlen _ _ X0)].
  eapply (built_bind s1); [exact W1|apply (bR_pow_var s1 x p0 W1 ltac:(lia) Hp0)|].
  { rewrite (ext_typ s0 s1 x X0) by lia. rewrite (ext_typ s s0 x X Hx). exact T. }
  intros p1 s2 X1 W2 Hp1 Q1; cbv beta in Q1; pose proof (ext_nlen _ _ X1).
  bRs. wrap. unwind. values. gens. ring.
Qed.
Lemma bin_grad_r_R b s a x y : wf s -> a < nlen s -> x < nlen s -> y < nlen s ->
  built s (bin_grad_expr_r (S := R_ops) b (Some a) (Some x) (Some y) s)
    (fun lv v => (b = BPow -> ev s lv x <> 0%R) -> v = bin_grad_r (S := R_ops) b (ev s lv a) (ev s lv x) (ev s lv y)).
Proof.
  intros W Ha Hx Hy. destruct b; cbn [bin_grad_expr_r].
  all: try solve [apply built_ret; [exact W|assumption|intros; reflexivity]].
  all: try solve [bRs; wrap; intros _; unwind; values; gens; unfold Rdiv; try ring; lcase; ring].
  eapply (built_bind s); [exact W|apply (bR_pow_pos s x y W Hx Hy)|].
  intros p s0 X W0 Hp Q; cbv beta in Q; pose proof (ext_nlen _ _ X).
  bRs. wrap. intros Hr. unwind. specialize (Q (Hr eq_refl)). values. gens. ring.
Qed.

(** ** gradient_tree over R. *)
Lemma typ_kconst ns n : wfn ns -> is_kconst ns n -> typ ns n = CONSTANT.
Proof.
  intros W (nd & E & K). unfold typ. rewrite E. destruct (W n _ E) as [_ Ty]. rewrite K in Ty. cbn in Ty. congruence.
Qed.

(** Value of an entry of a symbolic gradient; a null entry stands for zero. *)
Definition pvalR (s : st R_ops) (lv : nat -> R) (p : @ptr) : R := match p with Some q => ev (S := R_ops) s lv q | None => 0%R end.

Lemma gradient_tree_R (s : st R_ops) r l wrt : wf s -> r < nlen s -> sorted (st_nodes s) r l -> (forall n, st_adje s n = None) ->
  List.Forall (fun w => is_kvar (st_nodes s) w) wrt -> NoDup wrt ->
  exists g s', gradient_tree l wrt s = Ok (g, s') /\ ext s s' /\ wf s' /\ (forall n, st_adje s' n = None) /\
    List.Forall (valid_ptr s') g /\ length g = length wrt /\
    Forall2 (fun w p => forall lv, agrees s' lv -> regular (st_nodes s) lv r -> pvalR s' lv p = row_entry (st_nodes s) lv l w) wrt g.
Proof.
  intros W Hr [[_ ->]|[_ T]] A0 Hw ND.
  - exists (map (fun _ => None) wrt), s. split; [reflexivity|]. split; [apply ext_refl|]. split; [exact W|]. split; [exact A0|].
    split; [apply Forall_forall; intros p Hp; apply in_map_iff in Hp as (w & <- & _); exact I|].
    split; [apply map_length|]. clear. induction wrt as [|w wrt IH]; cbn [map]; constructor; [|exact IH].
    intros lv _ _. reflexivity.
  - assert (Hwv : List.Forall (fun w => w < nlen s) wrt).
    { eapply Forall_impl; [|exact Hw]. intros w (nd & E & _). apply nth_error_Some. congruence. }
    assert (NR : forall n lv, In n l -> regular (st_nodes s) lv r -> node_regular (st_nodes s) lv n).
    { intros n lv Hn HV. apply HV. apply T. exact Hn. }
    destruct (gradient_tree_ok s r l (fun lv => regular (st_nodes s) lv r) W Hr T A0) with (wrt := wrt)
      as (g & s' & E & X & W' & A' & Hv & Hl & HF); try assumption.
    + intros n u a t s1 pa Hn En W1 G Hpa. pose proof (topological_valid s r l W Hr T n Hn). pose proof (grows_len _ _ G).
      pose proof (wfn_acyclic _ W n a) as Ac. unfold args in Ac. rewrite En in Ac. specialize (Ac (or_introl eq_refl)).
      eapply built_mono; [|apply (un_grad_expr_R u s1 pa a W1 Hpa)]; [intros lv v _ Hv _; exact Hv|lia].
    + intros n b x y t s1 pa Hn En W1 G Hpa. pose proof (topological_valid s r l W Hr T n Hn). pose proof (grows_len _ _ G).
      pose proof (wfn_acyclic _ W n) as Ac. unfold args in Ac. rewrite En in Ac.
      pose proof (Ac x (or_introl eq_refl)). pose proof (Ac y (or_intror (or_introl eq_refl))).
      destruct (etype_eqb (typ (st_nodes s) x) CONSTANT) eqn:Tx.
      * apply etype_eqb_eq in Tx.
        eapply built_mono; [|apply (bin_grad_l_bt b s1 pa x y W1 Hpa)]; [intros lv v _ _ _ C; contradiction|lia|lia].
      * eapply built_mono; [|apply (bin_grad_l_R b s1 pa x y W1 Hpa)]; [intros lv v _ Hv _ _; exact Hv|lia|lia|].
        rewrite (grows_typ s s1 x G) by lia. intros C. rewrite C in Tx. discriminate.
    + intros n b x y t s1 pa Hn En W1 G Hpa. pose proof (topological_valid s r l W Hr T n Hn) as Ln. pose proof (grows_len _ _ G).
      pose proof (wfn_acyclic _ W n) as Ac. unfold args in Ac. rewrite En in Ac.
      pose proof (Ac x (or_introl eq_refl)). pose proof (Ac y (or_intror (or_introl eq_refl))).
      eapply built_mono; [|apply (bin_grad_r_R b s1 pa x y W1 Hpa)]; [|lia|lia].
      intros lv v _ Hv HV Ty. apply Hv. intros ->. pose proof (NR n lv Hn HV _ En) as Hreg. cbn [n_kind] in Hreg.
      specialize (Hreg (eval (S := R_ops) (st_nodes s) lv x) (eval (S := R_ops) (st_nodes s) lv y)).
      destruct Hreg as [Hx|(_ & Ky & _)].
      * apply eval_Ev; [exact W|]. unfold nlen in *. lia.
      * apply eval_Ev; [exact W|]. unfold nlen in *. lia.
      * cbn in Hx. rewrite (grows_ev s s1 lv x W W1 G) by lia. unfold ev. apply Rgt_not_eq. exact Hx.
      * exfalso. apply Ty. apply typ_kconst; assumption.
    + intros s1 p q W1 Hp Hq. eapply built_mono; [|apply (bR_bin BAdd s1 p q W1 Hp Hq)]; [intros lv v _ Hv _; exact Hv|discriminate].
    + intros lv x _. cbn. apply Rplus_0_l.
    + exists g, s'. do 6 (split; [assumption|]). specialize (HF ND). clear E Hv Hl Hwv ND. revert HF Hw.
      induction 1 as [|w p wrt g Hp _ IH]; intros Hw; constructor; [|apply IH; inversion Hw; assumption].
      intros lv Ag HV. unfold row_entry. destruct p as [q|]; cbn [pvalR].
      * destruct Hp as [Il Hp]. destruct (in_dec Nat.eq_dec w l); [|contradiction]. apply Hp; [exact Ag|exact HV|].
        inversion Hw as [|? ? Kw _]; subst. destruct Kw as (nd & En & K). unfold typ. rewrite En.
        destruct (W w _ En) as [_ Ty]. rewrite K in Ty. cbn in Ty. congruence.
      * destruct (in_dec Nat.eq_dec w l); [contradiction|reflexivity].
Qed.
