(** Statements that build an operation on constants and read its value (C19, C20). *)
From Coq Require Import ZArith Reals List Bool Arith Lia Lra.
From Verif Require Import Base ExprModel GraphSpec GraphProofs ExprInv VarModel VarReach VarProofs ExprReal MathProofs ExprXR XRProofs.
Import ListNotations.
Local Open Scope nat_scope.

Section G.
Context {S : sops}.

Lemma hrun_cons (o : hop S) l e s e1 s1 out1 e2 s2 out2 : hstep o e s = Ok (e1, s1, out1) -> hrun l e1 s1 = Ok (e2, s2, out2) ->
  hrun (o :: l) e s = Ok (e2, s2, out1 ++ out2).
Proof. intros H1 H2. cbn [hrun]. rewrite H1. cbn [obind]. rewrite H2. reflexivity. Qed.

(** Append a constant. *)
Lemma step_const c e (s : st S) : hinv e s -> exists p s', hstep (HConst c) e s = Ok (e ++ [var_of (Some p)], s', []) /\
  hinv (e ++ [var_of (Some p)]) s' /\ ext s s' /\ p < nlen s' /\ forall lv, agrees s' lv -> ev s' lv p = c.
Proof.
  intros H. pose proof H as (W & C & F).
  destruct (built_const s c (fun _ v => v = c) W (fun _ _ => eq_refl)) as (p & s' & E & X & W' & Hp & HQ).
  exists p, s'. cbn [hstep]. rewrite E. cbn [obind]. split; [reflexivity|]. split; [|auto].
  destruct (hinv_ext e s s' X W' H) as (W2 & C2 & F2). split; [exact W2|]. split; [exact C2|].
  apply Forall_app. split; [exact F2|]. constructor; [|constructor]. apply varok_of, Hp.
Qed.

Lemma hvar_app_l (e : henv) v n : hvar (e ++ v :: n) (length e) = Ok v.
Proof. unfold hvar. rewrite nth_error_app2 by lia. rewrite Nat.sub_diag. reflexivity. Qed.

Lemma value_last e (s : st S) p : hinv (e ++ [var_of (Some p)]) s ->
  exists e' s', hstep (HValue (length e)) (e ++ [var_of (Some p)]) s = Ok (e', s', [ev s (st_val s) p]).
Proof.
  intros (W & C & F). cbn [hstep]. rewrite (hvar_app_l e (var_of (Some p)) []). cbn [obind].
  apply Forall_app in F as [_ F]. inversion F as [|? ? V _]; subst.
  destruct (var_value_ok s _ p W C V eq_refl) as (v' & s' & E & _). rewrite E. cbn [obind]. eauto.
Qed.

Lemma const_un_run u c e (s : st S) : hinv e s -> exists e' s' x,
  hrun [HConst c; HUn u (length e); HValue (Datatypes.S (length e))] e s = Ok (e', s', [x]) /\ simp_un u c x.
Proof.
  intros H. destruct (step_const c e s H) as (p & s1 & E1 & H1 & X1 & Hp & V1).
  pose proof H1 as (W1 & C1 & F1).
  destruct (e_un_built u s1 p W1 Hp) as (q & s2 & E2 & X2 & W2 & Hq & V2).
  assert (E2' : hstep (HUn u (length e)) (e ++ [var_of (Some p)]) s1 = Ok ((e ++ [var_of (Some p)]) ++ [var_of (Some q)], s2, [])).
  { cbn [hstep]. rewrite (hvar_app_l e _ []). cbn [obind v_expr var_of]. rewrite E2. reflexivity. }
  assert (H2 : hinv ((e ++ [var_of (Some p)]) ++ [var_of (Some q)]) s2).
  { destruct (hinv_ext _ s1 s2 X2 W2 H1) as (A & B & D). split; [exact A|]. split; [exact B|].
    apply Forall_app. split; [exact D|]. constructor; [|constructor]. apply varok_of, Hq. }
  destruct (value_last _ s2 q H2) as (e3 & s3 & E3).
  replace (length (e ++ [var_of (Some p)])) with (Datatypes.S (length e)) in E3 by (rewrite app_length; cbn; lia).
  exists e3, s3, (ev s2 (st_val s2) q). split.
  - eapply (hrun_cons _ _ _ _ _ _ []); [exact E1|]. eapply (hrun_cons _ _ _ _ _ _ []); [exact E2'|].
    eapply (hrun_cons _ _ _ _ _ _ [_] _ _ []); [exact E3|reflexivity].
  - assert (A2 : agrees s2 (st_val s2)) by (intros m _; reflexivity).
    specialize (V2 _ A2). cbv beta in V2. rewrite (V1 _ (ext_agrees _ _ _ X2 A2)) in V2. exact V2.
Qed.

Lemma const_bin_run b c d e (s : st S) : hinv e s -> exists e' s' x,
  hrun [HConst c; HConst d; HBin b (length e) (Datatypes.S (length e)); HValue (Datatypes.S (Datatypes.S (length e)))] e s
    = Ok (e', s', [x]) /\ simp_bin b c d x.
Proof.
  intros H. destruct (step_const c e s H) as (p & s1 & E1 & H1 & X1 & Hp & V1).
  destruct (step_const d _ s1 H1) as (q & s2 & E2 & H2 & X2 & Hq & V2).
  pose proof H2 as (W2 & C2 & F2). pose proof H1 as (W1 & _).
  assert (Hp2 : p < nlen s2) by (pose proof (ext_nlen _ _ X2); lia).
  destruct (e_bin_built b s2 p q W2 Hp2 Hq) as (r & s3 & E3 & X3 & W3 & Hr & V3).
  set (e2 := (e ++ [var_of (Some p)]) ++ [var_of (Some q)]) in *.
  assert (E3' : hstep (HBin b (length e) (Datatypes.S (length e))) e2 s2 = Ok (e2 ++ [var_of (Some r)], s3, [])).
  { cbn [hstep]. unfold e2. rewrite <- app_assoc. cbn [app]. rewrite (hvar_app_l e _ [_]). cbn [obind v_expr var_of].
    change (e ++ [var_of (Some p); var_of (Some q)]) with (e ++ [var_of (Some p)] ++ [var_of (Some q)]).
    rewrite app_assoc. replace (Datatypes.S (length e)) with (length (e ++ [var_of (Some p)])) by (rewrite app_length; cbn; lia).
    rewrite (hvar_app_l _ _ []). cbn [obind v_expr var_of]. rewrite E3. reflexivity. }
  assert (H3 : hinv (e2 ++ [var_of (Some r)]) s3).
  { destruct (hinv_ext _ s2 s3 X3 W3 H2) as (A & B & D). split; [exact A|]. split; [exact B|].
    apply Forall_app. split; [exact D|]. constructor; [|constructor]. apply varok_of, Hr. }
  destruct (value_last _ s3 r H3) as (e4 & s4 & E4).
  replace (length e2) with (Datatypes.S (Datatypes.S (length e))) in E4 by (unfold e2; rewrite !app_length; cbn; lia).
  exists e4, s4, (ev s3 (st_val s3) r). split.
  - eapply (hrun_cons _ _ _ _ _ _ []); [exact E1|]. eapply (hrun_cons _ _ _ _ _ _ []); [exact E2|].
    eapply (hrun_cons _ _ _ _ _ _ []); [exact E3'|]. eapply (hrun_cons _ _ _ _ _ _ [_] _ _ []); [exact E4|reflexivity].
  - assert (A3 : agrees s3 (st_val s3)) by (intros m _; reflexivity).
    pose proof (ext_agrees _ _ _ X3 A3) as A2. pose proof (ext_agrees _ _ _ X2 A2) as A1.
    specialize (V3 _ A3). cbv beta in V3. rewrite (V2 _ A2) in V3.
    rewrite (ext_ev s1 s2 _ p W1 W2 X2 Hp), (V1 _ A1) in V3. exact V3.
Qed.

End G.

Lemma xr_un_run u (c : X_ops) e (s : st X_ops) : hinv e s -> ~ ((u = ULog \/ u = ULog10) /\ c = Fin 0) -> exists e' s',
  hrun (S := X_ops) [HConst c; HUn u (length e); HValue (S (length e))] e s = Ok (e', s', [un_value (S := X_ops) u c]).
Proof.
  intros H N. destruct (const_un_run u c e s H) as (e' & s' & x & E & Hx). exists e', s'.
  rewrite E, (xr_un u c x Hx N). reflexivity.
Qed.

Lemma xr_bin_run b (c d : X_ops) e (s : st X_ops) : hinv e s -> ~ xr_bad b c d -> exists e' s',
  hrun (S := X_ops) [HConst c; HConst d; HBin b (length e) (S (length e)); HValue (S (S (length e)))] e s
    = Ok (e', s', [bin_value (S := X_ops) b c d]).
Proof.
  intros H N. destruct (const_bin_run b c d e s H) as (e' & s' & x & E & Hx). exists e', s'.
  rewrite E, (xr_bin b c d x Hx N). reflexivity.
Qed.

Ltac r00 := rewrite (proj2 (R_eqb_eq 0 0)) by reflexivity.
Ltac rne a b := let H := fresh in destruct (R_eqb a b) eqn:H; [apply R_eqb_eq in H; lra|]; clear H.

Lemma obs_log0 u : u = ULog \/ u = ULog10 -> observes (S := X_ops) [HConst (Fin 0 : X_ops); HUn u 0; HValue 1] [Fin 0 : X_ops].
Proof.
  intros [-> | ->]; unfold observes; cbn -[R_eqb]; r00; cbn -[R_eqb]; eexists; eexists; reflexivity.
Qed.

(** Operations whose left operand is the constant zero return that operand. *)
Lemma obs_zero_left b (d : X_ops) : b = BDiv \/ b = BMul \/ b = BPow ->
  observes (S := X_ops) [HConst (Fin 0 : X_ops); HConst d; HBin b 0 1; HValue 2] [Fin 0 : X_ops].
Proof.
  intros [-> | [-> | ->]]; unfold observes; cbn -[R_eqb]; r00; cbn -[R_eqb]; eexists; eexists; reflexivity.
Qed.

Lemma obs_pow00 : observes (S := R_ops) [HConst (0%R : R_ops); HConst (0%R : R_ops); HBin BPow 0 1; HValue 2] [0%R : R_ops].
Proof. unfold observes; cbn -[R_eqb]; r00; cbn -[R_eqb]; eexists; eexists; reflexivity. Qed.
