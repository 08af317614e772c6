(** Closing lemmas and examples for GraphProps.v. *)
From Coq Require Import ZArith Reals List Bool Arith Lia Lra.
From Verif Require Import Base ExprModel GraphSpec GraphProofs ExprInv VarModel VarReach VarProofs ExprReal MathSpec
  MathProofs VarSpec HistProofs Faith ExprXR XRProofs ConstProofs.
Import ListNotations.
Local Open Scope nat_scope.

Lemma c16_sort (S : sops) (s : st S) (r : nat) (nd : node) :
    acyclic_nodes (st_nodes s) -> (forall n, st_scr s n = (-1)%Z) ->
    nth_error (st_nodes s) r = Some nd -> n_type nd <> CONSTANT ->
    exists l s', topological_sort (Some r) s = Ok (l, s') /\ topological (st_nodes s) r l /\
      st_nodes s' = st_nodes s /\ st_val s' = st_val s /\ st_adj s' = st_adj s /\ st_adje s' = st_adje s /\
      (forall n, st_scr s' n = (-1)%Z).
Proof.
  intros A C E T. unfold topological_sort. rewrite E.
  destruct (etype_eqb (n_type nd) CONSTANT) eqn:T1; [apply etype_eqb_eq in T1; contradiction|].
  assert (Hr : r < length (st_nodes s)) by (apply nth_error_Some; congruence).
  destruct (sort_ok (st_nodes s) r A Hr (st_scr s) C) as (scr1 & out & scr2 & E1 & E2 & Ht & Hs).
  rewrite E1. cbn [obind]. rewrite E2. cbn [obind]. eexists; eexists. split; [reflexivity|]. cbn. auto 8.
Qed.

Lemma c16_reach (S : sops) (e : henv) (s : st S) : hreach e s ->
    acyclic_nodes (st_nodes s) /\ (forall n, st_scr s n = (-1)%Z).
Proof. intros H. apply hreach_inv in H as (W & C & _). split; [apply wfn_acyclic, W|exact C]. Qed.

(** Forward runs give reachable states. *)
Fixpoint all_in_scope {S : sops} (l : list (hop S)) (e : henv) (s : st S) : Prop :=
  match l with
  | [] => True
  | o :: rest => in_scope (length e) o /\
      match hstep o e s with Ok (e', s', _) => all_in_scope rest e' s' | _ => False end
  end.

Lemma hreach_run {S : sops} (l : list (hop S)) : forall e s e' s' out, hreach e s -> all_in_scope l e s ->
  hrun l e s = Ok (e', s', out) -> hreach e' s'.
Proof.
  induction l as [|o l IH]; intros e s e' s' out H A E; cbn [hrun] in E.
  - injection E as <- <- _. exact H.
  - destruct A as [A1 A2]. destruct (hstep o e s) as [[[e1 s1] out1]| | |] eqn:E1; try contradiction.
    cbn [obind] in E. destruct (hrun l e1 s1) as [[[e2 s2] out2]| | |] eqn:E2; try discriminate.
    cbn [obind] in E. injection E as <- <- _. eapply (IH e1 s1); eauto. eapply hreach_step; eauto.
Qed.

Lemma c16_ex : exists e s nd, hreach (S := R_ops) e s /\ nth_error (st_nodes s) 2 = Some nd /\
  n_type nd <> CONSTANT /\ args (st_nodes s) 2 = [1; 0] /\ args (st_nodes s) 1 = [0].
Proof.
  destruct (hrun [HNew; HUn USin 0; HBin BMul 1 0] [] (st_empty R_ops)) as [[[e s] out]| | |] eqn:E; try discriminate E.
  assert (H : hreach e s).
  { eapply hreach_run; [apply hreach_0| |exact E]. cbn. repeat split; lia. }
  cbn in E. injection E as <- <- <-. eexists; eexists; eexists. split; [exact H|]. cbn. split; [reflexivity|].
  split; [discriminate|]. split; reflexivity.
Qed.

Lemma c17_eval (S : sops) (e : henv) (s : st S) i v n : hreach e s -> nth_error e i = Some v -> v_expr v = Some n ->
    exists x v' s', var_value v s = Ok ((x, v'), s') /\ Ev (st_nodes s) (st_val s) n x.
Proof.
  intros H Ei En. apply hreach_inv in H as (W & C & F). pose proof (nth_Forall _ _ _ _ F Ei) as V.
  destruct (var_value_ok s v n W C V En) as (v' & s' & E & _). eexists; eexists; eexists. split; [exact E|].
  apply eval_Ev; [exact W|]. destruct V as (m & Em & Hm & _). rewrite En in Em. injection Em as <-. exact Hm.
Qed.

Lemma c17_user (l : list (hop R_ops)) se qs : srun l se_empty = Some (se, qs) ->
    exists e s out, hrun l [] (st_empty R_ops) = Ok (e, s, out) /\ Forall2 answers qs out.
Proof.
  intros H. destruct (srun_ok l se_empty se qs [] (st_empty R_ops) [] linked_empty H) as (e & s & out & dv & E & _ & A).
  rewrite hinjs_R in E.
  exists e, s, out. auto.
Qed.

Lemma c17_ref : exists (l : list (hop R_ops)) se x rho v0 v, srun l se_empty = Some (se, [(x, rho)]) /\
    XEv rho x v0 /\ observes l [v] /\ v <> v0.
Proof.
  exists [HConst (0%R : R_ops); HConst (0%R : R_ops); HBin BPow 0 1; HValue 2].
  eexists; eexists; eexists; exists 1%R, 0%R. split; [cbn; reflexivity|]. split; [|split; [apply obs_pow00|]].
  - econstructor; [constructor|constructor|]. apply (M_pow_int 0 0). right. lia.
  - cbn. lra.
Qed.

Lemma c17_ex :
  let l : list (hop R_ops) :=
    [HNew; HNew; HUn USin 0; HBin BMul 2 1; HConst (1%R : R_ops); HBin BMul 0 4; HBin BAdd 3 5;
     HSet 0 (2%R : R_ops); HSet 1 (3%R : R_ops); HValue 6; HSet 0 (5%R : R_ops); HValue 6] in
  exists se x rho rho', srun l se_empty = Some (se, [(x, rho); (x, rho')]) /\
    no_pow00 rho x /\ XEv rho x (sin 2 * 3 + 2 * 1)%R /\ XEv rho' x (sin 5 * 3 + 5 * 1)%R.
Proof.
  intros l. eexists; eexists; eexists; eexists. split; [cbn; reflexivity|]. split.
  - cbn. repeat split; intros; discriminate.
  - split.
    + apply (XEv_bin _ BAdd _ _ (sin 2 * 3)%R (2 * 1)%R); [| |constructor].
      * apply (XEv_bin _ BMul _ _ (sin 2)%R 3%R); [|apply XEv_var|constructor].
        apply (XEv_un _ USin _ 2%R); [apply XEv_var|constructor].
      * apply (XEv_bin _ BMul _ _ 2%R 1%R); [apply XEv_var|constructor|constructor].
    + apply (XEv_bin _ BAdd _ _ (sin 5 * 3)%R (5 * 1)%R); [| |constructor].
      * apply (XEv_bin _ BMul _ _ (sin 5)%R 3%R); [|apply XEv_var|constructor].
        apply (XEv_un _ USin _ 5%R); [apply XEv_var|constructor].
      * apply (XEv_bin _ BMul _ _ 5%R 1%R); [apply XEv_var|constructor|constructor].
Qed.

Lemma c18_fresh (S : sops) (e : henv) (s : st S) i e' s' out :
    hreach e s -> i < length e -> hstep (HValue i) e s = Ok (e', s', out) ->
    exists v n x, nth_error e i = Some v /\ v_expr v = Some n /\ out = [x] /\ Ev (st_nodes s) (st_val s) n x.
Proof.
  intros H Hi E. apply hreach_inv in H. destruct (hstep_ok (HValue i) e s H Hi) as (e2 & s2 & out2 & E2 & _ & _ & Hv & L).
  rewrite E in E2. injection E2 as <- <- <-. destruct out as [|x [|y out]]; try discriminate L.
  destruct (Hv i x eq_refl eq_refl) as (v & n & A & B & C). exists v, n, x. auto.
Qed.

Lemma c18_frame (S : sops) (o : hop S) (e : henv) (s : st S) e' s' out :
    hreach e s -> in_scope (length e) o -> hstep o e s = Ok (e', s', out) ->
    match o with
    | HSet i x => exists v n, nth_error e i = Some v /\ v_expr v = Some n /\ st_nodes s' = st_nodes s /\
                    forall m, st_val s' m = if Nat.eqb m n then x else st_val s m
    | _ => forall n, is_kconst (st_nodes s) n \/ is_kvar (st_nodes s) n -> st_val s' n = st_val s n
    end.
Proof. intros H. apply hreach_inv in H. apply hstep_frame. exact H. Qed.

Lemma c18_total (S : sops) (o : hop S) (e : henv) (s : st S) : hreach e s -> in_scope (length e) o ->
    exists e' s' out, hstep o e s = Ok (e', s', out).
Proof. intros H Hs. apply hreach_inv in H. destruct (hstep_ok o e s H Hs) as (e2 & s2 & out2 & E2 & _). eauto. Qed.

Lemma c18_ex : exists e s v, hreach (S := R_ops) e s /\ nth_error e 1 = Some v /\ v_init v = true /\
  v_graph v = [1; 0] /\ st_val s 0 = 7%R /\ hstep (HValue 1) e s <> UB.
Proof.
  destruct (hrun [HNew; HUn USin 0; HValue 1; HSet 0 (7%R : R_ops)] [] (st_empty R_ops)) as [[[e s] out]| | |] eqn:E;
    try discriminate E.
  assert (H : hreach e s).
  { eapply hreach_run; [apply hreach_0| |exact E]. cbn. repeat split; lia. }
  cbn in E. injection E as <- <- <-. eexists; eexists; eexists. split; [exact H|]. cbn. split; [reflexivity|].
  split; [reflexivity|]. split; [reflexivity|]. split; [reflexivity|discriminate].
Qed.

Lemma c19_un (e : henv) (s : st R_ops) u a : hreach e s -> a < length (st_nodes s) ->
    exists p s', e_un u (Some a) s = Ok (Some p, s') /\
      forall lv x v, agrees s' lv -> Ev (st_nodes s) lv a x -> math_un u x v -> Ev (st_nodes s') lv p v.
Proof.
  intros H Ha. apply hreach_inv in H as (W & _ & _). destruct (e_un_built u s a W Ha) as (p & s' & E & X & W' & Hp & HQ).
  exists p, s'. split; [exact E|]. intros lv x v A Hx Hm. specialize (HQ lv A). cbv beta in HQ.
  apply (Ev_eval _ _ _ _ W) in Hx. fold (ev s lv a) in Hx. rewrite <- Hx in HQ.
  rewrite <- (simp_un_math u x v _ Hm HQ). apply eval_Ev; assumption.
Qed.

Lemma c19_bin (e : henv) (s : st R_ops) b l r : hreach e s -> l < length (st_nodes s) -> r < length (st_nodes s) ->
    exists p s', e_bin b (Some l) (Some r) s = Ok (Some p, s') /\
      forall lv x y v, agrees s' lv -> Ev (st_nodes s) lv l x -> Ev (st_nodes s) lv r y -> math_bin b x y v ->
        ~ (b = BPow /\ x = 0%R /\ y = 0%R) -> Ev (st_nodes s') lv p v.
Proof.
  intros H Hl Hr. apply hreach_inv in H as (W & _ & _).
  destruct (e_bin_built b s l r W Hl Hr) as (p & s' & E & X & W' & Hp & HQ).
  exists p, s'. split; [exact E|]. intros lv x y v A Hx Hy Hm Hz. specialize (HQ lv A). cbv beta in HQ.
  apply (Ev_eval _ _ _ _ W) in Hx, Hy. fold (ev s lv l) in Hx. fold (ev s lv r) in Hy. rewrite <- Hx, <- Hy in HQ.
  assert (Hz' : b = BPow -> ~ (x = 0%R /\ y = 0%R)) by tauto.
  rewrite <- (simp_bin_math b x y v _ Hm Hz' HQ). apply eval_Ev; assumption.
Qed.

Lemma c19_ref : exists (l : list (hop R_ops)) se rho x v0 v, srun l se_empty = Some (se, [(x, rho)]) /\
    XEv rho x v0 /\ observes l [v] /\ v <> v0 /\ length (se_exp se) = 5.
Proof.
  exists [HNew; HNew; HConst (0%R : R_ops); HBin BMul 2 0; HBin BPow 3 1; HValue 4].
  eexists; eexists; eexists; exists 1%R, 0%R. split; [cbn; reflexivity|].
  split; [|split; [|split; [cbn; lra|reflexivity]]].
  - eapply (XEv_bin _ BPow _ _ (0 * _)%R 0%R); [|apply XEv_var|].
    + econstructor; [constructor|apply XEv_var|constructor].
    + cbn. rewrite Rmult_0_r. apply (M_pow_int 0 0). right. lia.
  - unfold observes; cbn -[R_eqb]. rewrite (proj2 (R_eqb_eq 0 0)) by reflexivity. cbn -[R_eqb].
    rewrite (proj2 (R_eqb_eq 0 0)) by reflexivity. cbn -[R_eqb]. eexists; eexists; reflexivity.
Qed.

Lemma c19_ex : (math_un ULog (exp 3) 3 /\ math_bin BPow (-2) 3 (-8) /\ math_bin BDiv 1 4 (1 / 4))%R.
Proof.
  split; [constructor; reflexivity|]. split; [|constructor; lra].
  replace (-8)%R with (powerRZ (-2) 3).
  - apply (M_pow_int (-2) 3). left. lra.
  - unfold powerRZ. change (Pos.to_nat 3) with 3. cbn [pow]. lra.
Qed.

Lemma c20_un u (c : X_ops) e (s : st X_ops) : hreach e s -> ~ ((u = ULog \/ u = ULog10) /\ c = Fin 0) ->
    exists e' s', hrun [HConst c; HUn u (length e); HValue (S (length e))] e s
                  = Ok (e', s', [un_value (S := X_ops) u c]).
Proof. intros H. apply xr_un_run. apply hreach_inv, H. Qed.

Lemma c20_bin b (c d : X_ops) e (s : st X_ops) : hreach e s -> ~ xr_bad b c d ->
    exists e' s', hrun [HConst c; HConst d; HBin b (length e) (S (length e)); HValue (S (S (length e)))] e s
                  = Ok (e', s', [bin_value (S := X_ops) b c d]).
Proof. intros H. apply xr_bin_run. apply hreach_inv, H. Qed.

Lemma c20_ref :
  (forall u, u = ULog \/ u = ULog10 ->
     observes [HConst (Fin 0 : X_ops); HUn u 0; HValue 1] [Fin 0 : X_ops] /\ un_value (S := X_ops) u (Fin 0) = MInf) /\
  (forall b d, b = BDiv \/ b = BMul \/ b = BPow -> xr_bad b (Fin 0) d ->
     observes [HConst (Fin 0 : X_ops); HConst (d : X_ops); HBin b 0 1; HValue 2] [Fin 0 : X_ops] /\
     bin_value (S := X_ops) b (Fin 0) d <> Fin 0) /\
  (xr_bad BDiv (Fin 0) (Fin 0) /\ xr_bad BMul (Fin 0) PInf /\ xr_bad BPow (Fin 0) (Fin 0) /\ xr_bad BPow (Fin 0) (Fin (-1))).
Proof.
  split; [|split].
  - intros u Hu. split; [apply obs_log0, Hu|]. destruct Hu as [-> | ->]; cbn; destruct (Req_EM_T 0 0); congruence.
  - intros b d Hb Hbad. split; [apply obs_zero_left, Hb|].
    destruct Hb as [-> | [-> | ->]]; cbn [bin_value s_div s_mul s_pow X_ops]; cbn in Hbad.
    + destruct Hbad as (_ & [-> | ->]); [|discriminate]. cbn. destruct (Req_EM_T 0 0); [|congruence].
      destruct (Rlt_dec 0 0); [lra|discriminate].
    + destruct Hbad as [[_ N]|[-> N]]; [|exfalso; apply N; exists 0%R; reflexivity].
      destruct d as [r| | |]; [exfalso; apply N; exists r; reflexivity| | |]; cbn; [..|discriminate];
        destruct (Rlt_dec 0 0); [lra|discriminate|lra|discriminate].
    + destruct Hbad as (_ & N & NP). unfold X_pow. destruct d as [p| | |]; cbn [X_eqb].
      * destruct (R_eqb p 0) eqn:Ep; [injection 1; lra|].
        destruct (R_eqb 0 1) eqn:E1; [apply R_eqb_eq in E1; lra|].
        destruct (Req_EM_T 0 0); [|congruence]. destruct (Rlt_dec 0 p); [|discriminate].
        exfalso. apply N. exists p. auto.
      * congruence.
      * destruct (R_eqb 0 1) eqn:E1; [apply R_eqb_eq in E1; lra|]. rewrite Rabs_R0.
        destruct (Rlt_dec 0 1); [discriminate|lra].
      * destruct (R_eqb 0 1) eqn:E1; [apply R_eqb_eq in E1; lra|discriminate].
  - cbn. split; [auto|]. split; [left; split; [reflexivity|]; intros (r & C); discriminate|].
    split; (split; [reflexivity|]; split; [|discriminate]); intros (p & P & C); injection C; lra.
Qed.

Lemma c20_ex : ~ xr_bad BDiv (Fin 1) (Fin 0) /\ bin_value (S := X_ops) BDiv (Fin 1) (Fin 0) = PInf /\
  ~ xr_bad BMul PInf (Fin (-2)) /\ bin_value (S := X_ops) BMul PInf (Fin (-2)) = MInf.
Proof.
  split; [intros [C _]; injection C; lra|]. split.
  { cbn. destruct (Req_EM_T 0 0); [|congruence]. destruct (Rlt_dec 0 1); [reflexivity|lra]. }
  split; [intros [[C _]|[C _]]; [discriminate|injection C; lra]|].
  cbn. destruct (Rlt_dec 0 (-2)); [lra|]. destruct (Rlt_dec (-2) 0); [reflexivity|lra].
Qed.
