(** Proofs for C52: slacks and inequality multipliers stay positive (extended reals). *)
From Coq Require Import ZArith Reals List Bool Lra Lia.
From Verif Require Import Base ExprModel ExprReal ExprXR NumModel UtilModel KktModel FilterModel FilterProofs ExitModel SolverModel SolverSpec SolverProofs
  NewtonModel NewtonProofs SqpModel IpmModel IpmShape IpmSpec IpmProofs RestoreModel RestoreProofs XArith PosX.
Import ListNotations.
Local Open Scope R_scope.

Definition tau_ok (t : XR) : Prop := exists r, t = Fin r /\ 99 / 100 <= r < 1.

(** ** The barrier parameter *)
Section Barrier.
Variables (P : iprob Xn) (o : options Xn).
Hypothesis Hf : pos (sc_f (ip_sc P)).
Hypothesis Ht : pos (o_tol o).

Lemma mu_min_X : pos (mu_min P o).
Proof.
  destruct Hf as (f & Ef & Pf), Ht as (t & Et & Pt). unfold mu_min. rewrite Ef, Et. change (s_ofZ Xn 10) with (Fin 10).
  rewrite xmul, xdiv by lra. apply pos_Fin. apply Rdiv_lt_0_compat; [|lra]. apply Rmult_lt_0_compat; auto.
Qed.
Lemma next_mu_X m : 0 < m -> exists k m', mu_min P o = Fin k /\ 0 < k /\ next_mu P o (Fin m) = Fin m' /\ k <= m' /\ (m' = k \/ m' <= m / 5).
Proof.
  intros M. destruct mu_min_X as (k & Ek & Pk). exists k. unfold next_mu. rewrite Ek. rewrite !xlit, xmul.
  destruct (xpow_pos m (15 / 10) M) as (q & Pq & Eq). change (IZR (10 ^ Z.of_nat 1)) with 10. rewrite Eq.
  assert (Ew : exists v, smin (S := Xn) (Fin (2 / 10 * m)) (Fin q) = Fin v /\ v <= m / 5).
  { unfold smin. rewrite xltb. destruct (R_ltb q _) eqn:C; [apply R_ltb_true in C; exists q; split; [reflexivity|lra]|]. exists (2 / 10 * m). split; [reflexivity|lra]. }
  destruct Ew as (v & Ew & Lv). rewrite Ew. unfold smax. rewrite xltb. destruct (R_ltb k v) eqn:C.
  - apply R_ltb_true in C. exists v. repeat (split; [auto; lra|]). auto.
  - exists k. repeat (split; [auto; lra|]). auto.
Qed.
Lemma tau_of_X m : 0 < m -> tau_ok (tau_of (S := Xn) (Fin m)).
Proof.
  intros M. unfold tau_of, tau_min. rewrite xlit. change (IZR (10 ^ Z.of_nat 2)) with 100. change (s_ofZ Xn 1) with (Fin 1). rewrite xsub.
  unfold smax. rewrite xltb. destruct (R_ltb _ _) eqn:C; [apply R_ltb_true in C|]; eexists; (split; [reflexivity|lra]).
Qed.
Lemma tau_min_X : tau_ok (tau_min (S := Xn)).
Proof. unfold tau_min. rewrite xlit. change (IZR (10 ^ Z.of_nat 2)) with 100. eexists. split; [reflexivity|lra]. Qed.
Lemma mu_k_X k m : 0 < m -> pos (mu_k P o k (Fin m)).
Proof.
  intros M. induction k as [|k (r & IH & Pr)]; [apply pos_Fin; auto|]. change (pos (next_mu P o (mu_k P o k (Fin m)))). rewrite IH.
  destruct (next_mu_X r Pr) as (mm & m' & _ & Pm & -> & L & _). apply pos_Fin. lra.
Qed.
End Barrier.

Section Pos.
Variables (E : env Xn) (P : iprob Xn) (o : options Xn).
Context {U : Type}.
Variable cbs : list (callback Xn U).
Variable restore : option (restorer (S := Xn) (U := U)).
Notation n := (ip_n P).
Notation me := (ip_me P).
Notation mi := (ip_mi P).
(** Whether the multipliers are claimed to be positive too. *)
Variable zh : Prop.
Hypothesis Hz : zh -> o_feasible o = false \/ (forall x, length x = n -> List.Forall fin x -> all_fin (S := Xn) (ip_ci P x) = true /\ mat_fin (S := Xn) (ip_Ai P x) = true).
Hypothesis Hp : iprob_ok P.
Hypothesis Hs : solve_ok E.

Definition s_pos (s z : list XR) : Prop := List.Forall pos s /\ (zh -> List.Forall pos z).
Definition sz_ok (x s z : list XR) : Prop := all_fin (S := Xn) x = false \/ all_fin (S := Xn) s = false \/ s_pos s z.

(** The iterate the line search starts from. *)
Definition c_pos (c : ictx E) : Prop :=
  c_ok E P c /\ ix_ci E c = ip_ci P (ix_x E c) /\ ix_Ai E c = ip_Ai P (ix_x E c) /\ s_pos (ix_s E c) (ix_z E c) /\ pos (ix_mu E c) /\ tau_ok (ix_tau E c) /\ List.Forall fin (ix_x E c).

Lemma step_pz c rhs cis : c_ok E P c -> List.Forall pos (ix_s E c) -> List.Forall pos (ix_z E c) -> pos (ix_mu E c) ->
  List.Forall fin (p_s (ipm_step E c rhs cis)) -> List.Forall fin (p_z (ipm_step E c rhs cis)).
Proof.
  intros Hc Ps Pz (m & Em & Pm) F. unfold ipm_step in *. cbn [p_s p_z] in *. rewrite Em.
  assert (Fz : List.Forall fin (ix_z E c)) by (eapply List.Forall_impl; [apply pos_fin|exact Pz]).
  assert (Fi : List.Forall fin (vinv (S := Xn) (ix_s E c))).
  { unfold vinv. rewrite List.Forall_map. eapply List.Forall_impl; [|exact Ps]. intros a (r & -> & Hr). change (s_ofZ Xn 1) with (Fin 1). rewrite xdiv by lra. reflexivity. }
  apply (Forall_map2 _ fin fin); [apply fin_sub_r| |].
  - apply (Forall_map2 _ fin fin); [apply fin_sub_r| |exact Fz]. unfold vscale. rewrite List.Forall_map.
    eapply List.Forall_impl; [|exact Fi]. intros a Fa. apply fin_mul_r; [reflexivity|exact Fa].
  - apply (Forall_map2 _ fin fin); [apply fin_mul_r| |exact F]. apply (Forall_map2 _ fin fin); [apply fin_mul_r|exact Fi|exact Fz].
Qed.

(** The multipliers after a step whose slack part is finite. *)
Lemma trial_z c rhs cis d : d = ipm_step E c rhs cis -> c_pos c -> length rhs = (n + me)%nat -> length cis = mi -> zh ->
  List.Forall fin (p_s d) -> List.Forall num (vstep (S := Xn) (ix_z E c) (ftb (S := Xn) (ix_z E c) (p_z d) (ix_tau E c)) (p_z d)).
Proof.
  intros -> (Hc & _ & _ & (Ps & Pz) & Pm & (t & Et & Lt) & _) L1 L2 Z F. specialize (Pz Z).
  pose proof (step_ok E P c rhs cis Hs Hc L1 L2) as (_ & _ & _ & Lz).
  rewrite Et. destruct (ftb_X t (ix_z E c) (p_z (ipm_step E c rhs cis))) as (b & -> & Hb & K); auto; [lra| |].
  { etransitivity; [exact Lz|]. symmetry. apply Hc. }
  apply kept_pos in K; [|apply step_pz; auto]. eapply List.Forall_impl; [|exact K]. intros a (r & -> & _). discriminate.
Qed.

Lemma amax_X c rhs cis : c_pos c -> length rhs = (n + me)%nat -> length cis = mi -> let d := ipm_step E c rhs cis in
  exists b, ftb (S := Xn) (ix_s E c) (p_s d) (ix_tau E c) = Fin b /\ 0 <= b <= 1 /\ List.Forall2 (kept b) (ix_s E c) (p_s d).
Proof.
  intros (Hc & _ & _ & (Ps & _) & _ & (t & -> & Lt) & _) L1 L2 d. apply ftb_X; [lra|auto|].
  destruct (step_ok E P c rhs cis Hs Hc L1 L2) as (_ & Ls & _). fold d in Ls. etransitivity; [exact Ls|]. symmetry. apply Hc.
Qed.

Lemma rhs_cis_len c : c_ok E P c -> length (ipm_rhs E P c) = (n + me)%nat /\ length (vsub (S := Xn) (ix_ci E c) (ix_s E c)) = mi.
Proof. intros Hc. split; [apply rhs_len; auto|]. destruct Hc as (_ & LS & _ & _ & _ & _ & LI & _). apply vsub_len; auto. Qed.

Lemma took_pos c t a : c_pos c -> took E P o c (the_step E P c) (the_dphi E P c) (the_amax E P c) (the_az E P c) t a ->
  List.Forall (fun v => pos v \/ v = PInf) (it_s t) /\
  (all_fin (S := Xn) (it_x t) = false \/ all_fin (S := Xn) (it_s t) = false \/ (List.Forall pos (it_s t) /\ (zh -> List.Forall num (it_z t)))).
Proof.
  intros C T. pose proof C as C'. destruct C as (Hc & Aci & AAi & (Ps & Pz) & (m & Em & Pm) & Tau & Fx). destruct (rhs_cis_len c Hc) as [L1 L2].
  destruct (amax_X c _ _ C' L1 L2) as (b & Eb & Hb & K). fold (the_step E P c) in Eb, K. fold (the_amax E P c) in Eb.
  pose proof (step_ok E P c _ _ Hs Hc L1 L2) as (Lpx & Lps & Lpy & Lpz). fold (the_step E P c) in Lpx, Lps, Lpy, Lpz.
  assert (Lx : length (ix_x E c) = n) by apply Hc. assert (Ls : length (ix_s E c) = mi) by apply Hc.
  destruct T as [k flt flt' a t F1 F2 F3 T|ce cis flt flt' a d' a' t L3 L4 T|a t T].
  - apply try_add_fin in T. unfold it_entry, fe_ipm in T. cbn [fe_cost] in T. rewrite Em in T. apply fin_cost in T; [|lra].
    split. { eapply List.Forall_impl; [|exact T]. auto. }
    destruct (all_fin (it_x t)) eqn:Dx; [|auto]. right; right. split; [exact T|]. intros Z.
    assert (Fps : List.Forall fin (p_s (the_step E P c))).
    { unfold t, ipm_trial_main in T, Dx. destruct (o_feasible o && forallb _ _) eqn:Fe.
      - apply andb_true_iff in Fe. destruct Fe as [Fe _]. destruct (Hz Z) as [Q|Q]; [congruence|]. destruct (Q _ Lx Fx) as [Q1 Q2].
        cbn [it_x ipm_trial] in Dx. apply all_fin_Forall in Dx. unfold a in Dx. rewrite Eb, xhalves in Dx. apply vstep_fin in Dx; [|etransitivity; [exact Lpx|symmetry; exact Lx]].
        unfold the_step, ipm_step. cbn [p_s]. apply (Forall_map2 _ fin fin); [apply fin_add_r| |].
        + apply (Forall_map2 _ fin fin); [apply fin_sub_r| |eapply List.Forall_impl; [apply pos_fin|exact Ps]]. rewrite Aci. apply all_fin_Forall. exact Q1.
        + rewrite AAi. apply mvec_fin; [exact Q2|]. exact Dx.
      - cbn [it_s ipm_trial] in T. unfold a in T. rewrite Eb, xhalves in T. apply (vstep_fin (ix_s E c) _ (b / 2 ^ k)); [etransitivity; [exact Lps|symmetry; exact Ls]|].
        eapply List.Forall_impl; [apply pos_fin|exact T]. }
    assert (Ez : it_z t = vstep (S := Xn) (ix_z E c) (the_az E P c) (p_z (the_step E P c))).
    { unfold t, ipm_trial_main. destruct (_ && _); reflexivity. }
    rewrite Ez. unfold the_az. apply (trial_z c (ipm_rhs E P c) (vsub (S := Xn) (ix_ci E c) (ix_s E c))); auto.
  - apply try_add_fin in T. unfold it_entry, fe_ipm in T. cbn [fe_cost] in T. rewrite Em in T. apply fin_cost in T; [|lra].
    split. { eapply List.Forall_impl; [|exact T]. auto. }
    right; right. split; [exact T|]. intros Z. pose proof (rhs_soc_len E P c ce cis Hc L3) as L5.
    destruct (amax_X c _ _ C' L5 L4) as (b' & Eb' & Hb' & K'). fold d' in Eb', K'. 
    pose proof (step_ok E P c _ _ Hs Hc L5 L4) as (_ & Lps' & _). fold d' in Lps'.
    unfold t. cbn [it_z ipm_trial]. eapply trial_z; [reflexivity|exact C'|exact L5|exact L4|exact Z|]. fold d'.
    unfold t, a' in T. rewrite Eb' in T. cbn [it_s ipm_trial] in T. apply (vstep_fin (ix_s E c) _ b'); [etransitivity; [exact Lps'|symmetry; exact Ls]|].
    eapply List.Forall_impl; [apply pos_fin|exact T].
  - apply leb_num in T. destruct T as [T _]. unfold ipm_kkt1_trial, kkt1_ipm in T. apply num_add in T. destruct T as [_ T].
    apply num_norm1 in T. apply (Forall_map2_r _ num num) in T; [|intros u v Q; apply num_sub in Q; apply Q|].
    2:{ unfold t. cbn [it_ci it_s ipm_trial]. rewrite (vstep_len _ _ _ mi) by auto. apply Hp. apply vstep_len; auto. }
    unfold t in *. cbn [it_s it_x it_z ipm_trial] in *. rewrite Eb in *. apply kept_step in K; auto; [|lra]. destruct K as [K1 K2]. split; [exact K1|].
    destruct K2 as [K2|(v & I & ->)].
    + right; right. split.
      * eapply List.Forall_impl; [|apply List.Forall_and; [exact K1|]]. 2:{ apply (Forall_map2 _ fin fin); [apply fin_add_r| |].
          - eapply List.Forall_impl; [apply pos_fin|exact Ps].
          - unfold vscale. rewrite List.Forall_map. eapply List.Forall_impl; [|exact K2]. intros v Fv. apply fin_mul_r; [reflexivity|exact Fv]. }
        intros v ([?| ->] & Fv); [auto|discriminate].
      * intros Z. unfold the_az. apply (trial_z c (ipm_rhs E P c) (vsub (S := Xn) (ix_ci E c) (ix_s E c))); auto.
    + right; left. eapply infinite_not_fin; [exact I|discriminate].
Qed.

(** What callbacks are shown, and what they are assumed to preserve. *)
Definition shown (i : info Xn) : Prop := s_pos (i_s i) (i_z i) /\ diverging (i_x i) = false /\ diverging (i_s i) = false.
Variable V : U -> Prop.
Hypothesis Hv : forall i u, shown i -> V u -> V (fst (run_callbacks cbs i u)).

Definition keeps {W} (cbs : list (callback Xn (W * filter Xn))) (V : W -> Prop) : Prop :=
  forall i u, shown i -> V (fst u) -> V (fst (fst (run_callbacks cbs i u))).
Definition restore_pos (rst : restorer (S := Xn) (U := U)) : Prop := forall cbs x s y z mu it uf clk status q,
  rst cbs x s y z mu it uf clk = Ok (status, q) -> pt_ok P (mkPt x s y z) -> List.Forall pos s -> pos mu ->
  keeps cbs V -> V (fst uf) -> V (fst (ir_uf q)) /\ (status = SUCCESS -> s_pos (ir_s q) (ir_z q)).
Hypothesis Hr : forall rst, restore = Some rst -> restore_ok P o rst.
Hypothesis Hrp : forall rst, restore = Some rst -> restore_pos rst.
Hypothesis Hf : pos (sc_f (ip_sc P)).
Hypothesis Ht : pos (o_tol o).

Definition p_inv (it0 : Z) (p0 : ipoint Xn) (st : istate E (U := U)) : Prop :=
  i_inv E P o restore it0 p0 st /\ sz_ok (is_x _ st) (is_s _ st) (is_z _ st) /\ pos (is_mu _ st) /\ tau_ok (is_tau _ st) /\ V (is_u _ st).

Lemma lift_run (cbs' : list (callback Xn U)) fr i (u : U) f :
  (forall i u, fst (fst (fr i u)) = fst u) ->
  fst (fst (run_callbacks (map (lift_cb (U := U)) cbs' ++ [fr]) i (u, f))) = fst (run_callbacks cbs' i u).
Proof.
  intros Hfr. revert u. induction cbs' as [|cb cbs' IH]; intros u; cbn [map app run_callbacks].
  - pose proof (Hfr i (u, f)) as Q. destruct (fr i (u, f)) as [v b]. destruct b; exact Q.
  - unfold lift_cb at 1. cbn [fst snd]. destruct (cb i u) as [v b]. destruct b; [reflexivity|apply IH].
Qed.
Lemma fr_keeps x s g mu init a i (u : U * filter Xn) : fst (fst (ipm_fr_callback P x s g mu init a i u)) = fst u.
Proof. unfold ipm_fr_callback. destruct (s_ltb Xn _ _); [|reflexivity]. destruct (try_add _ _ _ _ _). reflexivity. Qed.
Lemma the_callbacks_keep st a : keeps (the_callbacks E P cbs st a) V.
Proof.
  intros i [u f] Sh Vu. unfold the_callbacks. rewrite lift_run; [apply Hv; auto|]. intros. apply fr_keeps.
Qed.

Lemma end_pos fuel clk0 x s y z mu tau flt cnt it (u : U) ls clk r : 
  ipm_end E P o fuel (e_clock E clk0) x s y z (ip_f P x) (ip_ce P x) (ip_ci P x) mu tau flt cnt it u ls clk = Ok r ->
  pos mu -> tau_ok tau -> 
  let st := match r with Next st => st | Exit _ st => st end in
  is_x _ st = x /\ is_s _ st = s /\ is_z _ st = z /\ pos (is_mu _ st) /\ tau_ok (is_tau _ st) /\ is_u _ st = u /\ match r with Exit s _ => s <> CALLBACK_REQUESTED_STOP | _ => True end.
Proof.
  intros H (m & -> & Pm) Tau. apply end_shape in H. destruct H as (j & tau' & flt' & l & clk' & Li & H0 & H1 & _ & ->).
  pose proof (mu_k_X P o Hf Ht j m Pm) as Pk.
  assert (Tau' : tau_ok tau').
  { destruct j as [|j]; [destruct H0 as [-> _]; auto|]. destruct H1 as [-> _]; [discriminate|]. destruct Pk as (r & Er & Pr). rewrite Er. apply tau_of_X. exact Pr. }
  destruct l as [s'|]; cbn [finish is_x is_s is_z is_mu is_tau is_u]; do 6 (split; [auto|]); auto.
  apply limits_some in Li. destruct Li as [(-> & _)|(-> & _)]; discriminate.
Qed.

Lemma body_pos fuel clk0 it0 p0 st r : p_inv it0 p0 st -> ipm_body E P o cbs restore fuel (e_clock E clk0) st = Ok r ->
  match r with
  | Next st' => p_inv it0 p0 st'
  | Exit s st' => V (is_u _ st') /\ (s = CALLBACK_REQUESTED_STOP -> s_pos (is_s _ st') (is_z _ st'))
  end.
Proof.
  intros (I & Sz & Pm & Pt & Vu) H. pose proof (body_inv E P o cbs restore Hp Hs Hr _ _ _ _ _ _ I H) as BI. apply body_shape in H.
  assert (Sh : diverging (is_x _ st) = false -> diverging (is_s _ st) = false -> s_pos (is_s _ st) (is_z _ st) /\ shown (ipm_info E st)).
  { intros D1 D2. pose proof (diverging_fin _ D1). pose proof (diverging_fin _ D2). destruct Sz as [Q|[Q|Q]]; [congruence|congruence|]. split; [exact Q|]. split; [exact Q|]. auto. }
  assert (Cp : forall ls, diverging (is_x _ st) = false -> s_pos (is_s _ st) (is_z _ st) -> c_pos (ipm_ctx E st ls)).
  { intros ls Dx Q. split; [eapply ctx_ok; eauto|]. apply not_diverging in Dx. destruct I as (If & Ig & IH & Ice & IAe & Ici & IAi & _). cbn [ipm_ctx ix_ci ix_Ai ix_x ix_s ix_z ix_mu ix_tau]. do 5 (split; [auto|]). exact Dx. }
  destruct H as [Inf|Dv|u D1 D2 C|u ls D1 D2 C L|u ls rs t z r D1 D2 C L c Se Am Ft Cz En|u ls rs D1 D2 C L c Se Am Rs
    |u ls rs rst status q D1 D2 C L c Se Am Rs Rr Su|u ls rs rst status q r D1 D2 C L c Se Am Rs Rr Su En].
  - split; [exact Vu|discriminate].
  - split; [exact Vu|discriminate].
  - destruct (Sh D1 D2) as [S1 S2]. pose proof (Hv _ _ S2 Vu) as Vu'. rewrite C in Vu'. split; [exact Vu'|]. intros _. exact S1.
  - destruct (Sh D1 D2) as [S1 S2]. pose proof (Hv _ _ S2 Vu) as Vu'. rewrite C in Vu'. split; [exact Vu'|discriminate].
  - destruct (Sh D1 D2) as [S1 S2]. pose proof (Hv _ _ S2 Vu) as Vu'. rewrite C in Vu'. cbn [fst] in Vu'.
    pose proof (Cp ls D1 S1) as Cc. fold c in Cc. pose proof (proj1 Cc) as Hc. pose proof (the_step_ok E P Hs c Hc) as Hd.
    apply search_took0 in Se; auto. rewrite Ft in Se. destruct (took_pos c _ _ Cc Se) as [Q1 Q2].
    pose proof (took_move E P o restore Hp Hs _ _ _ _ _ _ _ I Hd L Am Se Cz) as ((A1 & A2 & A3) & Pk' & Mv).
    rewrite A1, A2, A3 in En. pose proof (end_pos _ _ _ _ _ _ _ _ _ _ _ _ _ _ _ En Pm Pt) as (X1 & X2 & X3 & X4 & X5 & X6 & X7).
    destruct r as [s' st'|st']; [split; [rewrite X6; exact Vu'|contradiction]|]. split; [apply BI|]. rewrite X1, X2, X3, X6.
    split; [|auto]. destruct Q2 as [Q2|[Q2|[Q2 Q3]]]; [left; auto|right; left; auto|]. right; right. split; [exact Q2|]. intros Z.
    destruct Pm as (m & Em & Pm). rewrite Em in Cz. destruct (clamp_zs_X m Pm (it_s t) (it_z t)) as (vs & Ev & Hvs); auto.
    { destruct (took_ok E P o _ _ _ _ _ _ _ Hp Hs Hc Hd Se) as [(_ & TS & _ & TZ & _) _]. etransitivity; [exact TZ|symmetry; exact TS]. }
    rewrite Ev in Cz. injection Cz as <-. apply Hvs; auto.
  - destruct (Sh D1 D2) as [S1 S2]. pose proof (Hv _ _ S2 Vu) as Vu'. rewrite C in Vu'. split; [exact Vu'|discriminate].
  - destruct (Sh D1 D2) as [S1 S2]. pose proof (Hv _ _ S2 Vu) as Vu'. rewrite C in Vu'.
    assert (Pk : pt_ok P (point_of E st)) by apply I. pose proof (Hr _ Rs _ _ _ _ _ _ _ _ _ _ _ Rr Pk) as (St & _).
    destruct (Hrp _ Rs _ _ _ _ _ _ _ _ _ _ _ Rr Pk (proj1 S1) Pm (the_callbacks_keep st _) Vu') as [Vq _]. split; [exact Vq|].
    intros ->. destruct St as [?|[?|?]]; discriminate.
  - destruct (Sh D1 D2) as [S1 S2]. pose proof (Hv _ _ S2 Vu) as Vu'. rewrite C in Vu'.
    assert (Pk : pt_ok P (point_of E st)) by apply I. pose proof (Hr _ Rs _ _ _ _ _ _ _ _ _ _ _ Rr Pk) as (St & _).
    destruct (Hrp _ Rs _ _ _ _ _ _ _ _ _ _ _ Rr Pk (proj1 S1) Pm (the_callbacks_keep st _) Vu') as [Vq Sq].
    assert (St' : status = SUCCESS) by (destruct St as [ -> | [ -> | -> ] ]; [auto|discriminate|discriminate]).
    pose proof (end_pos _ _ _ _ _ _ _ _ _ _ _ _ _ _ _ En Pm Pt) as (X1 & X2 & X3 & X4 & X5 & X6 & X7).
    destruct r as [s' st'|st']; [split; [rewrite X6; exact Vq|contradiction]|]. split; [apply BI|]. rewrite X1, X2, X3, X6. split; [|auto].
    right; right. apply Sq. exact St'.
Qed.

(** From a start that is positive if the functions are finite there. *)
Lemma ipm_pos fuel infr x s y z mu it0 (u : U) clk0 st fin : pt_ok P (mkPt x s y z) ->
  (all_fin (S := Xn) (ip_ce P x) = true -> all_fin (S := Xn) (ip_ci P x) = true -> s_pos s z /\ pos mu) -> V u ->
  ipm_from E P o cbs restore fuel infr x s y z mu it0 u clk0 = Ok (st, fin) ->
  V (is_u _ fin) /\ (st = CALLBACK_REQUESTED_STOP -> s_pos (is_s _ fin) (is_z _ fin)) /\ (st = SUCCESS -> sz_ok (is_x _ fin) (is_s _ fin) (is_z _ fin)).
Proof.
  intros Pk Ps Vu H. unfold ipm_from in H. apply oassert_ok in H. destruct H as [_ H].
  destruct (Nat.ltb _ _). { injection H as <- <-. split; [exact Vu|]. split; discriminate. }
  destruct (_ || _) eqn:NF. { injection H as <- <-. split; [exact Vu|]. split; discriminate. }
  repeat rewrite orb_false_iff in NF. rewrite !negb_false_iff in NF. destruct NF as ((((((_ & _) & _) & N1) & _) & N2) & _).
  cbn [ipm_init is_ce is_ci] in N1, N2. destruct (Ps N1 N2) as [S1 M1].
  apply (drive_ok _ _ _ (p_inv it0 (mkPt x s y z))) in H.
  - destruct H as (st1 & I & [(-> & -> & L)|(L & B)]).
    + split; [apply I|]. split; [discriminate|]. intros _. apply I.
    + pose proof (body_pos _ _ _ _ _ _ I B) as [K1 K2]. split; [exact K1|]. split; [exact K2|].
      pose proof (body_inv E P o cbs restore Hp Hs Hr _ _ _ _ _ _ (proj1 I) B) as (_ & N & _). intros Q. contradiction.
  - intros st1 st2 I _ B. pose proof (body_pos _ _ _ _ _ _ I B) as K. exact K.
  - split.
    + unfold i_inv. cbn [ipm_init is_f is_g is_H is_ce is_Ae is_ci is_Ai is_E is_it is_x is_s is_y is_z point_of].
      do 8 (split; [reflexivity|]). split; [exact Pk|]. split; [lia|]. split; [auto|]. exists O. split; [constructor|lia].
    + cbn [ipm_init is_x is_s is_z is_mu is_tau is_u]. split; [right; right; exact S1|]. split; [exact M1|]. split; [apply tau_min_X|exact Vu].
Qed.
End Pos.

(** ** Restoration *)
Section Restore.
Variables (E : env Xn) (o : options Xn).
Context {U : Type}.
Variable zh : Prop.
Hypothesis Hs : solve_ok E.
Hypothesis He : est_ok E.
Hypothesis Ht : pos (o_tol o).
(** The multiplier estimate is a number in every row. *)
Definition est_num : Prop := forall A r, List.Forall num (e_est E A r).
Hypothesis Hn : zh -> est_num.
Variable V : U -> Prop.

Lemma segment_fin (v : list XR) a k : List.Forall fin v -> List.Forall fin (segment (S := Xn) v a k).
Proof.
  intros F. unfold segment. apply List.Forall_forall. intros x I. rewrite List.Forall_forall in F. apply F.
  rewrite <- (firstn_skipn a v). apply in_or_app. right. rewrite <- (firstn_skipn k (skipn a v)). apply in_or_app. left. exact I.
Qed.
Lemma segment_Forall (Q : XR -> Prop) (v : list XR) a k : List.Forall Q v -> List.Forall Q (segment (S := Xn) v a k).
Proof.
  intros F. unfold segment. apply List.Forall_forall. intros x I. rewrite List.Forall_forall in F. apply F.
  rewrite <- (firstn_skipn a v). apply in_or_app. right. rewrite <- (firstn_skipn k (skipn a v)). apply in_or_app. left. exact I.
Qed.
Lemma unit_row_fin k i v : fin v -> List.Forall fin (unit_row (S := Xn) k i v).
Proof. intros F. unfold unit_row. rewrite List.Forall_map. apply List.Forall_forall. intros x _. destruct (Nat.eqb _ _); [exact F|reflexivity]. Qed.
Lemma repeat_Forall (Q : XR -> Prop) v k : Q v -> List.Forall Q (repeat v k).
Proof. intros H. apply List.Forall_forall. intros x I. apply repeat_spec in I. subst. exact H. Qed.
Lemma mat_fin_Forall A : mat_fin (S := Xn) A = true <-> List.Forall (List.Forall fin) A.
Proof.
  unfold mat_fin. rewrite forallb_forall, List.Forall_forall. split; intros H x I; specialize (H x I); apply all_fin_Forall; auto.
Qed.
Lemma fr_bounds_fin n k : mat_fin (S := Xn) (fr_bounds (S := Xn) n k) = true.
Proof.
  apply mat_fin_Forall. unfold fr_bounds. rewrite List.Forall_map. apply List.Forall_forall. intros i _. apply List.Forall_app. split.
  - apply repeat_Forall. reflexivity.
  - apply unit_row_fin. reflexivity.
Qed.
Lemma segment_app_l (a b : list XR) k : length a = k -> segment (S := Xn) (a ++ b) 0 k = a.
Proof. intros <-. unfold segment. cbn [skipn]. rewrite firstn_app, Nat.sub_diag, firstn_O, app_nil_r, firstn_all. reflexivity. Qed.

(** Finite problem functions at finite points give finite subproblem functions there. *)
Definition ineq_fin (P : iprob Xn) : Prop := forall x, length x = ip_n P -> List.Forall fin x ->
  all_fin (S := Xn) (ip_ci P x) = true /\ mat_fin (S := Xn) (ip_Ai P x) = true.
Lemma fr_ineq_fin (P : iprob Xn) xr zeta : ineq_fin P -> ineq_fin (fr_ipm_prob P xr zeta).
Proof.
  intros H xp L F. unfold fr_ipm_prob in *. cbn [ip_n ip_ci ip_Ai] in *.
  destruct (H (segment (S := Xn) xp 0 (ip_n P))) as [H1 H2]; [apply (segment_len (S := Xn)); cbn in L |- *; lia|apply segment_fin; auto|]. split.
  - apply all_fin_Forall. unfold fr_ci. apply List.Forall_app. split; [|apply segment_fin; auto].
    apply (Forall_map2 _ fin fin); [apply fin_add_r| |apply segment_fin; auto].
    apply (Forall_map2 _ fin fin); [apply fin_sub_r| |apply segment_fin; auto]. apply all_fin_Forall. exact H1.
  - apply mat_fin_Forall. unfold fr_Ai. apply List.Forall_app. split; [|apply mat_fin_Forall; apply fr_bounds_fin].
    rewrite List.Forall_map. apply List.Forall_forall. intros [i r] I. cbn [fst snd]. apply in_combine_r in I.
    apply mat_fin_Forall in H2. rewrite List.Forall_forall in H2. apply List.Forall_app. split; [apply H2; exact I|].
    apply List.Forall_app. split; [apply repeat_Forall; reflexivity|]. apply List.Forall_app. split; apply unit_row_fin; reflexivity.
Qed.
Lemma fr_sqp_ineq_fin (P : sprob Xn) xr zeta : ineq_fin (fr_sqp_prob P xr zeta).
Proof.
  intros xp L F. unfold fr_sqp_prob in *. cbn [ip_n ip_ci ip_Ai] in *. split; [apply all_fin_Forall; apply segment_fin; auto|apply fr_bounds_fin].
Qed.

(** The starting point of the subproblem is positive once its constraint functions are finite there. *)
Lemma fr_ce_fin n me (ce : list XR -> list XR) xp : length (ce (segment (S := Xn) xp 0 n)) = me -> (n + 2 * me <= length xp)%nat ->
  all_fin (S := Xn) (fr_ce (S := Xn) n me ce xp) = true -> List.Forall fin (ce (segment (S := Xn) xp 0 n)).
Proof.
  intros L1 L2 H. apply all_fin_Forall in H. unfold fr_ce in H.
  pose proof (segment_len (S := Xn) xp n me ltac:(cbn in *; lia)) as L3. pose proof (segment_len (S := Xn) xp (n + me) me ltac:(cbn in *; lia)) as L4.
  apply (Forall_map2_l _ fin fin) in H; [|intros u v Q; apply fin_add in Q; apply Q|].
  - apply (Forall_map2_l _ fin fin) in H; [exact H|intros u v Q; apply fin_sub in Q; apply Q|]. etransitivity; [exact L1|symmetry; exact L3].
  - etransitivity; [|symmetry; exact L4]. apply (vsub_len (S := Xn)); auto.
Qed.

Lemma fr_ipm_start_pos (P : iprob Xn) x s y z mu frx frs frz frmu : iprob_ok P -> pt_ok P (mkPt x s y z) -> List.Forall pos s -> pos mu ->
  fr_ipm_start (S := Xn) P x s mu = (frx, frs, frz, frmu) -> let Q := fr_ipm_prob P x (s_sqrt Xn frmu) in
  all_fin (S := Xn) (ip_ce Q frx) = true -> all_fin (S := Xn) (ip_ci Q frx) = true -> s_pos zh frs frz /\ pos frmu.
Proof.
  intros Hp (LX & LS & LY & LZ) Ps (m & -> & Pm) H Q. cbn [pt_x pt_s pt_y pt_z] in *. unfold Q. unfold fr_ipm_prob. cbn [ip_ce ip_ci]. clear Q.
  unfold fr_ipm_start in H. cbv zeta in H. destruct (Hp _ LX) as (Hg & Hce & Hci & _).
  set (mu' := smax (S := Xn) _ _) in H.
  destruct (compute_p_n _ _ _) as [pe ne] eqn:Q1. destruct (compute_p_n (vsub (S := Xn) _ _) _ _) as [pi ni] eqn:Q2. injection H as <- <- <- <-.
  pose proof (compute_p_n_len _ _ _ _ _ Q1) as [P1 P1']. pose proof (compute_p_n_len _ _ _ _ _ Q2) as [P2 P2']. rewrite Hce in P1, P1'.
  rewrite (vsub_len (S := Xn) _ _ (ip_mi P)) in P2, P2' by auto.
  set (frx := x ++ pe ++ ne ++ pi ++ ni). assert (Lf : length frx = (ip_n P + (2 * ip_me P + 2 * ip_mi P))%nat) by (unfold frx; rewrite !app_length; cbn in *; lia).
  assert (Sx : segment (S := Xn) frx 0 (ip_n P) = x) by (apply segment_app_l; exact LX).
  intros F1 F2. change (all_fin (S := Xn) (fr_ce (S := Xn) (ip_n P) (ip_me P) (ip_ce P) frx) = true) in F1.
  change (all_fin (S := Xn) (fr_ci (S := Xn) (ip_n P) (ip_me P) (ip_mi P) (ip_ci P) frx) = true) in F2.
  assert (Hce' : length (ip_ce P (segment (S := Xn) frx 0 (ip_n P))) = ip_me P) by (rewrite Sx; exact Hce).
  apply fr_ce_fin in F1; [|exact Hce'|cbn in *; lia].
  assert (F1' : List.Forall fin (ip_ce P x)) by (rewrite <- Sx; exact F1). clear F1. rename F1' into F1.
  assert (F3 : List.Forall fin (ip_ci P x)).
  { assert (Hci' : length (ip_ci P (segment (S := Xn) frx 0 (ip_n P))) = ip_mi P) by (rewrite Sx; exact Hci).
    apply all_fin_Forall in F2. unfold fr_ci in F2. apply List.Forall_app in F2. destruct F2 as [F2 _].
    pose proof (segment_len (S := Xn) frx (ip_n P + 2 * ip_me P) (ip_mi P) ltac:(cbn in *; lia)) as L3.
    pose proof (segment_len (S := Xn) frx (ip_n P + 2 * ip_me P + ip_mi P) (ip_mi P) ltac:(cbn in *; lia)) as L4.
    apply (Forall_map2_l _ fin fin) in F2; [|intros u v Qq; apply fin_add in Qq; apply Qq|].
    - apply (Forall_map2_l _ fin fin) in F2; [rewrite <- Sx; exact F2|intros u v Qq; apply fin_sub in Qq; apply Qq|]. etransitivity; [exact Hci'|symmetry; exact L3].
    - etransitivity; [|symmetry; exact L4]. apply (vsub_len (S := Xn)); auto. }
  assert (F4 : List.Forall fin (vsub (S := Xn) (ip_ci P x) s)).
  { apply (Forall_map2 _ fin fin); [apply fin_sub_r|exact F3|eapply List.Forall_impl; [apply pos_fin|exact Ps]]. }
  assert (Em : exists m', mu' = Fin m' /\ 0 < m').
  { unfold mu'. destruct (smax_X m _ (norminf_fin _ F1)) as (m1 & E1 & L1). destruct (smax_X m1 _ (norminf_fin _ F4)) as (m2 & E2 & L2).
    exists m2. split; [|lra]. etransitivity; [|exact E2]. f_equal. exact E1. }
  destruct Em as (m' & Em & Pm'). rewrite Em in *. change (fr_rho (S := Xn)) with (Fin 1000) in *.
  pose proof (compute_p_n_X _ 1000 m' ltac:(lra) Pm' F1) as [K1 K2]. rewrite Q1 in K1, K2. cbn [fst snd] in K1, K2.
  pose proof (compute_p_n_X _ 1000 m' ltac:(lra) Pm' F4) as [K3 K4]. rewrite Q2 in K3, K4. cbn [fst snd] in K3, K4.
  split; [|apply pos_Fin; exact Pm']. split.
  - apply List.Forall_app. split; [exact Ps|]. apply repeat_Forall. apply pos_Fin. lra.
  - intros _. repeat (apply List.Forall_app; split); apply recip_pos; auto.
Qed.

Lemma inner_keeps (W : U -> Prop) (cbs : list (callback Xn (U * filter Xn))) : keeps zh cbs W ->
  forall i u, shown zh i -> W (fst u) -> W (fst (fst (run_callbacks cbs i u))).
Proof. intros H. exact H. Qed.

Lemma ipm_restore_pos fuel (P : iprob Xn) : iprob_ok P -> (zh -> o_feasible o = false \/ ineq_fin P) -> restore_pos P zh V (ipm_restore (U := U) E o fuel P).
Proof.
  intros Hp Hz cbs x s y z mu it uf clk st q H Pk Ps Pm Kp Vu.
  apply ipm_restore_inner in H. destruct H as (frx & frs & frz & frmu & s1 & fin0 & Hst & R & -> & Hx & Hsl & Hit & Huf & Hclk & Hes & Hno).
  pose proof (fr_ipm_start_ok _ _ _ _ _ _ _ _ _ _ Hp Pk Hst (s_sqrt Xn frmu)) as Fk.
  pose proof (fr_ipm_start_pos _ _ _ _ _ _ _ _ _ _ Hp Pk Ps Pm Hst) as Fp. pose proof Pk as (LX & LS & LY & LZ). cbn [pt_x pt_s pt_y pt_z] in *.
  assert (Hok : iprob_ok (fr_ipm_prob P x (s_sqrt Xn frmu))) by (apply fr_ipm_ok; auto).
  pose proof R as R'. apply ipm_meaning in R'; auto; [|discriminate]. destruct R' as (_ & _ & _ & _ & Pc).
  apply (ipm_pos E _ o cbs None zh) with (V := fun w => V (fst w)) in R; auto; try discriminate.
  2:{ intros Z. destruct (Hz Z) as [Q|Q]; [auto|right]. apply fr_ineq_fin. exact Q. }
  2:{ unfold fr_ipm_prob. cbn [ip_sc sc_f]. apply pos_Fin. lra. }
  destruct R as (R1 & R2 & _). rewrite Huf. split; [exact R1|]. intros Su. apply fr_status_success in Su. destruct (R2 Su) as [R3 R4].
  specialize (Hes Su). specialize (Pc Su). destruct Pc as (PX & PS & _). cbn [point_of pt_x pt_s fr_ipm_prob ip_n ip_mi] in PX, PS.
  assert (Pq : List.Forall pos (ir_s q)) by (rewrite Hsl; apply segment_Forall; exact R3).
  split; [exact Pq|]. intros Z. unfold estimate_ipm in Hes. apply obind_ok in Hes. destruct Hes as (zz & Cz & Hes). injection Hes as _ <-.
  destruct Pm as (m & -> & Pm). pose proof (clamp_zs_len _ _ _ _ Cz) as [_ Lz].
  match type of Cz with clamp_zs _ ?s0 ?z0 = _ => destruct (clamp_zs_X m Pm s0 z0) as (vs & Ev & Hvs) end; auto.
  { eapply List.Forall_impl; [|exact Pq]. auto. }
  rewrite Ev in Cz. injection Cz as <-. apply Hvs; auto.
  apply (segment_Forall num). apply (Hn Z).
Qed.

Lemma ipm_solve_pos fuel (P : iprob Xn) (cbs : list (callback Xn U)) x (u : U) clk0 st fin : iprob_ok P ->
  (zh -> o_feasible o = false \/ ineq_fin P) -> pos (sc_f (ip_sc P)) -> length x = ip_n P ->
  (forall i u, shown zh i -> V u -> V (fst (run_callbacks cbs i u))) -> V u ->
  ipm_solve E o fuel P cbs x u clk0 = Ok (st, fin) -> V (is_u _ fin) /\ (st = SUCCESS -> sz_ok zh (is_x _ fin) (is_s _ fin) (is_z _ fin)).
Proof.
  intros Hp Hz Hf Lx Hv Vu H. unfold ipm_solve, ipm in H.
  apply (ipm_pos E P o cbs _ zh) with (V := V) in H; auto.
  - destruct H as (H1 & _ & H3). auto.
  - intros rst Q. injection Q as <-. apply ipm_restore_ok; auto.
  - intros rst Q. injection Q as <-. apply ipm_restore_pos; auto.
  - unfold pt_ok. cbn [pt_x pt_s pt_y pt_z]. rewrite !repeat_length. auto.
  - intros _ _. split.
    + split; [|intros _]; apply repeat_Forall; apply pos_Fin; lra.
    + destruct Hf as (f & -> & Pf). rewrite xlit. change (IZR (10 ^ Z.of_nat 1)) with 10. rewrite xmul. apply pos_Fin. lra.
Qed.
End Restore.
