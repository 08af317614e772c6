(** Proofs for C58 and C59: direct transcription and direct collocation. *)
From Coq Require Import Reals List Bool Arith Lia Lra.
From Verif Require Import Base ExprModel MathSpec VarModel ExprReal VarSpec HistProofs ProblemModel ProblemSpec ProblemProofs ProblemProofs4 OcpModel OcpSpec OcpProofs OcpRk4 OcpLoop OcpBody OcpMake OcpCtor.
Import ListNotations.
Local Open Scope nat_scope.

Lemma shown_iff N X U DT sp rho xs us hs : shown N X U DT sp rho xs us hs <-> shows_inputs (sp_se sp) rho (mkOcp N X U DT) us hs /\ shows_states (sp_se sp) rho (mkOcp N X U DT) xs.
Proof. unfold shown, shows_inputs, shows_states. cbn. split; [intros H; split; intros k Hk; destruct (H k Hk) as (A & B & C); auto|]. intros [H1 H2] k Hk. destruct (H1 k Hk). split; [apply H2, Hk|]. auto. Qed.

Section Cons.
Context (ns ni : nat) (f : dyn) (F : dynamics) (C : computes ns ni f F) (dt : R) (N : nat) (tm : timestep).

(** A method that adds constraints, from the body of its loop. *)
Lemma ocp_with (sp : spec) (body : vmat -> vmat -> vmat -> nat -> nat -> G nat) (ok : R -> Prop) (St : (cmp -> R -> R -> Prop) -> R -> list R -> list R -> list R -> list R -> R -> Prop) :
  (forall X U DT sp i time, mats ns ni N X U DT sp -> i < N -> time < len sp -> T sp (body X U DT i time) (fun sp' k => exists es, wider sp sp' es [] /\ length es = ns /\ k < len sp' /\
    forall rho xs us hs tv, shown N X U DT sp rho xs us hs -> has (sp_se sp) rho time tv -> has (sp_se sp') rho k (tv + hs i)%R /\
      (ok (hs i) -> (forall Pr, List.Forall (rel_sat Pr rho) es <-> St Pr tv (xs i) (xs (i + 1)) (us i) (us (i + 1)) (hs i))))) ->
  T sp (gdo U <- gdecision ni (N + 1); gdo DT <- make_dt tm dt N; gdo X <- gdecision ns (N + 1);
        gdo _ <- (gdo time <- gvar (HConst (S := R_ops) 0%R); gdo _ <- gfor N 0 (body X U DT) time; gret tt); gret (mkOcp N X U DT))
    (fun sp' o => exists ds es, extends sp sp' ds es [] /\ length ds = ni * (N + 1) + dt_decisions tm N + ns * (N + 1) /\ length es = N * ns /\
      matrices sp' o ns ni N /\ total sp' o tm dt N /\ free sp' o ns ni tm dt N ds /\
      shows_inputs (sp_se sp') (se_val (sp_se sp')) o (fun _ => repeat 0%R ni) (fun _ => dt) /\ shows_states (sp_se sp') (se_val (sp_se sp')) o (fun _ => repeat 0%R ns) /\
      forall rho xs us hs, shows_inputs (sp_se sp') rho o us hs -> shows_states (sp_se sp') rho o xs -> (forall k, k < N -> ok (hs k)) ->
        (forall Pr, List.Forall (rel_sat Pr rho) es <-> forall k, k < N -> St Pr (time_at hs k) (xs k) (xs (k + 1)) (us k) (us (k + 1)) (hs k))).
Proof.
  intros HB. apply (T_layout sp ns ni dt N tm true). intros X U DT s0 L _. pose proof (layout_mats _ _ _ _ _ _ _ _ _ _ _ L) as HM.
  eapply T_bind.
  { eapply T_bind; [apply T_const|]. intros s1 t (M1 & Lt & Et). pose proof (more_wider _ _ M1) as W1. pose proof (mats_wider ns ni N X U DT _ _ _ _ W1 HM) as HM1.
    eapply T_bind; [apply (T_steps ns ni N X U DT ok St (body X U DT) (HB X U DT) N 0 s1 t HM1); [lia|exact Lt]|]. intros s2 k (es & W2 & Les & Lk & Ees). apply T_ret.
    instantiate (1 := fun s _ => exists es, wider s0 s es [] /\ length es = N * ns /\ forall rho xs us hs, shown N X U DT s0 rho xs us hs -> (forall k, k < N -> ok (hs k)) ->
        (forall Pr, List.Forall (rel_sat Pr rho) es <-> forall k, k < N -> St Pr (time_at hs k) (xs k) (xs (k + 1)) (us k) (us (k + 1)) (hs k))).
    exists es. split; [exact (wider_trans _ _ _ _ _ _ _ W1 W2)|]. split; [exact Les|]. intros rho xs us hs Hs Hok Pr.
    rewrite (Ees rho xs us hs 0%R (proj1 (shown_wider ns ni N X U DT _ _ _ _ _ _ _ _ W1 HM) Hs) (proj2 (Et rho 0%R) eq_refl) Hok).
    split; intros H k0 Hk; specialize (H k0 Hk); rewrite Rplus_0_l in *; exact H. }
  intros s _ (es & W & Les & Ees). apply T_ret. pose proof (mats_wider ns ni N X U DT _ _ _ _ W HM) as HM2.
  assert (SH : forall rho xs us hs, shown N X U DT s0 rho xs us hs <-> shown N X U DT s rho xs us hs) by (intros; apply (shown_wider ns ni N X U DT _ _ _ _ _ _ _ _ W HM)).
  exists (new_decs sp ns ni N tm true), es. destruct (new_decs_nodup sp ns ni dt N tm true X U DT s0 L) as [ND NI]. dL L. destruct W as [Wx Wn Wv Wd Wg We Wi].
  split; [|split; [rewrite (new_decs_len sp ns ni dt N tm true X U DT s0 L); reflexivity|split; [exact Les|]]].
  { constructor.
    - destruct Lexp as [l1 El1]. destruct Wx as [l2 El2]. exists (l1 ++ l2). rewrite El2, El1, app_assoc. reflexivity.
    - intros v Hv. rewrite Wv. apply Lv, Hv.
    - rewrite Wd. exact Ldec.
    - rewrite Wn. auto.
    - rewrite Wg. exact Lg.
    - rewrite We, Leq. reflexivity.
    - rewrite Wi, Lin. reflexivity. }
  split; [split; [reflexivity|exact HM2]|].
  split; [intros rho; destruct (lay_points sp ns ni dt N tm true X U DT s0 L rho) as (xs & us & hs & A & B & D); exists xs, us, hs; assert (K : shown N X U DT s rho xs us hs) by (apply SH, shown_iff; auto); apply shown_iff in K; tauto|].
  split.
  { intros xs us hs Hx Hu Hh. set (rho := put_x sp ns ni N tm xs (put_u sp ni N us (put_h sp ni N tm hs (se_val (sp_se s0))))). exists rho. split.
    - intros v Hv. rewrite Wv. apply (put_moves_all sp ns ni dt N tm true X U DT s0 L xs us hs eq_refl v Hv).
    - assert (K : shown N X U DT s rho xs us hs) by (apply SH, shown_iff; exact (put_shows_all sp ns ni dt N tm true X U DT s0 L xs us hs _ Hu Hx Hh)). apply shown_iff in K. exact K. }
  pose proof (lay_start sp ns ni dt N tm true X U DT s0 L) as St0. apply shown_iff in St0. apply SH in St0. rewrite <- Wv in St0. apply shown_iff in St0.
  split; [exact (proj1 St0)|]. split; [exact (proj2 St0)|].
  intros rho xs us hs H1 H2 Hok Pr. apply Ees; [|exact Hok]. apply SH, shown_iff. auto.
Qed.

Lemma transcription_makes_q ty sp g : sync g sp -> exists o g' sp' ds es, did (ocp_make ns ni dt N f ty tm DIRECT_TRANSCRIPTION) g sp o g' sp' /\
  extends sp sp' ds es [] /\ length ds = ni * (N + 1) + dt_decisions tm N + ns * (N + 1) /\ length es = N * ns /\
  matrices sp' o ns ni N /\ total sp' o tm dt N /\ free sp' o ns ni tm dt N ds /\
  shows_inputs (sp_se sp') (se_val (sp_se sp')) o (fun _ => repeat 0%R ni) (fun _ => dt) /\ shows_states (sp_se sp') (se_val (sp_se sp')) o (fun _ => repeat 0%R ns) /\
  forall rho xs us hs, shows_inputs (sp_se sp') rho o us hs -> shows_states (sp_se sp') rho o xs -> 
    (forall Pr, List.Forall (rel_sat Pr rho) es <-> forall k, k < N -> next_state_upto (Pr CEq) ty F (time_at hs k) (xs k) (us k) (hs k) (xs (k + 1))).
Proof.
  intros Sy. destruct (ocp_with sp _ (fun _ => True) (fun Pr t x x' u _ h => next_state_upto (Pr CEq) ty F t x u h x') (fun X U DT s i t => transcription_body ns ni f F C N X U DT ty s i t) g Sy)
    as (o & g' & sp' & D & ds & es & E & L1 & L2 & M & To & Fr & S1 & S2 & K).
  exists o, g', sp', ds, es. split; [exact D|]. do 7 (split; [assumption|]). split; [exact S2|]. intros rho xs us hs H1 H2. apply (K rho xs us hs H1 H2). auto.
Qed.
Lemma next_upto_eq ty t x u h x' : next_state_upto eq ty F t x u h x' <-> next_state ty F t x u h x'.
Proof. unfold next_state_upto. split; [intros (w & H & Q); apply F2_eq in Q; subst; exact H|]. intros H. exists x'. split; [exact H|apply F2_eq; reflexivity]. Qed.
Lemma transcription_makes ty sp g : sync g sp -> exists o g' sp' ds es, did (ocp_make ns ni dt N f ty tm DIRECT_TRANSCRIPTION) g sp o g' sp' /\
  extends sp sp' ds es [] /\ length ds = ni * (N + 1) + dt_decisions tm N + ns * (N + 1) /\ length es = N * ns /\
  matrices sp' o ns ni N /\ total sp' o tm dt N /\ free sp' o ns ni tm dt N ds /\
  shows_inputs (sp_se sp') (se_val (sp_se sp')) o (fun _ => repeat 0%R ni) (fun _ => dt) /\ shows_states (sp_se sp') (se_val (sp_se sp')) o (fun _ => repeat 0%R ns) /\
  forall rho xs us hs, shows_inputs (sp_se sp') rho o us hs -> shows_states (sp_se sp') rho o xs -> 
    (List.Forall (rel_holds rho) es <-> forall k, k < N -> next_state ty F (time_at hs k) (xs k) (us k) (hs k) (xs (k + 1))).
Proof.
  intros Sy. destruct (transcription_makes_q ty sp g Sy) as (o & g' & sp' & ds & es & D & E & L1 & L2 & M & To & Fr & S1 & S2 & K).
  exists o, g', sp', ds, es. split; [exact D|]. do 7 (split; [assumption|]). split; [exact S2|]. intros rho xs us hs H1 H2. change (rel_holds rho) with (rel_sat cmp_holds rho). rewrite (K rho xs us hs H1 H2 cmp_holds).
  split; intros H k Hk; apply next_upto_eq, (H k Hk).
Qed.
Lemma collocation_makes_q sp g : sync g sp -> exists o g' sp' ds es, did (ocp_make ns ni dt N f EXPLICIT_ODE tm DIRECT_COLLOCATION) g sp o g' sp' /\
  extends sp sp' ds es [] /\ length ds = ni * (N + 1) + dt_decisions tm N + ns * (N + 1) /\ length es = N * ns /\
  matrices sp' o ns ni N /\ total sp' o tm dt N /\ free sp' o ns ni tm dt N ds /\
  shows_inputs (sp_se sp') (se_val (sp_se sp')) o (fun _ => repeat 0%R ni) (fun _ => dt) /\ shows_states (sp_se sp') (se_val (sp_se sp')) o (fun _ => repeat 0%R ns) /\
  forall rho xs us hs, shows_inputs (sp_se sp') rho o us hs -> shows_states (sp_se sp') rho o xs -> (forall k, k < N -> hs k <> 0%R) ->
    (forall Pr, List.Forall (rel_sat Pr rho) es <-> forall k, k < N -> hermite_simpson_upto (Pr CEq) F (time_at hs k) (xs k) (xs (k + 1)) (us k) (us (k + 1)) (hs k)).
Proof.
  intros Sy. destruct (ocp_with sp _ (fun h => h <> 0%R) (fun Pr => hermite_simpson_upto (Pr CEq) F) (fun X U DT s i t => collocation_body ns ni f F C N X U DT s i t) g Sy)
    as (o & g' & sp' & D & ds & es & E & L1 & L2 & M & To & Fr & S1 & S2 & K).
  exists o, g', sp', ds, es. split; [exact D|]. do 7 (split; [assumption|]). split; [exact S2|exact K].
Qed.
Lemma hermite_upto_eq t x x' u u' h : hermite_simpson_upto eq F t x x' u u' h <-> hermite_simpson F t x x' u u' h.
Proof.
  unfold hermite_simpson_upto, hermite_simpson. split.
  - intros (k & k' & ps & m & H1 & H2 & P1 & P2 & P3 & P4 & H & Q). apply F2_eq in Q. subst m. exists k, k', ps. repeat (split; [assumption|]). exact H.
  - intros (k & k' & ps & H1 & H2 & P1 & P2 & P3 & P4 & H). exists k, k', ps, (map (fun p => cub' p (h / 2)) ps). repeat (split; [assumption|]). apply F2_eq. reflexivity.
Qed.
Lemma collocation_makes sp g : sync g sp -> exists o g' sp' ds es, did (ocp_make ns ni dt N f EXPLICIT_ODE tm DIRECT_COLLOCATION) g sp o g' sp' /\
  extends sp sp' ds es [] /\ length ds = ni * (N + 1) + dt_decisions tm N + ns * (N + 1) /\ length es = N * ns /\
  matrices sp' o ns ni N /\ total sp' o tm dt N /\ free sp' o ns ni tm dt N ds /\
  shows_inputs (sp_se sp') (se_val (sp_se sp')) o (fun _ => repeat 0%R ni) (fun _ => dt) /\ shows_states (sp_se sp') (se_val (sp_se sp')) o (fun _ => repeat 0%R ns) /\
  forall rho xs us hs, shows_inputs (sp_se sp') rho o us hs -> shows_states (sp_se sp') rho o xs -> (forall k, k < N -> hs k <> 0%R) ->
    (List.Forall (rel_holds rho) es <-> forall k, k < N -> hermite_simpson F (time_at hs k) (xs k) (xs (k + 1)) (us k) (us (k + 1)) (hs k)).
Proof.
  intros Sy. destruct (collocation_makes_q sp g Sy) as (o & g' & sp' & ds & es & D & E & L1 & L2 & M & To & Fr & S1 & S2 & K).
  exists o, g', sp', ds, es. split; [exact D|]. do 7 (split; [assumption|]). split; [exact S2|]. intros rho xs us hs H1 H2 Hz. change (rel_holds rho) with (rel_sat cmp_holds rho). rewrite (K rho xs us hs H1 H2 Hz cmp_holds).
  split; intros H k Hk; apply hermite_upto_eq, (H k Hk).
Qed.
End Cons.

Lemma collocation_discrete ns ni dt N f tm sp g : sync g sp -> ocp_make ns ni dt N f DISCRETE tm DIRECT_COLLOCATION g = AssertFail.
Proof.
  intros Sy. unfold ocp_make.
  assert (H : T sp (gdo U <- gdecision ni (N + 1); gdo DT <- make_dt tm dt N; gdo X <- gdecision ns (N + 1); gret (X, U, DT)) (fun _ _ => True)).
  { apply (T_layout sp ns ni dt N tm true). intros. apply T_ret. exact I. }
  destruct (H g Sy) as (o & g' & sp' & (D & _) & _).
  unfold gbind in *. destruct (gdecision ni (N + 1) g) as [[U g1]| | |]; cbn [obind] in *; try discriminate.
  destruct (make_dt tm dt N g1) as [[DT g2]| | |]; cbn [obind] in *; try discriminate.
  destruct (gdecision ns (N + 1) g2) as [[X g3]| | |]; cbn [obind] in *; try discriminate. reflexivity.
Qed.
