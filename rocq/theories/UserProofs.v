(** What happens to the state of the user's callbacks in the SQP and interior-point loops (for C36). *)
From Coq Require Import ZArith List Bool Lia.
From Verif Require Import Base ExprModel NumModel UtilModel KktModel FilterModel FilterProofs ExitModel SolverModel SolverSpec SolverProofs
  NewtonModel NewtonProofs SqpModel SqpSpec SqpProofs IpmModel IpmShape IpmSpec IpmProofs RestoreModel RestoreProofs.
Import ListNotations.

Lemma status_eq_dec (a b : status) : {a = b} + {a <> b}.
Proof. decide equality. Qed.

Section Lift.
Context {S : nops} {U : Type}.
Lemma lift_run_gen (cbs : list (callback S U)) fr i (u : U) f : (forall i u, fst (fst (fr i u)) = fst u) ->
  fst (fst (run_callbacks (map (lift_cb (U := U)) cbs ++ [fr]) i (u, f))) = fst (run_callbacks cbs i u).
Proof.
  intros Hfr. revert u. induction cbs as [|cb cbs IH]; intros u; cbn [map app run_callbacks].
  - pose proof (Hfr i (u, f)) as Q. destruct (fr i (u, f)) as [v b]. destruct b; exact Q.
  - unfold lift_cb at 1. cbn [fst snd]. destruct (cb i u) as [v b]. destruct b; [reflexivity|apply IH].
Qed.
Lemma ipm_fr_user (P : iprob S) x s g mu init a i (u : U * filter S) : fst (fst (ipm_fr_callback P x s g mu init a i u)) = fst u.
Proof. unfold ipm_fr_callback. destruct (s_ltb S _ _); [|reflexivity]. destruct (try_add _ _ _ _ _). reflexivity. Qed.
Lemma sqp_fr_user (P : sprob S) x g init a i (u : U * filter S) : fst (fst (sqp_fr_callback P x g init a i u)) = fst u.
Proof. unfold sqp_fr_callback. destruct (s_ltb S _ _); [|reflexivity]. destruct (try_add _ _ _ _ _). reflexivity. Qed.
(** A predicate on the user's state kept by every round shown an info satisfying Q. *)
Definition keeping {W} (Q : info S -> Prop) (V : W -> Prop) (cbs : list (callback S W)) : Prop := forall i u, Q i -> V u -> V (fst (run_callbacks cbs i u)).
End Lift.

Section Ipm.
Context {S : nops}.
Variables (E : env S) (P : iprob S) (o : options S).
Context {U : Type}.
Variable cbs : list (callback S U).
Variable restore : option (restorer (S := S) (U := U)).
Hypothesis Hp : iprob_ok P.
Hypothesis Hs : solve_ok E.
Hypothesis Hr : forall rst, restore = Some rst -> restore_ok P o rst.
(** V holds while the loop runs, VE once a callback stopped it; Qf holds of what callbacks are shown in restoration. *)
Variables (V VE : U -> Prop) (Qf : info S -> Prop).
Definition main_info (i : info S) : Prop := length (i_x i) = ip_n P.
Hypothesis Hgo : forall i u u', main_info i -> V u -> run_callbacks cbs i u = (u', false) -> V u'.
Hypothesis Hstop : forall i u u', main_info i -> V u -> run_callbacks cbs i u = (u', true) -> VE u'.
Hypothesis Hfr : keeping Qf V cbs.
Definition restore_user (rst : restorer (S := S) (U := U)) : Prop := forall cbs x s y z mu it uf clk status q,
  rst cbs x s y z mu it uf clk = Ok (status, q) -> pt_ok P (mkPt x s y z) -> keeping Qf (fun w => V (fst w)) cbs -> V (fst uf) -> V (fst (ir_uf q)).
Hypothesis Hru : forall rst, restore = Some rst -> restore_user rst.

Lemma the_callbacks_user st a : keeping Qf (fun w => V (fst w)) (the_callbacks E P cbs st a).
Proof. intros i [u f] Sh Vu. unfold the_callbacks. cbv beta in *. erewrite (lift_run_gen cbs); [apply Hfr; auto|]. intros. apply ipm_fr_user. Qed.

Lemma end_user fuel start x s y z f ce ci mu tau flt cnt it (u : U) ls clk r : 
  ipm_end E P o fuel start x s y z f ce ci mu tau flt cnt it u ls clk = Ok r ->
  match r with Next st => is_u _ st = u | Exit s st => is_u _ st = u /\ s <> CALLBACK_REQUESTED_STOP end.
Proof.
  intros H. apply end_shape in H. destruct H as (j & tau' & flt' & l & clk' & Li & _ & _ & _ & ->).
  destruct l as [s'|]; cbn [finish is_u]; [|reflexivity]. split; [reflexivity|].
  apply limits_some in Li. destruct Li as [(-> & _)|(-> & _)]; discriminate.
Qed.

Definition v_end (s : status) (u : U) : Prop := (s = CALLBACK_REQUESTED_STOP -> VE u) /\ (s <> CALLBACK_REQUESTED_STOP -> V u).
Lemma body_user fuel clk0 it0 p0 st r : i_inv E P o restore it0 p0 st -> V (is_u _ st) -> ipm_body E P o cbs restore fuel (e_clock E clk0) st = Ok r ->
  match r with
  | Next st' => i_inv E P o restore it0 p0 st' /\ V (is_u _ st')
  | Exit s st' => v_end s (is_u _ st')
  end.
Proof.
  intros I Vu H. pose proof (body_inv E P o cbs restore Hp Hs Hr _ _ _ _ _ _ I H) as BI. apply body_shape in H.
  assert (Pk : pt_ok P (point_of E st)) by apply I. assert (Mi : main_info (ipm_info E st)) by apply Pk.
  destruct H as [Inf|Dv|u D1 D2 C|u ls D1 D2 C L|u ls rs t z r D1 D2 C L c Se Am Ft Cz En|u ls rs D1 D2 C L c Se Am Rs
    |u ls rs rst status q D1 D2 C L c Se Am Rs Rr Su|u ls rs rst status q r D1 D2 C L c Se Am Rs Rr Su En].
  - split; [discriminate|auto].
  - split; [discriminate|auto].
  - split; [|contradiction]. intros _. eapply Hstop; eauto.
  - split; [discriminate|]. intros _. eapply Hgo; eauto.
  - apply end_user in En. destruct r as [s' st'|st'].
    + destruct En as [En Ns]. rewrite En. split; [contradiction|]. intros _. eapply Hgo; eauto.
    + split; [apply BI|]. rewrite En. eapply Hgo; eauto.
  - split; [discriminate|]. intros _. eapply Hgo; eauto.
  - pose proof (Hr _ Rs _ _ _ _ _ _ _ _ _ _ _ Rr Pk) as (St & _). split.
    + intros ->. destruct St as [?|[?|?]]; discriminate.
    + intros _. cbn [i_set is_u]. eapply Hru; [exact Rs|exact Rr|exact Pk|apply the_callbacks_user|]. eapply Hgo; eauto.
  - assert (Vq : V (fst (ir_uf q))) by (eapply Hru; [exact Rs|exact Rr|exact Pk|apply the_callbacks_user|]; eapply Hgo; eauto).
    apply end_user in En. destruct r as [s' st'|st'].
    + destruct En as [En Ns]. rewrite En. split; [contradiction|]. auto.
    + split; [apply BI|]. rewrite En. exact Vq.
Qed.
Lemma ipm_user fuel infr x s y z mu it0 (u : U) clk0 st fin : pt_ok P (mkPt x s y z) -> V u ->
  ipm_from E P o cbs restore fuel infr x s y z mu it0 u clk0 = Ok (st, fin) -> v_end st (is_u _ fin).
Proof.
  intros Pk Vu H. unfold ipm_from in H. apply oassert_ok in H. destruct H as [_ H].
  destruct (Nat.ltb _ _). { injection H as <- <-. split; [discriminate|auto]. }
  destruct (_ || _) eqn:NF. { injection H as <- <-. split; [discriminate|auto]. }
  apply (drive_ok _ _ _ (fun st => i_inv E P o restore it0 (mkPt x s y z) st /\ V (is_u _ st))) in H.
  - destruct H as (st1 & [I I'] & [(-> & -> & L)|(L & B)]).
    + split; [discriminate|auto].
    + pose proof (body_user _ _ _ _ _ _ I I' B) as K. exact K.
  - intros st1 st2 [I I'] _ B. pose proof (body_user _ _ _ _ _ _ I I' B) as K. exact K.
  - split; [|exact Vu].
    unfold i_inv. cbn [ipm_init is_f is_g is_H is_ce is_Ae is_ci is_Ai is_E is_it is_x is_s is_y is_z point_of].
    do 8 (split; [reflexivity|]). split; [exact Pk|]. split; [lia|]. split; [auto|]. exists O. split; [constructor|lia].
Qed.
End Ipm.

Section Sqp.
Context {S : nops}.
Variables (E : env S) (P : sprob S) (o : options S).
Context {U : Type}.
Variable cbs : list (callback S U).
Variable restore : srestorer (S := S) (U := U).
Hypothesis Hp : sprob_ok P.
Hypothesis Hs : solve_ok E.
Hypothesis Hr : srestore_ok P o restore.
Variables (V VE : U -> Prop) (Qf Qm : info S -> Prop).
Hypothesis Hq : forall x y g H A it, length x = sp_n P -> diverging x = false -> Qm (mkInfo it x [] y [] g H A []).
Hypothesis Hgo : forall i u u', Qm i -> V u -> run_callbacks cbs i u = (u', false) -> V u'.
Hypothesis Hstop : forall i u u', Qm i -> V u -> run_callbacks cbs i u = (u', true) -> VE u'.
Hypothesis Hfr : keeping Qf V cbs.
Definition srestore_user : Prop := forall cbs x y it uf clk st x' y' it' uf' clk', restore cbs x y it uf clk = Ok (st, x', y', it', uf', clk') ->
  length x = sp_n P -> length y = sp_me P -> keeping Qf (fun w => V (fst w)) cbs -> V (fst uf) -> V (fst uf').
Hypothesis Hru : srestore_user.

Lemma sbody_user fuel clk0 p0 st r : s_inv E P o restore p0 st -> V (s_u _ st) -> sqp_body E P o cbs restore fuel (e_clock E clk0) st = Ok r ->
  match r with
  | Next st' => s_inv E P o restore p0 st' /\ V (s_u _ st')
  | Exit s st' => v_end V VE s (s_u _ st')
  end.
Proof.
  intros I Vu H. pose proof (sbody_inv E P o cbs restore Hp Hs Hr _ _ _ _ _ I H) as BI. unfold sqp_body in H.
  assert (Lk : length (s_x _ st) = sp_n P /\ length (s_y _ st) = sp_me P) by apply I. destruct Lk as [Lx Ly].
  destruct (eq_infeasible _ _ _). { injection H as <-. split; [discriminate|auto]. }
  destruct (diverging _) eqn:D. { injection H as <-. split; [discriminate|auto]. }
  pose proof (Hq (s_x _ st) (s_y _ st) (s_g _ st) (s_H _ st) (s_Ae _ st) (s_it _ st) Lx D) as Mi.
  destruct (run_callbacks _ _ _) as [u stop] eqn:C. destruct stop.
  { injection H as <-. split; [|contradiction]. intros _. eapply Hstop; [exact Mi| |exact C]. exact Vu. }
  assert (Vu' : V u) by (eapply Hgo; [exact Mi| |exact C]; exact Vu).
  destruct (ls_compute _ _ _) as [ls ok] eqn:L. destruct ok; cbn [negb] in H.
  2:{ injection H as <-. split; [discriminate|auto]. }
  cbv zeta in H. apply obind_ok in H. destruct H as (rs & Se & H).
  assert (En : forall x y f ce flt cnt it (u : U) clk, match sqp_end E P o (e_clock E clk0) x y f ce flt cnt it u ls clk with
    Next st => s_u _ st = u | Exit s st => s_u _ st = u /\ s <> CALLBACK_REQUESTED_STOP end).
  { intros. unfold sqp_end. destruct (limits _ _ _ _ _) as [l clk'] eqn:Li. destruct l as [s'|]; cbn [finish s_u]; [|reflexivity]. split; [reflexivity|].
    apply limits_some in Li. destruct Li as [(-> & _)|(-> & _)]; discriminate. }
  destruct (sf_t rs) as [t|].
  - injection H as <-. match goal with |- context [sqp_end ?a ?b ?c ?d ?e ?f ?g ?h ?i ?j ?k ?l ?m ?n] => specialize (En e f g h i j k l n) end.
    destruct (sqp_end _ _ _ _ _ _ _ _ _ _ _ _ _ _) as [s' st'|st'].
    + destruct En as [En Ns]. split; [contradiction|]. rewrite En. auto.
    + split; [apply BI|]. rewrite En. auto.
  - apply obind_ok in H. destruct H as ([[[[[s' x'] y'] it'] uf'] clk'] & Rr & H).
    assert (Vq : V (fst uf')).
    { eapply Hru; eauto. intros i [v f] Qi Vi. cbv beta in *. erewrite (lift_run_gen cbs); [apply Hfr; auto|]. intros. apply sqp_fr_user. }
    destruct (Hr _ _ _ _ _ _ _ _ _ _ _ _ Rr Lx Ly) as (Hst & _). destruct (is_success s') eqn:Su; injection H as <-.
    + match goal with |- context [sqp_end ?a ?b ?c ?d ?e ?f ?g ?h ?i ?j ?k ?l ?m ?n] => specialize (En e f g h i j k l n) end.
      destruct (sqp_end _ _ _ _ _ _ _ _ _ _ _ _ _ _) as [s1 st'|st'].
      * destruct En as [En Ns]. split; [contradiction|]. rewrite En. auto.
      * split; [apply BI|]. rewrite En. auto.
    + split; [intros ->; destruct Hst as [?|[?|?]]; discriminate|]. intros _. exact Vq.
Qed.
Lemma sqp_user fuel x y (u : U) clk0 st fin : length x = sp_n P -> length y = sp_me P -> V u ->
  sqp_from E P o cbs restore fuel x y u clk0 = Ok (st, fin) -> v_end V VE st (s_u _ fin).
Proof.
  intros Lx Ly Vu H. unfold sqp_from in H. apply oassert_ok in H. destruct H as [_ H].
  destruct (Nat.ltb _ _). { injection H as <- <-. split; [discriminate|auto]. }
  destruct (_ || _) eqn:NF. { injection H as <- <-. split; [discriminate|auto]. }
  apply (drive_ok _ _ _ (fun st => s_inv E P o restore (x, y) st /\ V (s_u _ st))) in H.
  - destruct H as (st1 & [I I'] & [(-> & -> & L)|(L & B)]).
    + split; [discriminate|auto].
    + pose proof (sbody_user _ _ _ _ _ I I' B) as K. exact K.
  - intros st1 st2 [I I'] _ B. pose proof (sbody_user _ _ _ _ _ I I' B) as K. exact K.
  - split; [|exact Vu]. unfold s_inv. cbn [sqp_init s_f s_g s_H s_ce s_Ae s_E s_it s_x s_y].
    do 6 (split; [reflexivity|]). split; [auto|]. split; [lia|]. split; [auto|]. exists O. split; [constructor|lia].
Qed.
End Sqp.

(** ** Whole solves *)
Section Solve.
Context {S : nops}.
Variables (E : env S) (o : options S).
Context {U : Type}.
Hypothesis Hs : solve_ok E.
Hypothesis He : est_ok E.

Lemma ipm_restore_user fuel (P : iprob S) (V : U -> Prop) : iprob_ok P ->
  restore_user P V (fun i => length (i_x i) = (ip_n P + (2 * ip_me P + 2 * ip_mi P))%nat) (ipm_restore (U := U) E o fuel P).
Proof.
  intros Hp cbs x s y z mu it uf clk st q H Pk Kp Vu.
  apply ipm_restore_inner in H. destruct H as (frx & frs & frz & frmu & s1 & fin & Hst & R & -> & _ & _ & _ & Huf & _).
  pose proof (fr_ipm_start_ok _ _ _ _ _ _ _ _ _ _ Hp Pk Hst (s_sqrt S frmu)) as Fk. destruct Pk as (LX & _).
  eapply (ipm_user E _ o cbs None) with (V := fun w => V (fst w)) (VE := fun w => V (fst w)) (Qf := fun _ => False) in R; auto;
    try discriminate; try (apply fr_ipm_ok; auto; fail); try (intros i u []; fail).
  - rewrite Huf. destruct R as [R1 R2]. destruct (status_eq_dec s1 CALLBACK_REQUESTED_STOP); auto.
  - intros i u u' Mi Vw Ru. pose proof (Kp i u Mi Vw) as K. rewrite Ru in K. exact K.
  - intros i u u' Mi Vw Ru. pose proof (Kp i u Mi Vw) as K. rewrite Ru in K. exact K.
Qed.
Lemma sqp_restore_user fuel (P : sprob S) (V : U -> Prop) : sprob_ok P ->
  srestore_user P (sqp_restore (U := U) E o fuel P) V (fun i => length (i_x i) = (sp_n P + 2 * sp_me P)%nat).
Proof.
  intros Hp cbs x y it uf clk st x' y' it' uf' clk' H Lx Ly Kp Vu. unfold sqp_restore in H.
  destruct (fr_sqp_start o P x) as [[frx frz] mu] eqn:Q. apply obind_ok in H. destruct H as ([s1 fin] & R & H). injection H as _ _ _ _ <- _.
  unfold fr_sqp_start in Q. cbv zeta in Q. destruct (compute_p_n _ _ _) as [pe ne] eqn:Q1. injection Q as <- <- Qm.
  apply compute_p_n_len in Q1. destruct Q1 as [Q1 Q1']. destruct (Hp _ Lx) as (Hg & Hce & HAe). rewrite Hce in *.
  eapply (ipm_user E _ o cbs None) with (V := fun w => V (fst w)) (VE := fun w => V (fst w)) (Qf := fun _ => False) in R; auto;
    try discriminate; try (apply fr_sqp_ok; auto; fail); try (intros i u []; fail).
  - destruct R as [R1 R2]. destruct (status_eq_dec s1 CALLBACK_REQUESTED_STOP); auto.
  - intros i u u' Mi Vw Ru. pose proof (Kp i u Mi Vw) as K. rewrite Ru in K. exact K.
  - intros i u u' Mi Vw Ru. pose proof (Kp i u Mi Vw) as K. rewrite Ru in K. exact K.
  - unfold pt_ok. cbn [pt_x pt_s pt_y pt_z fr_sqp_prob ip_n ip_me ip_mi]. rewrite !app_length, !repeat_length.
    repeat rewrite (vscale_len _ _ _ eq_refl). repeat rewrite (vinv_len _ _ eq_refl). lia.
Qed.
End Solve.
