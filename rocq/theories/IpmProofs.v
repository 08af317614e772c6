(** What an outcome of the interior-point method means. *)
From Coq Require Import ZArith List Bool Lia.
From Verif Require Import Base ExprModel NumModel UtilModel KktModel FilterModel FilterProofs ExitModel SolverModel SolverSpec SolverProofs
  NewtonModel NewtonProofs SqpModel IpmModel IpmShape IpmSpec.
Import ListNotations.

Section Ipm.
Context {S : nops}.
Variables (E : env S) (P : iprob S) (o : options S).
Context {U : Type}.
Variable cbs : list (callback S U).
Notation n := (ip_n P).
Notation me := (ip_me P).
Notation mi := (ip_mi P).
Definition restorer := list (callback S (U * filter S)) -> list S -> list S -> list S -> list S -> S -> Z -> U * filter S -> nat ->
  outcome (status * irestored S U).
Variable restore : option restorer.

Definition pt_ok (p : ipoint S) : Prop := length (pt_x p) = n /\ length (pt_s p) = mi /\ length (pt_y p) = me /\ length (pt_z p) = mi.
Definition q_pt (q : irestored S U) : ipoint S := mkPt (ir_x q) (ir_s q) (ir_y q) (ir_z q).
(** What is assumed about feasibility restoration. *)
Definition restore_ok (rst : restorer) : Prop := forall cbs x s y z mu it uf clk status q,
  rst cbs x s y z mu it uf clk = Ok (status, q) -> pt_ok (mkPt x s y z) ->
  (status = SUCCESS \/ status = LOCALLY_INFEASIBLE \/ status = FEASIBILITY_RESTORATION_FAILED) /\
  (status = SUCCESS -> pt_ok (q_pt q) /\ (ir_it q <= Z.max it (o_max o - 1))%Z) /\ (it <= ir_it q <= Z.max (it + 1) (o_max o))%Z.
Definition restored (p p' : ipoint S) : Prop := exists rst cbs mu it uf clk q, restore = Some rst /\
  rst cbs (pt_x p) (pt_s p) (pt_y p) (pt_z p) mu it uf clk = Ok (SUCCESS, q) /\ p' = q_pt q.

Definition resto (st : status) (x : list S) : Prop :=
  (restore = None /\ st = FEASIBILITY_RESTORATION_FAILED) \/
  exists rst cbs x0 s0 y0 z0 mu it uf clk q, restore = Some rst /\ rst cbs x0 s0 y0 z0 mu it uf clk = Ok (st, q) /\ x = ir_x q.

Definition i_inv (it0 : Z) (p0 : ipoint S) (st : istate E (U := U)) : Prop :=
  let x := is_x _ st in
  is_f _ st = ip_f P x /\ is_g _ st = ip_g P x /\ is_H _ st = ip_H P x (is_y _ st) (is_z _ st) /\ is_ce _ st = ip_ce P x /\ is_Ae _ st = ip_Ae P x /\
  is_ci _ st = ip_ci P x /\ is_Ai _ st = ip_Ai P x /\ is_E _ st = error_at P (point_of E st) /\ pt_ok (point_of E st) /\
  (it0 <= is_it _ st)%Z /\ (is_it _ st = it0 \/ (is_it _ st < o_max o)%Z) /\
  exists k, path (ipm_move E P o restored) k p0 (point_of E st) /\ (Z.of_nat k <= is_it _ st - it0)%Z.

Hypothesis Hp : iprob_ok P.
Hypothesis Hs : solve_ok E.
Hypothesis Hr : forall rst, restore = Some rst -> restore_ok rst.

Lemma ctx_ok it0 p0 st ls : i_inv it0 p0 st -> c_ok E P (ipm_ctx E st ls).
Proof.
  intros (If & Ig & IH & Ice & IAe & Ici & IAi & IE & (LX & LS & LY & LZ) & _). unfold c_ok, ipm_ctx.
  cbn [ix_x ix_s ix_y ix_z ix_g ix_ce ix_ci ix_Ae ix_Ai]. cbn [point_of pt_x pt_s pt_y pt_z] in *.
  rewrite Ig, Ice, IAe, Ici, IAi. destruct (Hp _ LX) as (Hg & Hce & Hci & HAe & HAi). repeat (split; [assumption|]). exact HAi.
Qed.
Lemma the_step_ok c : c_ok E P c -> d_ok P (the_step E P c).
Proof.
  intros C. unfold the_step. apply step_ok; auto. { apply rhs_len; auto. }
  destruct C as (_ & LS & _ & _ & _ & _ & LI & _). apply vsub_len; auto.
Qed.

(** A finished iteration. *)
Lemma end_inv fuel clk0 it0 p0 x s y z mu tau flt cnt it (u : U) ls clk r k :
  ipm_end E P o fuel (e_clock E clk0) x s y z (ip_f P x) (ip_ce P x) (ip_ci P x) mu tau flt cnt it u ls clk = Ok r ->
  pt_ok (mkPt x s y z) -> (it0 <= it)%Z -> path (ipm_move E P o restored) k p0 (mkPt x s y z) -> (Z.of_nat k <= it + 1 - it0)%Z ->
  match r with
  | Next st' => i_inv it0 p0 st' /\ is_it _ st' = (it + 1)%Z /\ (is_it _ st' < o_max o)%Z
  | Exit st st' => ipm_means E P o resto it0 clk0 st st' /\ st <> SUCCESS /\
      point_of E st' = mkPt x s y z /\ is_it _ st' = (it + 1)%Z /\ (st = MAX_ITERATIONS_EXCEEDED \/ st = TIMEOUT)
  end.
Proof.
  intros H Pk L Pa Lk. apply end_shape in H. destruct H as (j & tau' & flt' & l & clk' & Li & _ & _ & _ & ->).
  destruct l as [st|]; cbn [finish].
  - apply limits_some in Li. destruct Li as [(-> & L1 & ->)|(-> & L1 & T & ->)].
    + split; [cbn; lia|]. split; [discriminate|]. split; [reflexivity|]. split; [reflexivity|auto].
    + split; [cbn; rewrite Nat.sub_0_r; split; [lia|exact T]|]. split; [discriminate|]. split; [reflexivity|]. split; [reflexivity|auto].
  - apply limits_none in Li. destruct Li as (L1 & _). split; [|split; [reflexivity|exact L1]].
    unfold i_inv. cbn [is_f is_g is_H is_ce is_Ae is_ci is_Ai is_E is_it is_x is_s is_y is_z point_of].
    do 8 (split; [reflexivity|]). split; [exact Pk|]. split; [lia|]. split; [auto|]. exists k. split; [exact Pa|exact Lk].
Qed.

Definition as_dir (d : istep (S := S)) : idir (S := S) := mkDir (p_x d) (p_s d) (p_y d) (p_z d).
Lemma the_system it0 p0 st ls : i_inv it0 p0 st -> ipm_lhs E P (is_H _ st) (ipm_ctx E st ls) = system_at P (point_of E st).
Proof.
  intros (If & Ig & IH & Ice & IAe & Ici & IAi & _). unfold ipm_lhs, system_at, madd, gram_lower, condensed, weights, sigma, ipm_ctx.
  cbn [ix_Ai ix_s ix_z ix_Ae point_of pt_x pt_s pt_y pt_z]. rewrite IH, IAe, IAi. reflexivity.
Qed.
Lemma the_direction it0 p0 st ls : i_inv it0 p0 st -> ls_compute (e_lin E) (is_ls _ st) (ipm_lhs E P (is_H _ st) (ipm_ctx E st (is_ls _ st))) = (ls, true) ->
  ipm_direction E P (is_mu _ st) (point_of E st) (as_dir (the_step E P (ipm_ctx E st ls))).
Proof.
  intros I L. rewrite (the_system _ _ _ _ I) in L. destruct I as (If & Ig & IH & Ice & IAe & Ici & IAi & _).
  exists (is_ls _ st), ls. eexists. split; [exact L|]. split; [reflexivity|]. unfold the_step, ipm_step, ipm_rhs, system_rhs, sigma, weights, ipm_ctx, vneg.
  cbn [as_dir d_x d_s d_y d_z p_x p_s p_y p_z ix_x ix_s ix_y ix_z ix_g ix_ce ix_Ae ix_ci ix_Ai ix_mu ix_tau ix_ls point_of pt_x pt_s pt_y pt_z].
  rewrite Ig, Ice, IAe, Ici, IAi. repeat split.
Qed.
Lemma the_correction it0 p0 st ls ce cis : i_inv it0 p0 st -> ls_compute (e_lin E) (is_ls _ st) (ipm_lhs E P (is_H _ st) (ipm_ctx E st (is_ls _ st))) = (ls, true) ->
  let c := ipm_ctx E st ls in correction_direction E P (is_mu _ st) (point_of E st) ce cis (as_dir (ipm_step E c (ipm_rhs_soc E P c ce cis) cis)).
Proof.
  intros I L. rewrite (the_system _ _ _ _ I) in L. destruct I as (If & Ig & IH & Ice & IAe & Ici & IAi & _).
  exists (is_ls _ st), ls. eexists. split; [exact L|]. split; [reflexivity|]. unfold ipm_step, ipm_rhs_soc, system_rhs, sigma, weights, ipm_ctx, vneg.
  cbn [as_dir d_x d_s d_y d_z p_x p_s p_y p_z ix_x ix_s ix_y ix_z ix_g ix_ce ix_Ae ix_ci ix_Ai ix_mu ix_tau ix_ls point_of pt_x pt_s pt_y pt_z].
  rewrite Ig, IAe, IAi. repeat split.
Qed.
Lemma took_move it0 p0 st ls t a z : i_inv it0 p0 st -> let c := ipm_ctx E st ls in let d := the_step E P c in d_ok P d ->
  ls_compute (e_lin E) (is_ls _ st) (ipm_lhs E P (is_H _ st) (ipm_ctx E st (is_ls _ st))) = (ls, true) -> s_ltb S (the_amax E P c) amin = false ->
  took E P o c d (the_dphi E P c) (the_amax E P c) (the_az E P c) t a -> clamp_zs (is_mu _ st) (it_s t) (it_z t) = Ok z ->
  t_at P t /\ pt_ok (mkPt (it_x t) (it_s t) (it_y t) z) /\ ipm_move E P o restored (point_of E st) (mkPt (it_x t) (it_s t) (it_y t) z).
Proof.
  intros I c d Hd L Am T Cz. pose proof (ctx_ok _ _ _ ls I) as Hc. destruct (took_ok E P o _ _ _ _ _ _ _ Hp Hs Hc Hd T) as [(TX & TS & TY & TZ & _) A].
  split; [exact A|]. pose proof (clamp_zs_len _ _ _ _ Cz) as [Lz _]. split. { unfold pt_ok. cbn. rewrite Lz. auto. }
  pose proof (the_direction _ _ _ _ I L) as Dir. pose proof (fun ce cis => the_correction _ _ _ _ ce cis I L) as Cor. cbv zeta in Cor. fold c in Dir, Cor. fold d in Dir.
  destruct I as (If & Ig & IH & Ice & IAe & Ici & IAi & IE & _).
  assert (Ec : ix_cur E c = entry_at P (is_mu _ st) (is_x _ st) (is_s _ st)).
  { unfold ix_cur, fe_ipm, entry_at, c, ipm_ctx. cbn [ix_f ix_s ix_ce ix_ci ix_mu]. rewrite If, Ice, Ici. reflexivity. }
  assert (Et : it_entry (ix_mu E c) t = entry_at P (is_mu _ st) (it_x t) (it_s t)).
  { unfold it_entry, fe_ipm, entry_at. destruct A as (-> & -> & ->). reflexivity. }
  assert (Sl : the_dphi E P c = slope P (is_mu _ st) (point_of E st) (as_dir d)).
  { unfold the_dphi, slope. fold d. unfold c, ipm_ctx. cbn [as_dir d_x d_s ix_g ix_s ix_mu point_of pt_x pt_s]. rewrite Ig. reflexivity. }
  destruct T as [k flt flt' a' t' F1 F2 F3 T|ce cis flt flt' a' d' a'' t' L1 L2 T|a' t' T].
  - rewrite Ec, Et, Sl in T. destruct A as (A1 & A2 & A3). rewrite A1 in F1. rewrite A2 in F2. rewrite A3 in F3.
    assert (Mx : it_x t' = go (pt_x (point_of E st)) a' (d_x (as_dir d)) /\ it_y t' = go (pt_y (point_of E st)) (the_az E P c) (d_y (as_dir d)) /\
                 it_z t' = go (pt_z (point_of E st)) (the_az E P c) (d_z (as_dir d)) /\
                 (it_s t' = go (pt_s (point_of E st)) a' (d_s (as_dir d)) \/
                  (o_feasible o = true /\ forallb (s_ltb S (s_ofZ S 0)) (ip_ci P (is_x _ st)) = true /\ it_s t' = it_ci t'))).
    { unfold t', ipm_trial_main. change (ix_ci E c) with (is_ci _ st). rewrite Ici. destruct (o_feasible o) eqn:OF; cbn [andb].
      - destruct (forallb _ (ip_ci P (is_x _ st))) eqn:FA; repeat split; auto.
      - do 3 (split; [reflexivity|]). left. reflexivity. }
    destruct Mx as (Mx & My & Mz & Ms). rewrite A3 in Ms.
    exact (move_filter E P o restored (point_of E st) (as_dir d) (is_mu _ st) (is_tau _ st) k flt flt' (it_x t') (it_s t') (it_y t') (it_z t') z Dir Am Mx My Mz Ms F1 F2 F3 T Cz).
  - rewrite Ec, Et, Sl in T.
    exact (move_correction E P o restored (point_of E st) (as_dir d) ce cis (as_dir d') (is_mu _ st) (is_tau _ st) a' flt flt' (it_x t') (it_s t') (it_y t') (it_z t') z
      Dir (Cor ce cis) eq_refl eq_refl eq_refl eq_refl T Cz).
  - refine (move_error E P o restored (point_of E st) (as_dir d) (is_mu _ st) (is_tau _ st) (it_x t') (it_s t') (it_y t') (it_z t') z
      Dir Am eq_refl eq_refl eq_refl eq_refl _ Cz). unfold ipm_kkt1_trial, ipm_kkt1, kkt1_ipm in T. unfold error1_at. cbn [pt_x pt_s pt_y pt_z].
    unfold c, ipm_ctx in T. cbn [ix_g ix_Ae ix_ce ix_Ai ix_ci ix_s ix_y ix_z ix_mu] in T. rewrite Ig, IAe, Ice, IAi, Ici in T.
    destruct A as (_ & A2 & A3). rewrite A2, A3 in T. exact T.
Qed.

Lemma search_took0 c d dphi amax az fuel flt cnt r : c_ok E P c -> d_ok P d -> ipm_search E P o fuel c d dphi amax az amax flt cnt = Ok r ->
  match if_t r with Some t => took E P o c d dphi amax az t (if_a r) | None => True end.
Proof. intros Hc Hd H. change amax with (halves 0 amax) in H at 2. apply search_took in H; auto. apply H. Qed.

Lemma body_inv fuel clk0 it0 p0 st r : i_inv it0 p0 st -> ipm_body E P o cbs restore fuel (e_clock E clk0) st = Ok r ->
  match r with
  | Next st' => i_inv it0 p0 st' /\ (is_it _ st < is_it _ st' < o_max o)%Z
  | Exit s st' => ipm_means E P o resto it0 clk0 s st' /\ s <> SUCCESS /\ 
      (it0 <= is_it _ st' <= Z.max (it0 + 1) (o_max o))%Z /\ (s = CALLBACK_REQUESTED_STOP -> (is_it _ st' <= Z.max it0 (o_max o - 1))%Z) /\
      (exists k p, path (ipm_move E P o restored) k p0 p /\ (Z.of_nat k <= is_it _ st' - it0)%Z /\
       (point_of E st' = p \/ (restore <> None /\ (s = LOCALLY_INFEASIBLE \/ s = FEASIBILITY_RESTORATION_FAILED)))) /\
      (s = CALLBACK_REQUESTED_STOP -> pt_ok (point_of E st'))
  end.
Proof.
  intros I H. apply body_shape in H. pose proof I as I'.
  destruct I as (If & Ig & IH & Ice & IAe & Ici & IAi & IE & Pk & L0 & L1 & k & Pa & Lk).
  assert (Q : exists k p, path (ipm_move E P o restored) k p0 p /\ (Z.of_nat k <= is_it _ st - it0)%Z /\ point_of E st = p) by eauto.
  destruct Q as (k1 & p1 & Q1 & Q2 & Q3).
  destruct H as [[Inf|Inf]|[Dv|Dv]|u D1 D2 C|u ls D1 D2 C L|u ls rs t z r D1 D2 C L c Se Am Ft Cz En|u ls rs D1 D2 C L c Se Am Rs
    |u ls rs rst status q D1 D2 C L c Se Am Rs Rr Su|u ls rs rst status q r D1 D2 C L c Se Am Rs Rr Su En].
  - rewrite IAe, Ice in Inf. split; [cbn; auto|]. split; [discriminate|]. split; [lia|]. split; [discriminate|]. split; [|discriminate]. exists k1, p1. auto.
  - rewrite IAi, Ici in Inf. split; [cbn; auto|]. split; [discriminate|]. split; [lia|]. split; [discriminate|]. split; [|discriminate]. exists k1, p1. auto.
  - split; [cbn; auto|]. split; [discriminate|]. split; [lia|]. split; [discriminate|]. split; [|discriminate]. exists k1, p1. auto.
  - split; [cbn; auto|]. split; [discriminate|]. split; [lia|]. split; [discriminate|]. split; [|discriminate]. exists k1, p1. auto.
  - split; [cbn; auto|]. split; [discriminate|]. cbn [i_quit i_set is_it]. split; [lia|]. split; [lia|]. split; [exists k1, p1; auto|]. intros _. exact Pk.
  - split. { cbn [ipm_means]. exists (is_ls _ st). rewrite (the_system _ _ _ _ I') in L. change (point_of E (i_quit E st (is_flt _ st) (is_cnt _ st) u ls)) with (point_of E st). rewrite L. reflexivity. } split; [discriminate|]. cbn [i_quit i_set is_it]. split; [lia|]. split; [lia|].
    split; [|discriminate]. exists k1, p1. auto.
  - assert (Hc : c_ok E P c) by (eapply ctx_ok; eauto). pose proof (the_step_ok c Hc) as Hd.
    apply search_took0 in Se; auto. rewrite Ft in Se. pose proof (took_move _ _ _ _ _ _ _ I' Hd L Am Se Cz) as ((A1 & A2 & A3) & Pk' & Mv).
    rewrite A1, A2, A3 in En. eapply end_inv with (k := Datatypes.S k1) in En; eauto; [|econstructor; [exact Q1|]; rewrite <- Q3; exact Mv|lia].
    destruct r as [s' st'|st'].
    + destruct En as (M & Ns & Po & It & Ws). split; auto. split; auto. split; [lia|]. split; [destruct Ws; subst; discriminate|].
      split; [|destruct Ws; subst; discriminate]. exists (Datatypes.S k1), (mkPt (it_x t) (it_s t) (it_y t) z). split; [|split; [lia|auto]].
      econstructor; [exact Q1|]. rewrite <- Q3. exact Mv.
    + destruct En as (M & It & Lt). split; auto. lia.
  - split; [left; auto|]. split; [discriminate|]. cbn [i_quit i_set is_it]. split; [lia|]. split; [lia|]. split; [|discriminate]. exists k1, p1. auto.
  - destruct (Hr _ Rs _ _ _ _ _ _ _ _ _ _ _ Rr Pk) as (Hst & _ & Hit). 
    assert (St : status = LOCALLY_INFEASIBLE \/ status = FEASIBILITY_RESTORATION_FAILED) by (destruct Hst as [ -> | [ -> | -> ] ]; [discriminate|auto|auto]).
    assert (Rt : resto status (ir_x q)) by (right; eexists rst, _, _, _, _, _, _, _, _, _, q; split; [exact Rs|]; split; [exact Rr|reflexivity]).
    split. { destruct St as [ -> | -> ]; [right; right; exact Rt|exact Rt]. }
    split; [destruct St; subst; discriminate|]. cbn [i_set is_it]. split; [lia|]. split; [destruct St; subst; discriminate|]. split; [|destruct St; subst; discriminate].
    exists k1, p1. split; auto. split; [lia|]. right. rewrite Rs. split; [discriminate|auto].
  - destruct (Hr _ Rs _ _ _ _ _ _ _ _ _ _ _ Rr Pk) as (Hst & Hok & Hit).
    assert (St : status = SUCCESS) by (destruct Hst as [ -> | [ -> | -> ] ]; [auto|discriminate|discriminate]). subst status.
    destruct (Hok eq_refl) as [Pk' Lq].
    assert (Mv : ipm_move E P o restored (point_of E st) (q_pt q)).
    { apply move_restored. eexists rst, _, _, _, _, _, q. split; [exact Rs|]. split; [exact Rr|reflexivity]. }
    eapply end_inv with (k := Datatypes.S k1) (p0 := p0) (it0 := it0) in En; eauto; [|lia|econstructor; [exact Q1|]; rewrite <- Q3; exact Mv|lia].
    destruct r as [s' st'|st'].
    + destruct En as (M & Ns & Po & It & Ws). split; auto. split; auto. split; [lia|]. split; [destruct Ws; subst; discriminate|].
      split; [|destruct Ws; subst; discriminate]. exists (Datatypes.S k1), (q_pt q). split; [|split; [lia|auto]].
      econstructor; [exact Q1|]. rewrite <- Q3. exact Mv.
    + destruct En as (M & It & Lt). split; auto. lia.
Qed.

Lemma ipm_meaning fuel infr x s y z mu it0 (u : U) clk0 st fin : pt_ok (mkPt x s y z) ->
  ipm_from E P o cbs restore fuel infr x s y z mu it0 u clk0 = Ok (st, fin) ->
  ipm_means E P o resto it0 clk0 st fin /\
  (it0 <= is_it _ fin <= Z.max (it0 + 1) (o_max o))%Z /\ (st = CALLBACK_REQUESTED_STOP -> (is_it _ fin <= Z.max it0 (o_max o - 1))%Z) /\
  (exists k p, path (ipm_move E P o restored) k (mkPt x s y z) p /\ (Z.of_nat k <= is_it _ fin - it0)%Z /\
     (point_of E fin = p \/ (restore <> None /\ (st = LOCALLY_INFEASIBLE \/ st = FEASIBILITY_RESTORATION_FAILED)))) /\
  (st = CALLBACK_REQUESTED_STOP -> pt_ok (point_of E fin)).
Proof.
  intros Pk H. unfold ipm_from in H. apply oassert_ok in H. destruct H as [_ H].
  assert (Q : exists k p, path (ipm_move E P o restored) k (mkPt x s y z) p /\ (Z.of_nat k <= it0 - it0)%Z /\ mkPt x s y z = p).
  { exists O, (mkPt x s y z). split; [constructor|]. split; [lia|reflexivity]. }
  destruct Q as (k & p & Q1 & Q2 & Q3).
  destruct (Nat.ltb_spec n me) as [Lt|Ge].
  { injection H as <- <-. split; [cbn; auto|]. cbn [ipm_init is_it]. split; [lia|]. split; [discriminate|]. split; [|discriminate]. exists k, p. auto. }
  destruct (_ || _) eqn:NF.
  - injection H as <- <-. split.
    + cbn [ipm_means]. split; [reflexivity|]. cbn [ipm_init is_f is_g is_H is_ce is_Ae is_ci is_Ai is_x is_y is_z] in *.
      repeat rewrite orb_true_iff in NF. rewrite !negb_true_iff in NF. tauto.
    + cbn [ipm_init is_it]. split; [lia|]. split; [discriminate|]. split; [|discriminate]. exists k, p. auto.
  - apply (drive_ok _ _ _ (i_inv it0 (mkPt x s y z))) in H.
    + destruct H as (st1 & I & [(-> & -> & L)|(L & B)]).
      * destruct I as (If & Ig & IH & Ice & IAe & Ici & IAi & IE & Pk' & L0 & L1 & k' & Pa & Lk). split; [cbn [ipm_means]; rewrite <- IE; exact L|].
        split; [lia|]. split; [discriminate|]. split; [|discriminate]. eauto 10.
      * pose proof (body_inv _ _ _ _ _ _ I B) as (M & Ns & It & It' & Pa & Pk'). auto.
    + intros st1 st2 I _ B. pose proof (body_inv _ _ _ _ _ _ I B) as [K _]. exact K.
    + unfold i_inv. cbn [ipm_init is_f is_g is_H is_ce is_Ae is_ci is_Ai is_E is_it is_x is_s is_y is_z point_of].
      do 8 (split; [reflexivity|]). split; [exact Pk|]. split; [lia|]. split; [auto|]. exists O. split; [constructor|lia].
Qed.
End Ipm.
