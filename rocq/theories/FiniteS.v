(** Proofs for C87: SQP on numbers stays with numbers. *)
From Coq Require Import ZArith Reals List Bool Lra Lia.
From Verif Require Import Base ExprModel ExprReal ExprXR NumModel UtilModel KktModel FilterModel FilterProofs ExitModel SolverModel SolverSpec SolverProofs
  NewtonModel NewtonProofs SqpModel SqpSpec SqpProofs IpmModel IpmShape IpmSpec IpmProofs RestoreModel RestoreProofs XArith PosX PosProofs FiniteSpec FiniteI FiniteR.
Import ListNotations.
Local Open Scope R_scope.

Section Sqp.
Variables (E : env Xn) (P : sprob Xn) (o : options Xn).
Context {U : Type}.
Variable cbs : list (callback Xn U).
Variable restore : srestorer (S := Xn) (U := U).
Notation n := (sp_n P).
Notation me := (sp_me P).
Hypothesis Fp : fin_sqp P.
Hypothesis Hl : lin_fin E.
Hypothesis Hp : sprob_ok P.
Hypothesis Hs : solve_ok E.

Record sc_fin (c : sctx E) : Prop := {
  sf_ok : sc_ok E P c; sf_x : vfin (sx_x E c); sf_y : vfin (sx_y E c); sf_ce : vfin (sx_ce E c); sf_top : vfin (sx_top E c);
  sf_ls : forall b, vfin b -> vfin (ls_solve (e_lin E) (sx_ls E c) b) }.
Definition st_fin (t : strial (S := Xn)) : Prop := vfin (st_x t) /\ vfin (st_y t) /\ vfin (st_ce t) /\ length (st_ce t) = me.
Definition sd_fin (d : list XR * list XR) : Prop := length (fst d) = n /\ length (snd d) = me /\ vfin (fst d) /\ vfin (snd d).

Lemma dir_fin c ce : sc_fin c -> length ce = me -> vfin ce -> sd_fin (sqp_dir E (sx_ls E c) (length (sx_x E c)) (sx_top E c ++ vneg (S := Xn) ce)).
Proof.
  intros C L F. destruct (sf_ok c C) as (L1 & L2 & L3 & L4). destruct (sdir_len E P Hs (sx_ls E c) (sx_x E c) (sx_top E c) ce L1 L4 L) as [M1 M2].
  split; [exact M1|]. split; [exact M2|]. unfold sqp_dir. cbn [fst snd]. pose proof (sf_ls c C (sx_top E c ++ vneg (S := Xn) ce) ltac:(apply f_app; [apply (sf_top c C)|apply f_neg, F])) as Q.
  split; [apply f_first, Q|apply f_neg, f_skip, Q].
Qed.
Lemma strial_fin c d a : sc_fin c -> sd_fin d -> st_fin (sqp_trial P (sx_x E c) (sx_y E c) (Fin a) d).
Proof.
  intros C (D1 & D2 & D3 & D4). unfold sqp_trial, st_fin. cbv zeta. cbn [st_x st_y st_ce].
  assert (Q : vfin (vstep (S := Xn) (sx_x E c) (Fin a) (fst d))) by (apply f_step; [apply (sf_x c C)|exact D3]).
  assert (L : length (vstep (S := Xn) (sx_x E c) (Fin a) (fst d)) = n) by (apply (vstep_len (S := Xn)); [apply (sf_ok c C)|exact D1]).
  destruct (Fp _ L Q) as (_ & _ & A & _). destruct (Hp _ L) as (_ & B & _). split; [exact Q|]. split; [apply f_step; [apply (sf_y c C)|exact D4]|]. auto.
Qed.
Lemma ssoc_fin c a : sc_fin c -> forall k a_soc ce tce viol flt flt' t, (exists b, a_soc = Fin b) -> length ce = me -> length tce = me -> vfin ce -> vfin tce ->
  sqp_soc E P k c a a_soc ce tce viol flt = (flt', Some t) -> st_fin t.
Proof.
  intros C. induction k as [|k IH]; intros a_soc ce tce viol flt flt' t (b & ->) L1 L2 F1 F2 H; cbn [sqp_soc] in H; [discriminate|]. cbv zeta in H. revert H.
  set (ce' := vadd (S := Xn) _ _). assert (G : vfin ce') by (apply f_add; [apply f_scale; [reflexivity|exact F1]|exact F2]).
  assert (N : length ce' = me) by (apply (vadd_len (S := Xn)); [apply (vscale_len (S := Xn)); exact L1|exact L2]).
  pose proof (strial_fin c _ b C (dir_fin c ce' C N G)) as Tf. set (t1 := sqp_trial _ _ _ _ _) in *.
  destruct (try_add _ _ _ _ _) as [flt1 ok]. destruct ok; [intros [= <- <-]; exact Tf|].
  destruct (s_ltb Xn _ _); [discriminate|]. intros H. destruct Tf as (_ & _ & T3 & T4). exact (IH _ _ _ _ _ _ _ (ex_intro _ b eq_refl) N T4 G T3 H).
Qed.
Lemma ssearch_fin c d : sc_fin c -> sd_fin d -> forall fuel a flt cnt r t, (exists b, a = Fin b) -> sqp_search E P fuel c d a flt cnt = Ok r -> sf_t r = Some t -> st_fin t.
Proof.
  intros C Hd. induction fuel as [|fuel IH]; intros a flt cnt r t (b & ->) H Ht; cbn [sqp_search] in H; [discriminate|]. cbv zeta in H.
  pose proof (strial_fin c d b C Hd) as Tf. set (t1 := sqp_trial P (sx_x E c) (sx_y E c) (Fin b) d) in *.
  destruct (_ || _) in H.
  { destruct (s_ltb Xn _ _) in H; [injection H as <-; discriminate Ht|]. eapply IH; [|exact H|exact Ht]. exists (b / 2). apply xhalve. }
  destruct (try_add _ _ _ _ _) as [flt1 ok] in H. destruct ok; [injection H as <-; injection Ht as <-; exact Tf|].
  assert (K : forall flt2 soc, (if s_eqb Xn (Fin b) (s_ofZ Xn 1) && s_leb Xn (norm1 (S := Xn) (sx_ce E c)) (norm1 (S := Xn) (st_ce t1))
    then sqp_soc E P 5 c (Fin b) (Fin b) (sx_ce E c) (st_ce t1) (norm1 (S := Xn) (st_ce t1)) flt1 else (flt1, None)) = (flt2, soc) -> match soc with Some t2 => st_fin t2 | None => True end).
  { intros flt2 soc Q. destruct (_ && _) in Q; [|injection Q as <- <-; exact I]. destruct soc as [t2|]; [|exact I].
    destruct (sf_ok c C) as (_ & _ & LE & _). destruct Tf as (_ & _ & T3 & T4). eapply (ssoc_fin c (Fin b) C); [| | | | |exact Q]; [exists b; reflexivity|exact LE|exact T4|apply (sf_ce c C)|exact T3]. }
  match type of H with (let (_, _) := ?e in _) = _ => pose proof (K (fst e) (snd e) (surjective_pairing e)) as K2; clear K; destruct e as [flt2 soc] end. cbn [fst snd] in K2.
  destruct soc as [t2|]; [injection H as <-; injection Ht as <-; exact K2|].
  destruct (reset_filter _ _ _) in H; [eapply IH; [|exact H|exact Ht]; eauto|].
  destruct (s_ltb Xn _ _) in H; [|eapply IH; [|exact H|exact Ht]; exists (b / 2); apply xhalve].
  destruct (s_leb Xn _ _) in H; injection H as <-; [|discriminate Ht]. injection Ht as <-. apply (strial_fin c d 1 C Hd).
Qed.

Variable V : U -> Prop.
Hypothesis Hv : forall i u, shownf i -> V u -> V (fst (run_callbacks cbs i u)).
Definition srestore_fin (rst : srestorer (S := Xn) (U := U)) : Prop := forall cbs x y it uf clk status x' y' it' uf' clk',
  rst cbs x y it uf clk = Ok (status, x', y', it', uf', clk') -> length x = n -> length y = me -> vfin x -> vfin y ->
  keepsf cbs V -> V (fst uf) -> V (fst uf') /\ vfin x' /\ vfin y'.
Hypothesis Hr : srestore_ok P o restore.
Hypothesis Hrp : srestore_fin restore.

Definition sat_good (st : sstate E (U := U)) : Prop := vfin (s_x _ st) /\ vfin (s_y _ st).
Definition sf_inv (p0 : list XR * list XR) (st : sstate E (U := U)) : Prop := s_inv E P o restore p0 st /\ sat_good st /\ V (s_u _ st).

Lemma sfr_keeps x g init a i (u : U * filter Xn) : fst (fst (sqp_fr_callback P x g init a i u)) = fst u.
Proof. unfold sqp_fr_callback. cbv zeta. destruct (s_ltb Xn _ _); [|reflexivity]. destruct (try_add _ _ _ _ _). reflexivity. Qed.
Lemma send_good start x y f ce flt cnt it (u : U) ls clk r : sqp_end E P o start x y f ce flt cnt it u ls clk = r -> 
  let st := match r with Next st => st | Exit _ st => st end in s_x _ st = x /\ s_y _ st = y /\ s_u _ st = u.
Proof. intros <-. unfold sqp_end. cbv zeta. destruct (limits _ _ _ _ _) as [l clk']. destruct l; cbn [finish s_x s_y s_u]; auto. Qed.

Lemma sbody_fin fuel clk0 p0 st r : sf_inv p0 st -> sqp_body E P o cbs restore fuel (e_clock E clk0) st = Ok r ->
  match r with Next st' => sf_inv p0 st' | Exit s st' => V (s_u _ st') /\ sat_good st' end.
Proof.
  intros (I & (Gx & Gy) & Vu) H. pose proof (sbody_inv E P o cbs restore Hp Hs Hr _ _ _ _ _ I H) as BI.
  assert (W : V (s_u _ (match r with Next st => st | Exit _ st => st end)) /\ sat_good (match r with Next st => st | Exit _ st => st end)).
  2:{ destruct r as [s' st'|st']; [exact W|]. split; [apply BI|]. split; apply W. }
  clear BI. destruct I as (If & Ig & IH & Ice & IAe & IE & (Lx & Ly) & _). unfold sqp_body in H.
  destruct (Fp _ Lx Gx) as (_ & F2 & F3 & F4 & F5). destruct (Hp _ Lx) as (Hg & Hce & HAe).
  destruct (eq_infeasible _ _ _). { injection H as <-. split; [exact Vu|split; assumption]. }
  destruct (diverging _). { injection H as <-. split; [exact Vu|split; assumption]. }
  assert (Sh : shownf (sqp_info E st)) by (split; [exact Gx|]; split; [constructor|]; split; [exact Gy|constructor]).
  pose proof (Hv _ _ Sh Vu) as Vc. destruct (run_callbacks _ _ _) as [u stop]. cbn [fst] in Vc. destruct stop.
  { injection H as <-. split; [exact Vc|split; assumption]. }
  destruct (ls_compute _ _ _) as [ls ok] eqn:L. rewrite IH, IAe in L. destruct ok; cbn [negb] in H.
  2:{ injection H as <-. split; [exact Vc|split; assumption]. }
  cbv zeta in H. apply obind_ok in H. destruct H as (rs & Se & H).
  assert (Lt : length (vadd (S := Xn) (vneg (S := Xn) (sp_g P (s_x _ st))) (mtvec (S := Xn) n (sp_Ae P (s_x _ st)) (s_y _ st))) = n).
  { apply (vadd_len (S := Xn)); [apply (vneg_len (S := Xn)); auto|]. apply mat_dims_ok in HAe. destruct HAe. apply (mtvec_len (S := Xn)); auto. }
  assert (Ft : vfin (vadd (S := Xn) (vneg (S := Xn) (sp_g P (s_x _ st))) (mtvec (S := Xn) n (sp_Ae P (s_x _ st)) (s_y _ st)))) by (apply f_add; [apply f_neg, F2|apply f_mtvec; auto]).
  unfold sqp_rhs, sqp_ctx in Se. rewrite If, Ig, IAe, Ice in Se.
  set (top := vadd (S := Xn) (vneg (S := Xn) (sp_g P (s_x _ st))) (mtvec (S := Xn) n (sp_Ae P (s_x _ st)) (s_y _ st))) in *.
  match type of Se with sqp_search _ _ _ ?c0 ?d0 _ _ _ = _ => set (c := c0) in Se; set (d := d0) in * end.
  assert (Cc : sc_fin c). { constructor; cbn [c sx_x sx_y sx_ce sx_top sx_ls]; auto; [split; [|split; [|split]]; auto|]. eapply Hl; [| |exact L]; cbn [k_tl k_bl]; auto. }
  assert (Fd : sd_fin d) by exact (dir_fin c (sp_ce P (s_x _ st)) Cc Hce F3).
  destruct (sf_t rs) as [t|] eqn:Ft'.
  - pose proof (ssearch_fin c d Cc Fd _ _ _ _ _ _ (ex_intro _ 1 eq_refl) Se Ft') as (T1 & T2 & _). injection H as H. apply send_good in H. cbv zeta in H. destruct H as (A1 & A2 & A3).
    unfold sat_good. rewrite A1, A2, A3. auto.
  - apply obind_ok in H. destruct H as ([[[[[s' x'] y'] it'] uf'] clk'] & Rr & H).
    assert (Kp : forall g init a, keepsf (map (lift_cb (U := U)) cbs ++ [sqp_fr_callback P (s_x _ st) g init a]) V).
    { intros g init a i [u0 f0] Sh0 Vu0. eapply (eq_ind_r V); [|apply lift_run; intros; apply sfr_keeps]. apply Hv; auto. }
    destruct (Hrp _ _ _ _ _ _ _ _ _ _ _ _ Rr Lx Ly Gx Gy (Kp _ _ _) Vc) as (V1 & V2 & V3).
    destruct (is_success s'); injection H as H; [|subst r; split; [exact V1|split; assumption]].
    apply send_good in H. cbv zeta in H. destruct H as (A1 & A2 & A3). unfold sat_good. rewrite A1, A2, A3. auto.
Qed.

Lemma sqp_fin fuel x y (u : U) clk0 st fin : length x = n -> length y = me -> vfin x -> vfin y -> V u ->
  sqp_from E P o cbs restore fuel x y u clk0 = Ok (st, fin) -> V (s_u _ fin) /\ sat_good fin.
Proof.
  intros Lx Ly Fx Fy Vu H. unfold sqp_from in H. apply oassert_ok in H. destruct H as [_ H].
  destruct (Nat.ltb _ _). { injection H as <- <-. split; [exact Vu|split; assumption]. }
  destruct (_ || _) eqn:NF. { injection H as <- <-. split; [exact Vu|split; assumption]. }
  apply (drive_ok _ _ _ (sf_inv (x, y))) in H.
  - destruct H as (st1 & I & [(-> & -> & L)|(L & B)]).
    + split; apply I.
    + exact (sbody_fin _ _ _ _ _ I B).
  - intros st1 st2 I _ B. exact (sbody_fin _ _ _ _ _ I B).
  - split.
    + unfold s_inv. cbn [sqp_init s_f s_g s_H s_ce s_Ae s_E s_it s_x s_y].
      do 6 (split; [reflexivity|]). split; [auto|]. split; [lia|]. split; [auto|]. exists O. split; [constructor|lia].
    + split; [split; assumption|exact Vu].
Qed.
End Sqp.

Section Solve.
Variables (E : env Xn) (o : options Xn).
Context {U : Type}.
Hypothesis Hl : lin_fin E.
Hypothesis Hs : solve_ok E.
Hypothesis He : est_ok E.
Hypothesis Hef : est_fin E.
Hypothesis Ht : pos (o_tol o).
Variable V : U -> Prop.

Lemma sqp_restore_fin fuel (P : sprob Xn) : sprob_ok P -> fin_sqp P -> srestore_fin P V (sqp_restore (U := U) E o fuel P).
Proof.
  intros Hp Hf cbs x y it uf clk st x' y' it' uf' clk' H Lx Ly Fx Fy Kp Vu. unfold sqp_restore in H.
  destruct (fr_sqp_start o P x) as [[frx frz] mu] eqn:Q. apply obind_ok in H. destruct H as ([s1 fin0] & R & H). cbv zeta in H. injection H as <- <- <- <- <- <-.
  unfold fr_sqp_start in Q. cbv zeta in Q. destruct (Hf _ Lx Fx) as (_ & _ & F3 & _). destruct (Hp _ Lx) as (Hg & Hce & HAe).
  set (mu' := smax (S := Xn) _ _) in Q.
  assert (Em : exists m', mu' = Fin m' /\ 0 < m').
  { unfold mu'. destruct Ht as (t & -> & Pt). change (s_ofZ Xn 10) with (Fin 10). rewrite xdiv by lra. destruct (smax_X (t / 10) _ (norminf_fin _ F3)) as (m1 & E1 & L1).
    exists m1. split; [exact E1|lra]. }
  destruct Em as (m' & Em & Pm'). rewrite Em in *. change (fr_rho (S := Xn)) with (Fin 1000) in *.
  pose proof (compute_p_n_X _ 1000 m' ltac:(lra) Pm' F3) as [K1 K2].
  destruct (compute_p_n _ _ _) as [pe ne] eqn:Q1. injection Q as <- <- <-. cbn [fst snd] in K1, K2. pose proof (compute_p_n_len _ _ _ _ _ Q1) as [P1 P1']. rewrite Hce in P1, P1'.
  assert (Hzt : fin (s_sqrt Xn (Fin m'))) by (rewrite xsqrt by lra; reflexivity).
  set (zt := s_sqrt Xn (Fin m')) in *.
  assert (Hok : iprob_ok (fr_sqp_prob P x zt)) by (apply fr_sqp_ok; auto).
  assert (Hff : fin_ipm (fr_sqp_prob P x zt)) by (apply fr_sqp_fin; auto).
  match type of R with ipm_from _ _ _ _ _ _ _ ?fx ?fs ?fy ?fz _ _ _ _ = _ => assert (Pk : pt_ok (fr_sqp_prob P x zt) (mkPt (S := Xn) fx fs fy fz)); [|assert (G0 : good fx fs fy fz)] end.
  { unfold pt_ok. cbn [pt_x pt_s pt_y pt_z fr_sqp_prob ip_n ip_me ip_mi]. rewrite !app_length, !repeat_length.
    repeat rewrite (vscale_len (S := Xn) _ _ _ eq_refl). repeat rewrite (vinv_len (S := Xn) _ _ eq_refl). cbn in *. lia. }
  { split; [repeat (apply f_app; [first [exact Fx|apply f_pos; assumption]|]); apply f_pos; assumption|]. split; [apply repeat_Forall, pos_Fin; lra|]. split; [apply repeat_Forall; reflexivity|].
    apply List.Forall_app. split; apply recip_pos; auto. }
  pose proof R as R'. apply ipm_meaning in R'; auto; [|discriminate]. destruct R' as (_ & _ & _ & _ & Pc).
  apply (ipm_fin E _ o cbs None Hff Hl Hok Hs (fun w => V (fst w))) in R; auto; try discriminate; [|apply pos_Fin; lra|apply pos_Fin; lra].
  destruct R as (R1 & (R2 & R3 & R4 & R5)). split; [exact R1|].
  assert (Qx : vfin (segment (S := Xn) (is_x E fin0) 0 (length x))) by apply f_seg, R2. split; [exact Qx|].
  destruct s1; try exact Fy. specialize (Pc eq_refl). destruct Pc as (PX & _). cbn [point_of pt_x fr_sqp_prob ip_n] in PX.
  assert (Lx' : length (segment (S := Xn) (is_x E fin0) 0 (length x)) = sp_n P).
  { refine (eq_trans (segment_len (S := Xn) _ _ _ _) Lx). eapply Nat.le_trans; [|apply Nat.eq_le_incl; symmetry; exact PX]. apply (Nat.le_trans _ (sp_n P)); [apply Nat.eq_le_incl; exact Lx|lia]. }
  destruct (Hf _ Lx' Qx) as (_ & H2 & _ & H4 & _). unfold estimate_sqp. apply Hef; [apply f_mmt, H4|apply f_mvec; auto].
Qed.

Lemma sqp_solve_fin fuel (P : sprob Xn) (cbs : list (callback Xn U)) x (u : U) clk0 st fin : sprob_ok P -> fin_sqp P -> length x = sp_n P -> vfin x ->
  (forall i u, shownf i -> V u -> V (fst (run_callbacks cbs i u))) -> V u ->
  sqp_solve E o fuel P cbs x u clk0 = Ok (st, fin) -> V (s_u _ fin) /\ vfin (s_x _ fin) /\ vfin (s_y _ fin).
Proof.
  intros Hp Hf Lx Fx Hv Vu H. unfold sqp_solve, sqp in H.
  apply (sqp_fin E P o cbs _ Hf Hl Hp Hs V) in H; auto.
  - apply sqp_restore_ok; auto.
  - apply sqp_restore_fin; auto.
  - apply repeat_length.
  - apply repeat_Forall; reflexivity.
Qed.
End Solve.
