(** What an outcome of the solver for equality constraints means. *)
From Coq Require Import ZArith List Bool Lia.
From Verif Require Import Base ExprModel NumModel UtilModel KktModel FilterModel FilterProofs ExitModel SolverModel SolverSpec SolverProofs
  NewtonModel NewtonProofs SqpModel SqpSpec IpmModel IpmShape IpmSpec IpmProofs RestoreModel RestoreProofs.
Import ListNotations.

Section Sqp.
Context {S : nops}.
Variables (E : env S) (P : sprob S) (o : options S).
Context {U : Type}.
Variable cbs : list (callback S U).
Notation n := (sp_n P).
Notation me := (sp_me P).
Notation "0" := (s_ofZ S 0).
Notation "1" := (s_ofZ S 1).
Definition srestorer := list (callback S (U * filter S)) -> list S -> list S -> Z -> U * filter S -> nat ->
  outcome (status * list S * list S * Z * (U * filter S) * nat).
Variable restore : srestorer.

(** What the line search can accept. *)
Inductive stook (c : sctx E) (d : list S * list S) : strial (S := S) -> Prop :=
| stook_step k flt flt' : let a := halves k 1 in let t := sqp_trial P (sx_x _ c) (sx_y _ c) a d in
    s_finite S (st_f t) = true -> all_fin (st_ce t) = true ->
    try_add flt (sx_cur _ c) (st_entry t) (sx_d _ c) a = (flt', true) -> stook c d t
| stook_soc ce a flt flt' : let t := sqp_trial P (sx_x _ c) (sx_y _ c) a (sqp_dir E (sx_ls _ c) (length (sx_x _ c)) (sx_top _ c ++ vneg ce)) in
    length ce = me -> s_eqb S a 1 = true -> try_add flt (sx_cur _ c) (st_entry t) (sx_d _ c) a = (flt', true) -> stook c d t
| stook_error : let t := sqp_trial P (sx_x _ c) (sx_y _ c) 1 d in
    s_leb S (kkt1_sqp n (sp_g P (st_x t)) (sp_Ae P (st_x t)) (st_ce t) (st_y t))
            (s_mul S (lit 999 3) (kkt1_sqp n (sx_g _ c) (sx_Ae _ c) (sx_ce _ c) (sx_y _ c))) = true -> stook c d t.

Hypothesis Hp : sprob_ok P.
Hypothesis Hs : solve_ok E.
(** The iterate is x, y with everything evaluated there. *)
Definition sc_ok (c : sctx E) : Prop := length (sx_x _ c) = n /\ length (sx_y _ c) = me /\ length (sx_ce _ c) = me /\ length (sx_top _ c) = n.
Lemma sdir_len ls (x top c : list S) : length x = n -> length top = n -> length c = me ->
  let d := sqp_dir E ls (length x) (top ++ vneg c) in length (fst d) = n /\ length (snd d) = me.
Proof.
  intros Lx Ly Lc. cbn [fst snd sqp_dir]. rewrite firstn_length, (vneg_len _ _ eq_refl), skipn_length, Hs, app_length, (vneg_len _ _ eq_refl). lia.
Qed.
Lemma strial_len (x y : list S) a d : length x = n -> length y = me -> length (fst d) = n -> length (snd d) = me ->
  let t := sqp_trial P x y a d in length (st_x t) = n /\ length (st_y t) = me /\ length (st_ce t) = me.
Proof.
  intros Lx Ly L1 L2. cbn [sqp_trial st_x st_y st_ce]. split; [apply vstep_len; auto|]. split; [apply vstep_len; auto|].
  apply Hp. apply vstep_len; auto.
Qed.

Lemma ssoc_took c d a : sc_ok c -> s_eqb S a 1 = true -> forall k ce tce viol flt flt' r, length ce = me -> length tce = me ->
  sqp_soc E P k c a a ce tce viol flt = (flt', r) -> match r with Some t => stook c d t | None => True end.
Proof.
  intros (Lx & Ly & Lc & Lt) Q. induction k as [|k IH]; intros ce tce viol flt flt' r L1 L2 H; cbn [sqp_soc] in H. { injection H as <- <-. exact I. }
  cbv zeta in H. assert (L3 : length (vadd (vscale a ce) tce) = me) by (apply vadd_len; auto; apply vscale_len; auto).
  destruct (try_add _ _ _ _ _) as [flt1 ok] eqn:T. destruct ok.
  - injection H as <- <-. eapply stook_soc; eauto.
  - destruct (s_ltb S _ _); [injection H as <- <-; exact I|]. eapply IH; [| |exact H]; auto.
    destruct (sdir_len (sx_ls _ c) _ _ _ Lx Lt L3) as [M1 M2]. apply strial_len; auto.
Qed.

Lemma ssearch_took c d : sc_ok c -> length (fst d) = n -> length (snd d) = me -> forall fuel k flt cnt r, sqp_search E P fuel c d (halves k 1) flt cnt = Ok r ->
  match sf_t r with Some t => stook c d t | None => True end.
Proof.
  intros Hc D1 D2. induction fuel as [|fuel IH]; intros k flt cnt r H; [discriminate|]. cbn [sqp_search] in H. cbv zeta in H.
  rewrite <- !halves_S' in H. destruct (negb (s_finite S _) || _) eqn:F.
  { destruct (s_ltb S _ _); [injection H as <-; exact I|]. apply IH in H. exact H. }
  apply orb_false_iff in F. destruct F as [F1 F2]. rewrite negb_false_iff in F1, F2.
  destruct (try_add _ _ _ _ _) as [flt1 ok] eqn:T. destruct ok. { injection H as <-. cbn [sf_t]. eapply stook_step; eauto. }
  set (soc := if s_eqb S _ _ && _ then _ else _) in H.
  assert (Qs : match snd soc with Some t' => stook c d t' | None => True end).
  { unfold soc. match goal with |- context [if ?b then _ else _] => destruct b eqn:Q1 end; [|exact I].
    apply andb_true_iff in Q1. destruct Q1 as [Q1 _]. clear soc H.
    match goal with |- context [sqp_soc ?a ?b ?c ?d ?e ?f ?g ?h ?i ?j] => destruct (sqp_soc a b c d e f g h i j) as [flt2 r2] eqn:Sc end.
    eapply ssoc_took in Sc; eauto; [apply Hc|]. destruct Hc as (Lx & Ly & Lc & Lt). apply strial_len; auto. }
  destruct soc as [flt2 [t'|]]; cbn [snd] in Qs. { injection H as <-. exact Qs. }
  destruct (reset_filter _ _ _). { apply IH in H. exact H. }
  destruct (s_ltb S _ _).
  - destruct (s_leb S _ _) eqn:K; injection H as <-; cbn [sf_t]; auto. apply stook_error. exact K.
  - apply IH in H. exact H.
Qed.

(** What is assumed about feasibility restoration. *)
Definition srestore_ok : Prop := forall cbs x y it uf clk st x' y' it' uf' clk', restore cbs x y it uf clk = Ok (st, x', y', it', uf', clk') ->
  length x = n -> length y = me ->
  (st = SUCCESS \/ st = LOCALLY_INFEASIBLE \/ st = FEASIBILITY_RESTORATION_FAILED) /\
  (st = SUCCESS -> length x' = n /\ length y' = me /\ (it' <= Z.max it (o_max o - 1))%Z) /\ (it <= it' <= Z.max (it + 1) (o_max o))%Z.
Definition srestored (p p' : list S * list S) : Prop := exists cbs it uf clk it' uf' clk',
  restore cbs (fst p) (snd p) it uf clk = Ok (SUCCESS, fst p', snd p', it', uf', clk').
Definition sresto (st : status) (x' : list S) : Prop := exists cbs x y it uf clk y' it' uf' clk', restore cbs x y it uf clk = Ok (st, x', y', it', uf', clk').

Hypothesis Hr : srestore_ok.

Definition s_inv (p0 : list S * list S) (st : sstate E (U := U)) : Prop :=
  let x := s_x _ st in let y := s_y _ st in
  s_f _ st = sp_f P x /\ s_g _ st = sp_g P x /\ s_H _ st = sp_H P x y /\ s_ce _ st = sp_ce P x /\ s_Ae _ st = sp_Ae P x /\
  s_E _ st = serror_at P x y /\ (length x = n /\ length y = me) /\
  (0 <= s_it _ st)%Z /\ (s_it _ st = 0%Z \/ (s_it _ st < o_max o)%Z) /\
  exists k, path (sqp_move E P srestored) k p0 (x, y) /\ (Z.of_nat k <= s_it _ st)%Z.

Lemma send_inv clk0 p0 x y flt cnt it (u : U) ls clk k : length x = n -> length y = me -> (0 <= it)%Z ->
  path (sqp_move E P srestored) k p0 (x, y) -> (Z.of_nat k <= it + 1)%Z ->
  match sqp_end E P o (e_clock E clk0) x y (sp_f P x) (sp_ce P x) flt cnt it u ls clk with
  | Next st' => s_inv p0 st' /\ s_it _ st' = (it + 1)%Z /\ (s_it _ st' < o_max o)%Z
  | Exit st st' => sqp_means E P o sresto clk0 st st' /\ (st = MAX_ITERATIONS_EXCEEDED \/ st = TIMEOUT) /\
      s_x _ st' = x /\ s_y _ st' = y /\ s_it _ st' = (it + 1)%Z
  end.
Proof.
  intros Lx Ly L Pa Lk. unfold sqp_end. destruct (limits _ _ _ _ _) as [l clk'] eqn:Li. destruct l as [st|]; cbn [finish].
  - apply limits_some in Li. destruct Li as [(-> & L1 & ->)|(-> & L1 & T & ->)].
    + split; [cbn; lia|]. auto.
    + split; [cbn; rewrite Nat.sub_0_r; split; [lia|exact T]|]. auto.
  - apply limits_none in Li. destruct Li as (L1 & _). split; [|split; [reflexivity|exact L1]].
    unfold s_inv. cbn [s_f s_g s_H s_ce s_Ae s_E s_it s_x s_y]. do 6 (split; [reflexivity|]). split; [auto|]. split; [lia|]. split; [auto|]. exists k. auto.
Qed.

Lemma sbody_inv fuel clk0 p0 st r : s_inv p0 st -> sqp_body E P o cbs restore fuel (e_clock E clk0) st = Ok r ->
  match r with
  | Next st' => s_inv p0 st' /\ (s_it _ st < s_it _ st' < o_max o)%Z
  | Exit s st' => sqp_means E P o sresto clk0 s st' /\ s <> SUCCESS /\ (0 <= s_it _ st' <= Z.max 1 (o_max o))%Z /\
      exists k p, path (sqp_move E P srestored) k p0 p /\ (Z.of_nat k <= s_it _ st')%Z /\
       ((s_x _ st', s_y _ st') = p \/ s = LOCALLY_INFEASIBLE \/ s = FEASIBILITY_RESTORATION_FAILED)
  end.
Proof.
  intros (If & Ig & IH & Ice & IAe & IE & (Lx & Ly) & L0 & L1 & k & Pa & Lk) H. unfold sqp_body in H.
  destruct (eq_infeasible _ _ _) eqn:EI.
  { injection H as <-. rewrite IAe, Ice in EI. split; [cbn; auto|]. split; [discriminate|]. split; [lia|]. exists k, (s_x _ st, s_y _ st). auto. }
  destruct (diverging _) eqn:D. { injection H as <-. split; [exact D|]. split; [discriminate|]. split; [lia|]. exists k, (s_x _ st, s_y _ st). auto. }
  destruct (run_callbacks _ _ _) as [u stop]. destruct stop.
  { injection H as <-. split; [exact D|]. split; [discriminate|]. cbn [s_set s_it]. split; [lia|]. exists k, (s_x _ st, s_y _ st). auto. }
  destruct (ls_compute _ _ _) as [ls ok] eqn:L. rewrite IH, IAe in L. destruct ok; cbn [negb] in H.
  2:{ injection H as <-. split. { cbn. exists (s_ls _ st). rewrite L. reflexivity. } split; [discriminate|]. cbn [s_set s_it]. split; [lia|].
      exists k, (s_x _ st, s_y _ st). auto. }
  cbv zeta in H. apply obind_ok in H. destruct H as (rs & Se & H).
  destruct (Hp _ Lx) as (Hg & Hce & HAe).
  assert (Lt : length (vadd (vneg (sp_g P (s_x _ st))) (mtvec n (sp_Ae P (s_x _ st)) (s_y _ st))) = n).
  { apply vadd_len; [apply vneg_len; auto|]. apply mat_dims_ok in HAe. destruct HAe. apply mtvec_len; auto. }
  set (top := vadd (vneg (sp_g P (s_x _ st))) (mtvec n (sp_Ae P (s_x _ st)) (s_y _ st))) in *.
  assert (D0 : forall c, let d := sqp_dir E ls (length (s_x _ st)) (top ++ vneg c) in
    sqp_direction E P (s_x _ st) (s_y _ st) c (fst d) (snd d)).
  { intros c. exists (s_ls _ st), ls. eexists. split; [exact L|]. split; [reflexivity|]. split; reflexivity. }
  unfold sqp_rhs, sqp_ctx in Se. rewrite If, Ig, IAe, Ice in Se. fold top in Se.
  destruct (sdir_len ls _ _ _ Lx Lt Hce) as [Ld1 Ld2].
  set (d := sqp_dir E ls (length (s_x _ st)) (top ++ vneg (sp_ce P (s_x _ st)))) in *.
  match type of Se with sqp_search _ _ _ ?c0 _ _ _ _ = _ => assert (Hc : sc_ok c0) by (unfold sc_ok; cbn [sx_x sx_y sx_ce sx_top]; auto) end.
  apply (ssearch_took _ _ Hc Ld1 Ld2 fuel 0) in Se. clear Hc.
  destruct (sf_t rs) as [t|].
  - injection H as <-.
    assert (Q : length (st_x t) = n /\ length (st_y t) = me /\ st_f t = sp_f P (st_x t) /\ st_ce t = sp_ce P (st_x t) /\
                sqp_move E P srestored (s_x _ st, s_y _ st) (st_x t, st_y t)).
    { destruct Se as [j flt flt' a t F1 F2 T|c a flt flt' t Lc Q T|t T]; cbn [sx_x sx_y sx_ls sx_top] in *.
      - destruct (strial_len _ _ a _ Lx Ly Ld1 Ld2) as (M1 & M2 & _). fold t in M1, M2. do 4 (split; [auto; reflexivity|]).
        eapply smove_filter with (k := j); [apply D0|reflexivity|reflexivity|exact F1|exact F2|exact T].
      - destruct (sdir_len ls _ _ _ Lx Lt Lc) as [M1 M2]. destruct (strial_len _ _ a _ Lx Ly M1 M2) as (N1 & N2 & _). fold t in N1, N2.
        do 4 (split; [auto; reflexivity|]). eapply smove_correction; [apply (D0 (sp_ce P (s_x _ st)))|apply (D0 c)|exact Q|reflexivity|reflexivity|exact T].
      - destruct (strial_len _ _ 1 _ Lx Ly Ld1 Ld2) as (M1 & M2 & _). fold t in M1, M2. do 4 (split; [auto; reflexivity|]).
        eapply smove_error; [apply (D0 (sp_ce P (s_x _ st)))|reflexivity|reflexivity|exact T]. }
    destruct Q as (M1 & M2 & -> & -> & Mv).
    pose proof (send_inv clk0 p0 _ _ (sf_flt rs) (if s_eqb S (sf_a rs) 1 then 0%Z else sf_cnt rs) (s_it _ st) u ls (s_clk _ st) (Datatypes.S k)
      M1 M2 L0 (p_step _ _ _ _ _ Pa Mv) ltac:(lia)) as En.
    destruct (sqp_end _ _ _ _ _ _ _ _ _ _ _ _ _ _) as [s' st'|st'].
    + destruct En as (M & Ws & X1 & X2 & It). split; auto. split; [destruct Ws; subst; discriminate|]. split; [lia|].
      exists (Datatypes.S k), (st_x t, st_y t). split; [econstructor; eauto|]. split; [lia|]. left. congruence.
    + destruct En as (M & It & Lt'). split; auto. lia.
  - apply obind_ok in H. destruct H as ([[[[[s' x'] y'] it'] uf'] clk'] & Rr & H).
    destruct (Hr _ _ _ _ _ _ _ _ _ _ _ _ Rr Lx Ly) as (Hst & Hok & Hit).
    destruct (is_success s') eqn:Su; injection H as <-.
    + assert (St : s' = SUCCESS) by (destruct Hst as [ -> | [ -> | -> ] ]; [auto|discriminate|discriminate]). subst s'.
      destruct (Hok eq_refl) as (M1 & M2 & Lq).
      assert (Mv : sqp_move E P srestored (s_x _ st, s_y _ st) (x', y')) by (apply smove_restored; unfold srestored; cbn [fst snd]; eauto 10).
      pose proof (send_inv clk0 p0 x' y' (snd uf') (sf_cnt rs) it' (fst uf') ls clk' (Datatypes.S k)
        M1 M2 ltac:(lia) (p_step _ _ _ _ _ Pa Mv) ltac:(lia)) as En.
      destruct (sqp_end _ _ _ _ _ _ _ _ _ _ _ _ _ _) as [s' st'|st'].
      * destruct En as (M & Ws & X1 & X2 & It). split; auto. split; [destruct Ws; subst; discriminate|]. split; [lia|].
        exists (Datatypes.S k), (x', y'). split; [econstructor; eauto|]. split; [lia|]. left. congruence.
      * destruct En as (M & It & Lt'). split; auto. lia.
    + assert (St : s' = LOCALLY_INFEASIBLE \/ s' = FEASIBILITY_RESTORATION_FAILED) by (destruct Hst as [ -> | [ -> | -> ] ]; [discriminate|auto|auto]).
      assert (Rt : sresto s' x') by (unfold sresto; eauto 15).
      split. { destruct St as [ -> | -> ]; [right; exact Rt|exact Rt]. }
      split; [destruct St; subst; discriminate|]. cbn [s_set s_it]. split; [lia|]. exists k, (s_x _ st, s_y _ st). split; auto. split; [lia|auto].
Qed.

Lemma sqp_meaning fuel x y (u : U) clk0 st fin : length x = n -> length y = me ->
  sqp_from E P o cbs restore fuel x y u clk0 = Ok (st, fin) ->
  sqp_means E P o sresto clk0 st fin /\ (0 <= s_it _ fin <= Z.max 1 (o_max o))%Z /\
  exists k p, path (sqp_move E P srestored) k (x, y) p /\ (Z.of_nat k <= s_it _ fin)%Z /\
     ((s_x _ fin, s_y _ fin) = p \/ st = LOCALLY_INFEASIBLE \/ st = FEASIBILITY_RESTORATION_FAILED).
Proof.
  intros Lx Ly H. unfold sqp_from in H. apply oassert_ok in H. destruct H as [_ H].
  assert (Pa0 : path (sqp_move E P srestored) 0 (x, y) (x, y)) by constructor.
  destruct (Nat.ltb_spec n me) as [Lt|Ge].
  { injection H as <- <-. split; [cbn; split; [reflexivity|exact Lt]|]. cbn [sqp_init s_it]. split; [lia|]. exists O, (x, y). split; [exact Pa0|]. split; [lia|auto]. }
  destruct (_ || _) eqn:NF.
  - injection H as <- <-. split.
    + cbn [sqp_means]. split; [reflexivity|]. cbn [sqp_init s_f s_g s_H s_ce s_Ae s_x s_y] in *.
      repeat rewrite orb_true_iff in NF. rewrite !negb_true_iff in NF. tauto.
    + cbn [sqp_init s_it]. split; [lia|]. exists O, (x, y). split; [exact Pa0|]. split; [lia|auto].
  - apply (drive_ok _ _ _ (s_inv (x, y))) in H.
    + destruct H as (st1 & I & [(-> & -> & L)|(L & B)]).
      * destruct I as (If & Ig & IH & Ice & IAe & IE & Pk' & L0 & L1 & k' & Pa & Lk). split; [cbn [sqp_means]; rewrite <- IE; exact L|].
        split; [lia|]. eauto 10.
      * pose proof (sbody_inv _ _ _ _ _ I B) as (M & Ns & It & Pa). auto.
    + intros st1 st2 I _ B. pose proof (sbody_inv _ _ _ _ _ I B) as [K _]. exact K.
    + unfold s_inv. cbn [sqp_init s_f s_g s_H s_ce s_Ae s_E s_it s_x s_y].
      do 6 (split; [reflexivity|]). split; [auto|]. split; [lia|]. split; [auto|]. exists O. split; [constructor|lia].
Qed.
End Sqp.

Section Restore.
Context {S : nops}.
Variables (E : env S) (o : options S).
Context {U : Type}.
Lemma sqp_restore_ok fuel (P : sprob S) : sprob_ok P -> solve_ok E -> est_ok E -> srestore_ok P o (sqp_restore (U := U) E o fuel P).
Proof.
  intros Hp Hs He cbs x y it uf clk st x' y' it' uf' clk' H Lx Ly. unfold sqp_restore in H.
  destruct (fr_sqp_start o P x) as [[frx frz] mu] eqn:Q. apply obind_ok in H. destruct H as ([s1 fin] & R & H). injection H as <- <- <- <- <- <-.
  unfold fr_sqp_start in Q. cbv zeta in Q. destruct (compute_p_n _ _ _) as [pe ne] eqn:Q1. injection Q as <- <- Qm.
  apply compute_p_n_len in Q1. destruct Q1 as [Q1 Q1']. destruct (Hp _ Lx) as (Hg & Hce & HAe). rewrite Hce in *.
  apply ipm_meaning in R; auto; [|apply fr_sqp_ok; auto|discriminate|].
  2:{ unfold pt_ok. cbn [pt_x pt_s pt_y pt_z fr_sqp_prob ip_n ip_me ip_mi]. rewrite !app_length, !repeat_length.
      repeat rewrite (vscale_len _ _ _ eq_refl). repeat rewrite (vinv_len _ _ eq_refl). lia. }
  destruct R as (M & It & Itc & _ & Pc). split; [apply fr_status_cases|]. split; [|exact It].
  intros Su. apply fr_status_success in Su. specialize (Itc Su). specialize (Pc Su). subst s1.
  destruct Pc as (PX & PS & PY & PZ). cbn [pt_x pt_s pt_y pt_z point_of fr_sqp_prob ip_n ip_me ip_mi] in *.
  assert (Lx' : length (segment (is_x E fin) 0 (length x)) = sp_n P) by (rewrite segment_len; lia).
  split; [auto|]. split; [|exact Itc]. destruct (Hp _ Lx') as (Hg' & Hce' & HAe'). apply mat_dims_ok in HAe'. destruct HAe' as [HAe' _].
  unfold estimate_sqp. rewrite He, (mvec_len _ _ _ eq_refl). exact HAe'.
Qed.

Lemma sqp_solve_meaning fuel (P : sprob S) cbs x (u : U) clk0 st fin : sprob_ok P -> solve_ok E -> est_ok E -> length x = sp_n P ->
  sqp_solve E o fuel P cbs x u clk0 = Ok (st, fin) ->
  let rst := sqp_restore (U := U) E o fuel P in
  sqp_means E P o (sresto rst) clk0 st fin /\ (0 <= s_it _ fin <= Z.max 1 (o_max o))%Z /\
  exists k p, path (sqp_move E P (srestored rst)) k (x, repeat (s_ofZ S 0) (sp_me P)) p /\ (Z.of_nat k <= s_it _ fin)%Z /\
     ((s_x _ fin, s_y _ fin) = p \/ st = LOCALLY_INFEASIBLE \/ st = FEASIBILITY_RESTORATION_FAILED).
Proof.
  intros Hp Hs He Lx H. unfold sqp_solve, sqp in H. apply sqp_meaning in H; auto; [apply sqp_restore_ok; auto|apply repeat_length].
Qed.
End Restore.
