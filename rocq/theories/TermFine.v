(** For C82: the solvers return whenever their inputs have the right shapes (extended reals). *)
From Coq Require Import ZArith Reals List Bool Lra Lia.
From Verif Require Import Base ExprModel ExprReal ExprXR NumModel UtilModel KktModel FilterModel FilterProofs ExitModel SolverModel SolverSpec SolverProofs
  NewtonModel NewtonProofs SqpModel SqpSpec SqpProofs IpmModel IpmShape IpmSpec IpmProofs RestoreModel RestoreProofs XArith PosX PosProofs TermProofs.
Import ListNotations.
Local Open Scope nat_scope.

(** No failed assertion and no undefined behaviour. *)
Definition fine {A} (r : outcome A) : Prop := match r with Ok _ | OutOfFuel => True | _ => False end.
Lemma fine_bind {A B} (r : outcome A) (k : A -> outcome B) : fine r -> (forall a, r = Ok a -> fine (k a)) -> fine (obind r k).
Proof. destruct r; cbn; auto; contradiction. Qed.
Definition returns {A} (f : nat -> outcome A) : Prop := exists N a, forall n, N <= n -> f n = Ok a.
Lemma settles_fine {A} (f : nat -> outcome A) : settles f -> (forall n, fine (f n)) -> returns f.
Proof.
  intros (N & r & H & K) F. pose proof (F N) as G. rewrite (K N (le_n _)) in G. destruct r as [a| | |]; cbn in G; try contradiction.
  exists N, a. exact K.
Qed.
Section Drive.
Context {S : nops} {St : Type}.
Variables (err : St -> S) (tol : S) (body : St -> outcome (pass St)) (Inv Q : St -> Prop).
Hypothesis Hbody : forall st, Inv st -> fine (body st).
Hypothesis Hnext : forall st st', Inv st -> body st = Ok (Next st') -> Inv st'.
Hypothesis Hexit : forall s st st', Inv st -> body st = Ok (Exit s st') -> Q st'.
Hypothesis Hend : forall st, Inv st -> Q st.
Lemma fine_drive : forall fuel st, Inv st -> fine (drive err tol body fuel st) /\ (forall s st', drive err tol body fuel st = Ok (s, st') -> Q st').
Proof.
  induction fuel as [|fuel IH]; intros st I; cbn [drive]; [split; [exact Logic.I|discriminate]|].
  destruct (s_ltb S tol (err st)). 2:{ split; [exact Logic.I|]. intros s st' H. injection H as <- <-. apply Hend, I. }
  pose proof (Hbody st I) as B. destruct (body st) as [[s1 st1|st1]| | |] eqn:E; cbn [obind fine] in *; try contradiction.
  - split; [exact Logic.I|]. intros s st' H. injection H as <- <-. eapply Hexit; eauto.
  - apply IH. eapply Hnext; eauto.
  - split; [exact Logic.I|discriminate].
Qed.
End Drive.

Lemma isearch_fine (E : env Xn) P o : forall fuel c d dphi amax az a flt cnt, fine (ipm_search E P o fuel c d dphi amax az a flt cnt).
Proof.
  induction fuel as [|fuel IH]; intros; cbn [ipm_search]; [exact I|]. cbv zeta.
  destruct (_ || _ || _); [destruct (s_ltb Xn _ _); [exact I|apply IH]|]. destruct (try_add _ _ _ _ _) as [f1 ok]. destruct ok; [exact I|].
  match goal with |- context [let '(_, _) := ?tt0 in _] => destruct tt0 as [f2 [[t a']|]] end; [exact I|].
  destruct (reset_filter _ _ _); [apply IH|]. destruct (s_ltb Xn _ _); [|apply IH]. destruct (s_leb Xn _ _); exact I.
Qed.
Lemma ssearch_fine (E : env Xn) P : forall fuel c d a flt cnt, fine (sqp_search E P fuel c d a flt cnt).
Proof.
  induction fuel as [|fuel IH]; intros; cbn [sqp_search]; [exact I|]. cbv zeta.
  destruct (_ || _); [destruct (s_ltb Xn _ _); [exact I|apply IH]|]. destruct (try_add _ _ _ _ _) as [f1 ok]. destruct ok; [exact I|].
  match goal with |- context [let '(_, _) := ?tt0 in _] => destruct tt0 as [f2 [t|]] end; [exact I|].
  destruct (reset_filter _ _ _); [apply IH|]. destruct (s_ltb Xn _ _); [|apply IH]. destruct (s_leb Xn _ _); exact I.
Qed.
Lemma barrier_fine (P : iprob Xn) (o : options Xn) : forall fuel err mu tau flt, fine (barrier P o fuel err mu tau flt).
Proof. induction fuel as [|fuel IH]; intros; cbn [barrier]; [exact I|]. destruct (_ && _); [apply IH|exact I]. Qed.

Section Ipm.
Variables (E : env Xn) (P : iprob Xn) (o : options Xn).
Context {U : Type}.
Variable cbs : list (callback Xn U).
Variable rf : option (nat -> restorer (S := Xn) (U := U)).
Hypothesis Hp : iprob_ok P.
Hypothesis Hs : solve_ok E.
Hypothesis Hf : pos (sc_f (ip_sc P)).
Hypothesis Ht : pos (o_tol o).
Hypothesis Hr : forall r, rf = Some r -> restore_settles P o r.
Definition restore_fine (r : nat -> restorer (S := Xn) (U := U)) : Prop :=
  forall n cbs x s y z mu it uf clk, pt_ok P (mkPt x s y z) -> List.Forall pos s -> pos mu ->
    fine (r n cbs x s y z mu it uf clk) /\ forall st q, r n cbs x s y z mu it uf clk = Ok (st, q) -> length (ir_x q) = ip_n P.
Hypothesis Hg : forall r, rf = Some r -> restore_fine r.
Notation core := (core E P (U := U)).
Notation restore_at := (restore_at rf).

Lemma end_fine fuel start x s y z f ce ci mu tau flt cnt it (u : U) ls clk : fine (ipm_end E P o fuel start x s y z f ce ci mu tau flt cnt it u ls clk).
Proof.
  unfold ipm_end. apply fine_bind; [destruct (s_ltb Xn _ _); [apply barrier_fine|exact I]|].
  intros [[m t] fl] _. destruct (limits _ _ _ _ _). exact I.
Qed.
Lemma end_x fuel start x s y z f ce ci mu tau flt cnt it (u : U) ls clk s' st : ipm_end E P o fuel start x s y z f ce ci mu tau flt cnt it u ls clk = Ok (Exit s' st) -> is_x _ st = x.
Proof.
  unfold ipm_end. intros H. apply obind_ok in H. destruct H as ([[m t] fl] & _ & H). destruct (limits _ _ _ _ _) as [l c]. injection H as H. destruct l; cbn [finish] in H; [|discriminate]. injection H as _ <-. reflexivity.
Qed.

Lemma body_fine n clk0 st : core st -> fine (ipm_body E P o cbs (restore_at n) n (e_clock E clk0) st) /\
  forall s st', ipm_body E P o cbs (restore_at n) n (e_clock E clk0) st = Ok (Exit s st') -> length (is_x _ st') = ip_n P.
Proof.
  intros C. pose proof C as ((A1 & A2 & A3 & A4 & A5 & A6 & A7 & A8 & A9) & B & Pm & Pt).
  assert (Lx : length (is_x _ st) = ip_n P) by apply A9.
  unfold ipm_body. destruct (eq_infeasible _ _ _); [split; [exact I|]; intros s st' H; injection H as _ <-; exact Lx|].
  destruct (ineq_infeasible _ _ _); [split; [exact I|]; intros s st' H; injection H as _ <-; exact Lx|].
  destruct (diverging _ || diverging _) eqn:D; [split; [exact I|]; intros s st' H; injection H as _ <-; exact Lx|].
  apply orb_false_iff in D. destruct D as [D1 D2].
  destruct (run_callbacks _ _ _) as [u stop]. destruct stop; [split; [exact I|]; intros s st' H; injection H as _ <-; exact Lx|].
  destruct (ls_compute _ _ _) as [ls ok]. destruct ok; cbn [negb]; [|split; [exact I|]; intros s st' H; injection H as _ <-; exact Lx]. cbv zeta.
  assert (Sp : s_pos False (is_s _ st) (is_z _ st)) by (pose proof (diverging_fin _ D1); pose proof (diverging_fin _ D2); destruct B as [Q|[Q|Q]]; [congruence|congruence|exact Q]).
  set (c := ipm_ctx E st ls).
  assert (Cc : c_pos E P False c).
  { pose proof (core_inv E P o rf 0 st C) as (J & _). split; [eapply ctx_ok; eauto|]. unfold c. cbn [ipm_ctx ix_ci ix_Ai ix_x ix_s ix_z ix_mu ix_tau].
    do 5 (split; [assumption|]). apply not_diverging. exact D1. }
  pose proof (proj1 Cc) as Hc. pose proof (the_step_ok E P Hs c Hc) as Hd.
  change (vdot (S := Xn) (is_g E st) (p_x (ipm_step E c (ipm_rhs E P c) (vsub (S := Xn) (is_ci E st) (is_s E st)))))
    with (vdot (S := Xn) (ix_g E c) (p_x (the_step E P c))).
  match goal with |- context [ipm_search E P o n c ?d ?dphi ?amax ?az ?amax ?flt ?cnt] =>
    change d with (the_step E P c); change amax with (the_amax E P c); change az with (the_az E P c) end.
  match goal with |- context [ipm_search E P o n c ?d ?dphi ?amax ?az ?amax ?flt ?cnt] =>
    change dphi with (the_dphi E P c); pose proof (isearch_fine E P o n c d (the_dphi E P c) amax az amax flt cnt) as SF;
    pose proof (fun r => search_took0 E P o Hp Hs c d (the_dphi E P c) amax az n flt cnt r Hc Hd) as ST;
    destruct (ipm_search E P o n c d (the_dphi E P c) amax az amax flt cnt) as [r| | |]; cbn [obind fine] in *; try contradiction; [|split; [exact I|discriminate]]
  end.
  specialize (ST r eq_refl).
  match goal with |- context [if ?b then None else if_t r] => destruct b end.
  2: destruct (if_t r) as [t|].
  2:{ destruct (took_pos E P o False (fun f => False_ind _ f) Hp Hs c _ _ Cc ST) as [Q1 Q2]. pose proof Pm as (m & Em & Pm').
    destruct (clamp_zs_X m Pm' (it_s t) (it_z t)) as (vs & Ev & _); [|exact Q1|].
    { destruct (took_ok E P o _ _ _ _ _ _ _ Hp Hs Hc Hd ST) as [(_ & TS & _ & TZ & _) _]. etransitivity; [exact TZ|symmetry; exact TS]. }
    assert (Ev' : clamp_zs (S := Xn) (is_mu E st) (it_s t) (it_z t) = Ok vs) by (rewrite Em; exact Ev). rewrite Ev'. cbn [obind].
    split; [apply end_fine|]. intros s st' H. apply end_x in H. rewrite H. destruct (took_ok E P o _ _ _ _ _ _ _ Hp Hs Hc Hd ST) as [(TX & _) _]. exact TX. }
  { unfold TermProofs.restore_at. destruct rf as [rs|] eqn:Q; [|split; [exact I|]; intros s st' H; injection H as _ <-; exact Lx].
    match goal with |- context [rs n ?c0 ?x0 ?s0 ?y0 ?z0 ?mu0 ?it0 ?uf0 ?clk0] =>
      destruct (Hg _ eq_refl n c0 x0 s0 y0 z0 mu0 it0 uf0 clk0 A9 (proj1 Sp) Pm) as [G1 G2];
      destruct (rs n c0 x0 s0 y0 z0 mu0 it0 uf0 clk0) as [[status q]| | |]; cbn [obind fine] in *; try contradiction; [|split; [exact I|discriminate]] end.
    specialize (G2 status q eq_refl). destruct (is_success status); [|split; [exact I|]; intros s st' H; injection H as _ <-; exact G2].
    split; [apply end_fine|]. intros s st' H. apply end_x in H. rewrite H. exact G2. }
  { unfold TermProofs.restore_at. destruct rf as [rs|] eqn:Q; [|split; [exact I|]; intros s st' H; injection H as _ <-; exact Lx].
    match goal with |- context [rs n ?c0 ?x0 ?s0 ?y0 ?z0 ?mu0 ?it0 ?uf0 ?clk0] =>
      destruct (Hg _ eq_refl n c0 x0 s0 y0 z0 mu0 it0 uf0 clk0 A9 (proj1 Sp) Pm) as [G1 G2];
      destruct (rs n c0 x0 s0 y0 z0 mu0 it0 uf0 clk0) as [[status q]| | |]; cbn [obind fine] in *; try contradiction; [|split; [exact I|discriminate]] end.
    specialize (G2 status q eq_refl). destruct (is_success status); [|split; [exact I|]; intros s st' H; injection H as _ <-; exact G2].
    split; [apply end_fine|]. intros s st' H. apply end_x in H. rewrite H. exact G2. }
Qed.

Definition H_ok : Prop := forall x y z, length x = ip_n P -> length y = ip_me P -> length z = ip_mi P -> mat_dims (S := Xn) (ip_n P) (ip_n P) (ip_H P x y z) = true.
Lemma dims_assert infr x s y z mu it0 (u : U) clk0 : H_ok -> pt_ok P (mkPt x s y z) -> let st := ipm_init E P infr x s y z mu it0 u clk0 in
  vec_dim (S := Xn) (ip_n P) (is_g _ st) && mat_dims (S := Xn) (ip_n P) (ip_n P) (is_H _ st) && vec_dim (S := Xn) (ip_me P) (is_ce _ st)
    && mat_dims (S := Xn) (ip_me P) (ip_n P) (is_Ae _ st) && vec_dim (S := Xn) (ip_mi P) (is_ci _ st) && mat_dims (S := Xn) (ip_mi P) (ip_n P) (is_Ai _ st) = true.
Proof.
  intros HH (Lx & Ls & Ly & Lz). cbn [pt_x pt_s pt_y pt_z] in *. cbv zeta. cbn [ipm_init is_g is_H is_ce is_Ae is_ci is_Ai].
  destruct (Hp _ Lx) as (Hg' & Hce & Hci & HAe & HAi). unfold vec_dim. rewrite (HH x y z Lx Ly Lz), HAe, HAi.
  repeat (apply andb_true_intro; split); try reflexivity; apply Nat.eqb_eq; assumption.
Qed.
Lemma ipm_fine n infr x s y z mu it0 (u : U) clk0 : H_ok -> pt_ok P (mkPt x s y z) ->
  (all_fin (S := Xn) (ip_ce P x) = true -> all_fin (S := Xn) (ip_ci P x) = true -> List.Forall pos s /\ pos mu) ->
  fine (ipm_from E P o cbs (restore_at n) n infr x s y z mu it0 u clk0) /\
  forall s' st', ipm_from E P o cbs (restore_at n) n infr x s y z mu it0 u clk0 = Ok (s', st') -> length (is_x _ st') = ip_n P.
Proof.
  intros HH Pk Ps. unfold ipm_from. rewrite (dims_assert infr x s y z mu it0 u clk0 HH Pk). cbn [oassert]. pose proof Pk as (Lx & _). cbn [pt_x] in Lx.
  destruct (Nat.ltb _ _); [split; [exact I|]; intros s' st' H; injection H as _ <-; exact Lx|].
  destruct (_ || _) eqn:NF; [split; [exact I|]; intros s' st' H; injection H as _ <-; exact Lx|].
  repeat rewrite orb_false_iff in NF. rewrite !negb_false_iff in NF. destruct NF as ((((((_ & _) & _) & N1) & _) & N2) & _).
  cbn [ipm_init is_ce is_ci] in N1, N2. destruct (Ps N1 N2) as [S1 M1].
  apply (fine_drive (is_E E) (o_tol o) (ipm_body E P o cbs (restore_at n) n (e_clock E clk0)) core).
  - intros st C. apply body_fine, C.
  - intros st st' C H. eapply (body_next E P o cbs rf Hp Hs Hf Ht Hr); eauto.
  - intros s' st st' C H. eapply body_fine; eauto.
  - intros st C. apply C.
  - split.
    + cbn [ipm_init is_f is_g is_H is_ce is_Ae is_ci is_Ai is_E is_it is_x is_s is_y is_z point_of]. do 8 (split; [reflexivity|]). exact Pk.
    + cbn [ipm_init is_x is_s is_z is_mu is_tau]. split; [right; right; split; [exact S1|contradiction]|]. split; [exact M1|apply tau_min_X].
Qed.
End Ipm.

(** ** Restoration and whole solves *)
Lemma madd_dims n (A B : list (list XR)) : mat_dims (S := Xn) n n A = true -> mat_dims (S := Xn) n n B = true -> mat_dims (S := Xn) n n (madd (S := Xn) A B) = true.
Proof.
  intros HA HB. apply mat_dims_ok in HA, HB. destruct HA as [A1 A2], HB as [B1 B2]. apply mat_dims_ok. unfold madd. split.
  - rewrite map_length, combine_length. cbn in *. lia.
  - intros w I. apply in_map_iff in I. destruct I as ([a b] & <- & I). cbn [fst snd]. apply vadd_len; [eapply A2, in_combine_l, I|eapply B2, in_combine_r, I].
Qed.
Lemma diag_dims n (d : list XR) : mat_dims (S := Xn) n n (diag_in (S := Xn) n d) = true.
Proof.
  apply mat_dims_ok. unfold diag_in. split; [rewrite map_length, seq_length; reflexivity|]. intros w I. apply in_map_iff in I. destruct I as (i & <- & _).
  destruct (Nat.ltb _ _); [unfold unit_row; rewrite map_length, seq_length; reflexivity|apply repeat_length].
Qed.
Lemma fr_ipm_H (P : iprob Xn) xr zeta : H_ok (fr_ipm_prob P xr zeta).
Proof. intros x y z _ _ _. unfold fr_ipm_prob. cbn [ip_n ip_H]. apply madd_dims; [apply diag_dims|apply zeros_dims]. Qed.
Lemma fr_sqp_H (P : sprob Xn) xr zeta : H_ok (fr_sqp_prob P xr zeta).
Proof. intros x y z _ _ _. unfold fr_sqp_prob. cbn [ip_n ip_H]. apply madd_dims; [apply diag_dims|apply zeros_dims]. Qed.

Section Solve.
Variables (E : env Xn) (o : options Xn).
Context {U : Type}.
Hypothesis Hs : solve_ok E.
Hypothesis He : est_ok E.
Hypothesis Ht : pos (o_tol o).

Lemma est_clamp (P : iprob Xn) x s mu : iprob_ok P -> length x = ip_n P -> length s = ip_mi P -> List.Forall pos s -> pos mu ->
  fine (estimate_ipm (S := Xn) (e_est E) (ip_g P x) (ip_Ae P x) (ip_Ai P x) s mu).
Proof.
  intros Hp Lx Ls Ps (m & -> & Pm). destruct (Hp _ Lx) as (Hg & Hce & Hci & HAe & HAi). apply mat_dims_ok in HAe, HAi. destruct HAe as [HAe _], HAi as [HAi _].
  unfold estimate_ipm. cbv zeta. match goal with |- context [clamp_zs (S := Xn) _ ?s0 ?z0] => destruct (clamp_zs_X m Pm s0 z0) as (vs & Ev & _) end.
  - rewrite firstn_length, skipn_length. unfold estimate_raw. rewrite He, (mvec_len _ _ _ eq_refl). unfold A_hat.
    rewrite app_length, !map_length, !combine_length, seq_length. cbn in *. lia.
  - eapply List.Forall_impl; [|exact Ps]. auto.
  - rewrite Ev. exact I.
Qed.

Lemma ipm_restore_fine (P : iprob Xn) : iprob_ok P -> restore_fine P (fun n => ipm_restore (U := U) E o n P).
Proof.
  intros Hp n cbs x s y z mu it uf clk Pk Ps Pm. unfold ipm_restore.
  destruct (fr_ipm_start P x s mu) as [[[frx frs] frz] frmu] eqn:Hst.
  pose proof (fr_ipm_start_ok _ _ _ _ _ _ _ _ _ _ Hp Pk Hst (s_sqrt Xn frmu)) as Fk.
  pose proof (fr_ipm_start_pos False _ _ _ _ _ _ _ _ _ _ Hp Pk Ps Pm Hst) as Fp. pose proof Pk as (LX & LS & LY & LZ). cbn [pt_x pt_s pt_y pt_z] in *.
  assert (Hok : iprob_ok (fr_ipm_prob P x (s_sqrt Xn frmu))) by (apply fr_ipm_ok; auto).
  assert (Hsc : pos (sc_f (ip_sc (fr_ipm_prob P x (s_sqrt Xn frmu))))) by (unfold fr_ipm_prob; cbn [ip_sc sc_f]; apply pos_Fin; lra).
  pose proof (ipm_fine E (fr_ipm_prob P x (s_sqrt Xn frmu)) o cbs None Hok Hs Hsc Ht ltac:(discriminate) ltac:(discriminate) n true frx frs _ frz frmu it uf clk
    (fr_ipm_H _ _ _) Fk) as [F1 F2].
  { intros G1 G2. destruct (Fp G1 G2) as [[Q1 _] Q2]. auto. }
  change (TermProofs.restore_at None n) with (@None (restorer (S := Xn) (U := U * filter Xn))) in F1, F2.
  match type of F1 with fine ?t => match goal with |- context [ipm_from ?a1 ?a2 ?a3 ?a4 ?a5 ?a6 ?a7 ?a8 ?a9 ?b1 ?b2 ?b3 ?b4 ?b5 ?b6] =>
    change (ipm_from a1 a2 a3 a4 a5 a6 a7 a8 a9 b1 b2 b3 b4 b5 b6) with t end; destruct t as [[status fin]| | |] eqn:R end; cbn [obind fine] in *; try contradiction; [|split; [exact I|discriminate]].
  specialize (F2 status fin eq_refl). cbn [fr_ipm_prob ip_n] in F2.
  assert (Lx' : length (segment (S := Xn) (is_x E fin) 0 (length x)) = ip_n P) by (rewrite segment_len; [exact LX|cbn in *; lia]).
  cut (fine (match status with CALLBACK_REQUESTED_STOP => estimate_ipm (S := Xn) (e_est E) (ip_g P (segment (S := Xn) (is_x E fin) 0 (length x)))
      (ip_Ae P (segment (S := Xn) (is_x E fin) 0 (length x))) (ip_Ai P (segment (S := Xn) (is_x E fin) 0 (length x))) (segment (S := Xn) (is_s E fin) 0 (length s)) mu | _ => Ok (y, z) end)).
  { intros F. match goal with |- fine (obind ?t _) /\ _ => destruct t as [[y' z']| | |] end; cbn [obind fine] in *; try contradiction; [|split; [exact I|discriminate]].
    split; [exact I|]. intros st q H. injection H as _ <-. exact Lx'. }
  destruct status; try exact I.
  apply est_clamp; auto.
  - pose proof R as R'. apply ipm_meaning in R'; auto; [|discriminate]. destruct R' as (_ & _ & _ & _ & Pc). destruct (Pc eq_refl) as (_ & PS & _).
    cbn [point_of pt_s fr_ipm_prob ip_mi] in PS. refine (eq_trans (segment_len (S := Xn) _ _ _ _) LS). cbn in *. lia.
  - apply (ipm_pos E _ o cbs None False) with (V := fun w => True) in R; auto; try discriminate; try contradiction.
    destruct R as (_ & R2 & _). apply segment_Forall. apply (R2 eq_refl).
Qed.

Lemma ipm_solve_fine (P : iprob Xn) (cbs : list (callback Xn U)) n x (u : U) clk0 : iprob_ok P -> H_ok P -> pos (sc_f (ip_sc P)) -> length x = ip_n P ->
  fine (ipm_solve E o n P cbs x u clk0) /\ forall s' st', ipm_solve E o n P cbs x u clk0 = Ok (s', st') -> length (is_x _ st') = ip_n P.
Proof.
  intros Hp HH Hf Lx. unfold ipm_solve, ipm.
  apply (ipm_fine E P o cbs (Some (fun n => ipm_restore (U := U) E o n P))); auto.
  - intros r Q. injection Q as <-. apply ipm_restore_settles; auto.
  - intros r Q. injection Q as <-. apply ipm_restore_fine; auto.
  - unfold pt_ok. cbn [pt_x pt_s pt_y pt_z]. rewrite !repeat_length. auto.
  - intros _ _. split; [apply repeat_Forall; apply pos_Fin; lra|].
    destruct Hf as (f & -> & Pf). rewrite xlit. change (IZR (10 ^ Z.of_nat 1)) with 10%R. rewrite xmul. apply pos_Fin. lra.
Qed.

(** *** SQP *)
Lemma sqp_restore_fine (P : sprob Xn) n cbs x y it uf clk : sprob_ok P -> length x = sp_n P -> length y = sp_me P ->
  fine (sqp_restore (U := U) E o n P cbs x y it uf clk) /\
  forall s' x' y' it' uf' clk', sqp_restore (U := U) E o n P cbs x y it uf clk = Ok (s', x', y', it', uf', clk') -> length x' = sp_n P.
Proof.
  intros Hp Lx Ly. unfold sqp_restore. destruct (fr_sqp_start o P x) as [[frx frz] mu] eqn:Q.
  unfold fr_sqp_start in Q. cbv zeta in Q. destruct (compute_p_n _ _ _) as [pe ne] eqn:Q1. injection Q as <- <- Qm.
  pose proof (compute_p_n_len _ _ _ _ _ Q1) as [P1 P1']. destruct (Hp _ Lx) as (Hg & Hce & HAe). rewrite Hce in P1, P1'.
  assert (Hok : iprob_ok (fr_sqp_prob P x (s_sqrt Xn mu))) by (apply fr_sqp_ok; auto).
  assert (Hsc : pos (sc_f (ip_sc (fr_sqp_prob P x (s_sqrt Xn mu))))) by (unfold fr_sqp_prob; cbn [ip_sc sc_f]; apply pos_Fin; lra).
  pose proof (ipm_fine E (fr_sqp_prob P x (s_sqrt Xn mu)) o cbs None Hok Hs Hsc Ht ltac:(discriminate) ltac:(discriminate) n true _ _ _ _ mu it uf clk
    (fr_sqp_H _ _ _) (sqp_start_ok (S := Xn) P x pe ne mu _ Lx P1 P1')) as [F1 F2].
  { unfold fr_sqp_prob at 1. cbn [ip_ce]. intros F1 _. split; [apply repeat_Forall; apply pos_Fin; lra|].
    set (fx := x ++ pe ++ ne) in *. assert (Sx : segment (S := Xn) fx 0 (sp_n P) = x) by (apply segment_app_l; exact Lx).
    apply fr_ce_fin in F1.
    + assert (F1' : List.Forall fin (sp_ce P x)) by (rewrite <- Sx; exact F1). clear F1. rename F1' into F1. destruct Ht as (t & Et & Pt). rewrite Et in Qm.
      assert (Ed : X_div (Fin t) (Fin 10) = Fin (t / 10)) by (exact (xdiv t 10 ltac:(lra))). rewrite Ed in Qm.
      destruct (smax_X (t / 10) _ (norminf_fin _ F1)) as (m1 & E1 & L1). assert (Em : mu = Fin m1) by (rewrite <- Qm; exact E1). rewrite Em. apply pos_Fin. lra.
    + change (length (sp_ce P (segment (S := Xn) fx 0 (sp_n P))) = sp_me P). rewrite Sx. exact Hce.
    + unfold fx. rewrite !app_length. cbn in *. lia. }
  change (TermProofs.restore_at None n) with (@None (restorer (S := Xn) (U := U * filter Xn))) in F1, F2.
  rewrite Qm.
  match type of F1 with fine ?t => match goal with |- context [ipm_from ?a1 ?a2 ?a3 ?a4 ?a5 ?a6 ?a7 ?a8 ?a9 ?b1 ?b2 ?b3 ?b4 ?b5 ?b6] =>
    change (ipm_from a1 a2 a3 a4 a5 a6 a7 a8 a9 b1 b2 b3 b4 b5 b6) with t end; destruct t as [[status fin]| | |] eqn:R end; cbn [obind fine] in *; try contradiction; [|split; [exact I|discriminate]].
  specialize (F2 status fin eq_refl). cbn [fr_sqp_prob ip_n] in F2. split; [exact I|]. intros s' x' y' it' uf' clk' H. injection H as _ <- _ _ _ _.
  rewrite segment_len; [exact Lx|cbn in *; lia].
Qed.

Section Sqp.
Variable P : sprob Xn.
Variable cbs : list (callback Xn U).
Hypothesis Hp : sprob_ok P.
Notation rst n := (sqp_restore (U := U) E o n P).
Lemma sbody_fine n clk0 st : score E o P st -> fine (sqp_body E P o cbs (rst n) n (e_clock E clk0) st) /\
  forall s st', sqp_body E P o cbs (rst n) n (e_clock E clk0) st = Ok (Exit s st') -> length (s_x E st') = sp_n P.
Proof.
  intros C. pose proof C as (A1 & A2 & A3 & A4 & A5 & A6 & (Lx & Ly) & A8 & A9).
  unfold sqp_body. destruct (eq_infeasible _ _ _); [split; [exact I|]; intros s st' H; injection H as _ <-; exact Lx|].
  destruct (diverging _) eqn:D; [split; [exact I|]; intros s st' H; injection H as _ <-; exact Lx|].
  destruct (run_callbacks _ _ _) as [u stop]. destruct stop; [split; [exact I|]; intros s st' H; injection H as _ <-; exact Lx|].
  destruct (ls_compute _ _ _) as [ls ok]. destruct ok; cbn [negb]; [|split; [exact I|]; intros s st' H; injection H as _ <-; exact Lx]. cbv zeta.
  match goal with |- context [sqp_search E P n ?c ?d ?a ?flt ?cnt] => pose proof (ssearch_fine E P n c d a flt cnt) as SF;
    destruct (sqp_search E P n c d a flt cnt) as [r| | |] eqn:Se; cbn [obind fine] in *; try contradiction; [|split; [exact I|discriminate]] end.
  destruct (sf_t r) as [t|] eqn:Et.
  - split; [exact I|]. intros s st' H.
    assert (M : length (st_x t) = sp_n P).
    { destruct (Hp _ Lx) as (Hg & Hce & HAe).
      assert (Lt : length (vadd (S := Xn) (vneg (S := Xn) (sp_g P (s_x _ st))) (mtvec (S := Xn) (sp_n P) (sp_Ae P (s_x _ st)) (s_y _ st))) = sp_n P).
      { apply vadd_len; [apply vneg_len; auto|]. apply mat_dims_ok in HAe. destruct HAe. apply mtvec_len; auto. }
      set (top := vadd (S := Xn) (vneg (S := Xn) (sp_g P (s_x _ st))) (mtvec (S := Xn) (sp_n P) (sp_Ae P (s_x _ st)) (s_y _ st))) in *.
      unfold sqp_rhs, sqp_ctx in Se. rewrite A1, A2, A4, A5 in Se. fold top in Se.
      destruct (sdir_len E P Hs ls _ _ _ Lx Lt Hce) as [Ld1 Ld2].
      set (d := sqp_dir E ls (length (s_x _ st)) (top ++ vneg (S := Xn) (sp_ce P (s_x _ st)))) in *.
      match type of Se with sqp_search _ _ _ ?c0 _ _ _ _ = _ => assert (Hc : sc_ok E P c0) by (unfold sc_ok; cbn [sx_x sx_y sx_ce sx_top]; auto) end.
      apply (ssearch_took E P Hp Hs _ _ Hc Ld1 Ld2 n 0) in Se. clear Hc. rewrite Et in Se.
      destruct Se as [j flt flt' a t F1 F2 T|c a flt flt' t Lc Q T|t T]; cbn [sx_x sx_y sx_ls sx_top] in *.
      - apply (strial_len P Hp _ _ a _ Lx Ly Ld1 Ld2).
      - destruct (sdir_len E P Hs ls _ _ _ Lx Lt Lc) as [M1 M2]. apply (strial_len P Hp _ _ a _ Lx Ly M1 M2).
      - apply (strial_len P Hp _ _ (s_ofZ Xn 1) _ Lx Ly Ld1 Ld2). }
    injection H as H. unfold sqp_end in H. destruct (limits _ _ _ _ _) as [l c]. destruct l; cbn [finish] in H; [|discriminate]. injection H as _ <-. exact M.
  - destruct (sqp_restore_fine P n (map (lift_cb (U := U)) cbs ++ [sqp_fr_callback P (s_x E st) (s_g E st) (fe_sqp (sp_f P (s_x E st)) (s_ce E st)) (sf_a r)])
      (s_x E st) (s_y E st) (s_it E st) (u, sf_flt r) (s_clk E st) Hp Lx Ly) as [G1 G2].
    match type of G1 with fine ?t => destruct t as [[[[[[s' x'] y'] it'] uf'] clk']| | |] end; cbn [obind fine] in *; try contradiction; [|split; [exact I|discriminate]].
    specialize (G2 _ _ _ _ _ _ eq_refl). destruct (is_success s'); (split; [exact I|]); intros s st' H.
    + injection H as H. unfold sqp_end in H. destruct (limits _ _ _ _ _) as [l c]. destruct l; cbn [finish] in H; [|discriminate]. injection H as _ <-. exact G2.
    + injection H as _ <-. exact G2.
Qed.
Lemma sqp_solve_fine n x (u : U) clk0 : (forall x y, length x = sp_n P -> length y = sp_me P -> mat_dims (S := Xn) (sp_n P) (sp_n P) (sp_H P x y) = true) -> length x = sp_n P ->
  fine (sqp_solve E o n P cbs x u clk0) /\ forall s' st', sqp_solve E o n P cbs x u clk0 = Ok (s', st') -> length (s_x E st') = sp_n P.
Proof.
  intros HH Lx. unfold sqp_solve, sqp, sqp_from. cbn [sqp_init s_f s_g s_H s_ce s_Ae].
  destruct (Hp _ Lx) as (Hg & Hce & HAe). unfold vec_dim. pose proof (HH x (repeat (s_ofZ Xn 0) (sp_me P)) Lx (repeat_length _ _)) as HH1.
  apply Nat.eqb_eq in Hg, Hce. match goal with |- context [oassert ?b _] => assert (B : b = true) end.
  { do 3 (apply andb_true_intro; split; [|assumption]). assumption. }
  rewrite B. cbn [oassert].
  destruct (Nat.ltb _ _); [split; [exact I|]; intros s' st' H; injection H as _ <-; exact Lx|].
  destruct (_ || _) eqn:NF; [split; [exact I|]; intros s' st' H; injection H as _ <-; exact Lx|].
  apply (fine_drive (s_E E) (o_tol o) (sqp_body E P o cbs (rst n) n (e_clock E clk0)) (score E o P)).
  - intros st C. apply sbody_fine, C.
  - intros st st' C H. eapply (sbody_next E o Hs He P cbs Hp); eauto.
  - intros s' st st' C H. eapply sbody_fine; eauto.
  - intros st C. apply C.
  - unfold score. cbn [sqp_init s_f s_g s_H s_ce s_Ae s_E s_it s_x s_y]. do 6 (split; [reflexivity|]).
    split; [split; [exact Lx|apply repeat_length]|]. split; [lia|auto].
Qed.
End Sqp.
End Solve.
