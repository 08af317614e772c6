(** The ways an iteration of the interior-point method can go, and the sizes of its vectors. *)
From Coq Require Import ZArith List Bool Lia.
From Verif Require Import Base ExprModel NumModel UtilModel KktModel FilterModel FilterProofs ExitModel SolverModel SolverProofs
  NewtonModel SqpModel IpmModel.
Import ListNotations.

Section Sizes.
Context {S : nops}.
Lemma vmap2_len (f : S -> S -> S) a b n : length a = n -> length b = n -> length (vmap2 f a b) = n.
Proof. intros. unfold vmap2. rewrite map_length, combine_length. lia. Qed.
Lemma vadd_len (a b : list S) n : length a = n -> length b = n -> length (vadd a b) = n. Proof. apply vmap2_len. Qed.
Lemma vsub_len (a b : list S) n : length a = n -> length b = n -> length (vsub a b) = n. Proof. apply vmap2_len. Qed.
Lemma vmul_len (a b : list S) n : length a = n -> length b = n -> length (vmul a b) = n. Proof. apply vmap2_len. Qed.
Lemma vscale_len (a : S) b n : length b = n -> length (vscale a b) = n. Proof. intros. unfold vscale. rewrite map_length. auto. Qed.
Lemma vneg_len (b : list S) n : length b = n -> length (vneg b) = n. Proof. intros. unfold vneg. rewrite map_length. auto. Qed.
Lemma vinv_len (b : list S) n : length b = n -> length (vinv b) = n. Proof. intros. unfold vinv. rewrite map_length. auto. Qed.
Lemma vstep_len (x p : list S) a n : length x = n -> length p = n -> length (vstep x a p) = n.
Proof. intros. apply vadd_len; auto. apply vscale_len; auto. Qed.
Lemma mvec_len (A : mat (S := S)) x n : length A = n -> length (mvec A x) = n. Proof. intros. unfold mvec. rewrite map_length. auto. Qed.
Lemma mat_dims_ok r c (A : mat (S := S)) : mat_dims r c A = true <-> length A = r /\ forall w, In w A -> length w = c.
Proof.
  unfold mat_dims. rewrite andb_true_iff, Nat.eqb_eq, forallb_forall. split; intros [H K]; split; auto; intros w I.
  - apply Nat.eqb_eq. auto.
  - apply Nat.eqb_eq. auto.
Qed.
Lemma mtvec_len n (A : mat (S := S)) y : (forall w, In w A -> length w = n) -> length (mtvec n A y) = n.
Proof.
  intros H. unfold mtvec.
  assert (K : forall (l : list (list S)) a, length a = n -> (forall w, In w l -> length w = n) -> length (fold_left vadd l a) = n).
  { induction l as [|w l IH]; intros a Ha Hl; auto. cbn [fold_left]. apply IH; [apply vadd_len; auto; apply Hl; cbn; auto|].
    intros v I. apply Hl. cbn. auto. }
  apply K; [apply repeat_length|]. intros w I. apply in_map_iff in I. destruct I as ([r v] & <- & I). cbn [fst snd]. apply vscale_len.
  apply H. eapply in_combine_l. exact I.
Qed.
Lemma clamp_zs_len (mu : S) s z z' : clamp_zs mu s z = Ok z' -> length z' = length s /\ length z = length s.
Proof.
  revert z z'. induction s as [|a s IH]; intros [|b z] z' H; cbn [clamp_zs] in H; try discriminate.
  - injection H as <-. auto.
  - apply obind_ok in H. destruct H as (v & _ & H). apply obind_ok in H. destruct H as (vs & V & H). injection H as <-.
    apply IH in V. destruct V. cbn [length]. lia.
Qed.
End Sizes.

Section Shape.
Context {S : nops}.
Variables (E : env S) (P : iprob S) (o : options S).
Notation "0" := (s_ofZ S 0).
Notation "1" := (s_ofZ S 1).
Notation n := (ip_n P).
Notation me := (ip_me P).
Notation mi := (ip_mi P).

(** Sizes: of what the problem functions return, of the linear solver's answers, of the iterate, of a step. *)
Definition iprob_ok : Prop := forall x, length x = n ->
  length (ip_g P x) = n /\ length (ip_ce P x) = me /\ length (ip_ci P x) = mi /\
  mat_dims me n (ip_Ae P x) = true /\ mat_dims mi n (ip_Ai P x) = true.
Definition solve_ok : Prop := forall ls b, length (ls_solve (e_lin E) ls b) = length b.
Definition c_ok (c : ictx E) : Prop :=
  length (ix_x _ c) = n /\ length (ix_s _ c) = mi /\ length (ix_y _ c) = me /\ length (ix_z _ c) = mi /\ length (ix_g _ c) = n /\
  length (ix_ce _ c) = me /\ length (ix_ci _ c) = mi /\ mat_dims me n (ix_Ae _ c) = true /\ mat_dims mi n (ix_Ai _ c) = true.
Definition d_ok (d : istep (S := S)) : Prop := length (p_x d) = n /\ length (p_s d) = mi /\ length (p_y d) = me /\ length (p_z d) = mi.
Definition t_ok (t : itrial (S := S)) : Prop :=
  length (it_x t) = n /\ length (it_s t) = mi /\ length (it_y t) = me /\ length (it_z t) = mi /\ length (it_ce t) = me /\ length (it_ci t) = mi.
(** What the trial point carries besides. *)
Definition t_at (t : itrial (S := S)) : Prop := it_f t = ip_f P (it_x t) /\ it_ce t = ip_ce P (it_x t) /\ it_ci t = ip_ci P (it_x t).

Lemma sigma_len (s z : list S) k : length s = k -> length z = k -> length (sigma s z) = k.
Proof. intros. unfold sigma. apply vmul_len; auto. apply vinv_len; auto. Qed.
Lemma rhs_len c : c_ok c -> length (ipm_rhs E P c) = n + me.
Proof.
  intros (X & Sl & Y & Z & G & CE & CI & AE & AI). apply mat_dims_ok in AE, AI. destruct AE as [AE AE'], AI as [AI AI'].
  unfold ipm_rhs. rewrite app_length. f_equal; [|apply vneg_len; auto].
  apply vadd_len; [apply vadd_len|]; auto using mtvec_len. apply vneg_len; auto.
Qed.
Lemma rhs_soc_len c ce cis : c_ok c -> length ce = me -> length (ipm_rhs_soc E P c ce cis) = n + me.
Proof.
  intros (X & Sl & Y & Z & G & CE & CI & AE & AI) L. apply mat_dims_ok in AE, AI. destruct AE as [AE AE'], AI as [AI AI'].
  unfold ipm_rhs_soc. rewrite app_length. f_equal; [|apply vneg_len; auto].
  apply vadd_len; [apply vadd_len|]; auto using mtvec_len. apply vneg_len; auto.
Qed.
Lemma step_ok c rhs cis : solve_ok -> c_ok c -> length rhs = n + me -> length cis = mi -> d_ok (ipm_step E c rhs cis).
Proof.
  intros Hs (X & Sl & Y & Z & G & CE & CI & AE & AI) L K. apply mat_dims_ok in AE, AI. destruct AE as [AE AE'], AI as [AI AI'].
  unfold ipm_step, d_ok. cbn [p_x p_s p_y p_z]. 
  assert (Q : length (vadd cis (mvec (ix_Ai E c) (firstn (length (ix_x E c)) (ls_solve (e_lin E) (ix_ls E c) rhs)))) = mi)
    by (apply vadd_len; auto; apply mvec_len; auto).
  split; [rewrite firstn_length, Hs; lia|]. split; [exact Q|].
  split; [apply vneg_len; rewrite skipn_length, Hs; lia|].
  apply vsub_len; [apply vsub_len; auto|].
  - apply vscale_len, vinv_len; auto.
  - apply vmul_len; auto. apply sigma_len; auto.
Qed.
Lemma trial_ok c d a az : iprob_ok -> c_ok c -> d_ok d -> t_ok (ipm_trial E P c d a az) /\ t_at (ipm_trial E P c d a az).
Proof.
  intros Hp (X & Sl & Y & Z & _) (DX & DS & DY & DZ). unfold ipm_trial, t_ok, t_at. cbn [it_x it_s it_y it_z it_ce it_ci it_f].
  assert (L : length (vstep (ix_x E c) a (p_x d)) = n) by (apply vstep_len; auto).
  destruct (Hp _ L) as (Hg & Hce & Hci & _). split; [|auto]. repeat (split; [auto using vstep_len|]). auto.
Qed.
Lemma trial_main_ok c d a az : iprob_ok -> c_ok c -> d_ok d -> t_ok (ipm_trial_main E P o c d a az) /\ t_at (ipm_trial_main E P o c d a az).
Proof.
  intros Hp Hc Hd. unfold ipm_trial_main. destruct (trial_ok c d a az Hp Hc Hd) as [T A]. destruct (_ && _); [|auto].
  destruct T as (TX & TS & TY & TZ & TE & TI). split; [|exact A].
  unfold t_ok. cbn [it_x it_s it_y it_z it_ce it_ci]. repeat split; auto.
Qed.

(** What the line search can accept: a step the filter accepts, a second-order correction the filter accepts, or the
    full step when it reduces the error. *)
Inductive took (c : ictx E) (d : istep (S := S)) (dphi amax az : S) : itrial (S := S) -> S -> Prop :=
| took_step k flt flt' : let a := halves k amax in let t := ipm_trial_main E P o c d a az in
    s_finite S (it_f t) = true -> all_fin (it_ce t) = true -> all_fin (it_ci t) = true ->
    try_add flt (ix_cur E c) (it_entry (ix_mu E c) t) dphi a = (flt', true) -> took c d dphi amax az t a
| took_soc ce cis flt flt' a : let d' := ipm_step E c (ipm_rhs_soc E P c ce cis) cis in
    let a' := ftb (ix_s E c) (p_s d') (ix_tau E c) in
    let t := ipm_trial E P c d' a' (ftb (ix_z E c) (p_z d') (ix_tau E c)) in
    length ce = me -> length cis = mi ->
    try_add flt (ix_cur E c) (it_entry (ix_mu E c) t) dphi a = (flt', true) -> took c d dphi amax az t a'
| took_error a : let t := ipm_trial E P c d amax az in
    s_leb S (ipm_kkt1_trial P (ix_mu E c) t) (s_mul S (lit 999 3) (ipm_kkt1 E P c)) = true -> took c d dphi amax az t a.

Lemma took_ok c d dphi amax az t a : iprob_ok -> solve_ok -> c_ok c -> d_ok d -> took c d dphi amax az t a -> t_ok t /\ t_at t.
Proof.
  intros Hp Hs Hc Hd [k flt flt' a' t' F1 F2 F3 T|ce cis flt flt' a' d' a'' t' L1 L2 T|a' t' T].
  - apply trial_main_ok; auto.
  - apply trial_ok; auto. apply step_ok; auto. apply rhs_soc_len; auto.
  - apply trial_ok; auto.
Qed.

Lemma soc_took c d dphi amax az a : iprob_ok -> solve_ok -> c_ok c -> forall k a_soc ce cis t viol flt flt' r,
  length ce = me -> length cis = mi -> t_ok t ->
  ipm_soc E P k c dphi a a_soc ce cis t viol flt = (flt', r) ->
  f_min flt' = f_min flt /\ f_max flt' = f_max flt /\
  match r with Some (t', a') => took c d dphi amax az t' a' | None => True end.
Proof.
  intros Hp Hs Hc. induction k as [|k IH]; intros a_soc ce cis t viol flt flt' r L1 L2 (TX & TS & TY & TZ & TE & TI) H; cbn [ipm_soc] in H.
  { injection H as <- <-. auto. }
  cbv zeta in H. destruct (try_add _ _ _ _ _) as [flt1 ok] eqn:T. 
  assert (Q : f_min flt1 = f_min flt /\ f_max flt1 = f_max flt).
  { unfold try_add in T. destruct (_ || _); [injection T as <- _; auto|]. cbv zeta in T.
    destruct (_ && _ && _); [injection T as <- _; auto|]. destruct (_ && _); [injection T as <- _; auto|].
    destruct (in_filter _ _); [injection T as <- _; auto|]. destruct (_ || _); injection T as <- _; auto. }
  destruct Q as [Q1 Q2].
  assert (M1 : length (vadd (vscale a_soc ce) (it_ce t)) = me) by (apply vadd_len; auto; apply vscale_len; auto).
  assert (M2 : length (vsub (vadd (vscale a_soc cis) (it_ci t)) (it_s t)) = mi) by (apply vsub_len; auto; apply vadd_len; auto; apply vscale_len; auto).
  destruct ok.
  - injection H as <- <-. split; auto. split; auto. eapply took_soc; eauto.
  - destruct (s_ltb S _ _); [injection H as <- <-; auto|]. rewrite <- Q1, <- Q2. eapply IH; [| | |exact H]; auto.
    apply trial_ok; auto. apply step_ok; auto. apply rhs_soc_len; auto.
Qed.

Lemma search_took c d dphi amax az : iprob_ok -> solve_ok -> c_ok c -> d_ok d ->
  forall fuel k flt cnt r, ipm_search E P o fuel c d dphi amax az (halves k amax) flt cnt = Ok r ->
  f_min (if_flt r) = f_min flt /\ match if_t r with Some t => took c d dphi amax az t (if_a r) | None => True end.
Proof.
  intros Hp Hs Hc Hd. induction fuel as [|fuel IH]; intros k flt cnt r H; [discriminate|]. cbn [ipm_search] in H. cbv zeta in H.
  rewrite <- !halves_S' in H. destruct (trial_main_ok c d (halves k amax) az Hp Hc Hd) as [To _].
  destruct (negb (s_finite S _) || _ || _) eqn:F.
  { destruct (s_ltb S _ _); [injection H as <-; cbn; auto|]. apply IH in H. exact H. }
  apply orb_false_iff in F. destruct F as [F F3]. apply orb_false_iff in F. destruct F as [F1 F2].
  rewrite negb_false_iff in F1, F2, F3.
  destruct (try_add _ _ _ _ _) as [flt1 ok] eqn:T. 
  assert (Q : f_min flt1 = f_min flt).
  { unfold try_add in T. destruct (_ || _); [injection T as <- _; auto|]. cbv zeta in T.
    destruct (_ && _ && _); [injection T as <- _; auto|]. destruct (_ && _); [injection T as <- _; auto|].
    destruct (in_filter _ _); [injection T as <- _; auto|]. destruct (_ || _); injection T as <- _; auto. }
  destruct ok. { injection H as <-. cbn [if_t if_a if_flt]. split; auto. eapply took_step; eauto. }
  set (soc := if s_eqb S _ _ && _ then _ else _) in H.
  assert (Qs : f_min (fst soc) = f_min flt /\ match snd soc with Some (t', a') => took c d dphi amax az t' a' | None => True end).
  { unfold soc. destruct (_ && _); [|cbn; auto]. match goal with |- context [ipm_soc ?a ?b ?c ?d ?e ?f ?g ?h ?i ?j ?k ?l] => destruct (ipm_soc a b c d e f g h i j k l) as [flt2 r2] eqn:Sc end.
    eapply soc_took in Sc; eauto. { destruct Sc as (S1 & S2 & S3). cbn [fst snd]. split; [congruence|exact S3]. } 
    1: apply Hc. destruct Hc as (_ & Sl & _ & _ & _ & _ & CI & _). apply vsub_len; auto. }
  destruct soc as [flt2 [[t' a']|]]; cbn [fst snd] in Qs; destruct Qs as [Qm Qt].
  { injection H as <-. cbn. auto. }
  destruct (reset_filter _ _ _).
  { apply IH in H. destruct H as [H1 H2]. split; [rewrite H1; exact Qm|exact H2]. }
  destruct (s_ltb S _ _).
  - destruct (s_leb S _ _) eqn:K; injection H as <-; cbn [if_t if_flt if_a]; split; auto. apply took_error. exact K.
  - apply IH in H. destruct H as [H1 H2]. split; [rewrite H1; exact Qm|exact H2].
Qed.

Context {U : Type}.
Variable cbs : list (callback S U).
Variable restore : option (list (callback S (U * filter S)) -> list S -> list S -> list S -> list S -> S -> Z -> U * filter S -> nat ->
  outcome (status * irestored S U)).
Variables (fuel : nat) (start : S).

(** What is at hand once the linear system has been solved. *)
Definition the_step (c : ictx E) := ipm_step E c (ipm_rhs E P c) (vsub (ix_ci E c) (ix_s E c)).
Definition the_amax (c : ictx E) := ftb (ix_s E c) (p_s (the_step c)) (ix_tau E c).
Definition the_az (c : ictx E) := ftb (ix_z E c) (p_z (the_step c)) (ix_tau E c).
Definition the_dphi (c : ictx E) := s_sub S (vdot (ix_g E c) (p_x (the_step c))) (s_mul S (ix_mu E c) (vdot (vinv (ix_s E c)) (p_s (the_step c)))).
Definition the_callbacks (st : istate E (U := U)) (a : S) : list (callback S (U * filter S)) :=
  map lift_cb cbs ++ [ipm_fr_callback P (is_x _ st) (is_s _ st) (is_g _ st) (is_mu _ st)
                        (fe_ipm (ip_f P (is_x _ st)) (is_s _ st) (is_ce _ st) (is_ci _ st) (is_mu _ st)) a].

Inductive ibody (st : istate E (U := U)) : pass (istate E (U := U)) -> Prop :=
| ib_infeasible : eq_infeasible n (is_Ae _ st) (is_ce _ st) = true \/ ineq_infeasible n (is_Ai _ st) (is_ci _ st) = true ->
    ibody st (Exit LOCALLY_INFEASIBLE st)
| ib_diverging : diverging (is_x _ st) = true \/ diverging (is_s _ st) = true -> ibody st (Exit DIVERGING_ITERATES st)
| ib_stop u : diverging (is_x _ st) = false -> diverging (is_s _ st) = false ->
    run_callbacks cbs (ipm_info E st) (is_u _ st) = (u, true) ->
    ibody st (Exit CALLBACK_REQUESTED_STOP (i_quit E st (is_flt _ st) (is_cnt _ st) u (is_ls _ st)))
| ib_factor u ls : diverging (is_x _ st) = false -> diverging (is_s _ st) = false ->
    run_callbacks cbs (ipm_info E st) (is_u _ st) = (u, false) ->
    ls_compute (e_lin E) (is_ls _ st) (ipm_lhs E P (is_H _ st) (ipm_ctx E st (is_ls _ st))) = (ls, false) ->
    ibody st (Exit FACTORIZATION_FAILED (i_quit E st (is_flt _ st) (is_cnt _ st) u ls))
| ib_step u ls rs t z r : diverging (is_x _ st) = false -> diverging (is_s _ st) = false ->
    run_callbacks cbs (ipm_info E st) (is_u _ st) = (u, false) ->
    ls_compute (e_lin E) (is_ls _ st) (ipm_lhs E P (is_H _ st) (ipm_ctx E st (is_ls _ st))) = (ls, true) ->
    let c := ipm_ctx E st ls in
    ipm_search E P o fuel c (the_step c) (the_dphi c) (the_amax c) (the_az c) (the_amax c) (is_flt _ st) (is_cnt _ st) = Ok rs ->
    s_ltb S (the_amax c) amin = false -> if_t rs = Some t -> clamp_zs (is_mu _ st) (it_s t) (it_z t) = Ok z ->
    ipm_end E P o fuel start (it_x t) (it_s t) (it_y t) z (it_f t) (it_ce t) (it_ci t) (is_mu _ st) (is_tau _ st) (if_flt rs)
      (if s_eqb S (if_a rs) (the_amax c) then 0%Z else if_cnt rs) (is_it _ st) u ls (is_clk _ st) = Ok r ->
    ibody st r
| ib_noresto u ls rs : diverging (is_x _ st) = false -> diverging (is_s _ st) = false ->
    run_callbacks cbs (ipm_info E st) (is_u _ st) = (u, false) ->
    ls_compute (e_lin E) (is_ls _ st) (ipm_lhs E P (is_H _ st) (ipm_ctx E st (is_ls _ st))) = (ls, true) ->
    let c := ipm_ctx E st ls in
    ipm_search E P o fuel c (the_step c) (the_dphi c) (the_amax c) (the_az c) (the_amax c) (is_flt _ st) (is_cnt _ st) = Ok rs ->
    s_ltb S (the_amax c) amin = true \/ if_t rs = None -> restore = None ->
    ibody st (Exit FEASIBILITY_RESTORATION_FAILED (i_quit E st (if_flt rs) (if_cnt rs) u ls))
| ib_failed u ls rs rst status q : diverging (is_x _ st) = false -> diverging (is_s _ st) = false ->
    run_callbacks cbs (ipm_info E st) (is_u _ st) = (u, false) ->
    ls_compute (e_lin E) (is_ls _ st) (ipm_lhs E P (is_H _ st) (ipm_ctx E st (is_ls _ st))) = (ls, true) ->
    let c := ipm_ctx E st ls in
    ipm_search E P o fuel c (the_step c) (the_dphi c) (the_amax c) (the_az c) (the_amax c) (is_flt _ st) (is_cnt _ st) = Ok rs ->
    s_ltb S (the_amax c) amin = true \/ if_t rs = None -> restore = Some rst ->
    rst (the_callbacks st (if_a rs)) (is_x _ st) (is_s _ st) (is_y _ st) (is_z _ st) (is_mu _ st) (is_it _ st) (u, if_flt rs) (is_clk _ st) = Ok (status, q) ->
    is_success status = false ->
    ibody st (Exit status (i_set E st (ir_x q) (ir_s q) (ir_y q) (ir_z q) (snd (ir_uf q)) (if_cnt rs) (ir_it q) (fst (ir_uf q)) ls (ir_clk q)))
| ib_restored u ls rs rst status q r : diverging (is_x _ st) = false -> diverging (is_s _ st) = false ->
    run_callbacks cbs (ipm_info E st) (is_u _ st) = (u, false) ->
    ls_compute (e_lin E) (is_ls _ st) (ipm_lhs E P (is_H _ st) (ipm_ctx E st (is_ls _ st))) = (ls, true) ->
    let c := ipm_ctx E st ls in
    ipm_search E P o fuel c (the_step c) (the_dphi c) (the_amax c) (the_az c) (the_amax c) (is_flt _ st) (is_cnt _ st) = Ok rs ->
    s_ltb S (the_amax c) amin = true \/ if_t rs = None -> restore = Some rst ->
    rst (the_callbacks st (if_a rs)) (is_x _ st) (is_s _ st) (is_y _ st) (is_z _ st) (is_mu _ st) (is_it _ st) (u, if_flt rs) (is_clk _ st) = Ok (status, q) ->
    is_success status = true ->
    ipm_end E P o fuel start (ir_x q) (ir_s q) (ir_y q) (ir_z q) (ip_f P (ir_x q)) (ip_ce P (ir_x q)) (ip_ci P (ir_x q))
      (is_mu _ st) (is_tau _ st) (snd (ir_uf q)) (if_cnt rs) (ir_it q) (fst (ir_uf q)) ls (ir_clk q) = Ok r ->
    ibody st r.

Lemma body_shape st r : ipm_body E P o cbs restore fuel start st = Ok r -> ibody st r.
Proof.
  intros H. unfold ipm_body in H.
  destruct (eq_infeasible _ _ _) eqn:EI; [injection H as <-; constructor; auto|].
  destruct (ineq_infeasible _ _ _) eqn:II; [injection H as <-; constructor; auto|].
  destruct (diverging (is_x _ st) || _) eqn:D.
  { injection H as <-. apply ib_diverging. apply orb_true_iff in D. exact D. }
  apply orb_false_iff in D. destruct D as [D1 D2].
  destruct (run_callbacks _ _ _) as [u stop] eqn:C. destruct stop; [injection H as <-; apply ib_stop; auto|].
  destruct (ls_compute _ _ _) as [ls ok] eqn:L. destruct ok; cbn [negb] in H; [|injection H as <-; apply ib_factor; auto].
  cbv zeta in H. apply obind_ok in H. destruct H as (rs & R & H).
  change (s_ltb S (ftb (is_s _ st) (p_s (ipm_step E (ipm_ctx E st ls) (ipm_rhs E P (ipm_ctx E st ls)) (vsub (is_ci E st) (is_s E st)))) (is_tau _ st)) amin)
    with (s_ltb S (the_amax (ipm_ctx E st ls)) amin) in H.
  assert (K : (s_ltb S (the_amax (ipm_ctx E st ls)) amin = true \/ if_t rs = None) \/
              (s_ltb S (the_amax (ipm_ctx E st ls)) amin = false /\ exists t, if_t rs = Some t)).
  { destruct (s_ltb S _ _); auto. destruct (if_t rs); eauto. }
  destruct K as [K|[K1 [t K2]]].
  - assert (Q : (if s_ltb S (the_amax (ipm_ctx E st ls)) amin then None else if_t rs) = None) by (destruct K as [ -> | -> ]; [auto|destruct (s_ltb S _ _); auto]).
    rewrite Q in H. destruct restore as [rst|] eqn:Rs.
    + apply obind_ok in H. destruct H as ([status q] & RR & H). destruct (is_success status) eqn:Su.
      * eapply ib_restored; eauto.
      * injection H as <-. eapply ib_failed; eauto.
    + injection H as <-. eapply ib_noresto; eauto.
  - rewrite K1, K2 in H. apply obind_ok in H. destruct H as (z & Cz & H). eapply ib_step; eauto.
Qed.

(** The barrier parameter after k updates. *)
Definition mu_k (k : nat) (mu : S) : S := Nat.iter k (next_mu P o) mu.
Lemma barrier_shape (err : S -> S) f : forall mu tau flt mu' tau' flt', barrier P o f err mu tau flt = Ok (mu', tau', flt') ->
  exists k, mu' = mu_k k mu /\ (k = O -> tau' = tau /\ flt' = flt) /\ (k <> O -> tau' = tau_of mu' /\ flt' = filter_reset flt) /\
    (forall j, (j < k)%nat -> s_ltb S (mu_min P o) (mu_k j mu) = true) /\
    (s_ltb S (mu_min P o) mu' && s_leb S (err mu') (s_mul S (s_ofZ S 10) mu') = false).
Proof.
  induction f as [|f IH]; intros mu tau flt mu' tau' flt' H; [discriminate|]. cbn [barrier] in H. destruct (_ && _) eqn:C.
  - apply IH in H. destruct H as (k & Hk & H0 & H1 & Hj & Hx). exists (Datatypes.S k).
    assert (M : forall j, mu_k j (next_mu P o mu) = mu_k (Datatypes.S j) mu).
    { intros j. unfold mu_k. induction j as [|j IHj]; [reflexivity|]. change (next_mu P o (Nat.iter j (next_mu P o) (next_mu P o mu)) = next_mu P o (Nat.iter (Datatypes.S j) (next_mu P o) mu)). f_equal. exact IHj. }
    rewrite M in Hk. split; [exact Hk|]. split; [discriminate|]. split; [|split].
    + intros _. destruct k as [|k].
      * destruct H0 as [-> ->]; auto. split; [|reflexivity]. rewrite Hk. reflexivity.
      * destruct H1 as [-> ->]; [discriminate|]. split; reflexivity.
    + intros [|j] Lj; [apply andb_true_iff in C; apply C|]. rewrite <- M. apply Hj. lia.
    + exact Hx.
  - injection H as <- <- <-. exists O. split; [reflexivity|]. split; [auto|]. split; [contradiction|]. split; [lia|exact C].
Qed.

(** The state after an iteration. *)
Lemma end_shape x s y z f ce ci mu tau flt cnt it (u : U) ls clk r :
  ipm_end E P o fuel start x s y z f ce ci mu tau flt cnt it u ls clk = Ok r ->
  exists k tau' flt' l clk', limits o (e_clock E) start (it + 1) clk = (l, clk') /\ (k = O -> tau' = tau /\ flt' = flt) /\
    (k <> O -> tau' = tau_of (mu_k k mu) /\ flt' = filter_reset flt) /\
    (forall j, (j < k)%nat -> s_ltb S (mu_min P o) (mu_k j mu) = true) /\
    r = finish l (mkI E x s y z f (ip_g P x) (ip_H P x y z) ce (ip_Ae P x) ci (ip_Ai P x)
                    (unscaled_ipm (ip_sc P) n (ip_g P x) (ip_Ae P x) ce (ip_Ai P x) ci s y z 0) (mu_k k mu) tau' flt' cnt (it + 1) u ls clk').
Proof.
  intros H. unfold ipm_end in H. apply obind_ok in H. destruct H as ([[mu' tau'] flt'] & B & H).
  destruct (limits _ _ _ _ _) as [l clk'] eqn:L. injection H as <-. destruct (s_ltb S _ _).
  - apply barrier_shape in B. destruct B as (k & -> & H0 & H1 & Hj & _). exists k, tau', flt', l, clk'. auto.
  - injection B as <- <- <-. exists O, tau, flt, l, clk'. split; auto. split; auto. split; [contradiction|]. split; [lia|reflexivity].
Qed.
End Shape.
