(** Proofs for C87: the interior-point method on numbers stays with numbers. *)
From Coq Require Import ZArith Reals List Bool Lra Lia.
From Verif Require Import Base ExprModel ExprReal ExprXR NumModel UtilModel KktModel FilterModel FilterProofs ExitModel SolverModel SolverSpec SolverProofs
  NewtonModel NewtonProofs SqpModel IpmModel IpmShape IpmSpec IpmProofs RestoreModel RestoreProofs XArith PosX PosProofs FiniteSpec.
Import ListNotations.
Local Open Scope R_scope.

(** ** Vectors *)
Lemma f_add a b : vfin a -> vfin b -> vfin (vadd (S := Xn) a b). Proof. apply (Forall_map2 _ fin fin), fin_add_r. Qed.
Lemma f_sub a b : vfin a -> vfin b -> vfin (vsub (S := Xn) a b). Proof. apply (Forall_map2 _ fin fin), fin_sub_r. Qed.
Lemma f_mul a b : vfin a -> vfin b -> vfin (vmul (S := Xn) a b). Proof. apply (Forall_map2 _ fin fin), fin_mul_r. Qed.
Lemma f_neg a : vfin a -> vfin (vneg (S := Xn) a).
Proof. intros H. unfold vfin, vneg. rewrite List.Forall_map. eapply List.Forall_impl; [|exact H]. intros v F. apply fin_Fin in F. destruct F as [r ->]. reflexivity. Qed.
Lemma f_scale c a : fin c -> vfin a -> vfin (vscale (S := Xn) c a).
Proof. intros Hc H. unfold vfin, vscale. rewrite List.Forall_map. eapply List.Forall_impl; [|exact H]. intros v F. apply fin_mul_r; auto. Qed.
Lemma f_inv s : List.Forall pos s -> vfin (vinv (S := Xn) s).
Proof. intros H. unfold vfin, vinv. rewrite List.Forall_map. eapply List.Forall_impl; [|exact H]. intros a (r & -> & Hr). change (s_ofZ Xn 1) with (Fin 1). rewrite xdiv by lra. reflexivity. Qed.
Lemma f_pos s : List.Forall pos s -> vfin s. Proof. apply List.Forall_impl. exact pos_fin. Qed.
Lemma f_step x a p : vfin x -> vfin p -> vfin (vstep (S := Xn) x (Fin a) p). Proof. intros. apply f_add; auto. apply f_scale; [reflexivity|auto]. Qed.
Lemma f_mvec A x : mfin A -> vfin x -> vfin (mvec (S := Xn) A x). Proof. intros H. apply mvec_fin. apply mat_fin_Forall. exact H. Qed.
Lemma f_mtvec n A y : mfin A -> vfin y -> vfin (mtvec (S := Xn) n A y).
Proof.
  intros HA Hy. unfold mtvec. assert (K : forall l a, mfin l -> vfin a -> vfin (fold_left (vadd (S := Xn)) l a)).
  { induction l as [|w l IH]; intros a Hl Ha; [exact Ha|]. inversion Hl; subst. cbn [fold_left]. apply IH; auto. apply f_add; auto. }
  apply K; [|apply repeat_Forall; reflexivity]. unfold mfin. rewrite List.Forall_map. apply List.Forall_forall. intros [r v] I. cbn [fst snd]. apply f_scale.
  - apply in_combine_r in I. unfold vfin in Hy. rewrite List.Forall_forall in Hy. auto.
  - apply in_combine_l in I. unfold mfin in HA. rewrite List.Forall_forall in HA. auto.
Qed.
Lemma f_first k v : vfin v -> vfin (firstn k v).
Proof. intros H. apply List.Forall_forall. intros x I. unfold vfin in H. rewrite List.Forall_forall in H. apply H. rewrite <- (firstn_skipn k v). apply in_or_app. auto. Qed.
Lemma f_skip k v : vfin v -> vfin (skipn k v).
Proof. intros H. apply List.Forall_forall. intros x I. unfold vfin in H. rewrite List.Forall_forall in H. apply H. rewrite <- (firstn_skipn k v). apply in_or_app. auto. Qed.
Lemma f_madd A B : mfin A -> mfin B -> mfin (madd (S := Xn) A B).
Proof.
  intros HA HB. unfold madd, mfin. rewrite List.Forall_map. apply List.Forall_forall. intros [r q] I. cbn [fst snd]. unfold mfin in HA, HB. rewrite List.Forall_forall in HA, HB.
  apply f_add; [apply HA; eapply in_combine_l; exact I|apply HB; eapply in_combine_r; exact I].
Qed.
Lemma f_nth r j : vfin r -> fin (nth j r (s_ofZ Xn 0)).
Proof. intros H. unfold vfin in H. rewrite List.Forall_forall in H. destruct (nth_in_or_default j r (s_ofZ Xn 0)) as [I| ->]; [apply H, I|reflexivity]. Qed.
Lemma f_gram n A sg : mfin A -> vfin sg -> mfin (gram_lower (S := Xn) n A sg).
Proof.
  intros HA Hs. unfold gram_lower, mfin. rewrite List.Forall_map. apply List.Forall_forall. intros j _. unfold vfin. rewrite List.Forall_map. apply List.Forall_forall. intros k _.
  destruct (Nat.leb _ _); [|reflexivity]. apply vsum_Fin. rewrite List.Forall_map. apply List.Forall_forall. intros [r v] I. cbn [fst snd].
  unfold mfin in HA. unfold vfin in Hs. rewrite List.Forall_forall in HA, Hs. assert (Hr : vfin r) by (apply HA; eapply in_combine_l; exact I). assert (Hv : fin v) by (apply Hs; eapply in_combine_r; exact I).
  apply fin_mul_r; [apply fin_mul_r; [apply f_nth, Hr|exact Hv]|apply f_nth, Hr].
Qed.
Lemma f_sigma s z : List.Forall pos s -> vfin z -> vfin (sigma (S := Xn) s z). Proof. intros. apply f_mul; auto. apply f_inv; auto. Qed.

Section Fin.
Variables (E : env Xn) (P : iprob Xn) (o : options Xn).
Context {U : Type}.
Variable cbs : list (callback Xn U).
Variable restore : option (restorer (S := Xn) (U := U)).
Notation n := (ip_n P).
Notation me := (ip_me P).
Notation mi := (ip_mi P).
Hypothesis Fp : fin_ipm P.
Hypothesis Hl : lin_fin E.
Hypothesis Hp : iprob_ok P.
Hypothesis Hs : solve_ok E.

Record c_fin (c : ictx E) : Prop := {
  cf_ok : c_ok E P c; cf_ci : ix_ci E c = ip_ci P (ix_x E c); cf_Ai : ix_Ai E c = ip_Ai P (ix_x E c);
  cf_good : good (ix_x E c) (ix_s E c) (ix_y E c) (ix_z E c); cf_mu : pos (ix_mu E c); cf_tau : tau_ok (ix_tau E c);
  cf_g : vfin (ix_g E c); cf_ce : vfin (ix_ce E c); cf_Ae : mfin (ix_Ae E c);
  cf_ls : forall b, vfin b -> vfin (ls_solve (e_lin E) (ix_ls E c) b) }.
Definition d_fin (d : istep (S := Xn)) : Prop := vfin (p_x d) /\ vfin (p_s d) /\ vfin (p_y d) /\ vfin (p_z d).
Definition t_fin (t : itrial (S := Xn)) : Prop := vfin (it_x t) /\ vfin (it_s t) /\ vfin (it_y t) /\ vfin (it_z t) /\ vfin (it_ce t) /\ vfin (it_ci t).

Lemma cf_fci c : c_fin c -> vfin (ix_ci E c) /\ mfin (ix_Ai E c).
Proof. intros C. rewrite (cf_ci c C), (cf_Ai c C). assert (L : length (ix_x E c) = n) by apply (cf_ok c C). destruct (cf_good c C) as (Fx & _). destruct (Fp _ L Fx) as (_ & _ & _ & _ & A & B & _). auto. Qed.
Lemma cf_mufin c : c_fin c -> fin (ix_mu E c). Proof. intros C. apply pos_fin, (cf_mu c C). Qed.
Lemma rhs_fin c : c_fin c -> vfin (ipm_rhs E P c).
Proof.
  intros C. destruct (cf_good c C) as (Fx & Ps & Fy & Pz). destruct (cf_fci c C) as [Fi FA]. unfold ipm_rhs. apply List.Forall_app. split; [|apply f_neg, (cf_ce c C)].
  apply f_add; [apply f_add; [apply f_neg, (cf_g c C)|apply f_mtvec; [apply (cf_Ae c C)|exact Fy]]|]. apply f_mtvec; [exact FA|].
  apply f_add; [|apply f_pos, Pz]. apply f_add; [|apply f_scale; [apply cf_mufin, C|apply f_inv, Ps]]. apply f_mul; [|exact Fi]. apply f_neg, f_sigma; [exact Ps|apply f_pos, Pz].
Qed.
Lemma rhs_soc_fin c ce cis : c_fin c -> vfin ce -> vfin cis -> vfin (ipm_rhs_soc E P c ce cis).
Proof.
  intros C Fe Fc. destruct (cf_good c C) as (Fx & Ps & Fy & Pz). destruct (cf_fci c C) as [Fi FA]. unfold ipm_rhs_soc. apply List.Forall_app. split; [|apply f_neg, Fe].
  apply f_add; [apply f_add; [apply f_neg, (cf_g c C)|apply f_mtvec; [apply (cf_Ae c C)|exact Fy]]|]. apply f_mtvec; [exact FA|].
  apply f_sub; [apply f_scale; [apply cf_mufin, C|apply f_inv, Ps]|]. apply f_mul; [|exact Fc]. apply f_sigma; [exact Ps|apply f_pos, Pz].
Qed.
Lemma step_fin c rhs cis : c_fin c -> vfin rhs -> vfin cis -> d_fin (ipm_step E c rhs cis).
Proof.
  intros C Fr Fc. destruct (cf_good c C) as (Fx & Ps & Fy & Pz). destruct (cf_fci c C) as [Fi FA]. unfold ipm_step. pose proof (cf_ls c C _ Fr) as Fs. set (p := ls_solve _ _ _) in *.
  assert (Q1 : vfin (firstn (length (ix_x E c)) p)) by (apply f_first, Fs). assert (Q2 : vfin (vadd (S := Xn) cis (mvec (S := Xn) (ix_Ai E c) (firstn (length (ix_x E c)) p)))) by (apply f_add; [exact Fc|apply f_mvec; auto]).
  unfold d_fin. cbn [p_x p_s p_y p_z]. split; [exact Q1|]. split; [exact Q2|]. split; [apply f_neg, f_skip, Fs|].
  apply f_sub; [apply f_sub; [apply f_scale; [apply cf_mufin, C|apply f_inv, Ps]|apply f_pos, Pz]|]. apply f_mul; [|exact Q2]. apply f_sigma; [exact Ps|apply f_pos, Pz].
Qed.
Lemma the_step_fin c : c_fin c -> d_fin (the_step E P c).
Proof. intros C. apply step_fin; [exact C|apply rhs_fin, C|]. apply f_sub; [apply cf_fci, C|apply f_pos, (cf_good c C)]. Qed.
Lemma ftb_fin c d : c_fin c -> d_ok P d -> (exists a, ftb (S := Xn) (ix_s E c) (p_s d) (ix_tau E c) = Fin a) /\ (exists a, ftb (S := Xn) (ix_z E c) (p_z d) (ix_tau E c) = Fin a).
Proof.
  intros C (_ & Ls & _ & Lz). destruct (cf_good c C) as (_ & Ps & _ & Pz). destruct (cf_tau c C) as (t & -> & Ht). destruct (cf_ok c C) as (_ & L1 & _ & L2 & _). split.
  - destruct (ftb_X t (ix_s E c) (p_s d)) as (b & H & _); [lra|exact Ps|etransitivity; [exact Ls|symmetry; exact L1]|]. eauto.
  - destruct (ftb_X t (ix_z E c) (p_z d)) as (b & H & _); [lra|exact Pz|etransitivity; [exact Lz|symmetry; exact L2]|]. eauto.
Qed.
Lemma trial_fin c d a az : c_fin c -> d_ok P d -> d_fin d -> t_fin (ipm_trial E P c d (Fin a) (Fin az)).
Proof.
  intros C Hd (Dx & Ds & Dy & Dz). destruct (cf_good c C) as (Fx & Ps & Fy & Pz). unfold ipm_trial, t_fin. cbn [it_x it_s it_y it_z it_ce it_ci].
  assert (Q : vfin (vstep (S := Xn) (ix_x E c) (Fin a) (p_x d))) by (apply f_step; auto).
  assert (L : length (vstep (S := Xn) (ix_x E c) (Fin a) (p_x d)) = n) by (apply (vstep_len (S := Xn)); [apply (cf_ok c C)|apply Hd]).
  destruct (Fp _ L Q) as (_ & _ & A & _ & B & _). split; [exact Q|]. split; [apply f_step; [apply f_pos, Ps|exact Ds]|]. split; [apply f_step; auto|]. split; [apply f_step; [apply f_pos, Pz|exact Dz]|]. auto.
Qed.
Lemma trial_main_fin c d a az : c_fin c -> d_ok P d -> d_fin d -> t_fin (ipm_trial_main E P o c d (Fin a) (Fin az)).
Proof.
  intros C Hd Fd. pose proof (trial_fin c d a az C Hd Fd) as (A1 & A2 & A3 & A4 & A5 & A6). unfold ipm_trial_main. destruct (_ && _); [|repeat (split; [assumption|]); assumption].
  unfold t_fin. cbn [it_x it_s it_y it_z it_ce it_ci]. repeat (split; [assumption|]). assumption.
Qed.

Lemma soc_fin c dphi a : c_fin c -> forall k a_soc ce cis t viol flt flt' t' a', (exists b, a_soc = Fin b) -> length ce = me -> length cis = mi -> vfin ce -> vfin cis -> t_ok P t -> t_fin t ->
  ipm_soc E P k c dphi a a_soc ce cis t viol flt = (flt', Some (t', a')) -> t_fin t'.
Proof.
  intros C. induction k as [|k IH]; intros a_soc ce cis t viol flt flt' t' a' (b & ->) L1 L2 F1 F2 Tk Tf H; cbn [ipm_soc] in H; [discriminate|]. cbv zeta in H.
  destruct Tf as (T1 & T2 & T3 & T4 & T5 & T6). destruct Tk as (K1 & K2 & K3 & K4 & K5 & K6). revert H.
  set (ce' := vadd (S := Xn) _ _). set (cis' := vsub (S := Xn) _ _).
  assert (G1 : vfin ce') by (apply f_add; [apply f_scale; [reflexivity|exact F1]|exact T5]).
  assert (G2 : vfin cis') by (apply f_sub; [apply f_add; [apply f_scale; [reflexivity|exact F2]|exact T6]|exact T2]).
  assert (N1 : length ce' = me) by (apply (vadd_len (S := Xn)); [apply (vscale_len (S := Xn)); exact L1|exact K5]).
  assert (N2 : length cis' = mi) by (apply (vsub_len (S := Xn)); [apply (vadd_len (S := Xn)); [apply (vscale_len (S := Xn)); exact L2|exact K6]|exact K2]).
  set (d := ipm_step E c _ cis'). assert (Hd : d_ok P d) by (apply (step_ok E P); auto; [apply (cf_ok c C)|apply (rhs_soc_len E P); [apply (cf_ok c C)|exact N1]]).
  assert (Fd : d_fin d) by (apply step_fin; [exact C|apply rhs_soc_fin; auto|exact G2]).
  destruct (ftb_fin c d C Hd) as ((b1 & ->) & (b2 & ->)). pose proof (trial_fin c d b1 b2 C Hd Fd) as Tf. pose proof (proj1 (trial_ok E P c d (Fin b1) (Fin b2) Hp (cf_ok c C) Hd)) as Tk.
  set (t1 := ipm_trial E P c d (Fin b1) (Fin b2)) in *. destruct (try_add _ _ _ _ _) as [flt1 ok]. destruct ok; [intros [= <- <- <-]; exact Tf|].
  destruct (s_ltb Xn _ _); [discriminate|]. intros H. exact (IH _ _ _ _ _ _ _ _ _ (ex_intro _ b1 eq_refl) N1 N2 G1 G2 Tk Tf H).
Qed.

Lemma search_fin c d dphi amax az : c_fin c -> d_ok P d -> d_fin d -> (exists b, amax = Fin b) -> (exists b, az = Fin b) ->
  forall fuel a flt cnt r t, (exists b, a = Fin b) -> ipm_search E P o fuel c d dphi amax az a flt cnt = Ok r -> if_t r = Some t -> t_fin t.
Proof.
  intros C Hd Fd (bm & ->) (bz & ->). induction fuel as [|fuel IH]; intros a flt cnt r t (b & ->) H Ht; cbn [ipm_search] in H; [discriminate|]. cbv zeta in H.
  pose proof (trial_main_fin c d b bz C Hd Fd) as Tf. pose proof (proj1 (trial_main_ok E P o c d (Fin b) (Fin bz) Hp (cf_ok c C) Hd)) as Tk.
  set (t1 := ipm_trial_main E P o c d (Fin b) (Fin bz)) in *.
  destruct (_ || _) in H.
  { destruct (s_ltb Xn _ _) in H; [injection H as <-; discriminate Ht|]. eapply IH; [|exact H|exact Ht]. exists (b / 2). apply xhalve. }
  destruct (try_add _ _ _ _ _) as [flt1 ok] in H. destruct ok; [injection H as <-; injection Ht as <-; exact Tf|].
  assert (K : forall flt2 soc, (if s_eqb Xn (Fin b) (Fin bm) && s_leb Xn (s_add Xn (norm1 (S := Xn) (ix_ce E c)) (norm1 (S := Xn) (vsub (S := Xn) (ix_ci E c) (ix_s E c)))) (it_viol (S := Xn) t1)
    then ipm_soc E P 5 c dphi (Fin b) (Fin b) (ix_ce E c) (vsub (S := Xn) (ix_ci E c) (ix_s E c)) t1 (it_viol (S := Xn) t1) flt1 else (flt1, None)) = (flt2, soc) -> match soc with Some (t2, _) => t_fin t2 | None => True end).
  { intros flt2 soc Q. destruct (_ && _) in Q; [|injection Q as <- <-; exact I]. destruct soc as [[t2 a2]|]; [|exact I].
    destruct (cf_ok c C) as (_ & LS & _ & _ & _ & LE & LI & _). eapply (soc_fin c dphi (Fin b) C); [| | | | | | |exact Q]; auto; [exists b; reflexivity|apply (vsub_len (S := Xn)); auto|apply (cf_ce c C)|].
    apply f_sub; [apply cf_fci, C|apply f_pos, (cf_good c C)]. }
  match type of H with (let (_, _) := ?e in _) = _ => pose proof (K (fst e) (snd e) (surjective_pairing e)) as K2; clear K; destruct e as [flt2 soc] end. cbn [fst snd] in K2.
  destruct soc as [[t2 a2]|]; [injection H as <-; injection Ht as <-; exact K2|].
  destruct (reset_filter _ _ _) in H; [eapply IH; [|exact H|exact Ht]; eauto|].
  destruct (s_ltb Xn _ _) in H; [|eapply IH; [|exact H|exact Ht]; exists (b / 2); apply xhalve].
  destruct (s_leb Xn _ _) in H; injection H as <-; [|discriminate Ht]. injection Ht as <-. apply trial_fin; auto.
Qed.

(** ** Iterations *)
Variable V : U -> Prop.
Hypothesis Hv : forall i u, shownf i -> V u -> V (fst (run_callbacks cbs i u)).
Definition keepsf {W} (cbs : list (callback Xn (W * filter Xn))) (V : W -> Prop) : Prop :=
  forall i u, shownf i -> V (fst u) -> V (fst (fst (run_callbacks cbs i u))).
Definition restore_fin (rst : restorer (S := Xn) (U := U)) : Prop := forall cbs x s y z mu it uf clk status q,
  rst cbs x s y z mu it uf clk = Ok (status, q) -> pt_ok P (mkPt x s y z) -> good x s y z -> pos mu ->
  keepsf cbs V -> V (fst uf) -> V (fst (ir_uf q)) /\ good (ir_x q) (ir_s q) (ir_y q) (ir_z q).
Hypothesis Hr : forall rst, restore = Some rst -> restore_ok P o rst.
Hypothesis Hrp : forall rst, restore = Some rst -> restore_fin rst.
Hypothesis Hf : pos (sc_f (ip_sc P)).
Hypothesis Ht : pos (o_tol o).

Definition at_good (st : istate E (U := U)) : Prop := good (is_x _ st) (is_s _ st) (is_y _ st) (is_z _ st).
Definition f_inv' (it0 : Z) (p0 : ipoint Xn) (st : istate E (U := U)) : Prop :=
  i_inv E P o restore it0 p0 st /\ at_good st /\ pos (is_mu _ st) /\ tau_ok (is_tau _ st) /\ V (is_u _ st).

Lemma the_callbacks_keepf st a : keepsf (the_callbacks E P cbs st a) V.
Proof. intros i [u f] Sh Vu. unfold the_callbacks. eapply (eq_ind_r V); [|apply lift_run; intros; apply fr_keeps]. apply Hv; auto. Qed.

Lemma end_y fuel clk0 x s y z mu tau flt cnt it (u : U) ls clk r :
  ipm_end E P o fuel (e_clock E clk0) x s y z (ip_f P x) (ip_ce P x) (ip_ci P x) mu tau flt cnt it u ls clk = Ok r -> is_y _ (match r with Next st => st | Exit _ st => st end) = y.
Proof. intros H. apply end_shape in H. destruct H as (j & tau' & flt' & l & clk' & _ & _ & _ & _ & ->). destruct l; reflexivity. Qed.

Lemma fineq : ineq_fin P.
Proof. intros x L F. destruct (Fp x L F) as (_ & _ & _ & _ & A & B & _). split; [apply all_fin_Forall, A|apply mat_fin_Forall, B]. Qed.

Lemma body_fin fuel clk0 it0 p0 st r : f_inv' it0 p0 st -> ipm_body E P o cbs restore fuel (e_clock E clk0) st = Ok r ->
  match r with Next st' => f_inv' it0 p0 st' | Exit s st' => V (is_u _ st') /\ at_good st' end.
Proof.
  intros (I & G & Pm & Pt & Vu) H. pose proof (body_inv E P o cbs restore Hp Hs Hr _ _ _ _ _ _ I H) as BI. apply body_shape in H.
  pose proof (Hv (ipm_info E st) (is_u _ st) G Vu) as Vc.
  assert (Cf : forall ls, ls_compute (e_lin E) (is_ls _ st) (ipm_lhs E P (is_H _ st) (ipm_ctx E st (is_ls _ st))) = (ls, true) -> c_fin (ipm_ctx E st ls)).
  { intros ls L. pose proof (ctx_ok E P o restore Hp _ _ _ ls I) as Ck. destruct I as (If & Ig & IH & Ice & IAe & Ici & IAi & _ & (LX & LS & LY & LZ) & _). cbn [point_of pt_x pt_s pt_y pt_z] in *.
    destruct G as (Gx & Gs & Gy & Gz). destruct (Fp _ LX Gx) as (_ & F2 & F3 & F4 & F5 & F6 & F7).
    constructor; cbn [ipm_ctx ix_ci ix_Ai ix_x ix_s ix_z ix_y ix_mu ix_tau ix_g ix_ce ix_Ae ix_ls]; auto; [split; auto|rewrite Ig; exact F2|rewrite Ice; exact F3|rewrite IAe; exact F4|].
    apply (Hl _ _ _) with (3 := L); cbn [ipm_lhs k_tl k_bl ipm_ctx ix_Ai ix_s ix_z ix_Ae]; [|rewrite IAe; exact F4].
    apply f_madd; [rewrite IH; apply F7; auto; apply f_pos, Gz|]. apply f_gram; [rewrite IAi; exact F6|]. apply f_sigma; [exact Gs|apply f_pos, Gz]. }
  destruct H as [Inf|Dv|u D1 D2 C|u ls D1 D2 C L|u ls rs t z r D1 D2 C L c Se Am Ft Cz En|u ls rs D1 D2 C L c Se Am Rs
    |u ls rs rst status q D1 D2 C L c Se Am Rs Rr Su|u ls rs rst status q r D1 D2 C L c Se Am Rs Rr Su En].
  - split; [exact Vu|exact G].
  - split; [exact Vu|exact G].
  - rewrite C in Vc. split; [exact Vc|exact G].
  - rewrite C in Vc. split; [exact Vc|exact G].
  - rewrite C in Vc. cbn [fst] in Vc. pose proof (Cf ls L) as Cc. fold c in Cc. pose proof (cf_ok c Cc) as Hc. pose proof (the_step_ok E P Hs c Hc) as Hd.
    destruct (ftb_fin c _ Cc Hd) as [Ha Hz].
    pose proof (search_fin c _ _ _ _ Cc Hd (the_step_fin c Cc) Ha Hz _ _ _ _ _ _ Ha Se Ft) as (T1 & T2 & T3 & T4 & _).
    apply search_took0 in Se; auto. rewrite Ft in Se.
    assert (Cp : c_pos E P True c). { destruct (cf_good c Cc) as (Gx & Gs & Gy & Gz). split; [exact Hc|]. split; [apply (cf_ci c Cc)|]. split; [apply (cf_Ai c Cc)|]. split; [split; auto|]. split; [apply (cf_mu c Cc)|]. split; [apply (cf_tau c Cc)|exact Gx]. }
    destruct (took_pos E P o True (fun _ => or_intror fineq) Hp Hs c _ _ Cp Se) as [Q1 Q2].
    assert (Q3 : List.Forall pos (it_s t) /\ List.Forall num (it_z t)).
    { destruct Q2 as [Q2|[Q2|[Q2 Q3]]]; [apply all_fin_Forall in T1; congruence|apply all_fin_Forall in T2; congruence|auto]. }
    pose proof (took_move E P o restore Hp Hs _ _ _ _ _ _ _ I Hd L Am Se Cz) as ((A1 & A2 & A3) & Pk' & Mv).
    rewrite A1, A2, A3 in En. pose proof (end_y _ _ _ _ _ _ _ _ _ _ _ _ _ _ _ En) as X0. pose proof (end_pos E P o Hf Ht _ _ _ _ _ _ _ _ _ _ _ _ _ _ _ En Pm Pt) as (X1 & X2 & X3 & X4 & X5 & X6 & X7).
    assert (Gn : good (it_x t) (it_s t) (it_y t) z).
    { split; [exact T1|]. split; [apply Q3|]. split; [exact T3|]. destruct Pm as (m & Em & Pm). rewrite Em in Cz. destruct (clamp_zs_X m Pm (it_s t) (it_z t)) as (vs & Ev & Hvs); auto.
      { destruct (took_ok E P o _ _ _ _ _ _ _ Hp Hs Hc Hd Se) as [(_ & TS & _ & TZ & _) _]. etransitivity; [exact TZ|symmetry; exact TS]. }
      rewrite Ev in Cz. injection Cz as <-. apply Hvs; apply Q3. }
    destruct r as [s' st'|st']; unfold f_inv', at_good; rewrite X0, X1, X2, X3, X6; [split; [exact Vc|exact Gn]|]. split; [apply BI|]. split; [exact Gn|]. auto.
  - rewrite C in Vc. split; [exact Vc|exact G].
  - rewrite C in Vc. assert (Pk : pt_ok P (point_of E st)) by apply I.
    destruct (Hrp _ Rs _ _ _ _ _ _ _ _ _ _ _ Rr Pk G Pm (the_callbacks_keepf st _) Vc) as [Vq Gq]. split; [exact Vq|exact Gq].
  - rewrite C in Vc. assert (Pk : pt_ok P (point_of E st)) by apply I.
    destruct (Hrp _ Rs _ _ _ _ _ _ _ _ _ _ _ Rr Pk G Pm (the_callbacks_keepf st _) Vc) as [Vq Gq].
    pose proof (end_y _ _ _ _ _ _ _ _ _ _ _ _ _ _ _ En) as X0. pose proof (end_pos E P o Hf Ht _ _ _ _ _ _ _ _ _ _ _ _ _ _ _ En Pm Pt) as (X1 & X2 & X3 & X4 & X5 & X6 & X7).
    destruct r as [s' st'|st']; unfold f_inv', at_good; rewrite X0, X1, X2, X3, X6; [split; [exact Vq|exact Gq]|]. split; [apply BI|]. split; [exact Gq|]. auto.
Qed.

Lemma ipm_fin fuel infr x s y z mu it0 (u : U) clk0 st fin : pt_ok P (mkPt x s y z) -> good x s y z -> pos mu -> V u ->
  ipm_from E P o cbs restore fuel infr x s y z mu it0 u clk0 = Ok (st, fin) -> V (is_u _ fin) /\ at_good fin.
Proof.
  intros Pk G M1 Vu H. unfold ipm_from in H. apply oassert_ok in H. destruct H as [_ H].
  destruct (Nat.ltb _ _). { injection H as <- <-. split; [exact Vu|exact G]. }
  destruct (_ || _) eqn:NF. { injection H as <- <-. split; [exact Vu|exact G]. }
  apply (drive_ok _ _ _ (f_inv' it0 (mkPt x s y z))) in H.
  - destruct H as (st1 & I & [(-> & -> & L)|(L & B)]).
    + split; apply I.
    + exact (body_fin _ _ _ _ _ _ I B).
  - intros st1 st2 I _ B. exact (body_fin _ _ _ _ _ _ I B).
  - split.
    + unfold i_inv. cbn [ipm_init is_f is_g is_H is_ce is_Ae is_ci is_Ai is_E is_it is_x is_s is_y is_z point_of].
      do 8 (split; [reflexivity|]). split; [exact Pk|]. split; [lia|]. split; [auto|]. exists O. split; [constructor|lia].
    + cbn [ipm_init is_x is_s is_z is_mu is_tau is_u]. split; [exact G|]. split; [exact M1|]. split; [apply tau_min_X|exact Vu].
Qed.
End Fin.
