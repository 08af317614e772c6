(** Proofs for C33-C35, end to end. *)
From Coq Require Import ZArith Reals List Bool Arith Lia Lra.
From Verif Require Import Base ExprModel GraphSpec GraphProofs ExprInv VarModel VarReach VarProofs ExprReal ExprXR MathSpec MathProofs VarSpec Faith FaithX HistProofs
  JacModel JacProofs JacReach JacHist JacSame NumModel UtilModel ScaleProofs BoundsModel ExitModel SolverModel NewtonModel SqpModel IpmModel IpmShape RestoreModel RestoreProofs
  FinEval ProblemModel ProblemSpec ProblemInv ProblemProofs ProblemProofs2 ProblemProofs3 ProblemProofs4 ProbSolveModel ProbSolveInv ProbSolveEval ProbSolveSpec ProbSolveProofs ProbSolvePrep.
Import ListNotations.
Local Open Scope nat_scope.

(** *** Shapes *)
Section Dims.
Context {S : nops}.
Variables (kd : kind) (p : prog S) (nodes : list nat) (t : setup) (q : jstate S).
Hypothesis Ip : pinv p.
Hypothesis Rd : ready kd p nodes t q.
Hypothesis Dec : Forall2 (decides (p_env p) (p_st p)) (p_dec p) nodes.
Let n := length (p_dec p).

Lemma g_dims sc x : length x = n -> length (cb_g n t q sc x) = n.
Proof. unfold n. intros L. destruct (cb_g_ok kd p nodes t q Rd Dec sc x L) as (m & _ & ->). rewrite map_length, seq_length. reflexivity. Qed.
Lemma A_dims k r sc x : length x = n -> k < length (qobjs q) -> mat_dims r n (cb_A n t q k r sc x) = true.
Proof. unfold n. intros L H. destruct (cb_A_ok kd p nodes t q Rd Dec k r sc x L H) as (m & _ & ->). apply dense_dims. Qed.
Lemma c_dims old new sc x : length x = n -> length sc = length new ->
  Forall2 (fun i i' => exists m, holds (p_env p) i m /\ holds (qenv q) i' m) old new -> length (cb_c t q new sc x) = length new.
Proof.
  unfold n. intros L Ls F. assert (exists ns, Forall2 (holds (p_env p)) old ns) as (ns & Fn).
  { clear - F. induction F as [|a a' l l' (m & H & _) F (ns & IH)]; [exists []; constructor|]. exists (m :: ns). constructor; assumption. }
  eapply len_c; eauto.
Qed.

Lemma sqp_dims sc : kd <> KNewton -> length (sc_e sc) = length (t_ce t) -> sprob_ok (sqp_prob n t q sc).
Proof.
  intros K L x Lx. cbn [sqp_prob sp_n sp_me sp_g sp_ce sp_Ae] in *. split; [apply g_dims, Lx|]. split.
  - eapply c_dims; [exact Lx|exact L|exact (rd_ce _ _ _ _ _ Rd)].
  - apply A_dims; [exact Lx|]. eapply made_lt; [|exact (rd_Ae _ _ _ _ _ Rd K)]. exact I.
Qed.
Lemma ipm_dims sc : kd = KIpm -> length (sc_e sc) = length (t_ce t) -> length (sc_i sc) = length (t_ci t) -> iprob_ok (ipm_prob n t q sc).
Proof.
  intros K L Li x Lx. cbn [ipm_prob ip_n ip_me ip_mi ip_g ip_ce ip_Ae ip_ci ip_Ai] in *. split; [apply g_dims, Lx|]. split.
  - eapply c_dims; [exact Lx|exact L|exact (rd_ce _ _ _ _ _ Rd)].
  - split; [eapply c_dims; [exact Lx|exact Li|exact (rd_ci _ _ _ _ _ Rd)]|]. split; (apply A_dims; [exact Lx|]).
    + eapply made_lt; [|apply (rd_Ae _ _ _ _ _ Rd)]; [exact I|rewrite K; discriminate].
    + eapply made_lt; [|exact (rd_Ai _ _ _ _ _ Rd K)]. exact I.
Qed.
End Dims.

(** *** The user's problem *)
Definition meant (sp : spec) (n me mi : nat) : Prop := n = length (sp_dec sp) /\ me = length (sp_eqs sp) /\ mi = length (sp_ineqs sp).

Lemma ipm_meaning sp (p : prog X_ops) x0 P : pinv p -> plink sp p -> ipm_given p x0 P ->
  iprob_ok P /\ meant sp (ip_n P) (ip_me P) (ip_mi P) /\ length (sc_e (ip_sc P)) = ip_me P /\ length (sc_i (ip_sc P)) = ip_mi P /\
  forall y : list R, length y = ip_n P ->
    (forall v, cost_is sp (point sp y) v -> ip_f P (map Fin y) = X_mul (sc_f (ip_sc P)) (Fin v)) /\
    (forall gs, all_defined (point sp y) (sp_eqs sp) -> Forall2 (gap (point sp y)) (sp_eqs sp) gs ->
       ip_ce P (map Fin y) = vmap2 (S := Xn) X_mul (sc_e (ip_sc P)) (map Fin gs)) /\
    (forall gs, all_defined (point sp y) (sp_ineqs sp) -> Forall2 (gap (point sp y)) (sp_ineqs sp) gs ->
       ip_ci P (map Fin y) = vmap2 (S := Xn) X_mul (sc_i (ip_sc P)) (map Fin gs)).
Proof.
  intros Ip Lp (nodes & t & q & g & Ae & Ai & D & Rd & _ & _ & _ & ->). set (sc := scaling_ipm _ _ _ _ _).
  assert (Le : length (sc_e sc) = length (t_ce t)) by (apply scale_rows_length).
  assert (Li : length (sc_i sc) = length (t_ci t)) by (apply scale_rows_length).
  clearbody sc.
  split; [apply (ipm_dims (S := Xn) KIpm p nodes); auto|]. cbn [ipm_prob ip_n ip_me ip_mi ip_sc ip_f ip_ce ip_ci].
  split; [split; [exact (dec_len (S := Xn) sp p Lp)|split; [exact (eqs_len (S := Xn) KIpm sp p nodes t q Lp Rd)|exact (ineqs_len (S := Xn) KIpm sp p nodes t q Lp Rd)]]|].
  split; [exact Le|]. split; [exact Li|]. intros y Ly. split; [|split].
  - intros v Hv. exact (user_f (S := Xn) (FS := faith_X) KIpm sp p nodes t q Ip Lp Rd D sc y v Ly Hv).
  - intros gs H1 H2. exact (user_ce (S := Xn) (FS := faith_X) KIpm sp p nodes t q Ip Lp Rd D (sc_e sc) y gs Ly H1 H2).
  - intros gs H1 H2. exact (user_ci (S := Xn) (FS := faith_X) KIpm sp p nodes t q Ip Lp Rd D (sc_i sc) y gs Ly H1 H2).
Qed.

Lemma sqp_meaning sp (p : prog X_ops) x0 P : pinv p -> plink sp p -> sqp_given p x0 P ->
  sprob_ok P /\ sp_n P = length (sp_dec sp) /\ sp_me P = length (sp_eqs sp) /\ length (sc_e (sp_sc P)) = sp_me P /\ sc_i (sp_sc P) = [] /\
  forall y : list R, length y = sp_n P ->
    (forall v, cost_is sp (point sp y) v -> sp_f P (map Fin y) = X_mul (sc_f (sp_sc P)) (Fin v)) /\
    (forall gs, all_defined (point sp y) (sp_eqs sp) -> Forall2 (gap (point sp y)) (sp_eqs sp) gs ->
       sp_ce P (map Fin y) = vmap2 (S := Xn) X_mul (sc_e (sp_sc P)) (map Fin gs)).
Proof.
  intros Ip Lp (nodes & t & q & g & Ae & D & Rd & _ & _ & ->). set (sc := scaling_sqp _ _ _).
  assert (Le : length (sc_e sc) = length (t_ce t)) by (apply scale_rows_length).
  assert (Li : sc_i sc = []) by reflexivity.
  clearbody sc.
  split; [apply (sqp_dims (S := Xn) KSqp p nodes); auto; discriminate|]. cbn [sqp_prob sp_n sp_me sp_sc sp_f sp_ce].
  split; [exact (dec_len (S := Xn) sp p Lp)|split; [exact (eqs_len (S := Xn) KSqp sp p nodes t q Lp Rd)|]].
  split; [exact Le|]. split; [exact Li|]. intros y Ly. split.
  - intros v Hv. exact (user_f (S := Xn) (FS := faith_X) KSqp sp p nodes t q Ip Lp Rd D sc y v Ly Hv).
  - intros gs H1 H2. exact (user_ce (S := Xn) (FS := faith_X) KSqp sp p nodes t q Ip Lp Rd D (sc_e sc) y gs Ly H1 H2).
Qed.

Lemma newton_meaning sp (p : prog X_ops) x0 P : pinv p -> plink sp p -> newton_given p x0 P ->
  np_n P = length (sp_dec sp) /\ (forall x, length x = np_n P -> length (np_g P x) = np_n P) /\
  forall (y : list R) v, length y = np_n P -> cost_is sp (point sp y) v -> np_f P (map Fin y) = X_mul (sc_f (np_sc P)) (Fin v).
Proof.
  intros Ip Lp (nodes & t & q & g & D & Rd & _ & ->). set (sc := scaling_newton _). clearbody sc.
  cbn [newton_prob np_n np_f np_g np_sc]. split; [exact (dec_len (S := Xn) sp p Lp)|]. split; [intros x Lx; apply (g_dims (S := Xn) KNewton p nodes t q Rd D sc x Lx)|].
  intros y v Ly Hv. exact (user_f (S := Xn) (FS := faith_X) KNewton sp p nodes t q Ip Lp Rd D sc y v Ly Hv).
Qed.

(** Satisfying every constraint handed over is satisfying every relation of the user. *)
Lemma gaps_exist rho l : all_defined rho l -> exists gs, Forall2 (gap rho) l gs.
Proof.
  induction 1 as [|r l (( _ & a & A) & (_ & b & B)) _ (gs & IH)]; [exists []; constructor|].
  eexists (_ :: gs). constructor; [|exact IH]. exists a, b. split; [exact A|]. split; [exact B|reflexivity].
Qed.

Lemma gap_holds rho r v : gap rho r v -> (rel_holds rho r <-> match r_cmp r with CEq => v = 0%R | _ => (0 <= v)%R end).
Proof.
  intros (a & b & A & B & ->). split.
  - intros (a' & b' & A' & B' & H). rewrite (XEv_det _ _ _ _ A A'), (XEv_det _ _ _ _ B B'). destruct (r_cmp r); cbn in H; lra.
  - intros H. exists a, b. split; [exact A|]. split; [exact B|]. destruct (r_cmp r); cbn; lra.
Qed.

Lemma scaled_nth (sc gs : list R) i : length sc = length gs -> i < length gs -> nth i (vmap2 (S := Xn) X_mul (map Fin sc) (map Fin gs)) NaN = Fin (nth i sc 0 * nth i gs 0)%R.
Proof.
  revert gs i. induction sc as [|a sc IH]; intros [|g gs] i L H; try discriminate; [cbn in H; lia|].
  destruct i as [|i]; [reflexivity|]. cbn in L, H. apply (IH gs i); lia.
Qed.

Lemma all_scaled rho l (sc gs : list R) (P : urel -> Prop) : length sc = length gs -> (forall v, In v sc -> (0 < v)%R) -> Forall2 (gap rho) l gs ->
  (forall r, In r l -> P r) ->
  ((forall r, In r l -> r_cmp r = CEq) -> (forall i, i < length gs -> nth i (vmap2 (S := Xn) X_mul (map Fin sc) (map Fin gs)) NaN = Fin 0) <-> List.Forall (rel_holds rho) l) /\
  ((forall r, In r l -> r_cmp r <> CEq) -> (forall i, i < length gs -> X_leb (Fin 0) (nth i (vmap2 (S := Xn) X_mul (map Fin sc) (map Fin gs)) NaN) = true) <-> List.Forall (rel_holds rho) l).
Proof.
  intros L Pos F _. revert sc L Pos. induction F as [|r g l gs G F IH]; intros [|a sc] L Pos; try discriminate L.
  - split; (intros _; split; [constructor|intros _ i Hi; cbn in Hi; lia]).
  - assert (Pa : (0 < a)%R) by (apply Pos; left; reflexivity). destruct (IH sc) as [IH1 IH2]; [cbn in L; lia|intros v Hv; apply Pos; right; exact Hv|].
    pose proof (gap_holds _ _ _ G) as GH. split; intros Hc.
    + specialize (IH1 (fun r' Hr => Hc r' (or_intror Hr))). rewrite (Hc r (or_introl eq_refl)) in GH. split.
      * intros H. constructor.
        { apply GH. specialize (H 0 ltac:(cbn; lia)). cbn in H. injection H as H. nra. }
        { apply IH1. intros i Hi. exact (H (S i) ltac:(cbn; lia)). }
      * intros H. inversion H as [|? ? H1 H2]; subst. intros [|i] Hi.
        { cbn. apply GH in H1. rewrite H1. f_equal. ring. }
        { apply IH1; [exact H2|cbn in Hi; lia]. }
    + specialize (IH2 (fun r' Hr => Hc r' (or_intror Hr))). assert (GH' : rel_holds rho r <-> (0 <= g)%R) by (specialize (Hc r (or_introl eq_refl)); destruct (r_cmp r); tauto). split.
      * intros H. constructor.
        { apply GH'. specialize (H 0 ltac:(cbn; lia)). cbn in H. rewrite X_leb_fin in H. apply R_leb_le in H. nra. }
        { apply IH2. intros i Hi. exact (H (S i) ltac:(cbn; lia)). }
      * intros H. inversion H as [|? ? H1 H2]; subst. intros [|i] Hi.
        { cbn. rewrite X_leb_fin. apply R_leb_le. apply GH' in H1. nra. }
        { apply IH2; [exact H2|cbn in Hi; lia]. }
Qed.

(** *** Writing back *)
Lemma jsets_len {S : nops} l : forall (v : list S) q q', jsets l v q = Ok q' -> length v = length l.
Proof.
  induction l as [|i l IH]; intros [|x v] q q' H; try discriminate; [reflexivity|]. cbn [jsets] in H.
  destruct (jstep (JH (HSet i x)) q) as [[q1 out]| | |]; cbn [obind] in H; try discriminate. cbn. rewrite (IH _ _ _ H). reflexivity.
Qed.

Lemma write_ok sp (p p' : prog X_ops) x : pinv p -> plink sp p -> write_back p x = Ok p' ->
  length x = length (sp_dec sp) /\ pinv p' /\ (exists e s, p' = set_mem p e s) /\ p_env p' = p_env p /\ st_nodes (p_st p') = st_nodes (p_st p) /\
  exists nodes, Forall2 (decides (p_env p') (p_st p')) (p_dec p) nodes /\ NoDup nodes /\ forall m, st_val (p_st p') m = puts (S := Xn) (st_val (p_st p)) nodes x m.
Proof.
  intros Ip Lp H. unfold write_back in H. destruct (jsets (S := Xn) (p_dec p) x (p_env p, [], p_st p)) as [q| | |] eqn:Hs; cbn [obind] in H; try discriminate.
  pose proof (jsets_len _ _ _ _ Hs) as Lx. destruct (i_dec _ Ip) as (nodes & D & ND).
  destruct (jsets_ok (S := Xn) (p_dec p) nodes x (p_env p, [], p_st p) (i_reach _ Ip) D Lx) as (q' & Hs' & C & Q1 & Q2 & Q3 & Q4).
  rewrite Hs in Hs'. injection Hs' as <-. pose proof (jcareful_reach _ _ (i_reach _ Ip) C) as R.
  destruct q as [[e js] s]. unfold qenv, qobjs, qst in *. cbn [fst snd] in *. subst e js. injection H as <-.
  split; [exact (eq_trans Lx (dec_len (S := Xn) sp p Lp))|].
  assert (D' : Forall2 (decides (p_env p) s) (p_dec p) nodes).
  { eapply JacProofs.Forall2_impl; [|exact D]. intros a b (u & U1 & U2 & U3). exists u. rewrite Q3. auto. }
  split; [|split; [exists (p_env p), s; reflexivity|split; [reflexivity|split; [exact Q3|exists nodes; auto]]]].
  destruct Ip. constructor; cbn [set_mem p_env p_st p_user p_cons p_dec p_f p_eq p_ineq]; auto. exists nodes. auto.
Qed.

Lemma write_link sp (p p' : prog X_ops) y : pinv p -> plink sp p -> write_back p (map Fin y) = Ok p' -> plink (at_point sp y) p'.
Proof.
  intros Ip Lp H. destruct (write_ok sp p p' (map Fin y) Ip Lp H) as (Ly & Ip' & (e & s & ->) & He & Hn & nodes & D & ND & Hv).
  cbn [set_mem p_env p_st p_dec] in *. subst e. rewrite map_length in Ly.
  destruct Lp as (E & dv & L & T). destruct T as [T1 T2 T3 T4 T5 T6 T7].
  assert (T : tables sp p E) by (constructor; assumption).
  assert (D0 : Forall2 (decides (p_env p) (p_st p)) (p_dec p) nodes).
  { eapply JacProofs.Forall2_impl; [|exact D]. intros a b (u & U1 & U2 & U3). exists u. rewrite <- Hn. auto. }
  destruct (dec_nodes (S := Xn) sp p E dv nodes L T D0) as [En Hk].
  pose proof L as (HI & Ld & (NDv & Hd) & Le & Hs). cbn [se_exp se_n se_val] in *.
  exists E, dv. split; [|constructor; cbn [at_point set_se sp_se sp_cons sp_dec sp_goal sp_eqs sp_ineqs se_exp set_mem p_user p_cons p_dec p_f p_eq p_ineq]; assumption].
  cbn [set_mem p_env p_st at_point set_se sp_se se_exp se_n se_val].
  assert (Kc : forall m, is_kconst (st_nodes (p_st p)) m -> st_val s m = st_val (p_st p) m).
  { intros m Km. rewrite Hv. apply (puts_out (S := Xn)). intros I0. clear - D0 I0 Km. induction D0 as [|a b l l' (u & _ & _ & Kv) D IH]; [contradiction|].
    destruct I0 as [->|I0]; [exact (kvar_not_const _ _ Kv Km)|auto]. }
  split; [apply (jreach_inv _ (i_reach _ Ip'))|]. cbn [se_exp se_n se_val]. split; [exact Ld|]. split.
  - split; [exact NDv|]. intros k Hk'. destruct (Hd k Hk') as [K1 K2]. split; [rewrite Hn; exact K1|]. rewrite Hv, En. unfold point.
    apply (puts_place (S := Xn) (FS := faith_X)); auto. intros j Hj. apply Hd, Hj.
  - split; [exact Le|]. intros i v m x E1 E2 E3. eapply stands_same; [exact Hn|exact Kc|]. eapply Hs; eauto.
Qed.

Lemma f2_get_r {A B} (R : A -> B -> Prop) l l' i b : Forall2 R l l' -> nth_error l' i = Some b -> exists a, nth_error l i = Some a /\ R a b.
Proof. intros F. revert i. induction F as [|a b' l l' H F IH]; intros [|i] E; try discriminate; cbn in E; [injection E as <-; eexists; split; [reflexivity|exact H]|apply IH, E]. Qed.

(** Reading a variable back. *)
Lemma read_back sp (p p' : prog X_ops) x i j k : pinv p -> plink sp p -> write_back p x = Ok p' ->
  nth_error (se_exp (sp_se sp)) i = Some (XVar k) -> nth_error (sp_dec sp) j = Some k ->
  exists p2, prun [PH (S := X_ops) (HValue i)] p' = Ok (p2, [PVal (S := X_ops) (nth j x NaN)]).
Proof.
  intros Ip Lp H Hi Hj. destruct (write_ok sp p p' x Ip Lp H) as (Lx & Ip' & (e & s & ->) & He & Hn & nodes & D & ND & Hv).
  cbn [set_mem p_env p_st p_dec] in *. subst e.
  destruct Lp as (E & dv & L & T).
  assert (D0 : Forall2 (decides (p_env p) (p_st p)) (p_dec p) nodes).
  { eapply JacProofs.Forall2_impl; [|exact D]. intros a b (u & U1 & U2 & U3). exists u. rewrite <- Hn. auto. }
  destruct (dec_nodes (S := Xn) sp p E dv nodes L T D0) as [En Hk].
  destruct (f2_get_r _ _ _ _ _ (t_user _ _ _ T) Hi) as (slot & Eu & A).
  destruct (linked_get _ _ _ _ _ _ L A) as (v & m & Ev & Hh & Em & (_ & _ & Kx & _) & _). destruct (Kx k eq_refl) as [Hk' Em'].
  assert (Hh' : holds (p_env p) slot m) by (exists v; auto).
  destruct (jget_value_ok (S := Xn) slot m (p_env p, [], s) (i_reach _ Ip') Hh') as (q' & Hg & _ & Hm).
  unfold jget_value in Hg. cbn [jstep] in Hg. change (nbase Xn) with X_ops in Hg. unfold prun, pstep. cbn [hop_at]. unfold uslot. cbn [set_mem p_user p_env p_st]. rewrite Eu. cbn [obind].
  destruct (hstep (HValue slot) (p_env p) s) as [[[e' s'] out]| | |] eqn:Eh; cbn [obind] in Hg |- *; try discriminate.
  destruct out as [|w [|? ?]]; cbn [obind map] in Hg; try discriminate. injection Hg as Hw _. cbn [creates map app]. eexists. f_equal. f_equal. f_equal. f_equal.
  rewrite Hw. unfold qst. cbn [fst snd].
  assert (Km : is_kvar (st_nodes s) m).
  { rewrite Hn, Em'. pose proof L as (_ & _ & (_ & Hd) & _). apply Hd, Hk'. }
  pose proof Km as (nd & Nd & Kn). pose proof (jreach_inv _ (i_reach _ Ip')) as ((W & _) & _).
  assert (Hev : eval (st_nodes s) (st_val s) m = st_val s m).
  { symmetry. apply (Ev_eval (S := X_ops) (st_nodes s) (st_val s) m (st_val s m) W). destruct nd as [k0 t0]. cbn in Kn. subst k0. eapply Ev_var, Nd. }
  etransitivity; [exact Hev|]. rewrite Hv. subst m. apply (puts_in (S := Xn) nodes x (st_val (p_st p)) j); [exact ND| |refine (eq_trans Lx _); rewrite En, map_length; reflexivity].
  rewrite En, nth_error_map, Hj. reflexivity.
Qed.
