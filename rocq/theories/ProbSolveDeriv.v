(** Proofs for C80: the derivatives handed to the solvers are those of the user's functions. *)
From Coq Require Import ZArith Reals List Bool Arith Lia Lra.
From Coquelicot Require Import Coquelicot.
From Verif Require Import Base ExprModel GraphSpec GraphProofs ExprInv VarModel VarReach VarProofs JacModel JacProofs SymProofs JacReach JacHist JacSame ExprReal MathSpec MathProofs
  DiffSpec OpDeriv OpMath VarSpec Faith SmoothSpec SmoothGraph SmoothGrad SmoothTree SmoothOpen SmoothJac SmoothHess HistProofs SmoothUser
  NumModel UtilModel SolverModel NewtonModel SqpModel IpmModel ProblemModel ProblemSpec ProblemInv ProblemProofs ProblemProofs2 ProblemProofs3 ProblemProofs4
  ProbSolveModel ProbSolveInv ProbSolveEval ProbSolveSpec ProbSolveProofs LagrSpec ProbSolveMade.
Import ListNotations.
Local Open Scope nat_scope.

Lemma locally_all {A} (P : A -> R -> Prop) x l : List.Forall (fun a => locally x (P a)) l -> locally x (fun t => List.Forall (fun a => P a t) l).
Proof.
  induction 1 as [|a l H _ IH]; [apply filter_forall; constructor|]. eapply loc_mono; [|exact (filter_and (F := locally x) _ _ H IH)]. intros t [A1 A2]. constructor; assumption.
Qed.
Lemma goal_open sp k rho : goal_smooth sp rho -> locally (rho k) (fun t => goal_smooth sp (upd rho k t)).
Proof.
  unfold goal_smooth. destruct (sp_goal sp) as [[mx x]|]; [|intros _; apply filter_forall; intros; exact I]. intros (v & H). exact (XSm_locally rho k x v H).
Qed.
Lemma rel_open k rho r : rel_smooth rho r -> locally (rho k) (fun t => rel_smooth (upd rho k t) r).
Proof.
  intros [(a & A) (b & B)]. exact (filter_and (F := locally (rho k)) _ _ (XSm_locally rho k _ a A) (XSm_locally rho k _ b B)).
Qed.
Lemma all_open k rho l : all_smooth rho l -> locally (rho k) (fun t => all_smooth (upd rho k t) l).
Proof. intros H. apply (locally_all (fun r t => rel_smooth (upd rho k t) r)). eapply List.Forall_impl; [|exact H]. intros r. apply rel_open. Qed.

Lemma rexp_smooth rho r : rel_smooth rho r -> exists v, gap rho r v /\ XSm rho (rexp r) v.
Proof.
  intros [(a & A) (b & B)]. exists (match r_cmp r with CEq | CGt | CGe => a - b | CLt | CLe => b - a end)%R. split.
  - exists a, b. split; [apply XSm_XEv, A|]. split; [apply XSm_XEv, B|reflexivity].
  - unfold rexp. destruct (r_cmp r); cbn [flip]; (econstructor; [eassumption|eassumption|constructor|left; exact I|intros []]).
Qed.
Lemma smooth_defined rho r : rel_smooth rho r -> rel_defined rho r.
Proof. intros [(a & A) (b & B)]. split; (split; [eapply XSm_pow00; eauto|eexists; eapply XSm_XEv; eauto]). Qed.
Lemma all_smooth_defined rho l : all_smooth rho l -> all_defined rho l.
Proof. apply List.Forall_impl. intros r. apply smooth_defined. Qed.

Lemma dot_combo a : forall b k, dot_from k a b = (k + combo a b)%R.
Proof. induction a as [|x a IH]; intros [|y b] k; cbn; try lra. rewrite IH. lra. Qed.
Lemma combo_opp a : forall b, combo (map Ropp a) b = (- combo a b)%R.
Proof. induction a as [|x a IH]; intros [|y b]; cbn; try lra. rewrite IH. lra. Qed.

Lemma times_len a : forall b, length (times a b) = Nat.min (length a) (length b).
Proof. induction a as [|x a IH]; intros [|y b]; cbn; auto. Qed.

Section Deriv.
Context {S : nops} {FS : faith S} {FS2 : faith2 S}.
Notation J := (inj (K := S)).
Variables (kd : kind) (sp : spec) (p : prog S) (nodes : list nat) (t : setup) (q : jstate S).
Hypothesis Ip : pinv p.
Hypothesis Rd : ready kd p nodes t q.
Hypothesis Dec : Forall2 (decides (p_env p) (p_st p)) (p_dec p) nodes.
Variables (E : list uexp) (dv : list nat).
Hypothesis L : linked (mkSE E (se_n (sp_se sp)) (se_val (sp_se sp))) (p_env p) (p_st p) dv.
Hypothesis T : tables sp p E.
Let n := length (p_dec p).
Notation ns := (st_nodes (qst q)).
Definition nd_ (k : nat) : nat := nth k dv 0.
Definition D_ (k : nat) : Prop := In k (sp_dec sp).

Lemma dv_lt k : k < length dv -> nd_ k < length (st_nodes (p_st p)).
Proof. intros H. destruct L as (_ & _ & (_ & Hd) & _). destruct (Hd k H) as [(nd & En & _) _]. apply nth_error_Some. unfold nd_. congruence. Qed.
Lemma dv_var k : k < length dv -> is_kvar ns (nd_ k).
Proof.
  intros H. destruct L as (_ & _ & (_ & Hd) & _). destruct (Hd k H) as [(nd & En & Kn) _]. exists nd. split; [|exact Kn].
  pose proof (rd_later _ _ _ _ _ Rd) as La. apply later_parts in La as (_ & _ & G & _). eapply grows_nth; eauto.
Qed.
Lemma dv_val k : k < length dv -> st_val (qst q) (nd_ k) = J (se_val (sp_se sp) k).
Proof.
  intros H. destruct L as (_ & _ & (_ & Hd) & _). destruct (Hd k H) as [Kv V]. 
  pose proof (rd_later _ _ _ _ _ Rd) as La. apply later_parts in La as (_ & _ & _ & Lf & _). unfold nd_. rewrite Lf; [exact V|]. right. exact Kv.
Qed.
Lemma dec_lt k : D_ k -> k < length dv.
Proof. apply (proj2 (dec_nodes _ _ _ _ _ L T Dec)). Qed.
Lemma nodes_is : nodes = map nd_ (sp_dec sp).
Proof. apply (proj1 (dec_nodes _ _ _ _ _ L T Dec)). Qed.
Lemma dec_dv : length (sp_dec sp) = n.
Proof. unfold n. symmetry. exact (ProblemProofs.Forall2_length _ _ _ (t_dec _ _ _ T)). Qed.
Lemma nodes_nodup : NoDup nodes.
Proof. destruct (rd_yz _ _ _ _ _ Rd) as (ys & zs & _ & _ & ND & _). revert ND. clear. induction nodes as [|a l IH]; intros H; [constructor|]. inversion H; subst. constructor; [intros I0; apply H2, in_or_app; left; exact I0|auto]. Qed.
Lemma nodes_var m : In m nodes -> is_kvar ns m.
Proof.
  intros I0. pose proof (rd_x _ _ _ _ _ Rd) as F. clear - F I0. induction F as [|a b la lb (w & _ & _ & Kv) F IH]; [contradiction|]. destruct I0 as [<-|I0]; auto.
Qed.
Lemma wf_q : wf (qst q).
Proof. apply wf_of, (rd_reach _ _ _ _ _ Rd). Qed.

(** Leaf values that belong to the user's point [rho], with the multiplier nodes [ls] at [ms]. *)
Section Fits.
Variables (ls : list nat) (ms : list R).
Hypothesis Hls : forall m, In m ls -> length (st_nodes (p_st p)) <= m.
Definition fits (rho : nat -> R) (lv : nat -> S) : Prop :=
  agrees (qst q) lv /\ (forall k, k < length dv -> lv (nd_ k) = J (rho k)) /\ Forall2 (fun m mu => lv m = J mu) ls ms.

Lemma fits_upd k rho lv x : D_ k -> fits rho lv -> fits (upd rho k x) (upd lv (nd_ k) (J x)).
Proof.
  intros Hk (A & B & C). pose proof (dec_lt k Hk) as Lk. pose proof (dv_var k Lk) as Kv. split; [|split].
  - intros m Km. rewrite <- (A m Km). apply upd_ne. intros ->. exact (kvar_not_const _ _ Kv Km).
  - intros j Hj. destruct (Nat.eq_dec j k) as [->|Ne]; [rewrite !upd_eq; reflexivity|].
    rewrite (upd_ne rho) by exact Ne. rewrite upd_ne; [apply B, Hj|]. intros X. apply Ne. destruct L as (_ & _ & (ND & _) & _). eapply (proj1 (NoDup_nth dv 0)); eauto.
  - revert Hls. induction C as [|m mu l l' H C IH]; intros Hls; constructor; [|apply IH; intros; apply Hls; right; assumption]. rewrite upd_ne; [exact H|].
    pose proof (dv_lt k Lk). pose proof (Hls m (or_introl eq_refl)). lia.
Qed.
Lemma fits_at k rho lv : D_ k -> fits rho lv -> lv (nd_ k) = J (rho k).
Proof. intros Hk (_ & B & _). apply B, dec_lt, Hk. Qed.

Lemma user_GSm i x m rho lv v : at_ E i x -> holds (p_env p) i m -> fits rho lv -> XSm rho x v -> GSm ns lv m v.
Proof.
  intros Ha (w & Ew & En) (A & B & _) X. pose proof L as (_ & _ & _ & _ & Hs). destruct (Hs _ _ _ _ Ew En Ha) as (_ & _ & _ & Hg & _).
  pose proof (rd_later _ _ _ _ _ Rd) as La. eapply (later_GSm (p_env p, [], p_st p)); [exact La|]. apply (Hg lv rho); auto.
  exact (later_agrees (p_env p, [], p_st p) q lv La A).
Qed.

Lemma cost_comp m rho lv : holds (qenv q) (t_f t) m -> fits rho lv -> goal_smooth sp rho -> exists v, cost_is sp rho v /\ GSm ns lv m v.
Proof.
  intros Hm Hf Hg. pose proof (rd_f _ _ _ _ _ Rd) as F. pose proof (ProblemProofs3.t_f _ _ _ T) as Tf. unfold cost_is. unfold goal_smooth in Hg.
  destruct (p_f p) as [i|], (sp_goal sp) as [[mx x]|]; try contradiction.
  - destruct F as (m' & H1 & H2). rewrite (holds_fun _ _ _ _ Hm H2) in *. destruct Tf as [A _]. destruct Hg as (w & X). unfold goal_exp in A. cbn [fst snd] in A.
    exists (if mx then - w else w)%R. split; [split; [eapply XSm_pow00; eauto|exists w; split; [apply XSm_XEv, X|reflexivity]]|].
    destruct mx; eapply user_GSm; eauto. econstructor; [exact X|constructor|exact I|intros []].
  - rewrite f_ofZ in F. destruct (born_const _ _ _ F) as (m' & H1 & H2). rewrite (holds_fun _ _ _ _ Hm H1). exists 0%R. split; [reflexivity|]. apply H2, Hf.
Qed.

Lemma rels_comp b old new rs rho lv : Forall2 (fun i i' => exists m, holds (p_env p) i m /\ holds (qenv q) i' m) old new ->
  Forall2 (hid_rel (p_user p) E b) old rs -> fits rho lv -> all_smooth rho rs -> exists gs, Forall2 (gap rho) rs gs /\ Forall2 (valued_at q lv) new gs.
Proof.
  intros F. revert rs. induction F as [|i i' old new (m & H1 & H2) F IH]; intros rs Hr Hf Hs; inversion Hr as [|? r ? rs' [_ [A _]] Hr']; subst.
  - exists []. split; constructor.
  - inversion Hs as [|? ? S1 S2]; subst. destruct (IH rs' Hr' Hf S2) as (gs & G1 & G2). destruct (rexp_smooth rho r S1) as (v & G & X).
    exists (v :: gs). split; constructor; auto. exists m. split; [exact H2|]. eapply user_GSm; eauto.
Qed.

Lemma rel_comp b old new rs r i' m rho lv : Forall2 (fun i i' => exists m, holds (p_env p) i m /\ holds (qenv q) i' m) old new ->
  Forall2 (hid_rel (p_user p) E b) old rs -> forall k, nth_error new k = Some i' -> nth_error rs k = Some r -> holds (qenv q) i' m ->
  fits rho lv -> rel_smooth rho r -> exists v, gap_fn r rho v /\ GSm ns lv m v.
Proof.
  intros F. revert rs. induction F as [|i i1 old new (m0 & H1 & H2) F IH]; intros rs Hr k; destruct k as [|k]; cbn [nth_error]; try discriminate;
    inversion Hr as [|? r1 ? rs' [_ [A _]] Hr']; subst; cbn [nth_error]; intros E1 E2 Hm Hf S1.
  - injection E1 as ->. injection E2 as ->. rewrite (holds_fun _ _ _ _ Hm H2). destruct (rexp_smooth rho r S1) as (v & G & X). exists v. split; [exact G|]. eapply user_GSm; eauto.
  - eapply IH; eauto.
Qed.

(** First derivatives at a state that fits. *)
Lemma jac_core rows kk q' rho F r i m (Sm : (nat -> R) -> Prop) :
  made (JMake rows (t_x t)) kk q -> nth_error rows r = Some i -> holds (qenv q) i m ->
  (forall k rho, D_ k -> Sm rho -> locally (rho k) (fun x => Sm (upd rho k x))) ->
  (forall rho lv, fits rho lv -> Sm rho -> exists v, F rho v /\ GSm ns lv m v) ->
  jreach q' -> qobjs q' = qobjs q -> st_nodes (qst q') = ns -> fits rho (st_val (qst q')) -> Sm rho ->
  exists mat, jget_mat kk q' = Ok mat /\
  forall j k, nth_error (sp_dec sp) j = Some k -> exists d, entry mat r j = J d /\ pd k F rho d.
Proof.
  intros Md Hr Hm Op Co R' O N Hf Hs. destruct (made_jac _ _ _ _ Md) as (j0 & Ek & Rows & Wrt). rewrite <- O in Ek.
  rewrite (mat_of _ _ _ _ R' Ek). eexists. split; [reflexivity|]. intros j k Hj.
  destruct (object_of _ _ _ _ R' Ek) as (W & C & Jo & Kw).
  assert (Wn : j_wrt j0 = nodes).
  { pose proof (rd_x _ _ _ _ _ Rd) as Rx. clear - Wrt Rx. revert Rx. generalize nodes. induction Wrt as [|a b x l Ha W IH]; intros l0 Rx; inversion Rx as [|? c ? l1 Hc Rx']; subst; [reflexivity|].
    f_equal; [|apply IH, Rx']. eapply holds_fun; eapply decides_holds; eauto. }
  assert (Hw : nth_error (j_wrt j0) j = Some (nd_ k)) by (rewrite Wn, nodes_is; apply map_nth_error, Hj).
  assert (Dk : D_ k) by (eapply nth_error_In; eauto).
  destruct (Co _ _ Hf Hs) as (v & _ & Gv). rewrite <- N in Gv.
  assert (NDw : NoDup (j_wrt j0)) by (rewrite Wn; apply nodes_nodup).
  destruct (entry_derive (qst q') j0 r j (nd_ k) m v W C Jo NDw Kw Hw (rho k) (Rows _ _ _ Hr Hm) Gv (fits_at k rho _ Dk Hf)) as (d & Ed & Dd).
  exists d. split; [exact Ed|]. rewrite N in Dd.
  apply (pd_path ns fits nd_ D_ F m Sm wf_q fits_upd Op Co k rho (st_val (qst q')) d Dk Hf Hs Dd).
Qed.

(** Second derivatives. *)
Lemma hess_core f kk q' rho F m (Sm : (nat -> R) -> Prop) :
  made (JHess f (t_x t) true) kk q -> holds (qenv q) f m ->
  (forall k rho, D_ k -> Sm rho -> locally (rho k) (fun x => Sm (upd rho k x))) ->
  (forall rho lv, fits rho lv -> Sm rho -> exists v, F rho v /\ GSm ns lv m v) ->
  jreach q' -> qobjs q' = qobjs q -> st_nodes (qst q') = ns -> fits rho (st_val (qst q')) -> Sm rho ->
  exists mat, jget_mat kk q' = Ok mat /\
  forall i j a b, nth_error (sp_dec sp) i = Some a -> nth_error (sp_dec sp) j = Some b ->
    (j <= i -> exists d, entry mat i j = J d /\ pd b (pd a F) rho d) /\ (i < j -> entry mat i j = J 0).
Proof.
  intros Md Hm Op Co R' O N Hf Hs.
  assert (Hx : Forall2 (holds (qenv q)) (t_x t) nodes).
  { eapply JacProofs.Forall2_impl; [|exact (rd_x _ _ _ _ _ Rd)]. intros ? ?. apply decides_holds. }
  destruct (made_hess _ _ _ _ _ nodes Md Hx nodes_nodup) as (j0 & m' & Ek & Hm' & Wn & Lv & Rows & Hlt). rewrite (holds_fun _ _ _ _ Hm Hm') in *. clear Hm. rename m' into m0.
  rewrite <- O in Ek. rewrite (mat_of _ _ _ _ R' Ek). eexists. split; [reflexivity|]. intros i j a b Hi Hj.
  destruct (object_of _ _ _ _ R' Ek) as (W & C & Jo & Kw). split; intros Hij; rewrite lower_entry.
  2:{ rewrite (proj2 (Nat.leb_gt j i)) by exact Hij. apply f_ofZ. }
  rewrite (proj2 (Nat.leb_le j i)) by exact Hij.
  assert (Hwi : nth_error (j_wrt j0) i = Some (nd_ a)) by (rewrite Wn, nodes_is; apply map_nth_error, Hi).
  assert (Hwj : nth_error (j_wrt j0) j = Some (nd_ b)) by (rewrite Wn, nodes_is; apply map_nth_error, Hj).
  assert (Da : D_ a) by (eapply nth_error_In; eauto). assert (Db : D_ b) by (eapply nth_error_In; eauto).
  destruct (nth_error (j_vars j0) i) as [pi|] eqn:Hp.
  2:{ apply nth_error_None in Hp. assert (i < length (j_wrt j0)) by (apply nth_error_Some; congruence). rewrite Wn in H. lia. }
  destruct (Co _ _ Hf Hs) as (v & _ & Gv). rewrite <- N in Gv.
  assert (Row : hess_row (qst q') m0 (nd_ a) pi).
  { apply (hess_row_grows (qst q)); [apply wf_q|exact W| |exact Hlt| |eapply Rows; eauto].
    - exists []. rewrite app_nil_r. exact N.
    - intros c Hc. apply (proj1 Hf c Hc). }
  assert (NDw : NoDup (j_wrt j0)) by (rewrite Wn; apply nodes_nodup).
  destruct (hess_entry (qst q') j0 i j (nd_ a) (nd_ b) pi m0 v (rho b) W C Jo NDw Kw Hp Hwi Hwj Row Gv (fits_at b rho _ Db Hf) (ex_intro _ (rho a) (fits_at a rho _ Da Hf))) as (h & d & Ed & Dh & Lh).
  exists d. split; [exact Ed|]. rewrite N in Lh.
    apply (pd_path2 ns fits nd_ D_ F m0 Sm wf_q fits_upd fits_at Op Co b a rho (st_val (qst q')) h d Db Da Hf Hs Dh Lh).
Qed.
End Fits.

(** The state the callbacks of x evaluate in. *)
Lemma fits_x (y : list R) : length y = n -> exists q', at_x t q (map J y) = Ok q' /\ jreach q' /\ qobjs q' = qobjs q /\ st_nodes (qst q') = ns /\
  fits [] [] (point sp y) (st_val (qst q')).
Proof.
  intros Ly. destruct (at_x_ok kd p nodes t q Rd Dec (map J y)) as (q' & A & M & R'); [rewrite map_length; exact Ly|].
  pose proof M as (_ & _ & O & N & V). exists q'. split; [exact A|]. split; [exact R'|]. split; [exact O|]. split; [exact N|]. split; [|split; [|constructor]].
  - intros m Km. rewrite V. apply puts_out. intros I0. exact (kvar_not_const _ _ (nodes_var m I0) Km).
  - intros k Hk. rewrite V, nodes_is. unfold nd_. apply puts_place; auto; [apply L| |].
    + intros j Hj. apply dec_lt, Hj.
    + intros j Hj. apply dv_val, Hj.
Qed.

Lemma F2_app {A B} (P : A -> B -> Prop) l1 l2 m1 m2 : Forall2 P l1 m1 -> Forall2 P l2 m2 -> Forall2 P (l1 ++ l2) (m1 ++ m2).
Proof. induction 1; cbn; auto. Qed.

Lemma puts_F2 l : forall (v : list R) lv, NoDup l -> length v = length l -> Forall2 (fun m mu => puts lv l (map J v) m = J mu) l v.
Proof.
  induction l as [|m l IH]; intros [|x v] lv ND Lv; try discriminate; constructor; inversion ND as [|? ? N1 N2]; subst; cbn [puts map].
  - rewrite puts_out by exact N1. rewrite Nat.eqb_refl. reflexivity.
  - apply IH; [exact N2|]. cbn in Lv. lia.
Qed.

Lemma vmap2_mul (a b : list R) : vmap2 (s_mul S) (map J a) (map J b) = map J (times a b).
Proof.
  unfold vmap2. revert b. induction a as [|x a IH]; intros [|y b]; cbn; auto. f_equal; [apply K_mul|apply IH].
Qed.

Lemma fits_xyz sc (se si y mu nu : list R) : length y = n -> sc_e sc = map J se -> sc_i sc = map J si -> length se = length (p_eq p) -> length si = length (p_ineq p) ->
  length mu = length (p_eq p) -> length nu = length (p_ineq p) ->
  exists ys zs q', Forall2 (decides (qenv q) (qst q)) (t_y t) ys /\ Forall2 (decides (qenv q) (qst q)) (t_z t) zs /\
    (forall m, In m (ys ++ zs) -> length (st_nodes (p_st p)) <= m) /\ length ys = length mu /\ length zs = length nu /\
    at_xyz t q sc (map J y) (map J mu) (map J nu) = Ok q' /\ jreach q' /\ qobjs q' = qobjs q /\ st_nodes (qst q') = ns /\
    fits (ys ++ zs) (times se mu ++ times si nu) (point sp y) (st_val (qst q')).
Proof.
  intros Ly Es Ei Le Li Lm Ln. destruct (rd_yz _ _ _ _ _ Rd) as (ys & zs & Hy & Hz & ND & Lys & Lzs & Hl).
  destruct (at_x_ok kd p nodes t q Rd Dec (map J y)) as (q1 & A & M & R1); [rewrite map_length; exact Ly|].
  pose proof M as (_ & E1 & O & N & V).
  set (m1 := times se mu). set (m2 := times si nu).
  assert (L1 : length m1 = length ys) by (unfold m1; rewrite times_len; lia).
  assert (L2 : length m2 = length zs) by (unfold m2; rewrite times_len; lia).
  destruct (jsets_ok (t_y t) ys (map J m1) q1 R1) as (q2 & A2 & M2).
  { rewrite E1. eapply JacProofs.Forall2_impl; [|exact Hy]. intros a b (u & U1 & U2 & U3). exists u. rewrite N. auto. }
  { rewrite map_length, L1. symmetry. exact (f2len _ _ _ Hy). }
  pose proof (moved_reach _ _ _ _ R1 M2) as R2. pose proof M2 as (_ & E2 & O2 & N2 & V2).
  destruct (jsets_ok (t_z t) zs (map J m2) q2 R2) as (q3 & A3 & M3).
  { rewrite E2, E1. eapply JacProofs.Forall2_impl; [|exact Hz]. intros a b (u & U1 & U2 & U3). exists u. rewrite N2, N. auto. }
  { rewrite map_length, L2. symmetry. exact (f2len _ _ _ Hz). }
  pose proof (moved_reach _ _ _ _ R2 M3) as R3. pose proof M3 as (_ & E3 & O3 & N3 & V3).
  exists ys, zs, q3. split; [exact Hy|]. split; [exact Hz|]. split; [exact Hl|]. split; [congruence|]. split; [congruence|]. split.
  { unfold at_xyz. rewrite A. cbn [obind]. rewrite Es, Ei, !vmap2_mul. fold m1 m2. rewrite A2. cbn [obind]. exact A3. }
  split; [exact R3|]. split; [congruence|]. split; [congruence|].
  assert (KV : forall m, In m (ys ++ zs) -> is_kvar ns m).
  { intros m I0. apply in_app_or in I0 as [I0|I0]; [clear - Hy I0; rename Hy into F|clear - Hz I0; rename Hz into F];
      (induction F as [|a b la lb (w & _ & _ & Kv) F IH]; [contradiction|]; destruct I0 as [<-|I0]; auto). }
  assert (NDy : NoDup (ys ++ zs)) by (revert ND; clear; induction nodes as [|a l IH]; intros H; [exact H|]; inversion H; auto).
  assert (NDs : NoDup ys /\ NoDup zs /\ forall m, In m ys -> ~ In m zs).
  { clear - NDy. induction ys as [|a l IH]; cbn in *; [split; [constructor|]; split; [exact NDy|intros m []]|]. inversion NDy as [|? ? N1 N2]; subst. destruct (IH N2) as (B1 & B2 & B3).
    split; [constructor; [intros I0; apply N1, in_or_app; left; exact I0|exact B1]|]. split; [exact B2|]. intros m [<-|I0]; [intros I1; apply N1, in_or_app; right; exact I1|apply B3, I0]. }
  destruct NDs as (ND1 & ND2 & Dis).
  assert (Out : forall m, ~ In m (ys ++ zs) -> st_val (qst q3) m = puts (st_val (qst q)) nodes (map J y) m).
  { intros m Hm. rewrite V3, puts_out by (intros I0; apply Hm, in_or_app; right; exact I0). rewrite V2, puts_out by (intros I0; apply Hm, in_or_app; left; exact I0). apply V. }
  split; [|split].
  - intros m Km. rewrite Out by (intros I0; exact (kvar_not_const _ _ (KV m I0) Km)). apply puts_out. intros I0. exact (kvar_not_const _ _ (nodes_var m I0) Km).
  - intros k Hk. rewrite Out by (intros I0; apply Hl in I0; pose proof (dv_lt k Hk); lia).
    rewrite nodes_is. unfold nd_. apply puts_place; auto; [apply L| |].
    + intros j Hj. apply dec_lt, Hj.
    + intros j Hj. apply dv_val, Hj.
  - apply F2_app.
    + pose proof (puts_F2 ys m1 (st_val (qst q1)) ND1 L1) as P1.
      assert (forall a b, In a ys -> puts (st_val (qst q1)) ys (map J m1) a = J b -> st_val (qst q3) a = J b).
      { intros a b Ia H. rewrite V3, puts_out by (apply Dis, Ia). rewrite V2. exact H. }
      clear - P1 H. revert P1 H. generalize (puts (st_val (qst q1)) ys (map J m1)). intros g P1. induction P1; intros H'; constructor; [apply H'; [left; reflexivity|assumption]|apply IHP1; intros; apply H'; [right; assumption|assumption]].
    + pose proof (puts_F2 zs m2 (st_val (qst q2)) ND2 L2) as P1. eapply JacProofs.Forall2_impl; [|exact P1]. intros a b H. rewrite V3. exact H.
Qed.


Lemma nth_seq {A} (f : nat -> A) m j d : j < m -> nth j (map f (seq 0 m)) d = f j.
Proof. intros H. rewrite (nth_indep _ d (f 0)) by (rewrite map_length, seq_length; exact H). rewrite map_nth, seq_nth by exact H. reflexivity. Qed.
Lemma nth_dense r c (f : nat -> nat -> S) i j d : i < r -> j < c -> nth j (nth i (dense r c f) []) d = f i j.
Proof. intros Hi Hj. unfold dense. rewrite (nth_seq (fun i => map (f i) (seq 0 c))) by exact Hi. apply nth_seq, Hj. Qed.
Lemma dec_pos j k : nth_error (sp_dec sp) j = Some k -> j < n.
Proof. intros H. rewrite <- dec_dv. apply nth_error_Some. congruence. Qed.
Lemma t_f_holds : exists m, holds (qenv q) (t_f t) m.
Proof. destruct (slot_at q (t_f t) (rd_reach _ _ _ _ _ Rd) (rd_fin _ _ _ _ _ Rd)) as (v & m & _ & _ & H & _). eauto. Qed.

(** Gradient. *)
Lemma user_g sc sf (y : list R) d0 : sc_f sc = J sf -> length y = n -> goal_smooth sp (point sp y) ->
  forall j k, nth_error (sp_dec sp) j = Some k -> exists d, nth j (cb_g n t q sc (map J y)) d0 = J (sf * d)%R /\ pd k (cost_is sp) (point sp y) d.
Proof.
  intros Es Ly Hg j k Hj. destruct (fits_x y Ly) as (q' & A & R' & O & N & Hf). destruct t_f_holds as (m & Hm).
  destruct (jac_core [] [] (fun m (H : In m []) => match H with end) [t_f t] (t_g t) q' (point sp y) (cost_is sp) 0 (t_f t) m (goal_smooth sp)) as (mat & Em & Hd); auto.
  - apply (rd_g _ _ _ _ _ Rd).
  - intros. apply goal_open. assumption.
  - intros rho lv. apply (cost_comp [] []), Hm.
  - destruct (Hd j k Hj) as (d & Ed & Pd). exists d. split; [|exact Pd]. unfold cb_g. rewrite A. cbn [obind]. rewrite Em. cbn [obind total].
    rewrite nth_seq by (eapply dec_pos; eauto). rewrite Es. apply scaled_fin, Ed.
Qed.

(** Jacobians. *)
Lemma user_A b old new rs kk sc (ss : list R) (y : list R) d0 : made (JMake new (t_x t)) kk q ->
  Forall2 (fun i i' => exists m, holds (p_env p) i m /\ holds (qenv q) i' m) old new -> Forall2 (hid_rel (p_user p) E b) old rs ->
  sc = map J ss -> length ss = length new -> length y = n -> all_smooth (point sp y) rs ->
  forall i r j k, nth_error rs i = Some r -> nth_error (sp_dec sp) j = Some k ->
    exists d, nth j (nth i (cb_A n t q kk (length new) sc (map J y)) []) d0 = J (nth i ss 0 * d)%R /\ pd k (gap_fn r) (point sp y) d.
Proof.
  intros Md F Hr Es Ls Ly Hs i r j k Hi Hj. destruct (fits_x y Ly) as (q' & A & R' & O & N & Hf).
  assert (Hlt : i < length new).
  { rewrite <- (f2len _ _ _ F), (f2len _ _ _ Hr). apply nth_error_Some. congruence. }
  destruct (nth_error new i) as [i'|] eqn:Hn; [|apply nth_error_None in Hn; lia].
  assert (Hm : exists m, holds (qenv q) i' m).
  { clear - F Hn. revert i Hn. induction F as [|a b old new (m & _ & H) F IH]; intros [|i] Hn; try discriminate; [injection Hn as <-; eauto|eapply IH; exact Hn]. }
  destruct Hm as (m & Hm).
  destruct (jac_core [] [] (fun m (H : In m []) => match H with end) new kk q' (point sp y) (gap_fn r) i i' m (fun rho => rel_smooth rho r)) as (mat & Em & Hd); auto.
  - intros. apply rel_open. assumption.
  - intros rho lv. eapply (rel_comp [] []); eauto.
  - apply nth_error_In in Hi. rewrite List.Forall_forall in Hs || unfold all_smooth in Hs; rewrite List.Forall_forall in Hs. apply Hs, Hi.
  - destruct (Hd j k Hj) as (d & Ed & Pd). exists d. split; [|exact Pd]. unfold cb_A. rewrite A. cbn [obind]. rewrite Em. cbn [obind total].
    rewrite nth_dense; [|exact Hlt|eapply dec_pos; eauto]. rewrite Es. rewrite (nth_indep _ _ (J 0)) by (rewrite map_length; lia). rewrite map_nth. apply scaled_fin, Ed.
Qed.

(** Hessian of the cost (Newton). *)
Lemma user_Hn sc sf (y : list R) d0 : sc_f sc = J sf -> length y = n -> goal_smooth sp (point sp y) ->
  forall i j a b, nth_error (sp_dec sp) i = Some a -> nth_error (sp_dec sp) j = Some b ->
    (j <= i -> exists d, nth j (nth i (cb_H_newton n t q sc (map J y)) []) d0 = J (sf * d)%R /\ pd b (pd a (cost_is sp)) (point sp y) d) /\
    (i < j -> nth j (nth i (cb_H_newton n t q sc (map J y)) []) d0 = J 0).
Proof.
  intros Es Ly Hg i j a b Hi Hj. destruct (fits_x y Ly) as (q' & A & R' & O & N & Hf). destruct t_f_holds as (m & Hm).
  destruct (hess_core [] [] (fun m (H : In m []) => match H with end) (t_f t) (t_Hf t) q' (point sp y) (cost_is sp) m (goal_smooth sp)) as (mat & Em & Hd); auto.
  - apply (rd_Hf _ _ _ _ _ Rd).
  - intros. apply goal_open. assumption.
  - intros rho lv. apply (cost_comp [] []), Hm.
  - unfold cb_H_newton. rewrite A. cbn [obind]. rewrite Em. cbn [obind total]. rewrite nth_dense; [|eapply dec_pos; eauto|eapply dec_pos; eauto]. rewrite Es.
    destruct (Hd i j a b Hi Hj) as [Lo Up]. split; intros Hij.
    + destruct (Lo Hij) as (d & Ed & Pd). exists d. split; [apply scaled_fin, Ed|exact Pd].
    + rewrite (scaled_fin _ _ _ _ _ (Up Hij)). f_equal. ring.
Qed.

(** Hessian of the Lagrangian. *)
Definition con_smooth (rho : nat -> R) : Prop := all_smooth rho (sp_eqs sp) /\ all_smooth rho (sp_ineqs sp).
Lemma con_open k rho : con_smooth rho -> locally (rho k) (fun x => con_smooth (upd rho k x)).
Proof. intros [A B]. exact (filter_and (F := locally (rho k)) _ _ (all_open k rho _ A) (all_open k rho _ B)). Qed.

Lemma leaf_valued lv l ls ms : Forall2 (decides (qenv q) (qst q)) l ls -> Forall2 (fun m mu => lv m = J mu) ls ms -> Forall2 (valued_at q lv) l ms.
Proof.
  intros F. revert ms. induction F as [|i m l ls (v & E1 & E2 & nd & En & Kn) F IH]; intros ms G; inversion G as [|? mu ? ms' H G']; subst; constructor; [|apply IH, G'].
  exists m. split; [exists v; auto|]. eapply GS_leaf; eauto.
Qed.

Lemma F2_split {A B} (P : A -> B -> Prop) a b a' b' : length a = length a' -> Forall2 P (a ++ b) (a' ++ b') -> Forall2 P a a' /\ Forall2 P b b'.
Proof.
  revert a'. induction a as [|x a IH]; intros [|x' a'] Hl H; try discriminate; cbn in *; [split; [constructor|exact H]|].
  inversion H; subst. destruct (IH a') as [A1 A2]; [lia|assumption|]. split; [constructor; assumption|exact A2].
Qed.

Lemma con_comp Le Lg ny ys zs mu nu m rho lv : (kd = KSqp -> sp_ineqs sp = []) -> kd <> KNewton ->
  Forall2 (decides (qenv q) (qst q)) (t_y t) ys -> Forall2 (decides (qenv q) (qst q)) (t_z t) zs -> length ys = length mu -> length zs = length nu ->
  negs q (t_y t) ny -> product q ny (t_ce t) Le -> (kd = KSqp -> Lg = Le) -> (kd = KIpm -> exists Li, product q (t_z t) (t_ci t) Li /\ born (HBin BSub Le Li) Lg q) ->
  holds (qenv q) Lg m -> fits (ys ++ zs) (mu ++ nu) rho lv -> con_smooth rho -> exists v, constr_part sp mu nu rho v /\ GSm ns lv m v.
Proof.
  intros Hsq Hkd Hy Hz Ly Lz Hn Hp Hs Hi Hm Hf [Se Si]. pose proof Hf as (A & _ & Hl). destruct (F2_split _ _ _ _ _ Ly Hl) as [Fy Fz].
  pose proof (leaf_valued lv _ _ _ Hy Fy) as Vy. pose proof (leaf_valued lv _ _ _ Hz Fz) as Vz.
  destruct (rels_comp _ _ _ _ _ _ rho lv (rd_ce _ _ _ _ _ Rd) (t_eqs _ _ _ T) Hf Se) as (ge & Ge & Vge).
  destruct (rels_comp _ _ _ _ _ _ rho lv (rd_ci _ _ _ _ _ Rd) (t_ineqs _ _ _ T) Hf Si) as (gi & Gi & Vgi).
  pose proof (negs_smooth q lv _ _ _ A Hn Vy) as Vn. pose proof (product_smooth q lv _ _ _ _ _ A Hp Vn Vge) as (me & Hme & Gme).
  rewrite dot_combo, combo_opp in Gme.
  exists (- combo mu ge - combo nu gi)%R. split; [exists ge, gi; auto|].
  destruct kd; [congruence| |].
  - rewrite (Hs eq_refl) in Hm. rewrite (holds_fun _ _ _ _ Hm Hme). rewrite (Hsq eq_refl) in Gi. inversion Gi; subst.
    replace (- combo mu ge - combo nu [])%R with (0 + - combo mu ge)%R; [exact Gme|]. destruct nu; cbn; lra.
  - destruct (Hi eq_refl) as (Li & Hpi & Hb). pose proof (product_smooth q lv _ _ _ _ _ A Hpi Vz Vgi) as (mi & Hmi & Gmi). rewrite dot_combo in Gmi.
    destruct (born_bin _ _ _ _ _ _ _ Hb Hme Hmi) as (r & Hr & Gr). rewrite (holds_fun _ _ _ _ Hm Hr).
    replace (- combo mu ge - combo nu gi)%R with (bin_value (S := R_ops) BSub (0 + - combo mu ge)%R (0 + combo nu gi)%R) by (cbn; lra).
    apply Gr; auto. apply (good_arith BSub). exact I.
Qed.

Lemma user_H sc sf (se si y mu nu : list R) d0 : (kd = KSqp -> sp_ineqs sp = []) -> kd <> KNewton ->
  sc_f sc = J sf -> sc_e sc = map J se -> sc_i sc = map J si -> length se = length (p_eq p) -> length si = length (p_ineq p) ->
  length mu = length (p_eq p) -> length nu = length (p_ineq p) -> length y = n -> goal_smooth sp (point sp y) -> con_smooth (point sp y) ->
  forall i j a b, nth_error (sp_dec sp) i = Some a -> nth_error (sp_dec sp) j = Some b ->
    (j <= i -> exists d, nth j (nth i (cb_H n t q sc (map J y) (map J mu) (map J nu)) []) d0 = J d /\
       pd b (pd a (lagrangian sp sf (times se mu) (times si nu))) (point sp y) d) /\
    (i < j -> nth j (nth i (cb_H n t q sc (map J y) (map J mu) (map J nu)) []) d0 = J 0) /\
    (j <= i -> exists d, nth j (nth i (cb_Hc n t q sc (map J y) (map J mu) (map J nu)) []) d0 = J d /\
       pd b (pd a (constr_part sp (times se mu) (times si nu))) (point sp y) d) /\
    (i < j -> nth j (nth i (cb_Hc n t q sc (map J y) (map J mu) (map J nu)) []) d0 = J 0).
Proof.
  intros Hsq Hkd Ef Es Ei Le Li Lm Ln Ly Hg Hc i j a b Hi Hj.
  destruct (fits_xyz sc se si y mu nu Ly Es Ei Le Li Lm Ln) as (ys & zs & q' & Hy & Hz & Hl & Ly' & Lz' & A & R' & O & N & Hf).
  assert (L1 : length ys = length (times se mu)) by (rewrite times_len; lia).
  assert (L2 : length zs = length (times si nu)) by (rewrite times_len; lia).
  destruct t_f_holds as (m & Hm). destruct (rd_Hc _ _ _ _ _ Rd Hkd) as (ny & Le' & Lg & Hn & Hp & Hs & Hip & Md).
  destruct (hess_core _ (times se mu ++ times si nu) Hl (t_f t) (t_Hf t) q' (point sp y) (cost_is sp) m (goal_smooth sp)) as (ma & Ema & Hda); auto.
  { apply (rd_Hf _ _ _ _ _ Rd). } { intros. apply goal_open. assumption. } { intros rho lv. apply cost_comp, Hm. }
  assert (Hh : exists m', holds (qenv q) Lg m').
  { assert (Hx : Forall2 (holds (qenv q)) (t_x t) nodes).
    { eapply JacProofs.Forall2_impl; [|exact (rd_x _ _ _ _ _ Rd)]. intros ? ?. apply decides_holds. }
    destruct (made_hess _ _ _ _ _ nodes Md Hx nodes_nodup) as (j0 & m' & _ & Hm' & _). eauto. }
  destruct Hh as (m' & Hm').
  destruct (hess_core _ (times se mu ++ times si nu) Hl Lg (t_Hc t) q' (point sp y) (constr_part sp (times se mu) (times si nu)) m' con_smooth) as (mb & Emb & Hdb); auto.
  { intros. apply con_open. assumption. } { intros rho lv. eapply con_comp; eauto. }
  destruct (Hda i j a b Hi Hj) as [Loa Upa]. destruct (Hdb i j a b Hi Hj) as [Lob Upb].
  assert (EH : nth j (nth i (cb_H n t q sc (map J y) (map J mu) (map J nu)) []) d0 =
    if stored ma i j || stored mb i j then s_add S (scaled (J sf) ma i j) (entry mb i j) else s_ofZ S 0).
  { unfold cb_H. rewrite A. cbn [obind]. rewrite Ema. cbn [obind]. rewrite Emb. cbn [obind total]. rewrite nth_dense; [|eapply dec_pos; eauto|eapply dec_pos; eauto]. rewrite Ef. reflexivity. }
  assert (EHc : nth j (nth i (cb_Hc n t q sc (map J y) (map J mu) (map J nu)) []) d0 = entry mb i j).
  { unfold cb_Hc. rewrite A. cbn [obind]. rewrite Emb. cbn [obind total]. rewrite nth_dense; [|eapply dec_pos; eauto|eapply dec_pos; eauto]. reflexivity. }
  rewrite EH, EHc. repeat split; intros Hij.
  - destruct (Loa Hij) as (da & Eda & Pda), (Lob Hij) as (db & Edb & Pdb). exists (sf * da + db)%R. split; [apply sum_fin; assumption|].
    exact (pd2_lin b a sf _ _ _ _ _ Pda Pdb).
  - rewrite (sum_fin sf _ _ _ _ _ _ (Upa Hij) (Upb Hij)). f_equal. ring.
  - destruct (Lob Hij) as (db & Edb & Pdb). exists db. auto.
  - apply Upb, Hij.
Qed.

End Deriv.
