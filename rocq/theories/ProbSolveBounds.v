(** Proofs for C83: what bound detection reads of the user's linear inequalities. *)
From Coq Require Import ZArith Reals List Bool Arith Lia Lra.
From Coquelicot Require Import Coquelicot.
From Verif Require Import Base ExprModel GraphSpec GraphProofs VarModel VarReach VarProofs ExprReal ExprXR MathSpec MathProofs VarSpec Faith FaithX HistProofs
  JacModel JacProofs JacReach JacHist JacSame NumModel UtilModel UtilSpec ScaleProofs LinR KktModel KktSpec KktProofs BoundsModel BoundsSpec BoundsProofs ExitModel SolverModel
  XArith FinEval ProblemModel ProblemSpec ProblemInv ProblemProofs ProblemProofs2 ProblemProofs3 ProblemProofs4 ProbSolveModel ProbSolveInv ProbSolveEval ProbSolveSpec ProbSolveProofs ProbSolvePrep
  ProbSolveHist ProbSolveEnd ProbSolveLived ProbSolveFinal ProbSolveFacts DiffSpec SmoothSpec SmoothGraph SmoothUser LagrSpec ProbSolveMade ProbSolveDeriv ProbSolveDims ProbSolveKkt ExprInv LinearX.
Import ListNotations.
Local Open Scope nat_scope.
Notation lupd := BoundsModel.upd.

Lemma place_ext ks : forall x rho rho', (forall k, rho k = rho' k) -> forall k, place rho ks x k = place rho' ks x k.
Proof.
  induction ks as [|k0 ks IH]; intros [|v x] rho rho' H k; try apply H. cbn [place]. apply IH. intros j. unfold ExprModel.upd. destruct (Nat.eqb j k0); auto.
Qed.
Lemma place_lupd ks : forall rho j k t, NoDup ks -> nth_error ks j = Some k -> forall i, place rho ks (lupd (map rho ks) j t) i = ExprModel.upd rho k t i.
Proof.
  induction ks as [|k0 ks IH]; intros rho [|j] k t ND E i; try discriminate; inversion ND as [|? ? N1 N2]; subst; cbn [map lupd place nth_error] in *.
  - injection E as ->. replace (map rho ks) with (map (ExprModel.upd rho k t) ks); [apply place_same|]. apply map_ext_in. intros a Ha. unfold ExprModel.upd.
    destruct (Nat.eqb_spec a k); [subst; contradiction|reflexivity].
  - rewrite (place_ext ks _ _ rho); [apply IH; assumption|]. intros a. unfold ExprModel.upd. destruct (Nat.eqb_spec a k0); subst; reflexivity.
Qed.
Lemma map_lupd {A B} (f : A -> B) l : forall j v, map f (lupd l j v) = lupd (map f l) j (f v).
Proof. induction l as [|a l IH]; intros [|j] v; cbn; try reflexivity. rewrite IH. reflexivity. Qed.
Lemma nth_lupd (l : list R) : forall j v i, j < length l -> nth i (lupd l j v) 0%R = if Nat.eqb i j then v else nth i l 0%R.
Proof.
  induction l as [|a l IH]; intros [|j] v [|i] H; cbn in *; try lia; try reflexivity. apply IH. lia.
Qed.
Lemma lin_upd nodes c b (x : list R) j t : length x = length nodes -> j < length nodes ->
  lin nodes c b (lupd x j t) = (lin nodes c b x + c j * (t - nth j x 0))%R.
Proof.
  intros Lx Hj. unfold lin.
  rewrite (sumn_ext _ (fun i => c i * nth i (lupd x j t) 0)%R (fun i => c i * nth i x 0 + (if Nat.eqb i j then 1 else 0) * (c j * (t - nth j x 0)))%R).
  - rewrite sumn_plus. pose proof (lin_unit nodes) as U. unfold lin in U.
    rewrite (sumn_ext _ (fun i => (if Nat.eqb i j then 1 else 0) * (c j * (t - nth j x 0)))%R (fun i => (c j * (t - nth j x 0)) * (if Nat.eqb i j then 1 else 0))%R) by (intros; ring).
    rewrite sumn_scal. specialize (U j (repeat 1%R (length nodes)) Hj). rewrite Rplus_0_r in U.
    rewrite (sumn_ext _ (fun i => if Nat.eqb i j then 1 else 0)%R (fun i => (if Nat.eqb i j then 1 else 0) * nth i (repeat 1 (length nodes)) 0)%R).
    + rewrite U. rewrite nth_repeat_lt by exact Hj. ring.
    + intros i Hi. rewrite nth_repeat_lt by exact Hi. ring.
  - intros i Hi. rewrite nth_lupd by lia. destruct (Nat.eqb_spec i j); [subst; ring|ring].
Qed.

Lemma stored_row_eq (m : list (@triplet X_ops)) i n : stored_row m i n = flat_map (fun c => if stored (S := Xn) m i c then [(c, entry (S := X_ops) m i c)] else []) (seq 0 n).
Proof. reflexivity. Qed.
Lemma stored_row_in (m : list (@triplet X_ops)) i n c v : In (c, v) (stored_row m i n) <-> c < n /\ stored (S := Xn) m i c = true /\ v = entry (S := X_ops) m i c.
Proof.
  rewrite stored_row_eq, in_flat_map. split.
  - intros (c' & Hc & H). apply in_seq in Hc. destruct (stored (S := Xn) m i c') eqn:E; [|contradiction]. destruct H as [H|[]]. injection H as <- <-. repeat split; [lia|exact E].
  - intros (Hc & E & ->). exists c. split; [apply in_seq; lia|]. rewrite E. left. reflexivity.
Qed.

(** What get_bounds evaluates. *)
Section Gen.
Context {S : nops}.
Variables (kd : kind) (p : prog S) (nodes : list nat) (t : setup) (q : jstate S).
Hypothesis Ip : pinv p.
Hypothesis Rd : ready kd p nodes t q.
Hypothesis Dec : Forall2 (decides (p_env p) (p_st p)) (p_dec p) nodes.
Lemma value_gen d0 i m x : holds (p_env p) i m -> length x = length (p_dec p) ->
  total d0 (let* q := jsets (p_dec p) x q in let* (v, _) := jget_value i q in Ok v) = val_at p nodes x m.
Proof.
  intros Hm Lx. pose proof (rd_reach _ _ _ _ _ Rd) as R. pose proof (rd_later _ _ _ _ _ Rd) as La.
  assert (D' : Forall2 (decides (qenv q) (qst q)) (p_dec p) nodes).
  { eapply JacProofs.Forall2_impl; [|exact Dec]. intros a b. exact (later_decides (p_env p, [], p_st p) q a b La). }
  destruct (jsets_ok (p_dec p) nodes x q R D' Lx) as (q' & E1 & M). rewrite E1. cbn [obind].
  pose proof (moved_reach _ _ _ _ R M) as R'.
  assert (Hm' : holds (qenv q') i m).
  { destruct M as (_ & Ee & _). rewrite Ee. exact (later_holds (p_env p, [], p_st p) q i m La Hm). }
  destruct (jget_value_ok i m q' R' Hm') as (q2 & E2 & _). rewrite E2. cbn [obind total].
  eapply (old_value kd p nodes t q); eauto. eapply holds_old; eauto.
Qed.
End Gen.

(** The Jacobian of the inequalities where the decision variables stand. *)
Section Gen2.
Context {S : nops} {FS : faith S} {FS2 : faith2 S}.
Notation J := (inj (K := S)).
Variables (kd : kind) (sp : spec) (p : prog S) (nodes : list nat) (t : setup) (q : jstate S).
Hypothesis Rd : ready kd p nodes t q.
Hypothesis Dec : Forall2 (decides (p_env p) (p_st p)) (p_dec p) nodes.
Variables (E : list uexp) (dv : list nat).
Hypothesis L : linked (mkSE E (se_n (sp_se sp)) (se_val (sp_se sp))) (p_env p) (p_st p) dv.
Hypothesis T : tables sp p E.

Lemma fits_start : fits q dv [] [] (se_val (sp_se sp)) (st_val (qst q)).
Proof. split; [intros m Km; reflexivity|]. split; [|constructor]. intros k Hk. eapply dv_val; eauto. Qed.

Lemma start_entries b old new rs kk mat i r : made (JMake new (t_x t)) kk q ->
  Forall2 (fun i i' => exists m, holds (p_env p) i m /\ holds (qenv q) i' m) old new -> Forall2 (hid_rel (p_user p) E b) old rs ->
  jget_mat kk q = Ok mat -> nth_error rs i = Some r -> rel_smooth (se_val (sp_se sp)) r ->
  forall j k, nth_error (sp_dec sp) j = Some k -> exists d, entry mat i j = J d /\ pd k (gap_fn r) (se_val (sp_se sp)) d.
Proof.
  intros Md F Hr Em Hi Hs j k Hj.
  assert (Hlt : i < length new).
  { rewrite <- (f2len _ _ _ F), (f2len _ _ _ Hr). apply nth_error_Some. congruence. }
  destruct (nth_error new i) as [i'|] eqn:Hn; [|apply nth_error_None in Hn; lia].
  assert (Hm : exists m, holds (qenv q) i' m).
  { clear - F Hn. revert i Hn. induction F as [|a b old new (m & _ & H) F IH]; intros [|i] Hn; try discriminate; [injection Hn as <-; eauto|eapply IH; exact Hn]. }
  destruct Hm as (m & Hm).
  destruct (jac_core kd sp p nodes t q Rd Dec E dv L T [] [] (fun m (H : In m []) => match H with end) new kk q (se_val (sp_se sp)) (gap_fn r) i i' m (fun rho => rel_smooth rho r)) as (mat' & Em' & Hd); auto.
  - intros. apply rel_open. assumption.
  - intros rho lv. eapply (rel_comp kd sp p nodes t q Rd E dv L [] []); eauto.
  - apply (rd_reach _ _ _ _ _ Rd).
  - apply fits_start.
  - rewrite Em in Em'. injection Em' as <-. apply (Hd j k Hj).
Qed.
End Gen2.

Lemma rexp_gap rho r g : rel_defined rho r -> gap rho r g -> no_pow00 rho (rexp r) /\ XEv rho (rexp r) g.
Proof.
  intros D (a' & c' & Ha' & Hc' & ->). destruct (rexp_value _ _ D) as (a & c & Ha & Hc & NP & HE). split; [exact NP|].
  rewrite <- (XEv_det _ _ _ _ Ha Ha'), <- (XEv_det _ _ _ _ Hc Hc').
  replace (match r_cmp r with CEq | CGt | CGe => (a - c)%R | CLt | CLe => (c - a)%R end) with (if flip (r_cmp r) then c - a else a - c)%R by (destruct (r_cmp r); reflexivity).
  exact HE.
Qed.
Lemma rel_smooth_ext rho rho' r : (forall k, rho k = rho' k) -> rel_smooth rho r -> rel_smooth rho' r.
Proof. intros E [(a & Ha) (b & Hb)]. split; [exists a|exists b]; eapply XSm_ext; eauto. Qed.
Lemma XEv_ext rho rho' x v : (forall k, rho k = rho' k) -> XEv rho x v -> XEv rho' x v.
Proof. intros E. induction 1; try rewrite E; econstructor; eauto. Qed.
Lemma gap_ext rho rho' r g : (forall k, rho k = rho' k) -> gap rho r g -> gap rho' r g.
Proof. intros E (a & b & Ha & Hb & ->). exists a, b. split; [eapply XEv_ext; eauto|]. split; [eapply XEv_ext; eauto|reflexivity]. Qed.

Section Read.
Variables (sp : spec) (p : prog X_ops) (nodes : list nat) (t : setup) (q : jstate X_ops).
Hypothesis Ip : pinv p.
Hypothesis Lp : plink sp p.
Hypothesis Rd : ready (S := Xn) KIpm p nodes t q.
Hypothesis Dec : Forall2 (decides (p_env p) (p_st p)) (p_dec p) nodes.
Let n := length (p_dec p).
Let rho0 := se_val (sp_se sp).
Let x0 := map rho0 (sp_dec sp).

Lemma nodes_len : length nodes = n.
Proof. symmetry. exact (f2len _ _ _ Dec). Qed.
Lemma x0_len : length x0 = n.
Proof. unfold x0. rewrite map_length. symmetry. exact (dec_len (S := Xn) sp p Lp). Qed.
Lemma dec_nodup : NoDup (sp_dec sp).
Proof.
  destruct Lp as (E & dv & L & T). pose proof (nodes_nodup (S := Xn) KIpm p nodes t q Rd) as ND. destruct (dec_nodes (S := Xn) sp p E dv nodes L T Dec) as [En _]. rewrite En in ND.
  eapply NoDup_map_inv, ND.
Qed.


Definition gap_of (i : nat) (r : urel) (m : nat) : Prop := exists E dv,
  linked (mkSE E (se_n (sp_se sp)) (se_val (sp_se sp))) (p_env p) (p_st p) dv /\ tables sp p E /\ at_ E i (rexp r) /\ holds (p_env p) i m.

(** The value of a relation's gap at a point. *)
Lemma gap_read i r m y g : gap_of i r m -> length y = n -> rel_defined (point sp y) r -> gap (point sp y) r g -> val_at (S := Xn) p nodes (map Fin y) m = Fin g.
Proof.
  intros (E & dv & L & T & A & Hm) Ly Hd Hg. destruct (rexp_gap _ _ _ Hd Hg) as [NP X].
  exact (at_value (S := Xn) (FS := faith_X) sp p E dv nodes i m (rexp r) _ g y L T Dec A Hm eq_refl NP X).
Qed.

(** A linear relation is affine, and its partial derivatives are the coefficients. *)
Lemma coeffs i r m : gap_of i r m -> typ (st_nodes (p_st p)) m = LINEAR -> rel_smooth rho0 r ->
  exists c b, (forall y, length y = n -> val_at (S := Xn) p nodes (map Fin y) m = Fin (lin nodes c b y)) /\
    forall j k d, nth_error (sp_dec sp) j = Some k -> pd k (gap_fn r) rho0 d -> d = c j.
Proof.
  intros G T Hs.
  pose proof (jreach_inv _ (i_reach _ Ip)) as ((W & _ & _) & _).
  assert (Kv : forall m, In m nodes -> is_kvar (st_nodes (p_st p)) m).
  { clear - Dec. intros m Hm. induction Dec as [|a b la lb (w & _ & _ & Kv) F IH]; [contradiction|]. destruct Hm as [<-|Hm]; auto. }
  pose proof (nodes_nodup (S := Xn) KIpm p nodes t q Rd) as ND.
  assert (At : forall y, rel_smooth (point sp y) r -> length y = n -> exists g, gap (point sp y) r g /\ val_at (S := Xn) p nodes (map Fin y) m = Fin g).
  { intros y Sy Ly. destruct (rexp_smooth _ _ Sy) as (g & Hg & _). exists g. split; [exact Hg|]. apply (gap_read i r m y g G Ly (smooth_defined _ _ Sy) Hg). }
  destruct (linear_dich (p_st p) (st_val (p_st p)) nodes W ND Kv m (or_intror T)) as [(c & b & Ha)|Hd].
  2:{ exfalso. destruct (At x0) as (g & _ & E); [|exact x0_len|].
      - eapply rel_smooth_ext; [|exact Hs]. intros k. symmetry. apply place_same.
      - apply (Hd x0); [rewrite nodes_len; exact x0_len|]. assert (E' : ev_at (p_st p) (st_val (p_st p)) nodes x0 m = Fin g) by exact E. rewrite E'. reflexivity. }
  rewrite nodes_len in Ha. exists c, b. split; [exact Ha|]. intros j k d Hj (f & Lf & Df).
  assert (Hjn : j < n) by (rewrite <- x0_len; unfold x0; rewrite map_length; apply nth_error_Some; congruence).
  assert (Xj : nth j x0 0%R = rho0 k). { unfold x0. apply nth_error_nth. apply map_nth_error, Hj. }
  assert (Q : is_derive (fun t : R => (lin nodes c b x0 + c j * (t - rho0 k))%R) (rho0 k) (c j)).
  { auto_derive; [exact I|ring]. }
  assert (Lf' : locally (rho0 k) (fun t => f t = (lin nodes c b x0 + c j * (t - rho0 k))%R)).
  { generalize (filter_and (F := locally (rho0 k)) _ _ Lf (rel_open k rho0 r Hs)). apply filter_imp. intros x [G1 S1].
    set (y := lupd x0 j x). assert (Ly : length y = n) by (unfold y; rewrite upd_length; exact x0_len).
    assert (Py : forall i, ExprModel.upd rho0 k x i = point sp y i). { intros i0. symmetry. apply place_lupd; [exact dec_nodup|exact Hj]. }
    pose proof (gap_read i r m y (f x) G Ly (smooth_defined _ _ (rel_smooth_ext _ _ _ Py S1)) (gap_ext _ _ _ _ Py G1)) as E.
    pose proof (eq_trans (eq_sym E) (Ha y Ly)) as E2. injection E2 as ->. unfold y.
    rewrite lin_upd by (rewrite ?nodes_len; assumption || exact x0_len). rewrite Xj. reflexivity. }
  pose proof (is_derive_ext_loc _ _ _ _ Lf' Df) as D2. rewrite <- (is_derive_unique _ _ _ D2). apply is_derive_unique, Q.
Qed.

Lemma typ_of i m ty : holds (p_env p) i m -> slot_type p i = Ok ty -> typ (st_nodes (p_st p)) m = ty.
Proof.
  intros (w & Ew & En) H. unfold slot_type, hvar in H. rewrite Ew in H. cbn [obind] in H. rewrite En in H. unfold ptype in H. unfold typ.
  destruct (nth_error (st_nodes (p_st p)) m); cbn [obind] in H; [|discriminate]. injection H as <-. reflexivity.
Qed.
Lemma ineq_read k i r : nth_error (p_ineq p) k = Some i -> nth_error (sp_ineqs sp) k = Some r -> exists m, gap_of i r m.
Proof.
  intros Hi Hr. destruct Lp as (E & dv & L & T). destruct (Forall2_nth_r _ _ _ _ _ (t_ineqs _ _ _ T) Hr) as (i' & Hi' & [_ [A _]]). rewrite Hi in Hi'. injection Hi' as <-.
  destruct (linked_get _ _ _ _ _ _ L A) as (z & m & Ez & _ & Em & _). exists m, E, dv. split; [exact L|]. split; [exact T|]. split; [exact A|]. exists z. auto.
Qed.

Definition reads (c : constr) (r : urel) : Prop :=
  (forall y g, length y = n -> rel_defined (point sp y) r -> gap (point sp y) r g -> k_value c (map Fin y) = Fin g) /\
  (k_linear c = true -> exists cf b, (forall y, length y = n -> k_value c (map Fin y) = Fin (lin nodes cf b y)) /\
     (forall j v, In (j, v) (k_row c) -> j < n /\ v = Fin (cf j)) /\ (forall j, j < n -> (forall v, ~ In (j, v) (k_row c)) -> cf j = 0%R) /\
     forall j k d, nth_error (sp_dec sp) j = Some k -> pd k (gap_fn r) rho0 d -> d = cf j).

Lemma constr_reads Am k i r c : nth_error (p_ineq p) k = Some i -> nth_error (sp_ineqs sp) k = Some r -> rel_smooth rho0 r ->
  jget_mat (S := Xn) (t_Ai t) q = Ok Am -> constr_of p q Am k i = Ok c -> reads c r.
Proof.
  intros Hi Hr Hs HA Hc. destruct (ineq_read k i r Hi Hr) as (m & G). pose proof G as (E & dv & L & T & A & Hm).
  unfold constr_of in Hc. destruct (slot_type p i) as [ty| | |] eqn:Ty; cbn [obind] in Hc; try discriminate. injection Hc as <-.
  assert (V : forall y : list R, length y = n -> total NaN (let* q := jsets (S := Xn) (p_dec p) (map Fin y) q in let* (v, _) := jget_value (S := Xn) i q in Ok v) = val_at (S := Xn) p nodes (map Fin y) m).
  { intros y Ly. refine (value_gen (S := Xn) KIpm p nodes t q Ip Rd Dec NaN i m (map Fin y) Hm _). rewrite map_length. exact Ly. }
  split; cbn [k_linear k_row k_value].
  - intros y g Ly Hd Hg. refine (eq_trans (V y Ly) _). exact (gap_read i r m y g G Ly Hd Hg).
  - intros Hl. assert (ty = LINEAR) as -> by (destruct ty; try discriminate Hl; reflexivity).
    destruct (coeffs i r m G (typ_of i m _ Hm Ty) Hs) as (cf & b & H1 & H2). exists cf, b. split; [intros y Ly; exact (eq_trans (V y Ly) (H1 y Ly))|].
    assert (Ent : forall j, j < n -> entry (S := X_ops) Am k j = Fin (cf j)).
    { intros j Hj. destruct (nth_some (sp_dec sp) j) as (kk & Ek); [rewrite <- (dec_len (S := Xn) sp p Lp); exact Hj|].
      destruct (start_entries (S := Xn) (FS := faith_X) (FS2 := faith2_X) KIpm sp p nodes t q Rd Dec E dv L T false _ _ _ (t_Ai t) Am k r
        (rd_Ai _ _ _ _ _ Rd eq_refl) (rd_ci _ _ _ _ _ Rd) (t_ineqs _ _ _ T) HA Hr Hs j kk Ek) as (d & Ed & Pd).
      rewrite <- (H2 j kk d Ek Pd). exact Ed. }
    split; [|split; [|exact H2]].
    + intros j v Hv. apply stored_row_in in Hv as (Hj & _ & ->). split; [exact Hj|apply Ent, Hj].
    + intros j Hj Hno. pose proof (Ent j Hj) as Ej. destruct (stored (S := Xn) Am k j) eqn:St.
      * exfalso. apply (Hno (entry (S := X_ops) Am k j)). apply stored_row_in. auto.
      * pose proof (stored_hits (S := Xn) Am k j St) as Z. pose proof (eq_trans (eq_sym Ej) Z) as Q. injection Q as Q. exact Q.
Qed.
Lemma constrs_reads Am : jget_mat (S := Xn) (t_Ai t) q = Ok Am -> all_smooth rho0 (sp_ineqs sp) -> forall l rs k cs,
  (forall j i, nth_error l j = Some i -> nth_error (p_ineq p) (k + j) = Some i) -> (forall j r, nth_error rs j = Some r -> nth_error (sp_ineqs sp) (k + j) = Some r) ->
  length l = length rs -> constrs_of p q Am k l = Ok cs -> Forall2 reads cs rs.
Proof.
  intros HA Hs l. induction l as [|i l IH]; intros [|r rs] k cs Hl Hr Le H; try discriminate; cbn [constrs_of] in H; [injection H as <-; constructor|].
  destruct (constr_of p q Am k i) as [c| | |] eqn:Ec; cbn [obind] in H; try discriminate.
  destruct (constrs_of p q Am (Datatypes.S k) l) as [cs'| | |] eqn:Ecs; cbn [obind] in H; try discriminate. injection H as <-. constructor.
  - pose proof (Hl 0 i eq_refl) as Hi. pose proof (Hr 0 r eq_refl) as Hr0. rewrite Nat.add_0_r in Hi, Hr0. eapply constr_reads; eauto.
    unfold all_smooth in Hs. rewrite List.Forall_forall in Hs. eapply Hs, nth_error_In, Hr0.
  - eapply IH; [| | |exact Ecs]; [intros j x Hx; specialize (Hl (Datatypes.S j) x Hx); rewrite <- Hl; f_equal; lia|intros j x Hx; specialize (Hr (Datatypes.S j) x Hx); rewrite <- Hr; f_equal; lia|cbn in Le; lia].
Qed.
End Read.
