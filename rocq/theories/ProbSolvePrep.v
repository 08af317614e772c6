(** Proofs for C33-C35: what solve() hands to which solver. *)
From Coq Require Import ZArith Reals List Bool Arith Lia Lra.
From Verif Require Import Base ExprModel GraphSpec GraphProofs ExprInv VarModel VarReach VarProofs ExprReal ExprXR MathSpec MathProofs VarSpec Faith SmoothGraph FaithX HistProofs
  JacModel JacProofs JacReach JacHist JacSame NumModel UtilModel ScaleProofs BoundsModel ExitModel SolverModel NewtonModel SqpModel IpmModel IpmShape RestoreModel RestoreProofs
  ProblemModel ProblemSpec ProblemInv ProblemProofs ProblemProofs2 ProblemProofs3 ProblemProofs4 ProbSolveModel ProbSolveInv ProbSolveEval ProbSolveSpec ProbSolveProofs.
Import ListNotations.
Local Open Scope nat_scope.

(** *** Reading the initial values *)
Lemma pvalues_trip {SK} {FK : faith SK} {FK2 : faith2 SK} E n v l : forall xs, Forall2 (at_ E) l xs ->
  ptrip (pmap (pvalue (S := SK)) l) (mkSE E n v) n v (fun a more => more = [] /\ Forall2 (fun x a => right (x, v) a) xs a).
Proof.
  induction l as [|i l IH]; intros xs H; inversion H as [|? x ? xs' H1 H2]; subst; cbn [pmap].
  - apply (ptrip_ret [] (mkSE E n v)). split; constructor.
  - eapply ptrip_bind; [apply pvalue_trip; exact H1|]. intros y more [-> A]. cbn [se_exp]. rewrite app_nil_r.
    eapply ptrip_bind; [apply IH, H2|]. intros ys more [-> B]. cbn [se_exp]. rewrite app_nil_r.
    apply (ptrip_ret (y :: ys) (mkSE E n v)). split; [reflexivity|]. constructor; assumption.
Qed.

Lemma psafe_values {S : sops} l : psafe (pmap (pvalue (S := S)) l) any.
Proof.
  induction l as [|i l IH]; cbn [pmap]; [apply psafe_ret; intros; exact I|].
  eapply psafe_bind with (Q2 := fun _ _ _ _ => True); [apply psafe_value| |intros; exact I].
  intros a. eapply psafe_bind with (Q2 := fun _ _ _ _ => True); [exact IH| |intros; exact I].
  intros b. apply psafe_ret. intros; exact I.
Qed.

Lemma read_dec {S : sops} {FS : faith S} {FS2 : faith2 S} sp (p : prog S) : pinv p -> plink sp p ->
  exists e s, pmap pvalue (p_dec p) (p_env p) (p_st p) = Ok (map inj (map (se_val (sp_se sp)) (sp_dec sp)), e, s) /\
    pinv (set_mem p e s) /\ plink sp (set_mem p e s).
Proof.
  intros Ip (E & dv & L & T).
  assert (Fd : Forall2 (at_ E) (p_dec p) (map XVar (sp_dec sp))).
  { pose proof (t_dec _ _ _ T) as D. clear - D. induction D as [|i k l l' [A _] D IH]; cbn; constructor; assumption. }
  destruct (pvalues_trip E (se_n (sp_se sp)) (se_val (sp_se sp)) (p_dec p) _ Fd _ _ _ L) as (a & e & s & dv' & more & H & L' & -> & A).
  cbn [se_exp] in L'. rewrite app_nil_r in L'.
  assert (a = map inj (map (se_val (sp_se sp)) (sp_dec sp))) as ->.
  { clear - A. revert a A. induction (sp_dec sp) as [|k ks IH]; intros a A; inversion A as [|? y ? ys A1 A2]; subst; [reflexivity|]. cbn [map]. f_equal; [|apply IH, A2].
    apply A1; [exact I|constructor]. }
  exists e, s. split; [exact H|]. destruct (pinv_psafe _ _ _ _ _ _ Ip (psafe_values (p_dec p)) H) as [I1 _]. split; [exact I1|].
  exists E, dv'. split; [exact L'|]. destruct T. constructor; cbn [set_mem p_user p_cons p_dec p_f p_eq p_ineq]; assumption.
Qed.

(** *** Types *)
Lemma slot_type_ok (p : prog X_ops) i : pinv p -> i < length (p_env p) -> exists t, slot_type p i = Ok t.
Proof.
  intros Ip Hi. pose proof (jreach_inv _ (i_reach _ Ip)) as ((_ & _ & V) & _).
  unfold slot_type, hvar. destruct (nth_error (p_env p) i) as [v|] eqn:Ev; [|apply nth_error_None in Ev; lia].
  pose proof (nth_Forall _ _ _ _ V Ev) as (m & En & Hm & _). cbn [obind]. rewrite En. unfold ptype.
  unfold nlen in Hm. destruct (nth_error (st_nodes (p_st p)) m) as [nd|] eqn:Nd; [|apply nth_error_None in Nd; lia]. cbn [obind]. eexists. reflexivity.
Qed.
Lemma max_type_ok (p : prog X_ops) l : pinv p -> (forall i, In i l -> i < length (p_env p)) -> exists t, max_type p l = Ok t.
Proof.
  intros Ip. induction l as [|i l IH]; intros H; [eexists; reflexivity|]. cbn [max_type].
  destruct (slot_type_ok p i Ip) as (t & ->); [apply H; left; reflexivity|]. cbn [obind].
  destruct IH as (t' & ->); [intros; apply H; right; assumption|]. cbn [obind]. eexists. reflexivity.
Qed.

(** *** What is handed over *)
Definition cost_type (p : prog X_ops) : outcome etype := match p_f p with Some i => slot_type p i | None => Ok NONE end.
Definition constant (t : etype) : bool := Nat.leb (etype_rank t) (etype_rank CONSTANT).

(** The problem of a kind at [x0]: built over the setup of that kind, with the scaling computed there. *)
Definition newton_given (p : prog X_ops) (x0 : list XR) (P : nprob Xn) : Prop := exists nodes t q g,
  Forall2 (decides (p_env p) (p_st p)) (p_dec p) nodes /\ ready (S := Xn) KNewton p nodes t q /\ g_at (length (p_dec p)) t q x0 = Ok g /\
  P = newton_prob (S := Xn) (length (p_dec p)) t q (scaling_newton g).
Definition sqp_given (p : prog X_ops) (x0 : list XR) (P : sprob Xn) : Prop := exists nodes t q g Ae,
  Forall2 (decides (p_env p) (p_st p)) (p_dec p) nodes /\ ready (S := Xn) KSqp p nodes t q /\ g_at (length (p_dec p)) t q x0 = Ok g /\
  A_at (length (p_dec p)) t q (t_Ae t) (length (t_ce t)) x0 = Ok Ae /\
  P = sqp_prob (S := Xn) (length (p_dec p)) t q (scaling_sqp g (length (t_ce t)) Ae).
Definition ipm_given (p : prog X_ops) (x0 : list XR) (P : iprob Xn) : Prop := exists nodes t q g Ae Ai,
  Forall2 (decides (p_env p) (p_st p)) (p_dec p) nodes /\ ready (S := Xn) KIpm p nodes t q /\ g_at (length (p_dec p)) t q x0 = Ok g /\
  A_at (length (p_dec p)) t q (t_Ae t) (length (t_ce t)) x0 = Ok Ae /\ A_at (length (p_dec p)) t q (t_Ai t) (length (t_ci t)) x0 = Ok Ai /\
  P = ipm_prob (S := Xn) (length (p_dec p)) t q (scaling_ipm g (length (t_ce t)) Ae (length (t_ci t)) Ai).

Definition picked (p : prog X_ops) (x0 : list XR) (rn : ran) : Prop :=
  exists tf te ti, cost_type p = Ok tf /\ max_type p (p_eq p) = Ok te /\ max_type p (p_ineq p) = Ok ti /\
  (rn = RanNone <-> constant tf && constant te && constant ti = true) /\
  match rn with
  | RanNone => True
  | RanNewton P => p_eq p = [] /\ p_ineq p = [] /\ newton_given p x0 P
  | RanSqp P => p_eq p <> [] /\ p_ineq p = [] /\ sqp_given p x0 P
  | RanIpm P => p_ineq p <> [] /\ ipm_given p x0 P
  | RanBounds => p_ineq p <> []
  end.

Lemma prepare_inv sp (p : prog X_ops) rn x0 p1 : pinv p -> plink sp p -> prepare p = Ok (rn, x0, p1) ->
  pinv p1 /\ plink sp p1 /\ x0 = map Fin (map (se_val (sp_se sp)) (sp_dec sp)) /\ (exists e s, p1 = set_mem p e s) /\ picked p1 x0 rn.
Proof.
  intros Ip Lp H. destruct (read_dec (S := X_ops) (FS := faith_X) sp p Ip Lp) as (e & s & Hr & I1 & L1).
  unfold prepare in H. rewrite Hr in H. cbn [obind] in H.
  set (x := map inj (map (se_val (sp_se sp)) (sp_dec sp))) in *.
  set (p' := set_mem p e s) in *.
  assert (Ef : forall i, p_f p' = Some i -> i < length (p_env p')) by (apply (i_f _ I1)).
  assert (Htf : exists tf, cost_type p' = Ok tf).
  { unfold cost_type. destruct (p_f p') as [i|] eqn:E; [|eexists; reflexivity]. apply slot_type_ok; auto. }
  destruct Htf as (tf & Etf). destruct (max_type_ok p' (p_eq p') I1 (i_eq _ I1)) as (te & Ete). destruct (max_type_ok p' (p_ineq p') I1 (i_ineq _ I1)) as (ti & Eti).
  change (match p_f p' with Some i => slot_type p' i | None => Ok NONE end) with (cost_type p') in H.
  rewrite Etf, Ete, Eti in H. cbn [obind] in H. fold (constant tf) (constant te) (constant ti) in H.
  change (map Fin (map (se_val (sp_se sp)) (sp_dec sp))) with x.
  assert (K : forall rn', (rn' = RanNone <-> constant tf && constant te && constant ti = true) ->
     match rn' with
     | RanNone => True
     | RanNewton P => p_eq p' = [] /\ p_ineq p' = [] /\ newton_given p' x P
     | RanSqp P => p_eq p' <> [] /\ p_ineq p' = [] /\ sqp_given p' x P
     | RanIpm P => p_ineq p' <> [] /\ ipm_given p' x P
     | RanBounds => p_ineq p' <> []
     end -> Ok (rn', x, p') = Ok (rn, x0, p1) -> pinv p1 /\ plink sp p1 /\ x0 = x /\ (exists e0 s0, p1 = set_mem p e0 s0) /\ picked p1 x0 rn).
  { intros rn' Hn Hm E. injection E as <- <- <-. split; [exact I1|]. split; [exact L1|]. split; [reflexivity|]. split; [exists e, s; reflexivity|].
    exists tf, te, ti. repeat (split; [assumption|]). exact Hm. }
  assert (Lx : length x = length (p_dec p')).
  { unfold x. rewrite !map_length. symmetry. exact (dec_len (S := Xn) sp p' L1). }
  destruct (constant tf && constant te && constant ti) eqn:Ec; [apply (K RanNone); [tauto|exact I|exact H]|].
  destruct (p_ineq p') as [|c0 cs0] eqn:Ei.
  - destruct (p_eq p') as [|d0 ds0] eqn:Ee.
    + destruct (newton_ready (S := Xn) p' I1 Ee Ei) as (nodes & t & q & Hs & D & Rd).
      assert (Hs' : newton_setup (S := Xn) p' (e, [], s) = Ok (t, q)) by exact Hs. rewrite Hs' in H. cbn [obind] in H.
      destruct (g_at_ok (S := Xn) KNewton p' nodes t q Rd D x Lx) as (g & Hg). change (g_at (S := Xn) (length (p_dec p')) t q x = Ok g) in Hg.
      unfold newton_problem in H. change (p_dec p) with (p_dec p') in H. rewrite Hg in H. cbn [obind] in H.
      eapply (K (RanNewton _)); [split; discriminate| |exact H]. split; [reflexivity|]. split; [reflexivity|]. exists nodes, t, q, g. auto.
    + destruct (sqp_ready (S := Xn) p' I1 Ei) as (nodes & t & q & Hs & D & Rd).
      assert (Hs' : sqp_setup (S := Xn) p' (e, [], s) = Ok (t, q)) by exact Hs. rewrite Hs' in H. cbn [obind] in H.
      destruct (g_at_ok (S := Xn) KSqp p' nodes t q Rd D x Lx) as (g & Hg). change (g_at (S := Xn) (length (p_dec p')) t q x = Ok g) in Hg.
      destruct (A_at_ok (S := Xn) KSqp p' nodes t q Rd D (t_Ae t) (length (t_ce t)) x Lx) as (Ae & HA).
      { eapply made_lt; [|apply (rd_Ae _ _ _ _ _ Rd)]. exact I. discriminate. }
      change (A_at (S := Xn) (length (p_dec p')) t q (t_Ae t) (length (t_ce t)) x = Ok Ae) in HA.
      unfold sqp_problem in H. change (p_dec p) with (p_dec p') in H. rewrite Hg in H. cbn [obind] in H. rewrite HA in H. cbn [obind] in H.
      eapply (K (RanSqp _)); [split; discriminate| |exact H]. split; [discriminate|]. split; [reflexivity|]. exists nodes, t, q, g, Ae. auto.
  - assert (H' : (let* (t, q) := ipm_setup (S := Xn) p' (e, [], s) in
      let* Ai := jget_mat (S := Xn) (t_Ai t) q in
      let* cs := constrs_of p' q Ai 0 (c0 :: cs0) in
      let* b := get_bounds x cs in
      match b_conflicts b with
      | _ :: _ => Ok (RanBounds, x, p')
      | [] => let* P := ipm_problem (S := Xn) (length (p_dec p')) t q x in Ok (RanIpm P, x, p')
      end) = Ok (rn, x0, p1)) by (destruct (p_eq p'); exact H). clear H.
    destruct (ipm_ready (S := Xn) p' I1) as (nodes & t & q & Hs & D & Rd).
    assert (Hs' : ipm_setup (S := Xn) p' (e, [], s) = Ok (t, q)) by exact Hs. rewrite Hs' in H'. cbn [obind] in H'.
    destruct (jget_mat (S := Xn) (t_Ai t) q) as [Ai0| | |] eqn:HAi0; cbn [obind] in H'; try discriminate.
    destruct (constrs_of p' q Ai0 0 (c0 :: cs0)) as [cs| | |] eqn:Hcs; cbn [obind] in H'; try discriminate.
    destruct (get_bounds x cs) as [b| | |] eqn:Hb; cbn [obind] in H'; try discriminate.
    destruct (b_conflicts b) as [|cf cfs] eqn:Hcf.
    + destruct (g_at_ok (S := Xn) KIpm p' nodes t q Rd D x Lx) as (g & Hg). change (g_at (S := Xn) (length (p_dec p')) t q x = Ok g) in Hg.
      destruct (A_at_ok (S := Xn) KIpm p' nodes t q Rd D (t_Ae t) (length (t_ce t)) x Lx) as (Ae & HA).
      { eapply made_lt; [|apply (rd_Ae _ _ _ _ _ Rd)]. exact I. discriminate. }
      destruct (A_at_ok (S := Xn) KIpm p' nodes t q Rd D (t_Ai t) (length (t_ci t)) x Lx) as (Ai & HA2).
      { eapply made_lt; [|apply (rd_Ai _ _ _ _ _ Rd)]. exact I. reflexivity. }
      change (A_at (S := Xn) (length (p_dec p')) t q (t_Ae t) (length (t_ce t)) x = Ok Ae) in HA.
      change (A_at (S := Xn) (length (p_dec p')) t q (t_Ai t) (length (t_ci t)) x = Ok Ai) in HA2.
      unfold ipm_problem in H'. rewrite Hg in H'. cbn [obind] in H'. rewrite HA in H'. cbn [obind] in H'. rewrite HA2 in H'. cbn [obind] in H'.
      eapply (K (RanIpm _)); [split; discriminate| |exact H']. split; [discriminate|]. exists nodes, t, q, g, Ae, Ai. auto 10.
    + apply (K RanBounds); [split; discriminate|discriminate|exact H'].
Qed.
