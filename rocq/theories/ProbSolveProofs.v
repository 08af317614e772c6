(** Proofs for C33: the functions handed to the solvers are the user's, scaled. *)
From Coq Require Import ZArith Reals List Bool Arith Lia Lra.
From Verif Require Import Base ExprModel GraphSpec GraphProofs ExprInv VarModel VarReach VarProofs ExprReal MathSpec MathProofs VarSpec Faith SmoothGraph HistProofs
  JacModel JacProofs JacReach JacHist JacSame NumModel UtilModel ScaleProofs SolverModel NewtonModel SqpModel IpmModel IpmShape RestoreProofs
  ProblemModel ProblemSpec ProblemInv ProblemProofs ProblemProofs2 ProblemProofs3 ProblemProofs4 ProbSolveModel ProbSolveInv ProbSolveEval ProbSolveSpec.
Import ListNotations.
Local Open Scope nat_scope.

Section User.
Context {S : nops} {FS : faith S} {FS2 : faith2 S}.
Implicit Types (q : jstate S) (p : prog S).

(** Setting the nodes of decision variables moves the user's point. *)
Lemma puts_place dv : NoDup dv -> forall ks (x : list R) (lv : nat -> S) rho, (forall k, In k ks -> k < length dv) ->
  (forall k, k < length dv -> lv (nth k dv 0) = inj (rho k)) ->
  forall k, k < length dv -> puts lv (map (fun k => nth k dv 0) ks) (map inj x) (nth k dv 0) = inj (place rho ks x k).
Proof.
  intros ND ks. induction ks as [|k0 ks IH]; intros x lv rho Hk H k Hlt; [apply H, Hlt|].
  destruct x as [|v x]; [apply H, Hlt|]. cbn [map puts place]. apply IH; [intros; apply Hk; right; assumption| |exact Hlt].
  intros j Hj. destruct (Nat.eqb_spec (nth j dv 0) (nth k0 dv 0)) as [E|E].
  - assert (j = k0) as ->. { eapply (proj1 (NoDup_nth dv 0)); eauto. apply Hk. left. reflexivity. } rewrite upd_eq. reflexivity.
  - rewrite upd_ne by (intros ->; apply E; reflexivity). apply H, Hj.
Qed.

Lemma dec_nodes sp p E dv nodes : linked (mkSE E (se_n (sp_se sp)) (se_val (sp_se sp))) (p_env p) (p_st p) dv -> tables sp p E ->
  Forall2 (decides (p_env p) (p_st p)) (p_dec p) nodes ->
  nodes = map (fun k => nth k dv 0) (sp_dec sp) /\ (forall k, In k (sp_dec sp) -> k < length dv).
Proof.
  intros L T D. pose proof (t_dec _ _ _ T) as Td. revert nodes D. induction Td as [|i k l l' [A _] F IH]; intros nodes D; inversion D as [|? n ? nodes' Hn D']; subst.
  - split; [reflexivity|intros k []].
  - destruct (IH _ D') as [-> H]. pose proof L as (_ & _ & _ & _ & Hs). destruct Hn as (w & Ew & En & _).
    destruct (Hs _ _ _ _ Ew En A) as (_ & _ & Hk & _). destruct (Hk k eq_refl) as [Hk1 ->]. split; [reflexivity|]. intros j [<-|Hj]; auto.
Qed.

Lemma at_value sp p E dv nodes i m x rho v y : linked (mkSE E (se_n (sp_se sp)) (se_val (sp_se sp))) (p_env p) (p_st p) dv -> tables sp p E ->
  Forall2 (decides (p_env p) (p_st p)) (p_dec p) nodes -> at_ E i x -> holds (p_env p) i m ->
  rho = point sp y -> no_pow00 rho x -> XEv rho x v -> val_at p nodes (map inj y) m = inj v.
Proof.
  intros L T D A (w & Ew & En) -> NP X. pose proof L as (_ & Ld & (ND & Hd) & _ & Hs). cbn [se_exp se_val] in *.
  destruct (Hs _ _ _ _ Ew En A) as (_ & Hv & _). destruct (dec_nodes _ _ _ _ _ L T D) as [En2 Hk].
  unfold val_at. apply (Hv (puts (st_val (p_st p)) nodes (map inj y)) (point sp y)).
  - intros k Hk'. apply puts_out. intros I0. clear - D I0 Hk'. induction D as [|a b l l' (u & _ & _ & Kv) D IH]; [contradiction|].
    destruct I0 as [->|I0]; [exact (kvar_not_const _ _ Kv Hk')|auto].
  - rewrite En2. intros k Hk'. apply puts_place; auto. intros j Hj. apply Hd, Hj.
  - exact NP.
  - exact X.
Qed.

(** A Problem the user can have built. *)
Variables (kd : kind) (sp : spec) (p : prog S) (nodes : list nat) (t : setup) (q : jstate S).
Hypothesis Ip : pinv p.
Hypothesis Lp : plink sp p.
Hypothesis Rd : ready kd p nodes t q.
Hypothesis Dec : Forall2 (decides (p_env p) (p_st p)) (p_dec p) nodes.
Let n := length (p_dec p).

Lemma dec_len : n = length (sp_dec sp).
Proof. destruct Lp as (E & dv & L & T). exact (ProblemProofs.Forall2_length _ _ _ (t_dec _ _ _ T)). Qed.
Lemma eqs_len : length (t_ce t) = length (sp_eqs sp).
Proof. destruct Lp as (E & dv & L & T). rewrite (len_ce kd p nodes t q Rd). exact (ProblemProofs.Forall2_length _ _ _ (t_eqs _ _ _ T)). Qed.
Lemma ineqs_len : length (t_ci t) = length (sp_ineqs sp).
Proof. destruct Lp as (E & dv & L & T). rewrite (len_ci kd p nodes t q Rd). exact (ProblemProofs.Forall2_length _ _ _ (t_ineqs _ _ _ T)). Qed.

Lemma user_f sc (y : list R) v : length y = n -> cost_is sp (point sp y) v -> cb_f t q sc (map inj y) = s_mul S (sc_f sc) (inj v).
Proof.
  intros Ly Hc. destruct Lp as (E & dv & L & T). destruct (cb_f_ok kd p nodes t q Ip Rd Dec sc (map inj y)) as (w & -> & H); [rewrite map_length; exact Ly|].
  f_equal. pose proof (ProblemProofs3.t_f _ _ _ T) as Tf. unfold cost_is in Hc. destruct (p_f p) as [i|] eqn:Ef, (sp_goal sp) as [[mx x]|]; try contradiction.
  - destruct Tf as [A _]. destruct Hc as (NP & u & Hu & ->).
    assert (exists m, holds (p_env p) i m) as (m & Hm).
    { destruct (linked_get _ _ _ _ _ _ L A) as (z & m & Ez & _ & Em & _). exists m, z. auto. }
    rewrite (H m Hm). unfold goal_exp in A. cbn [fst snd] in A. destruct mx.
    + eapply (at_value sp p E dv nodes i m (XUn UNeg x)); eauto. econstructor; [exact Hu|constructor].
    + eapply at_value; eauto.
  - subst v. rewrite H. apply f_ofZ.
Qed.

Lemma user_c E dv b (old new : list nat) rs sc (y gs : list R) :
  linked (mkSE E (se_n (sp_se sp)) (se_val (sp_se sp))) (p_env p) (p_st p) dv -> tables sp p E ->
  Forall2 (fun i i' => exists m, holds (p_env p) i m /\ holds (qenv q) i' m) old new ->
  Forall2 (hid_rel (p_user p) E b) old rs -> length y = n ->
  List.Forall (rel_defined (point sp y)) rs -> Forall2 (gap (point sp y)) rs gs ->
  cb_c t q new sc (map inj y) = vmap2 (s_mul S) sc (map inj gs).
Proof.
  intros L T F Hr Ly D G.
  assert (exists ns, Forall2 (holds (p_env p)) old ns) as (ns & Fn).
  { clear - F. induction F as [|a a' l l' (m & H & _) F (ns & IH)]; [exists []; constructor|]. exists (m :: ns). constructor; assumption. }
  rewrite (cb_c_ok kd p nodes t q Ip Rd Dec old new ns sc (map inj y)); [|rewrite map_length; exact Ly|exact F|exact Fn].
  f_equal. clear F. revert ns Fn gs D G. induction Hr as [|i r old rs [Hb [A _]] Hr IH]; intros ns Fn gs D G; inversion Fn as [|? m ? ns' Hm Fn']; subst; inversion G as [|? g ? gs' Hg G']; subst; [reflexivity|].
  cbn [map]. inversion D as [|? ? D1 D2]; subst. f_equal; [|apply IH; assumption].
  destruct (rexp_value _ _ D1) as (a & c & Ha & Hc & NP & HE). destruct Hg as (a' & c' & Ha' & Hc' & ->).
  rewrite <- (XEv_det _ _ _ _ Ha Ha'), <- (XEv_det _ _ _ _ Hc Hc').
  eapply at_value with (rho := point sp y); eauto.
  replace (match r_cmp r with CEq | CGt | CGe => (a - c)%R | CLt | CLe => (c - a)%R end) with (if flip (r_cmp r) then c - a else a - c)%R by (destruct (r_cmp r); reflexivity).
  exact HE.
Qed.

Lemma user_ce sc (y gs : list R) : length y = n -> all_defined (point sp y) (sp_eqs sp) -> Forall2 (gap (point sp y)) (sp_eqs sp) gs ->
  cb_c t q (t_ce t) sc (map inj y) = vmap2 (s_mul S) sc (map inj gs).
Proof. destruct Lp as (E & dv & L & T). intros. exact (user_c E dv _ _ _ _ _ _ _ L T (rd_ce _ _ _ _ _ Rd) (t_eqs _ _ _ T) H H0 H1). Qed.
Lemma user_ci sc (y gs : list R) : length y = n -> all_defined (point sp y) (sp_ineqs sp) -> Forall2 (gap (point sp y)) (sp_ineqs sp) gs ->
  cb_c t q (t_ci t) sc (map inj y) = vmap2 (s_mul S) sc (map inj gs).
Proof. destruct Lp as (E & dv & L & T). intros. exact (user_c E dv _ _ _ _ _ _ _ L T (rd_ci _ _ _ _ _ Rd) (t_ineqs _ _ _ T) H H0 H1). Qed.

End User.
