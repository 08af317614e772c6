(** Proofs for C35: when solve() runs no solver at all. *)
From Coq Require Import ZArith Reals List Bool Arith Lia Lra.
From Verif Require Import Base ExprModel GraphSpec GraphProofs ExprInv VarModel VarReach VarProofs ExprReal ExprXR MathSpec MathProofs VarSpec Faith FaithX HistProofs
  NumModel ProblemModel ProblemSpec ProblemInv ProblemProofs ProblemProofs2 ProblemProofs3 ProblemProofs4 ProbSolveModel ProbSolveSpec ProbSolvePrep ProbSolveHist ProbSolveLived ProbSolveFacts.
Import ListNotations.
Local Open Scope nat_scope.

Lemma f2_in_r {A B} (P : A -> B -> Prop) l l' b : Forall2 P l l' -> In b l' -> exists a, In a l /\ P a b.
Proof. induction 1 as [|x y l l' H F IH]; [intros []|intros [E|E]]; [subst; exists x; split; [left; reflexivity|exact H]|]. destruct (IH E) as (a & Ia & Pa). exists a. split; [right; exact Ia|exact Pa]. Qed.

Definition unchanging (p : prog X_ops) (i : nat) : Prop := exists t, slot_type p i = Ok t /\ (t = NONE \/ t = CONSTANT).

Lemma constant_iff t : constant t = true <-> t = NONE \/ t = CONSTANT.
Proof. destruct t; cbn; split; intros H; auto; try discriminate; destruct H; discriminate. Qed.

Lemma max_type_constant p l : forall t, max_type p l = Ok t -> (constant t = true <-> forall i, In i l -> unchanging p i).
Proof.
  induction l as [|i l IH]; intros t H; cbn [max_type] in H.
  - injection H as <-. split; [intros _ i []|reflexivity].
  - destruct (slot_type p i) as [a| | |] eqn:Ea; cbn [obind] in H; try discriminate.
    destruct (max_type p l) as [b| | |]; cbn [obind] in H; try discriminate. specialize (IH b eq_refl).
    assert (Hc : constant t = true <-> constant a = true /\ constant b = true).
    { injection H as <-. destruct a, b; cbn; tauto || (split; [intros; discriminate|intros [? ?]; discriminate]). }
    rewrite Hc. split.
    + intros [Ha Hb] j [<-|Hj]; [exists a; split; [exact Ea|apply constant_iff, Ha]|apply IH; assumption].
    + intros H'. split; [|apply IH; intros j Hj; apply H'; right; exact Hj].
      destruct (H' i (or_introl eq_refl)) as (t' & Et & Hc'). rewrite Ea in Et. injection Et as <-. apply constant_iff, Hc'.
Qed.

(** A slot of constant type holds an expression with one value, wherever it has one. *)
Lemma unchanging_value p E n v0 dv i x rho rho' v v' : linked (mkSE E n v0) (p_env p) (p_st p) dv -> at_ E i x -> unchanging p i ->
  no_pow00 rho x -> no_pow00 rho' x -> XEv rho x v -> XEv rho' x v' -> v = v'.
Proof.
  intros L A (t & Ht & Hc) NP NP' X X'.
  destruct (linked_get _ _ _ _ _ _ L A) as (w & m & Ew & Eh & En & (Hm & Hv & _) & _).
  pose proof L as ((W & _) & _ & (ND & Hd) & _).
  unfold slot_type in Ht. rewrite Eh in Ht. cbn [obind] in Ht. rewrite En, (ptype_eq _ _ Hm) in Ht. cbn [obind] in Ht. injection Ht as Ht.
  assert (T : typ (st_nodes (p_st p)) m = CONSTANT).
  { destruct Hc as [-> | ->]; [|exact Ht]. exfalso. exact (typ_none _ _ W Hm Ht). }
  pose (lv := fun r (k : nat) => match find (fun j => Nat.eqb (nth j dv 0) k) (seq 0 (length dv)) with Some j => Fin (r j) | None => st_val (p_st p) k end).
  assert (L1 : forall r k, k < length dv -> lv r (nth k dv 0) = Fin (r k)).
  { intros r k Hk. unfold lv. destruct (find _ _) as [j|] eqn:Ej.
    - apply find_some in Ej as [Hj Ej]. apply in_seq in Hj. apply Nat.eqb_eq in Ej. f_equal. f_equal. eapply (proj1 (NoDup_nth dv 0)); eauto; lia.
    - exfalso. assert (Hs : In k (seq 0 (length dv))) by (apply in_seq; lia). pose proof (find_none _ _ Ej k Hs) as F. cbn in F. rewrite Nat.eqb_refl in F. discriminate. }
  assert (L2 : forall r, agrees (p_st p) (lv r)).
  { intros r k (nd & Nd & Kn). unfold lv. destruct (find _ _) as [j|] eqn:Ej; [|reflexivity]. exfalso.
    apply find_some in Ej as [Hj Ej]. apply in_seq in Hj. apply Nat.eqb_eq in Ej. destruct (Hd j ltac:(lia)) as ((nd' & Nd' & Kn') & _). rewrite Ej in Nd'. congruence. }
  pose proof (Hv (lv rho) rho (L2 rho) (L1 rho) NP v X) as E1. pose proof (Hv (lv rho') rho' (L2 rho') (L1 rho') NP' v' X') as E2.
  rewrite (const_ev (p_st p) m (lv rho) W T (L2 rho)) in E1. rewrite (const_ev (p_st p) m (lv rho') W T (L2 rho')) in E2.
  rewrite E1 in E2. injection E2 as ->. reflexivity.
Qed.

Lemma c35_none sp p rn x0 p1 : lived sp p -> prepare p = Ok (rn, x0, p1) ->
  (rn = RanNone <-> forall i, p_f p = Some i \/ In i (p_eq p) \/ In i (p_ineq p) -> exists t, slot_type p i = Ok t /\ (t = NONE \/ t = CONSTANT)) /\
  (rn = RanNone -> forall rho rho',
     (forall v v', cost_is sp rho v -> cost_is sp rho' v' -> v = v') /\
     (forall r v v', In r (sp_eqs sp ++ sp_ineqs sp) -> rel_defined rho r -> rel_defined rho' r -> gap rho r v -> gap rho' r v' -> v = v')).
Proof.
  intros Lv Hp. destruct (solve_picks sp p rn x0 p1 Lv Hp) as (tf & te & ti & Tf & Te & Ti & Cst & _).
  assert (H : rn = RanNone <-> forall i, p_f p = Some i \/ In i (p_eq p) \/ In i (p_ineq p) -> unchanging p i).
  { rewrite Cst, !andb_true_iff, (max_type_constant _ _ _ Te), (max_type_constant _ _ _ Ti).
    assert (Hf : constant tf = true <-> forall i, p_f p = Some i -> unchanging p i).
    { unfold cost_type in Tf. destruct (p_f p) as [i|].
      - rewrite constant_iff. split.
        + intros Hc j [= <-]. exists tf. auto.
        + intros Hc. destruct (Hc i eq_refl) as (t & Et & Ht). rewrite Tf in Et. injection Et as <-. exact Ht.
      - injection Tf as <-. split; [intros _ j; discriminate|reflexivity]. }
    rewrite Hf. split; [intros [[A B] C] i [D|[D|D]]; auto|]. intros A. split; [split|]; intros i Hi; apply A; auto. }
  split; [exact H|]. intros Hn rho rho'. pose proof (proj1 H Hn) as Hu. clear Cst H. destruct (lived_ok _ _ Lv) as [_ (E & dv & L & T)]. split.
  - intros v v' Hv Hv'. pose proof (ProblemProofs3.t_f _ _ _ T) as Hf. unfold cost_is in *.
    destruct (sp_goal sp) as [[mx x]|]; [|congruence]. destruct (p_f p) as [i|]; [|contradiction]. destruct Hf as [A _].
    destruct Hv as (NP & a & Xa & ->), Hv' as (NP' & a' & Xa' & ->). specialize (Hu i (or_introl eq_refl)).
    unfold goal_exp in A. cbn [fst snd] in A. destruct mx.
    + refine (unchanging_value p E _ _ dv i (XUn UNeg x) rho rho' _ _ L A Hu NP NP' _ _); econstructor; eauto; constructor.
    + exact (unchanging_value p E _ _ dv i x rho rho' _ _ L A Hu NP NP' Xa Xa').
  - intros r v v' Hr D D' G G'.
    assert (exists i b, hid_rel (p_user p) E b i r /\ unchanging p i) as (i & b & [_ [A _]] & U).
    { apply in_app_or in Hr as [Hr|Hr].
      - destruct (f2_in_r _ _ _ _ (t_eqs _ _ _ T) Hr) as (i & Hi & A). exists i, true. auto.
      - destruct (f2_in_r _ _ _ _ (t_ineqs _ _ _ T) Hr) as (i & Hi & A). exists i, false. auto. }
    destruct (rexp_value _ _ D) as (a & c & Ha & Hc & NP & HE). destruct (rexp_value _ _ D') as (a' & c' & Ha' & Hc' & NP' & HE').
    destruct G as (u & w & Hu1 & Hw & ->), G' as (u' & w' & Hu' & Hw' & ->).
    rewrite <- (XEv_det _ _ _ _ Ha Hu1), <- (XEv_det _ _ _ _ Hc Hw), <- (XEv_det _ _ _ _ Ha' Hu'), <- (XEv_det _ _ _ _ Hc' Hw').
    pose proof (unchanging_value p E _ _ dv i (rexp r) rho rho' _ _ L A U NP NP' HE HE') as Q. destruct (r_cmp r); exact Q.
Qed.
