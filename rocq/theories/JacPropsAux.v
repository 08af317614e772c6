(** Witnesses and examples for C21-C30. *)
From Coq Require Import ZArith Reals List Bool Arith Lia Lra.
From Coquelicot Require Import Coquelicot.
From Verif Require Import Base ExprModel GraphSpec GraphProofs ExprInv ExprReal MathSpec MathProofs VarModel VarReach VarProofs
  DiffSpec DegreeSpec OpDeriv TypeProofs JacModel AdjProofs JacProofs SymProofs GradProofs SymReal JacReach JacHist JacSame JacReal.
Import ListNotations.
Local Open Scope nat_scope.

Lemma c21 (q : jstate R_ops) e js s i n nd d : jreach q -> q = (e, js, s) -> holds e i n -> nth_error (st_nodes s) n = Some nd ->
  promised (n_type nd) = Some d ->
  exists p, degree_le (st_nodes s) d p /\
    forall (lv : nat -> R) v, agrees (S := R_ops) s lv -> GEv (st_nodes s) lv n v -> v = peval lv p.
Proof.
  intros R -> _ En Hd. destruct (jreach_inv _ R) as ((W & _) & _). apply (degree s W n d). unfold typ. rewrite En. exact Hd.
Qed.

(** Histories of expression statements are histories. *)
Lemma hist_reach (l : list (hop R_ops)) : forall e s e' s' out, jreach (S := R_ops) (e, [], s) ->
  hrun l e s = Ok (e', s', out) ->
  (fix sc l e s := match l with [] => True | o :: l => in_scope (length e) o /\
      match hstep o e s with Ok (e1, s1, _) => sc l e1 s1 | _ => True end end) l e s ->
  jreach (S := R_ops) (e', [], s').
Proof.
  induction l as [|o l IH]; intros e s e' s' out R E Hs; cbn in E.
  - injection E as <- <- <-. exact R.
  - destruct Hs as [Ho Hs]. destruct (hstep o e s) as [[[e1 s1] out1]| | |] eqn:E1; try discriminate. cbn [obind] in E.
    destruct (hrun l e1 s1) as [[[e2 s2] out2]| | |] eqn:E2; cbn [obind] in E; try discriminate. injection E as <- <- <-.
    eapply (IH e1 s1); eauto. apply (jreach_step (JH o) (e, [], s) (e1, [], s1) (map OVal out1) R Ho).
    + destruct o; cbn; auto.
    + cbn [jstep]. rewrite E1. reflexivity.
Qed.

(** sin(x) * y with x = variable 0, y = variable 1. *)
Definition ex_ops : list (hop R_ops) := [HNew; HNew; HUn USin 0; HBin BMul 2 1].
Definition ex_nodes : list node :=
  [mkN KVar LINEAR; mkN KVar LINEAR; mkN (KUn USin 0) NONLINEAR; mkN (KBin BMul 2 1) NONLINEAR].
Lemma ex_state : exists e s, jreach (S := R_ops) (e, [], s) /\ st_nodes s = ex_nodes /\
  length e = 4 /\ (forall i, i < 4 -> holds e i i).
Proof.
  destruct (hrun ex_ops [] (st_empty R_ops)) as [[[e s] out]| | |] eqn:E; try discriminate E.
  exists e, s. split.
  - eapply (hist_reach ex_ops); [apply jreach_0|exact E|]. cbn. repeat split; lia.
  - cbn in E. injection E as <- <- <-. split; [reflexivity|]. split; [reflexivity|].
    intros i Hi. destruct i as [|[|[|[|i]]]]; [eexists; split; reflexivity..|lia].
Qed.

(** Operators that are smooth everywhere. *)
Definition tame (nd : node) : Prop :=
  match n_kind nd with
  | KConst | KVar => True
  | KUn u _ => match u with UNeg | UAtan | UCos | UCosh | UErf | UExp | USin | USinh | UTanh => True | _ => False end
  | KBin b _ _ => match b with BAdd | BSub | BMul => True | _ => False end
  end.
Lemma tame_smooth ns lv r : List.Forall tame ns -> smooth ns lv r.
Proof.
  intros H n _. rewrite List.Forall_forall in H.
  assert (T : forall nd, nth_error ns n = Some nd -> tame nd) by (intros nd E; apply H; eapply nth_error_In; eauto).
  split; intros nd E; specialize (T nd E); unfold tame in T; destruct (n_kind nd) as [| |u a|b l m]; auto.
  - intros x _. destruct u; try destruct T; exact I.
  - intros x y _ _. left. destruct b; try destruct T; exact I.
  - intros x _. destruct u; try destruct T; cbn; auto.
  - intros x y _ _. destruct b; try destruct T; cbn; auto.
Qed.

Lemma ex_decides : exists e s, jreach (S := R_ops) (e, [], s) /\ st_nodes s = ex_nodes /\
  jscope (e, [], s) (JMake [3] [0; 1]) /\ jscope (e, [], s) (JHess 3 [0; 1] false) /\ distinct e s [0; 1] /\ holds e 3 3 /\
  decides e s 0 0 /\ decides e s 1 1.
Proof.
  destruct ex_state as (e & s & R & N & L & Hh). exists e, s.
  assert (D0 : decides e s 0 0) by (destruct (Hh 0) as (v & A & B); [lia|]; exists v; split; [exact A|]; split; [exact B|];
    rewrite N; eexists; split; reflexivity).
  assert (D1 : decides e s 1 1) by (destruct (Hh 1) as (v & A & B); [lia|]; exists v; split; [exact A|]; split; [exact B|];
    rewrite N; eexists; split; reflexivity).
  assert (DD : forall i n, i < 2 -> decides e s i n -> n = i).
  { intros i n Hi (v & A & B & _). destruct (Hh i) as (v' & A' & B'); [lia|]. congruence. }
  split; [exact R|]. split; [exact N|].
  assert (Hw : forall i, In i [0; 1] -> exists n, decides e s i n) by (intros i [<-|[<-|[]]]; eauto).
  split; [split; [intros i [<-|[]]; lia|exact Hw]|]. split; [split; [lia|exact Hw]|].
  split; [|split; [apply Hh; lia|split; assumption]].
  intros c c' i i' n E E' D D'.
  assert (i < 2 /\ i' < 2 /\ i = c /\ i' = c').
  { destruct c as [|[|[|c]]], c' as [|[|[|c']]]; cbn in E, E'; try discriminate; injection E as <-; injection E' as <-; lia. }
  destruct H as (A & B & <- & <-).
  pose proof (DD i n A D). pose proof (DD i' n B D'). lia.
Qed.

Lemma c22_ex : exists e s q1, jreach (S := R_ops) (e, [], s) /\ jscope (e, [], s) (JMake [3] [0; 1]) /\
  jstep (JMake [3] [0; 1]) (e, [], s) = Ok (q1, []) /\ jcareful q1 q1 /\ distinct e s [0; 1] /\
  holds e 3 3 /\ decides e s 0 0 /\ decides e s 1 1 /\ forall lv, smooth (st_nodes s) lv 3.
Proof.
  destruct ex_decides as (e & s & R & N & Hs & _ & D & H3 & D0 & D1).
  destruct (jstep_ok (JMake [3] [0; 1]) _ (jreach_inv _ R) Hs I) as (q1 & out & E & _).
  destruct (jmake_is _ _ _ _ _ _ _ (jreach_inv _ R) Hs E) as (j & s1 & _ & -> & _).
  exists e, s, q1. split; [exact R|]. split; [exact Hs|]. split; [exact E|]. split; [constructor|]. split; [exact D|].
  split; [exact H3|]. split; [exact D0|]. split; [exact D1|]. intros lv. apply tame_smooth. rewrite N. repeat constructor.
Qed.

Lemma R_neq_b (x y : R) : x <> y -> R_eqb x y = false.
Proof. intros H. unfold R_eqb. destruct (Req_EM_T x y); congruence. Qed.


Tactic Notation "norm" := cbn -[R_eqb]; unfold set_adj, set_scr, set_adje, set_val; cbn -[R_eqb].
Tactic Notation "norm" "in" hyp(H) := cbn -[R_eqb] in H; unfold set_adj, set_scr, set_adje, set_val in H; cbn -[R_eqb] in H.
Ltac scope := cbn -[R_eqb]; repeat match goal with |- _ /\ _ => split | |- forall i, _ \/ _ -> _ => let H := fresh "H" in intros ? H end;
  repeat match goal with H : _ \/ _ |- _ => destruct H as [<-|H] | H : False |- _ => destruct H end; try lia;
  try exact I; try (eexists; eexists; split; [reflexivity|split; [reflexivity|eexists; split; reflexivity]]).

(** C28: set_value on a constant is not seen by a linear row built before. *)
Definition c28_prog : list (jop R_ops) :=
  [JH HNew; JH (HConst (2%R : R_ops)); JH (HBin BMul 0 1); JMake [2] [0]; JH (HSet 1 (3%R : R_ops)); JValue 0; JMake [2] [0]; JValue 1].
Lemma c28_ref : exists q m m', jruns (S := R_ops) jempty c28_prog q [OMat m; OMat m'] /\
  entry (S := R_ops) m 0 0 = 2%R /\ entry (S := R_ops) m' 0 0 = 3%R.
Proof.
  assert (E20 : R_eqb 2 0 = false) by (apply R_neq_b; lra). assert (E21 : R_eqb 2 1 = false) by (apply R_neq_b; lra).
  assert (H : exists q out, jruns (S := R_ops) jempty c28_prog q out /\ exists m m', out = [OMat m; OMat m'] /\
     entry (S := R_ops) m 0 0 = 2%R /\ entry (S := R_ops) m' 0 0 = 3%R).
  { unfold c28_prog, jempty. eexists; eexists. split.
    - eapply jruns_cons; [scope|norm; reflexivity|].
      eapply jruns_cons; [scope|norm; reflexivity|].
      eapply jruns_cons; [scope|norm; rewrite E20; norm; rewrite E21; norm; reflexivity|].
      eapply jruns_cons; [scope|norm; reflexivity|].
      eapply jruns_cons; [scope|norm; reflexivity|].
      eapply jruns_cons; [scope|norm; reflexivity|].
      eapply jruns_cons; [scope|norm; reflexivity|].
      eapply jruns_cons; [scope|norm; reflexivity|].
      apply jruns_nil.
    - eexists; eexists. split; [reflexivity|]. cbn. split; lra. }
  destruct H as (q & out & E & m & m' & -> & Hm). exists q, m, m'. split; [exact E|exact Hm].
Qed.

(** C30: the Jacobian of x with respect to (x, x). *)
Definition c30_prog : list (jop R_ops) := [JH HNew; JMake [0] [0; 0]; JGet 0; JH (HValue 1); JH (HValue 2); JValue 0].
Lemma c30_ref : exists q v0 v1 m, jruns (S := R_ops) jempty c30_prog q [OVal v0; OVal v1; OMat m] /\
  v0 = 1%R /\ v1 = 0%R /\ entry (S := R_ops) m 0 0 = 0%R /\ entry (S := R_ops) m 0 1 = 1%R.
Proof.
  assert (H : exists q out, jruns (S := R_ops) jempty c30_prog q out /\ exists v0 v1 m, out = [OVal v0; OVal v1; OMat m] /\
     v0 = 1%R /\ v1 = 0%R /\ entry (S := R_ops) m 0 0 = 0%R /\ entry (S := R_ops) m 0 1 = 1%R).
  { unfold c30_prog, jempty. eexists; eexists. split.
    - eapply jruns_cons; [scope|norm; reflexivity|].
      eapply jruns_cons; [scope|norm; reflexivity|].
      eapply jruns_cons; [scope|norm; reflexivity|].
      eapply jruns_cons; [scope|norm; reflexivity|].
      eapply jruns_cons; [scope|norm; reflexivity|].
      eapply jruns_cons; [scope|norm; reflexivity|].
      apply jruns_nil.
    - eexists; eexists; eexists. split; [reflexivity|]. cbn. repeat split; lra. }
  destruct H as (q & out & E & v0 & v1 & m & -> & Hm). exists q, v0, v1, m. split; [exact E|exact Hm].
Qed.

(** C21: x * y is QUADRATIC. *)
Lemma c21_ex : exists e s n nd, jreach (S := R_ops) (e, [], s) /\ holds e 2 n /\ nth_error (st_nodes s) n = Some nd /\
  promised (n_type nd) = Some 2.
Proof.
  destruct (hrun (S := R_ops) [HNew; HNew; HBin BMul 0 1] [] (st_empty R_ops)) as [[[e s] out]| | |] eqn:E; try discriminate E.
  exists e, s, 2, (mkN (KBin BMul 0 1) QUADRATIC). split.
  - eapply (hist_reach [HNew; HNew; HBin BMul 0 1]); [apply jreach_0|exact E|]. cbn. repeat split; lia.
  - cbn in E. injection E as <- <- <-. split; [eexists; split; reflexivity|]. split; reflexivity.
Qed.

Lemma c23_ex : regular_un USqrt 4 /\ ~ kink_un USqrt 4 /\ un_grad (S := R_ops) USqrt (1%R : R_ops) (4%R : R_ops) = (/ 4)%R /\
  regular_bin BAtan2 1 (-1) /\ ~ kink_bin BAtan2 1 (-1).
Proof.
  cbn. replace (sqrt 4)%R with 2%R by (symmetry; apply sqrt_lem_1; lra).
  repeat split; try lra; try tauto.
Qed.

(** Evaluating get() of the Jacobian of sin(x) * y. *)
Lemma c25_ex : exists e s j q1 out, jreach (S := R_ops) (e, [(j, false)], s) /\ NoDup (j_wrt j) /\ j_wrt j = [0; 1] /\
  j_vars j = [Some 3] /\ jstep (JGet 0) (e, [(j, false)], s) = Ok (q1, out) /\ jcareful q1 q1 /\
  forall lv, regular (st_nodes s) lv 3.
Proof.
  destruct ex_decides as (e & s & R & N & Hs & _ & D & H3 & D0 & D1).
  destruct (jstep_ok (JMake [3] [0; 1]) _ (jreach_inv _ R) Hs I) as (q1 & out & E & _).
  destruct (jmake_is _ _ _ _ _ _ _ (jreach_inv _ R) Hs E) as (j & s1 & -> & -> & N1 & Vj & Wj).
  assert (R1 : jreach (S := R_ops) (e, [] ++ [(j, false)], s1)) by (eapply jreach_step; eauto; exact I).
  destruct (jstep_ok (JGet 0) _ (jreach_inv _ R1)) as (q2 & out2 & E2 & _); [cbn; lia|exact I|].
  assert (Ew : j_wrt j = [0; 1]).
  { inversion Wj as [|a b ? ? H1 H2 A B]; subst. inversion H2 as [|a' b' ? ? H4 H5 A' B']; subst. inversion H5; subst.
    destruct D0 as (v & X & Y & _), D1 as (v' & X' & Y' & _).
    f_equal; [|f_equal]; [destruct H1 as (w & P & Q & _)|destruct H4 as (w & P & Q & _)]; congruence. }
  assert (Ev : j_vars j = [Some 3]).
  { inversion Vj as [|a b ? ? H1 H2 A B]; subst. inversion H2; subst. f_equal. destruct H3 as (v & X & Y).
    destruct H1 as (w & P & Q). congruence. }
  exists e, s1, j, q2, out2. split; [exact R1|]. split; [rewrite Ew; repeat constructor; cbn; intuition discriminate|].
  split; [exact Ew|]. split; [exact Ev|]. split; [exact E2|]. split; [constructor|].
  intros lv n Hn. apply (tame_smooth _ lv 3); [|exact Hn]. rewrite N1, N. repeat constructor.
Qed.

(** The Hessian of sin(x) * y. *)
Lemma c29_ex : exists e s q1 j s1, jreach (S := R_ops) (e, [], s) /\ jscope (e, [], s) (JHess 3 [0; 1] true) /\
  jstep (JHess 3 [0; 1] true) (e, [], s) = Ok (q1, []) /\ q1 = (e, [(j, true)], s1) /\ jcareful q1 q1 /\ distinct e s [0; 1] /\
  (forall lv n, smooth (st_nodes s1) lv n).
Proof.
  destruct (hrun ex_ops [] (st_empty R_ops)) as [[[e s] out]| | |] eqn:E; try discriminate E.
  assert (R : jreach (S := R_ops) (e, [], s)).
  { eapply (hist_reach ex_ops); [apply jreach_0|exact E|]. cbn. repeat split; lia. }
  destruct (jreach_inv _ R) as ((W & C & F) & A & J).
  destruct (hess_make_ok s (Some 3) [0; 1] W C A) as
    (l & s1 & g & s2 & j & s3 & Et & _ & N1 & _ & _ & _ & Eg & _ & _ & _ & _ & EH & N & _).
  { cbn in E. injection E as <- <- <-. cbn. unfold nlen. cbn. lia. }
  { cbn in E. injection E as <- <- <-. repeat constructor; cbn; unfold nlen; cbn; try lia; discriminate. }
  assert (E10 : R_eqb 1 0 = false) by (apply R_neq_b; lra). assert (E11 : R_eqb 1 1 = true) by (apply R_eqb_eq; reflexivity).
  assert (T : List.Forall tame (st_nodes s2)).
  { cbn in E. injection E as <- <- <-. clear R W C F A J EH N N1. norm in Et. injection Et as <- <-.
    norm in Eg.
    repeat (first [rewrite E10 in Eg | rewrite E11 in Eg | unfold ebind at 1 in Eg]; norm in Eg).
    injection Eg as <- <-. cbn. repeat constructor. }
  assert (X3 : hexpr e 3 = Ok (Some 3)) by (cbn in E; injection E as <- <- <-; reflexivity).
  assert (X01 : omap (hexpr e) [0; 1] = Ok [Some 0; Some 1]) by (cbn in E; injection E as <- <- <-; reflexivity).
  assert (ES : jstep (JHess 3 [0; 1] true) (e, [], s) = Ok ((e, [(j, true)], s3), [])).
  { cbn [jstep]. rewrite X3. cbn [obind]. rewrite X01. cbn [obind]. cbn [map] in EH. rewrite EH. reflexivity. }
  exists e, s, (e, [(j, true)], s3), j, s3. split; [exact R|].
  split; [cbn in E; injection E as <- <- <-; scope|]. split; [exact ES|].
  clear ES R EH. cbn in E. injection E as <- <- <-.
  split; [reflexivity|]. split; [constructor|]. split.
  - intros c c' i i' n Hc Hc' (v & A1 & B & _) (v' & A' & B' & _).
    destruct c as [|[|[|c]]], c' as [|[|[|c']]]; cbn in Hc, Hc'; try discriminate; injection Hc as <-; injection Hc' as <-; try reflexivity;
      cbn in A1, A'; injection A1 as <-; injection A' as <-; cbn in B, B'; congruence.
  - intros lv n. apply tame_smooth. rewrite N. exact T.
Qed.
