(** Proofs about chained comparisons. *)
From Coq Require Import ZArith Reals List Bool Arith Lia Lra.
From Verif Require Import Base ExprModel GraphSpec VarModel ExprReal ExprXR MathSpec VarSpec Faith FaithX HistProofs ProblemModel ProblemSpec
  ProbSolveModel ProbSolveSpec ProbSolveHist ProbSolveEnd ProbSolveLived ProbSolveFacts ChainModel ChainSpec.
Import ListNotations.
Local Open Scope nat_scope.

Notation inj_links := (map (fun cb : cmp * operand R_ops => (fst cb, oinj (K := X_ops) (snd cb)))).

Lemma cons_length sp p : lived sp p -> length (p_cons p) = length (sp_cons sp).
Proof.
  intros Lv. destruct (c31_lived sp p [] sp [] Lv eq_refl) as (p' & out & E & _ & _ & F). cbn in E. injection E as <- _.
  clear -F. induction F; cbn; congruence.
Qed.
Lemma one_step sp p o sp' qs : lived sp p -> spec_step o sp = Some (sp', qs) ->
  exists p' out, pstep (pinj (K := X_ops) o) p = Ok (p', out) /\ Forall2 xanswers qs out /\ lived sp' p'.
Proof.
  intros Lv H. destruct (c31_lived sp p [o] sp' qs Lv) as (p' & out & E & A & Lv' & _).
  { cbn [spec_run]. rewrite H, app_nil_r. reflexivity. }
  cbn [map prun] in E. destruct (pstep _ p) as [[p1 out1]| | |]; cbn [obind] in E; try discriminate E. injection E as <- <-. rewrite app_nil_r in A.
  exists p1, out1. auto.
Qed.

(** The chain is computed, and its result is the link singled out. *)
Lemma chain_ok : forall links a ls sp p, lived sp p -> links_are (sp_se sp) a links ls -> links <> [] ->
  Forall (fun k => Forall (rel_defined (se_val (sp_se sp))) (snd k)) ls ->
  exists p' k sp' b l, chain (oinj (K := X_ops) a) (inj_links links) p = Ok (p', k) /\ singled (se_val (sp_se sp)) ls (b, l) /\
    lived sp' p' /\ nth_error (sp_cons sp') k = Some (b, l) /\ sp_se sp' = sp_se sp /\ sp_dec sp' = sp_dec sp /\ sp_goal sp' = sp_goal sp /\
    sp_eqs sp' = sp_eqs sp /\ sp_ineqs sp' = sp_ineqs sp.
Proof.
  induction links as [|[c b] rest IH]; intros a ls sp p Lv La Ne Df; [congruence|]. inversion La as [|? ? ? ? l ls' Hr La']; subst. clear La Ne.
  inversion Df as [|? ? Df1 Df2]; subst. cbn [map chain fst snd]. rewrite (cons_length sp p Lv).
  destruct (one_step sp p (PCompare c a b) (new_cons sp (is_eq c) l) [] Lv) as (p1 & out1 & E1 & _ & Lv1).
  { cbn [spec_step]. rewrite Hr. reflexivity. }
  cbn [pinj] in E1. rewrite E1. cbn [obind].
  assert (N1 : nth_error (sp_cons (new_cons sp (is_eq c) l)) (length (sp_cons sp)) = Some (is_eq c, l)).
  { cbn [new_cons sp_cons]. rewrite nth_error_app2, Nat.sub_diag by lia. reflexivity. }
  destruct rest as [|link rest].
  { inversion La'; subst. cbn [map]. exists p1, (length (sp_cons sp)), (new_cons sp (is_eq c) l), (is_eq c), l.
    split; [reflexivity|]. split; [constructor|]. split; [exact Lv1|]. split; [exact N1|]. repeat split. }
  cbn [map]. destruct (one_step _ p1 (PBool (length (sp_cons sp))) (new_cons sp (is_eq c) l) [QRel l (se_val (sp_se sp))] Lv1) as (p2 & out2 & E2 & A2 & Lv2).
  { cbn [spec_step]. rewrite N1. reflexivity. }
  cbn [pinj] in E2. rewrite E2. cbn [obind]. inversion A2 as [|? o2 ? os A A']; subst. inversion A'; subst. destruct o2 as [v|t]; [destruct A|]. cbn [xanswers] in A.
  specialize (A Df1). destruct t.
  - destruct (IH b ls' (new_cons sp (is_eq c) l) p2 Lv2 La') as (p' & k & sp' & e & l' & Ec & Si & R); [discriminate|exact Df2|].
    exists p', k, sp', e, l'. split; [exact Ec|]. split; [|exact R]. apply si_holds; [apply A; reflexivity|exact Si].
  - exists p2, (length (sp_cons sp)), (new_cons sp (is_eq c) l), (is_eq c), l. split; [reflexivity|]. split.
    + apply si_fails; [inversion La'; discriminate|]. intros H. apply A in H. discriminate H.
    + split; [exact Lv2|]. split; [exact N1|]. repeat split.
Qed.

Lemma impose_is sp b l : imposes sp (impose sp b l) [(b, l)].
Proof. unfold imposes, impose. destruct b; cbn; rewrite ?app_nil_r; repeat split. Qed.

Lemma c102_one a links ls sp p : lived sp p -> links_are (sp_se sp) a links ls -> links <> [] ->
  Forall (fun k => Forall (rel_defined (se_val (sp_se sp))) (snd k)) ls ->
  exists p' sp' k, subject_chain (oinj (K := X_ops) a) (inj_links links) p = Ok p' /\ lived sp' p' /\ singled (se_val (sp_se sp)) ls k /\ imposes sp sp' [k].
Proof.
  intros Lv La Ne Df. destruct (chain_ok links a ls sp p Lv La Ne Df) as (p1 & k & sp1 & b & l & Ec & Si & Lv1 & N & Q1 & Q2 & Q3 & Q4 & Q5).
  destruct (one_step sp1 p1 (PSubject k) (impose sp1 b l) [] Lv1) as (p' & out & E & _ & Lv').
  { cbn [spec_step]. rewrite N. reflexivity. }
  exists p', (impose sp1 b l), (b, l). unfold subject_chain. rewrite Ec. cbn [obind]. cbn [pinj] in E. rewrite E.
  split; [reflexivity|]. split; [exact Lv'|]. split; [exact Si|]. destruct (impose_is sp1 b l) as (I1 & I2 & I3 & I4 & I5).
  unfold imposes. rewrite I1, I2, I3, I4, I5, Q1, Q2, Q3, Q4, Q5. repeat split.
Qed.

(** bounds(l, x, u) imposes both sides. *)
Lemma c102_bounds lo x up l1 l2 sp p : lived sp p -> rels (sp_se sp) CLe lo x = Some l1 -> rels (sp_se sp) CLe x up = Some l2 ->
  exists p' sp' out, prun (map (pinj (K := X_ops)) [PBounds lo x up; PSubject (length (p_cons p))]) p = Ok (p', out) /\ lived sp' p' /\
    imposes sp sp' [(false, l1); (false, l2)].
Proof.
  intros Lv H1 H2. rewrite (cons_length sp p Lv).
  destruct (c31_lived sp p [PBounds lo x up; PSubject (length (sp_cons sp))] (impose (new_cons sp false (l1 ++ l2)) false (l1 ++ l2)) [] Lv) as (p' & out & E & _ & Lv' & _).
  { cbn [spec_run spec_step]. rewrite H1, H2. cbn [new_cons sp_cons]. rewrite nth_error_app2, Nat.sub_diag by lia. reflexivity. }
  exists p', (impose (new_cons sp false (l1 ++ l2)) false (l1 ++ l2)), out. split; [exact E|]. split; [exact Lv'|].
  unfold imposes. cbn. rewrite !app_nil_r. repeat split.
Qed.

(** ** 0 <= x <= 5 with x = 1 *)
Definition box_ops : list (pop R_ops) := [PDecision 1 1; PH (HSet (S := R_ops) 0 1%R)].
Definition box_links : list (cmp * operand R_ops) := [(CLe, OVar 0); (CLe, ONum (S := R_ops) 5%R)].
Definition box_rels : list (bool * list urel) := [(false, [mkRel CLe (XConst 0%R) (XVar 0)]); (false, [mkRel CLe (XVar 0) (XConst 5%R)])].
Lemma box : exists sp p, spec_run box_ops spec_empty = Some (sp, []) /\ lived sp p /\ sp_eqs sp = [] /\ sp_ineqs sp = [] /\ se_val (sp_se sp) 0 = 1%R /\
  links_are (sp_se sp) (ONum (S := R_ops) 0%R) box_links box_rels /\
  Forall (fun k => Forall (rel_defined (se_val (sp_se sp))) (snd k)) box_rels.
Proof.
  assert (exists sp, spec_run box_ops spec_empty = Some (sp, []) /\ sp_eqs sp = [] /\ sp_ineqs sp = [] /\ se_val (sp_se sp) 0 = 1%R /\ se_exp (sp_se sp) = [XVar 0]) as (sp & Hs & Es & Ei & V & X).
  { eexists. split; [vm_compute; reflexivity|repeat split]. }
  destruct (c31_lived _ _ _ _ _ lived_start Hs) as (p & out & _ & _ & Lv & _). exists sp, p.
  split; [exact Hs|]. split; [exact Lv|]. split; [exact Es|]. split; [exact Ei|]. split; [exact V|]. split.
  - apply (la_cons _ _ CLe _ _ [mkRel CLe (XConst 0%R) (XVar 0)]); [|apply (la_cons _ _ CLe _ _ [mkRel CLe (XVar 0) (XConst 5%R)]); [|constructor]];
      unfold rels, owf; rewrite X; cbn; unfold rel_at, oexp; rewrite X; reflexivity.
  - repeat constructor; cbn; eexists; constructor.
Qed.
Lemma c102_wrong : exists sp p a links ls p' sp' k rho, spec_run box_ops spec_empty = Some (sp, []) /\ lived sp p /\ links_are (sp_se sp) a links ls /\
  subject_chain (oinj (K := X_ops) a) (inj_links links) p = Ok p' /\ lived sp' p' /\ imposes sp sp' [k] /\
  Forall (rel_holds rho) (sp_eqs sp') /\ Forall (rel_holds rho) (sp_ineqs sp') /\ ~ Forall (fun k => Forall (rel_holds rho) (snd k)) ls.
Proof.
  destruct box as (sp & p & Hs & Lv & Es & Ei & V & La & Df).
  destruct (c102_one _ box_links box_rels sp p Lv La ltac:(discriminate) Df) as (p' & sp' & k & E & Lv' & Si & Im).
  exists sp, p, (ONum (S := R_ops) 0%R), box_links, box_rels, p', sp', k, (fun _ => (-1)%R).
  split; [exact Hs|]. split; [exact Lv|]. split; [exact La|]. split; [exact E|]. split; [exact Lv'|]. split; [exact Im|].
  destruct Im as (_ & _ & _ & I1 & I2). rewrite Es in I1. rewrite Ei in I2.
  assert (k = (false, [mkRel CLe (XVar 0) (XConst 5%R)])) as ->.
  { inversion Si as [|? ? ? Nf|? ? ? _ Si']; subst.
    - exfalso. apply Nf. cbn [snd]. constructor; [|constructor]. exists 0%R, 1%R. split; [constructor|]. split; [rewrite <- V; constructor|]. cbn. lra.
    - inversion Si' as [|? ? Ne|? ? ? _ Si2]; subst; [reflexivity|congruence|inversion Si2]. }
  rewrite I1, I2. cbn. split; [constructor|]. split.
  - constructor; [|constructor]. exists (-1)%R, 5%R. split; [apply (XEv_var (fun _ => (-1)%R))|]. split; [constructor|]. cbn. lra.
  - intros H. inversion H as [|? ? H1 _]; subst. cbn [snd] in H1. inversion H1 as [|? ? (x & y & E1 & E2 & C) _]; subst. inversion E1; inversion E2; subst. cbn in C. lra.
Qed.
