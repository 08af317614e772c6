(** Chained comparisons: concrete cases. *)
From Coq Require Import Reals List Bool Lra.
From Verif Require Import Base ExprModel GraphSpec VarModel ExprReal ExprXR MathSpec VarSpec Faith FaithX ProblemModel ProblemSpec
  ProbSolveModel ProbSolveSpec ProbSolveHist ProbSolveEnd ProbSolveLived ProbSolveFacts ChainModel ChainSpec ChainProofs.
Import ListNotations.

(** subject_to(0 <= x <= 5) with x = 1: all that C102_one asks for is met, and what is imposed is x <= 5. *)
Lemma ex_inside : exists sp p p' sp', lived sp p /\ links_are (sp_se sp) (ONum (S := R_ops) 0%R) box_links box_rels /\
  Forall (fun k => Forall (rel_defined (se_val (sp_se sp))) (snd k)) box_rels /\
  subject_chain (oinj (K := X_ops) (ONum (S := R_ops) 0%R)) (inj_links box_links) p = Ok p' /\ lived sp' p' /\
  sp_ineqs sp' = [mkRel CLe (XVar 0) (XConst 5%R)].
Proof.
  destruct box as (sp & p & Hs & Lv & Es & Ei & V & La & Df).
  destruct (c102_one _ box_links box_rels sp p Lv La ltac:(discriminate) Df) as (p' & sp' & k & E & Lv' & Si & _ & _ & _ & _ & I).
  exists sp, p, p', sp'. split; [exact Lv|]. split; [exact La|]. split; [exact Df|]. split; [exact E|]. split; [exact Lv'|]. rewrite I, Ei. clear E Lv' I.
  inversion Si as [|? ? ? Nf|? ? ? _ Si']; subst.
  - exfalso. apply Nf. cbn [snd]. constructor; [|constructor]. exists 0%R, 1%R. split; [constructor|]. split; [rewrite <- V; constructor|]. cbn. lra.
  - inversion Si' as [|? ? Ne|? ? ? _ Si2]; subst; [reflexivity|congruence|inversion Si2].
Qed.

(** subject_to(bounds(0, x, 5)). *)
Lemma ex_bounds : exists sp p l1 l2, lived sp p /\ rels (sp_se sp) CLe (ONum (S := R_ops) 0%R) (OVar 0) = Some l1 /\
  rels (sp_se sp) CLe (OVar 0) (ONum (S := R_ops) 5%R) = Some l2 /\ length l1 = 1%nat /\ length l2 = 1%nat.
Proof.
  destruct box as (sp & p & _ & Lv & _ & _ & _ & La & _). inversion La as [|? ? ? ? ? ? H1 La']; subst. inversion La' as [|? ? ? ? ? ? H2 _]; subst.
  eexists sp, p, _, _. split; [exact Lv|]. split; [exact H1|]. split; [exact H2|]. split; reflexivity.
Qed.
