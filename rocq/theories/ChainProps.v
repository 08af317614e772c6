(** C102: chained comparisons of variables in Python. *)
From Coq Require Import Reals List Bool.
From Verif Require Import Base ExprModel GraphSpec VarModel ExprReal ExprXR MathSpec VarSpec Faith FaithX ProblemModel ProblemSpec
  ProbSolveModel ProbSolveSpec ProbSolveHist ProbSolveEnd ProbSolveLived ProbSolveFacts ChainModel ChainSpec ChainProofs ChainEx.
Import ListNotations.

(** subject_to(a c1 b c2 d ...), in any state a program can bring a problem to: one link of the chain is imposed and no
    other, the first that the present values do not meet, or the last one. *)
Theorem C102_one : forall a links ls sp p, lived sp p -> links_are (sp_se sp) a links ls -> links <> [] ->
  Forall (fun k => Forall (rel_defined (se_val (sp_se sp))) (snd k)) ls ->
  exists p' sp' k, subject_chain (oinj (K := X_ops) a) (map (fun cb => (fst cb, oinj (K := X_ops) (snd cb))) links) p = Ok p' /\
    lived sp' p' /\ singled (se_val (sp_se sp)) ls k /\ imposes sp sp' [k].
Proof. exact c102_one. Qed.
Print Assumptions C102_one.

(** subject_to(bounds(l, x, u)) imposes both links. *)
Theorem C102_bounds : forall lo x up l1 l2 sp p, lived sp p -> rels (sp_se sp) CLe lo x = Some l1 -> rels (sp_se sp) CLe x up = Some l2 ->
  exists p' sp' out, prun (map (pinj (K := X_ops)) [PBounds lo x up; PSubject (length (p_cons p))]) p = Ok (p', out) /\ lived sp' p' /\
    imposes sp sp' [(false, l1); (false, l2)].
Proof. exact c102_bounds. Qed.
Print Assumptions C102_bounds.

(** Every link being imposed is false: with x = 1, subject_to(0 <= x <= 5) leaves x = -1 allowed. *)
Theorem C102_all_refuted : exists sp p a links ls p' sp' k rho, spec_run box_ops spec_empty = Some (sp, []) /\ lived sp p /\
  links_are (sp_se sp) a links ls /\
  subject_chain (oinj (K := X_ops) a) (map (fun cb => (fst cb, oinj (K := X_ops) (snd cb))) links) p = Ok p' /\ lived sp' p' /\ imposes sp sp' [k] /\
  Forall (rel_holds rho) (sp_eqs sp') /\ Forall (rel_holds rho) (sp_ineqs sp') /\ ~ Forall (fun k => Forall (rel_holds rho) (snd k)) ls.
Proof. exact c102_wrong. Qed.
Print Assumptions C102_all_refuted.

(** The hypotheses are met: 0 <= x <= 5 with x = 1, both ways of writing it. *)
Example C102_one_case : exists sp p p' sp', lived sp p /\ links_are (sp_se sp) (ONum (S := R_ops) 0%R) box_links box_rels /\
  Forall (fun k => Forall (rel_defined (se_val (sp_se sp))) (snd k)) box_rels /\
  subject_chain (oinj (K := X_ops) (ONum (S := R_ops) 0%R)) (inj_links box_links) p = Ok p' /\ lived sp' p' /\
  sp_ineqs sp' = [mkRel CLe (XVar 0) (XConst 5%R)].
Proof. exact ex_inside. Qed.
Example C102_bounds_case : exists sp p l1 l2, lived sp p /\ rels (sp_se sp) CLe (ONum (S := R_ops) 0%R) (OVar 0) = Some l1 /\
  rels (sp_se sp) CLe (OVar 0) (ONum (S := R_ops) 5%R) = Some l2 /\ length l1 = 1%nat /\ length l2 = 1%nat.
Proof. exact ex_bounds. Qed.
