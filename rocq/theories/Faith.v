(** Scalars that compute the user's mathematics exactly wherever it is defined, with the reals embedded in them:
    the reals themselves, and the reals extended with infinities and NaN (FaithX.v). *)
From Coq Require Import ZArith Reals List Bool Lra.
From Verif Require Import Base ExprModel GraphSpec GraphProofs ExprInv VarModel ExprReal MathSpec MathProofs ProblemModel.
Import ListNotations.
Open Scope R_scope.

Class faith (K : sops) := mkFaith {
  inj : R -> car K;
  f_ofZ : forall z, s_ofZ K z = inj (IZR z);
  f_un : forall u x v w, math_un u x v -> simp_un (S := K) u (inj x) w -> w = inj v;
  f_bin : forall b x y v w, math_bin b x y v -> (b = BPow -> ~ (x = 0 /\ y = 0)) -> simp_bin (S := K) b (inj x) (inj y) w -> w = inj v;
  f_eqb0 : forall x, s_eqb K (inj x) (inj 0) = true <-> x = 0;
  f_leb0 : forall x, s_leb K (inj 0) (inj x) = true <-> 0 <= x }.

Global Instance faith_R : faith R_ops := mkFaith R_ops (fun x => x) (fun _ => eq_refl) simp_un_math simp_bin_math
  (fun x => R_eqb_eq x 0) (fun x => R_leb_le 0 x).

Section Inj.
Context {K : sops} {FK : faith K}.

(** The user's statements, with their numbers embedded. *)
Definition hinj (o : hop R_ops) : hop K :=
  match o with
  | HNew => HNew
  | HConst c => HConst (inj c)
  | HUn u i => HUn u i
  | HBin b i j => HBin b i j
  | HHypot3 i j k => HHypot3 i j k
  | HCopy i => HCopy i
  | HAssign i j => HAssign i j
  | HAssignScalar i c => HAssignScalar i (inj c)
  | HSet i x => HSet i (inj x)
  | HValue i => HValue i
  end.

Definition oinj (o : operand R_ops) : operand K :=
  match o with
  | OVar i => OVar i
  | ONum c => ONum (inj c)
  | OVars r c l => OVars r c l
  | ONums r c l => ONums r c (map inj l)
  end.

Definition pinj (o : pop R_ops) : pop K :=
  match o with
  | PH o => PH (hinj o)
  | PCompare c a b => PCompare c (oinj a) (oinj b)
  | PBounds a b c => PBounds (oinj a) (oinj b) (oinj c)
  | PConcat b l => PConcat b l
  | PBool k => PBool k
  | PDecision r c => PDecision r c
  | PSymmetric r => PSymmetric r
  | PMinimize i => PMinimize i
  | PMaximize i => PMaximize i
  | PSubject k => PSubject k
  end.
End Inj.

Lemma hinj_R o : hinj (K := R_ops) o = o.
Proof. destruct o; reflexivity. Qed.
Lemma oinj_R o : oinj (K := R_ops) o = o.
Proof. destruct o; try reflexivity. cbn. f_equal. apply map_id. Qed.
Lemma pinj_R o : pinj (K := R_ops) o = o.
Proof. destruct o; cbn; rewrite ?hinj_R, ?oinj_R; reflexivity. Qed.
Lemma pinjs_R l : map (pinj (K := R_ops)) l = l.
Proof. induction l as [|o l IH]; cbn; rewrite ?pinj_R, ?IH; reflexivity. Qed.
Lemma hinjs_R l : map (hinj (K := R_ops)) l = l.
Proof. induction l as [|o l IH]; cbn; rewrite ?hinj_R, ?IH; reflexivity. Qed.
