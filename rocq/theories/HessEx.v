(** Cases for C100: x * x + cos(x), convex because its second derivative 2 - cos(x) is positive; maximize(x * x), which is
    not; the runs of C88. *)
From Coq Require Import ZArith QArith Reals List Bool Arith Lia Lra FunctionalExtensionality.
From Coquelicot Require Import Hierarchy Derive AutoDerive.
From Verif Require Import Base ExprModel MathSpec VarModel VarSpec ExprReal ExprXR HistProofs NumModel ExitModel SolverModel SolverSpec DiffSpec SmoothSpec ProblemModel ProblemSpec
  ProbSolveModel ProbSolveSpec ProbSolveHist ProbSolveLived ProbSolveFacts LagrSpec ProbSolveEx ProbSolveKktEx RunY ProbSolveRun SmoothUser FiniteUseSpec FiniteUse ConvexSpec ConvexUse ConvexEx LinR QuadSpec QuadUse RateSpec RateEx HessSpec HessProofs HessUse.
Import ListNotations.
Local Open Scope R_scope.

Lemma wavy_test : exists sp p, spec_run wavy_ops spec_empty = Some (sp, []) /\ lived sp p /\ smooth_everywhere sp /\ hessian_test sp /\ convex_problem sp.
Proof.
  destruct wavy_spec as (sp & Hs & Ed & Eg & Es & Ei & _). destruct (c31_lived _ _ _ _ _ lived_start Hs) as (p & out & _ & _ & Lv & _). exists sp, p.
  assert (Sm : smooth_everywhere sp) by (intros y _; apply wavy_smooth; assumption).
  assert (H : hessian_test sp).
  { split; [|rewrite Es, Ei; split; intros r []]. intros y Q L HQ v. destruct (wavy_curved sp Eg Ed y Q L HQ v) as [K _].
    assert (0 <= norm_sq (size sp) v) by (apply sumn_nonneg; intros i _; apply Rle_0_sqr). lra. }
  split; [exact Hs|]. split; [exact Lv|]. split; [exact Sm|]. split; [exact H|]. exact (proj2 (c100_test sp p Lv Sm) H).
Qed.

(** maximize(x * x) *)
Definition dome_ops : list (pop R_ops) := [PDecision 1 1; PH (HBin BMul 0 0); PMaximize 1].
Lemma dome_spec : exists sp, spec_run dome_ops spec_empty = Some (sp, []) /\ sp_dec sp = [0%nat] /\ sp_goal sp = Some (true, XBin BMul (XVar 0) (XVar 0)) /\ sp_eqs sp = [] /\ sp_ineqs sp = [].
Proof. eexists. split; [reflexivity|repeat split]. Qed.
Lemma dome_test : exists sp p, spec_run dome_ops spec_empty = Some (sp, []) /\ lived sp p /\ smooth_everywhere sp /\ ~ hessian_test sp.
Proof.
  destruct dome_spec as (sp & Hs & Ed & Eg & Es & Ei). destruct (c31_lived _ _ _ _ _ lived_start Hs) as (p & out & _ & _ & Lv & _). exists sp, p.
  split; [exact Hs|]. split; [exact Lv|].
  assert (C : forall rho, cost_is sp rho (- (rho 0%nat * rho 0%nat))).
  { intros rho. unfold cost_is. rewrite Eg. split; [cbn; repeat split; discriminate|]. eexists. split; [econstructor; constructor|reflexivity]. }
  assert (D1 : forall rho, pd 0%nat (cost_is sp) rho (- (2 * rho 0%nat))).
  { intros rho. exists (fun t => - (t * t)). split; [apply (filter_forall (F := locally _)); intros t; exact (C (upd rho 0%nat t))|]. auto_derive; [exact I|ring]. }
  assert (D2 : forall rho, pd 0%nat (pd 0%nat (cost_is sp)) rho (- 2)).
  { intros rho. exists (fun t => - (2 * t)). split; [apply (filter_forall (F := locally _)); intros t; exact (D1 (upd rho 0%nat t))|]. auto_derive; [exact I|ring]. }
  split.
  - intros y _. unfold prob_smooth, goal_smooth, all_smooth. rewrite Eg, Es, Ei. split; [|split; constructor]. eexists. econstructor; [constructor|constructor|constructor|left; exact I|intros []].
  - intros (H & _). specialize (H [0] (fun _ _ => - 2)). unfold size, second_at in H. unfold size in H. rewrite Ed in H. cbn [length] in H.
    specialize (H eq_refl). assert (K : 0 <= form 1 (fun _ _ => - 2) (fun _ => 1)). { apply H. intros i j Li Lj. assert (i = 0%nat) as -> by lia. assert (j = 0%nat) as -> by lia. apply D2. }
    unfold form in K. cbn [sumn] in K. lra.
Qed.
Lemma square_test : exists sp x l, spec_run from1_ops spec_empty = Some (sp, []) /\ smooth_everywhere sp /\ hessian_test sp /\ ended_newton (U := Datatypes.unit) down_env (opts_y 5) [] sp SUCCESS x l.
Proof.
  destruct square_convex as (sp & x & l & A & B & C & D). exists sp, x, l. split; [exact A|]. split; [exact B|]. split; [|exact D]. destruct D as [p ? ? ? ? ? ? ? ? Lv]. exact (proj1 (c100_test sp p Lv B) C).
Qed.
Lemma ride_test : exists sp x y l, smooth_everywhere sp /\ hessian_test sp /\ sp_eqs sp <> [] /\ ended (U := Datatypes.unit) down_env (opts_y 5) [] sp SUCCESS x [] y [] l.
Proof.
  destruct ride_convex as (sp & x & y & l & A & B & C & D). exists sp, x, y, l. split; [exact A|]. split; [|split; [exact C|exact D]].
  remember (@nil XR) as s0 eqn:Es in D. clear Es. destruct D as [p ? ? ? ? ? ? ? ? Lv|p ? ? ? ? ? ? ? ? Lv]; exact (proj1 (c100_test sp p Lv A) B).
Qed.
Lemma square_given : exists sp p P x0 p1, spec_run from1_ops spec_empty = Some (sp, []) /\ lived sp p /\ smooth_everywhere sp /\ prepare p = Ok (RanNewton P, x0, p1) /\ convex_problem sp.
Proof. destruct square_convex as (sp & x & l & A & B & C & D). destruct D as [p P x0 p1 ? ? ? ? ? Lv Hp]. exists sp, p, P, x0, p1. split; [exact A|]. split; [exact Lv|]. split; [exact B|]. split; [exact Hp|exact C]. Qed.
