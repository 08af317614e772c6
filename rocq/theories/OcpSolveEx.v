(** A program for C86: the integrator over two steps of 1/2, with states 0, 1, 3 under inputs 2, 4 as its first guess. *)
From Coq Require Import ZArith Reals List Bool Arith Lia Lra.
From Verif Require Import Base ExprModel GraphSpec GraphProofs ExprInv VarModel VarReach VarProofs ExprReal ExprXR MathSpec MathProofs VarSpec Faith FaithX HistProofs
  JacModel JacProofs JacReach JacHist JacSame NumModel UtilModel UtilSpec ScaleProofs LinR KktModel KktSpec KktProofs BoundsModel ExitModel SolverModel SolverSpec SolverProofs NewtonModel NewtonSpec NewtonProofs
  SqpModel SqpSpec SqpProofs IpmModel IpmShape IpmSpec IpmProofs RestoreModel RestoreProofs PosX PosProofs OutcomeProofs XArith FilterModel FilterProofs
  FinEval ProblemModel ProblemSpec ProblemInv ProblemProofs ProblemProofs2 ProblemProofs3 ProblemProofs4 ProbSolveModel ProbSolveInv ProbSolveEval ProbSolveSpec ProbSolveProofs ProbSolvePrep
  ProbSolveHist ProbSolveEnd ProbSolveLived ProbSolveFinal ProbSolveFacts ProbSolveEx DiffSpec SmoothSpec SmoothGraph SmoothUser LagrSpec ProbSolveMade ProbSolveDeriv ProbSolveDims ProbSolveKkt ProbSolveKkt2 ProbSolveKktEx RunY ProbSolveRun
  ProbSolveTotal ProbTotalEx EarlySpec ProbSolveBounds ProbEarly ProbEarly2 ProbEarlyEx ProbSolveNone OcpModel OcpSpec OcpEx OcpSolveSpec.
Import ListNotations.
Local Open Scope nat_scope.

Definition ride : ocp := mkOcp 2 (mkM 1 3 [6; 7; 8]) (mkM 1 3 [0; 1; 2]) (mkM 1 3 [3; 4; 5]).
Definition ride_code : list (pop R_ops) :=
  [PDecision 1 3; PH HNew; PH HNew; PH HNew; PH (HAssignScalar (S := R_ops) 3 (1 / 2)%R); PH (HAssignScalar (S := R_ops) 4 (1 / 2)%R); PH (HAssignScalar (S := R_ops) 5 (1 / 2)%R);
   PDecision 1 3; PH (HConst (S := R_ops) 0%R);
   PH (HBin BMul 3 0); PH (HBin BAdd 6 10); PCompare CEq (OVars 1 1 [7]) (OVars 1 1 [11]); PSubject 0; PH (HBin BAdd 9 3);
   PH (HBin BMul 4 1); PH (HBin BAdd 7 13); PCompare CEq (OVars 1 1 [8]) (OVars 1 1 [14]); PSubject 1; PH (HBin BAdd 12 4)].
Definition ride_guess : list (pop R_ops) :=
  [PH (HSet (S := R_ops) 0 2%R); PH (HSet (S := R_ops) 1 4%R); PH (HSet (S := R_ops) 7 1%R); PH (HSet (S := R_ops) 8 3%R)].

Lemma ride_made : ocp_make 1 1 (1 / 2)%R 2 integrator DISCRETE FIXED DIRECT_TRANSCRIPTION (mkGen 0 0 []) = Ok (ride, mkGen 16 2 ride_code).
Proof. reflexivity. Qed.

Lemma run_later l : forall ops a b qs, spec_run ops a = Some (b, qs) -> (forall o, In o ops -> ~ assigns o l) -> later l a b.
Proof.
  intros ops. induction ops as [|o ops IH] using rev_ind; intros a b qs H NA.
  - cbn in H. injection H as <- <-. constructor.
  - assert (Q : exists m q1 q2, spec_run ops a = Some (m, q1) /\ spec_step o m = Some (b, q2)).
    { clear IH NA. revert a b qs H. induction ops as [|o' ops IH]; intros a b qs H; cbn [app spec_run] in H.
      - destruct (spec_step o a) as [[m q]|] eqn:E; [|discriminate]. cbn in H. injection H as <- _. exists a, [], q. auto.
      - destruct (spec_step o' a) as [[m q]|] eqn:E; [|discriminate]. destruct (spec_run (ops ++ [o]) m) as [[m' q']|] eqn:E'; [|discriminate]. injection H as <- _.
        destruct (IH _ _ _ E') as (w & q1 & q2 & A & B). exists w, (q ++ q1), q2. split; [cbn [spec_run]; rewrite E, A; reflexivity|exact B]. }
    destruct Q as (m & q1 & q2 & A & B). eapply later_step; [apply (IH _ _ _ A); intros o' Ho; apply NA, in_or_app; left; exact Ho|exact B|]. apply NA, in_or_app. right. left. reflexivity.
Qed.

Definition ride_at (h a b c d : R) : list (pop R_ops) * list (pop R_ops) :=
  ([PDecision 1 3; PH HNew; PH HNew; PH HNew; PH (HAssignScalar (S := R_ops) 3 h); PH (HAssignScalar (S := R_ops) 4 h); PH (HAssignScalar (S := R_ops) 5 h);
   PDecision 1 3; PH (HConst (S := R_ops) 0%R);
   PH (HBin BMul 3 0); PH (HBin BAdd 6 10); PCompare CEq (OVars 1 1 [7]) (OVars 1 1 [11]); PSubject 0; PH (HBin BAdd 9 3);
   PH (HBin BMul 4 1); PH (HBin BAdd 7 13); PCompare CEq (OVars 1 1 [8]) (OVars 1 1 [14]); PSubject 1; PH (HBin BAdd 12 4)],
   [PH (HSet (S := R_ops) 0 a); PH (HSet (S := R_ops) 1 b); PH (HSet (S := R_ops) 7 c); PH (HSet (S := R_ops) 8 d)]).
Lemma ride_spec_at h a b c d : exists sp1 sp, spec_run (fst (ride_at h a b c d)) spec_empty = Some (sp1, []) /\ sync (mkGen 16 2 ride_code) sp1 /\ spec_run (snd (ride_at h a b c d)) sp1 = Some (sp, []) /\
  sp_dec sp = [0; 1; 2; 6; 7; 8] /\ sp_goal sp = None /\ sp_ineqs sp = [] /\
  sp_eqs sp = [mkRel CEq (XVar 7) (XBin BAdd (XVar 6) (XBin BMul (XConst h) (XVar 0))); mkRel CEq (XVar 8) (XBin BAdd (XVar 7) (XBin BMul (XConst h) (XVar 1)))] /\
  (se_val (sp_se sp) 0 = a /\ se_val (sp_se sp) 1 = b /\ se_val (sp_se sp) 6 = 0%R /\ se_val (sp_se sp) 7 = c /\ se_val (sp_se sp) 8 = d) /\
  forall j, In j [6; 7; 8] -> nth_error (se_exp (sp_se sp)) j = Some (XVar j).
Proof.
  eexists _, _. split; [vm_compute; reflexivity|]. split; [split; reflexivity|]. split; [vm_compute; reflexivity|]. repeat split.
  intros j [<-|[<-|[<-|[]]]]; reflexivity.
Qed.
Lemma ride_spec : exists sp1 sp, spec_run ride_code spec_empty = Some (sp1, []) /\ sync (mkGen 16 2 ride_code) sp1 /\ spec_run ride_guess sp1 = Some (sp, []) /\
  sp_dec sp = [0; 1; 2; 6; 7; 8] /\ sp_goal sp = None /\ sp_ineqs sp = [] /\
  sp_eqs sp = [mkRel CEq (XVar 7) (XBin BAdd (XVar 6) (XBin BMul (XConst (1 / 2)%R) (XVar 0))); mkRel CEq (XVar 8) (XBin BAdd (XVar 7) (XBin BMul (XConst (1 / 2)%R) (XVar 1)))] /\
  (se_val (sp_se sp) 0 = 2%R /\ se_val (sp_se sp) 1 = 4%R /\ se_val (sp_se sp) 6 = 0%R /\ se_val (sp_se sp) 7 = 1%R /\ se_val (sp_se sp) 8 = 3%R) /\
  forall j, In j [6; 7; 8] -> nth_error (se_exp (sp_se sp)) j = Some (XVar j).
Proof. exact (ride_spec_at (1 / 2)%R 2%R 4%R 1%R 3%R). Qed.

Lemma ride_smooth rho i j k : all_smooth rho [mkRel CEq (XVar i) (XBin BAdd (XVar j) (XBin BMul (XConst (1 / 2)%R) (XVar k)))].
Proof.
  constructor; [|constructor]. split; cbn [r_l r_r]; [eexists; constructor|]. eexists. econstructor; [constructor|econstructor; [constructor|constructor|constructor|left; cbn; auto|cbn; auto]|constructor|left; cbn; auto|cbn; auto].
Qed.
Lemma ride_gap rho i j k v : gap rho (mkRel CEq (XVar i) (XBin BAdd (XVar j) (XBin BMul (XConst (1 / 2)%R) (XVar k)))) v <-> v = (rho i - (rho j + 1 / 2 * rho k))%R.
Proof.
  unfold gap. cbn [r_l r_r r_cmp]. split.
  - intros (a & b & A & B & ->). inversion A; subst. inversion B as [| | |? ? ? x y ? Bx By Bm]; subst. inversion Bx; subst. inversion By as [| | |? ? ? x' y' ? Cx Cy Cm]; subst. inversion Cx; subst. inversion Cy; subst. inversion Cm; subst. inversion Bm; subst. reflexivity.
  - intros ->. exists (rho i), (rho j + 1 / 2 * rho k)%R. split; [constructor|]. split; [|reflexivity]. econstructor; [constructor|econstructor; [constructor|constructor|constructor]|constructor].
Qed.

Lemma ride_runs : exists sp1 sp p P x0 p1, did (ocp_make 1 1 (1 / 2)%R 2 integrator DISCRETE FIXED DIRECT_TRANSCRIPTION) (mkGen 0 0 []) spec_empty ride (mkGen 16 2 ride_code) sp1 /\
  later (handles ride) sp1 sp /\ (forall rho, prob_smooth sp rho) /\ (sp_goal sp = None /\ sp_ineqs sp = [] /\
    forall r, In r (sp_eqs sp) -> exists i j k, r = mkRel CEq (XVar i) (XBin BAdd (XVar j) (XBin BMul (XConst (1 / 2)%R) (XVar k)))) /\ lived sp p /\ prepare p = Ok (RanSqp P, x0, p1) /\
  (forall (U : Type) (u : U) (E : env Xn) (o : options Xn) t, o_tol o = Fin t -> (0 < t)%R ->
     exists fin, sqp_solve E o 1 P ([] : list (callback Xn U)) x0 u 0 = Ok (SUCCESS, fin) /\ s_x E fin = map Fin (now sp) /\ all_fin (S := Xn) (s_y E fin) = true) /\
  shows_states (sp_se sp) (point sp (now sp)) ride (fun k => nth k [[0%R]; [1%R]; [3%R]] []).
Proof.
  destruct ride_spec as (sp1 & sp & R1 & Sy & R2 & Ed & Eg & Ei & Ee & (V0 & V1 & V6 & V7 & V8) & Ex).
  assert (Rs : spec_run (ride_code ++ ride_guess) spec_empty = Some (sp, [])).
  { assert (Q : forall l a m q, spec_run l a = Some (m, q) -> forall l', spec_run (l ++ l') a = match spec_run l' m with Some (c, q') => Some (c, q ++ q') | None => None end).
    { induction l as [|o l IH]; intros a m q H l'; cbn [app spec_run] in *; [injection H as <- <-; destruct (spec_run l' a) as [[? ?]|]; reflexivity|].
      destruct (spec_step o a) as [[m' q']|]; [|discriminate]. destruct (spec_run l m') as [[m2 q2]|] eqn:E; [|discriminate]. injection H as <- <-. rewrite (IH _ _ _ E l'). destruct (spec_run l' m2) as [[? ?]|]; [rewrite app_assoc|]; reflexivity. }
    rewrite (Q _ _ _ _ R1 ride_guess), R2. reflexivity. }
  destruct (c31_lived _ _ _ _ _ lived_start Rs) as (p & out & _ & _ & Lv & _).
  assert (Sm : forall rho, prob_smooth sp rho).
  { intros rho. split; [unfold goal_smooth; rewrite Eg; exact I|]. rewrite Ee, Ei. split; [|constructor]. constructor; [exact (List.Forall_inv (ride_smooth rho 7 6 0))|exact (ride_smooth rho 8 7 1)]. }
  assert (Pn : forall k, point sp (now sp) k = se_val (sp_se sp) k) by exact (now_point sp).
  assert (Rn : exists P x0 p1, prepare p = Ok (RanSqp P, x0, p1)).
  { destruct (prepare_total sp p Lv Ei) as (rn & x0 & p1 & Hp).
    destruct (solve_picks sp p rn x0 p1 Lv Hp) as (tf & te & ti & F1 & F2 & F3 & C & M). destruct (c35_none sp p rn x0 p1 Lv Hp) as [_ Hn].
    destruct rn as [|P|P|P|].
    + exfalso. destruct (Hn eq_refl (fun _ => 0%R) (fun k => if Nat.eqb k 7 then 1%R else 0%R)) as [_ Q].
      assert (In (mkRel CEq (XVar 7) (XBin BAdd (XVar 6) (XBin BMul (XConst (1 / 2)%R) (XVar 0)))) (sp_eqs sp ++ sp_ineqs sp)) as Ir by (rewrite Ee; left; reflexivity).
      pose proof (List.Forall_inv (all_smooth_defined _ _ (ride_smooth (fun _ => 0%R) 7 6 0))) as D1. pose proof (List.Forall_inv (all_smooth_defined _ _ (ride_smooth (fun k => if Nat.eqb k 7 then 1%R else 0%R) 7 6 0))) as D2.
      pose proof (Q _ _ _ Ir D1 D2 (proj2 (ride_gap _ 7 6 0 _) eq_refl) (proj2 (ride_gap _ 7 6 0 _) eq_refl)) as Z. cbn in Z. lra.
    + destruct M as [M _]. rewrite Ee in M. discriminate.
    + exists P, x0, p1. exact Hp.
    + exfalso. exact (M Ei).
    + exfalso. exact (M Ei). }
  destruct Rn as (P & x0 & p1 & Hp). exists sp1, sp, p, P, x0, p1. split; [|split; [|split; [exact Sm|split; [split; [exact Eg|split; [exact Ei|rewrite Ee; intros r [<-|[<-|[]]]; eauto]]|split; [exact Lv|split; [exact Hp|split]]]]]].
  - split; [exact ride_made|]. split; [exact Sy|]. exists ride_code. split; [reflexivity|exact R1].
  - apply (run_later _ _ _ _ _ R2). intros o [<-|[<-|[<-|[<-|[]]]]]; cbn; auto.
  - intros U u E o t Ht Pt.
    assert (St : settled sp t).
      { split.
        - intros k d Hk Pd. replace d with 0%R; [rewrite Rabs_R0; lra|]. symmetry. apply (pd_fun k (cost_is sp) _ d 0%R (fun rho a b => cost_det sp rho a b) Pd). exists (fun _ => 0%R). split.
          + apply Hierarchy.filter_forall. intros a. unfold cost_is. rewrite Eg. reflexivity.
          + apply (@Derive.is_derive_const Hierarchy.R_AbsRing Hierarchy.R_NormedModule).
        - intros r g Hr Hg. rewrite Ee in Hr. replace g with 0%R; [rewrite Rabs_R0; lra|]. destruct Hr as [<-|[<-|[]]]; apply ride_gap in Hg; subst g; rewrite ?V0, ?V1, ?V6, ?V7, ?V8; lra. }
      destruct (sqp_settled_y sp p Lv (Sm _) P x0 p1 t Hp Pt St ltac:(rewrite Ed, Ee; cbn; lia) U E o [] 1 u 0 Ht (le_n _)) as (fin & H & Hx & Hy).
      destruct (sqp_start sp p Lv (Sm _) P x0 p1 Hp) as (Ex0 & _). exists fin. split; [exact H|]. split; [rewrite Hx; exact Ex0|exact Hy].
  - intros k Hk. cbn in Hk. 
    assert (H : forall j v, In j [6; 7; 8] -> se_val (sp_se sp) j = v -> has (sp_se sp) (point sp (now sp)) j v).
    { intros j v Hj <-. exists (XVar j). split; [apply Ex, Hj|]. rewrite <- (Pn j). constructor. }
    destruct k as [|[|[|k]]]; [| | |lia]; (split; [reflexivity|]); intros i x Hx; (destruct i as [|i]; [|destruct i; discriminate]); injection Hx as <-.
    + exists 6. split; [reflexivity|]. apply H; [cbn; auto|exact V6].
    + exists 7. split; [reflexivity|]. apply H; [cbn; auto|exact V7].
    + exists 8. split; [reflexivity|]. apply H; [cbn; auto|exact V8].
Qed.
Lemma ride_case : exists sp1 sp y, did (ocp_make 1 1 (1 / 2)%R 2 integrator DISCRETE FIXED DIRECT_TRANSCRIPTION) (mkGen 0 0 []) spec_empty ride (mkGen 16 2 ride_code) sp1 /\
  later (handles ride) sp1 sp /\ prob_smooth sp (se_val (sp_se sp)) /\ prob_smooth sp (point sp y) /\
  (forall (U : Type) (u : U) (E : env Xn) (o : options Xn) t, o_tol o = Fin t -> (0 < t)%R -> succeeded (U := U) E o sp y) /\
  shows_states (sp_se sp) (point sp y) ride (fun k => nth k [[0%R]; [1%R]; [3%R]] []).
Proof.
  destruct ride_runs as (sp1 & sp & p & P & x0 & p1 & D & L & Sm & _ & Lv & Hp & R & V). exists sp1, sp, (now sp). split; [exact D|]. split; [exact L|]. split; [apply Sm|]. split; [apply Sm|]. split; [|exact V].
  intros U u E o t Ht Pt. destruct (R U u E o t Ht Pt) as (fin & H & Hx & Hy). eapply succ_sqp; [exact Lv|exact Hp|exact H|exact Hx|exact Hy].
Qed.
