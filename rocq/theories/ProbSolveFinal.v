(** Proofs for C34 and C35: what SUCCESS of solve() says about the user's problem. *)
From Coq Require Import ZArith Reals List Bool Arith Lia Lra.
From Verif Require Import Base ExprModel GraphSpec GraphProofs ExprInv VarModel VarReach VarProofs ExprReal ExprXR MathSpec MathProofs VarSpec Faith FaithX HistProofs
  JacModel JacProofs JacReach JacHist JacSame NumModel UtilModel UtilSpec ScaleProofs LinR KktModel KktSpec KktProofs BoundsModel ExitModel SolverModel SolverSpec SolverProofs NewtonModel
  SqpModel SqpSpec SqpProofs IpmModel IpmShape IpmSpec IpmProofs RestoreModel RestoreProofs PosX OutcomeProofs
  FinEval ProblemModel ProblemSpec ProblemInv ProblemProofs ProblemProofs2 ProblemProofs3 ProblemProofs4 ProbSolveModel ProbSolveInv ProbSolveEval ProbSolveSpec ProbSolveProofs ProbSolvePrep
  ProbSolveHist ProbSolveEnd ProbSolveLived.
Import ListNotations.
Local Open Scope nat_scope.

(** *** Finite lists *)
Lemma fin_list (l : list XR) : all_fin (S := Xn) l = true -> exists r, l = fv r.
Proof.
  induction l as [|x l IH]; intros H; [exists []; reflexivity|]. cbn in H. apply andb_prop in H as [H1 H2]. destruct (IH H2) as (r & ->).
  destruct x; try discriminate. exists (r0 :: r). reflexivity.
Qed.
Lemma fin_mat (A : list (list XR)) : mat_fin (S := Xn) A = true -> exists r, A = fm r.
Proof.
  induction A as [|x l IH]; intros H; [exists []; reflexivity|]. cbn in H. apply andb_prop in H as [H1 H2]. destruct (IH H2) as (r & ->).
  destruct (fin_list x H1) as (v & ->). exists (v :: r). reflexivity.
Qed.
Lemma xinf_fin k : s_finite Xn (xinf k) = false.
Proof. unfold xinf. destruct (0 <? k)%Z; [reflexivity|]. destruct (k <? 0)%Z; reflexivity. Qed.
Lemma mul_fin c e : s_finite Xn (X_mul c e) = true -> exists v, e = Fin v.
Proof.
  intros H. destruct e as [v| | |]; [exists v; reflexivity| | |]; exfalso; unfold X_mul in H;
    destruct c; match type of H with context [match xsgn ?a with _ => _ end] => destruct (xsgn a) end;
    try match type of H with context [match xsgn ?a with _ => _ end] => destruct (xsgn a) end; rewrite ?xinf_fin in H; discriminate.
Qed.

(** *** A finite start makes the scaling factors positive numbers *)
Section Start.
Variables (n : nat) (t : setup) (q : jstate X_ops) (x : list XR).

Lemma start_g sc g : g_at (S := Xn) n t q x = Ok g -> all_fin (S := Xn) (cb_g (S := Xn) n t q sc x) = true -> exists r, g = map Fin r.
Proof.
  intros Hg F. unfold g_at in Hg. unfold cb_g in F. destruct (at_x (S := Xn) t q x) as [q'| | |]; cbn [obind] in Hg, F; try discriminate.
  destruct (jget_mat (S := Xn) (t_g t) q') as [m| | |]; cbn [obind total] in Hg, F; try discriminate. injection Hg as <-.
  induction (seq 0 n) as [|j l IH]; [exists []; reflexivity|]. cbn [map all_fin forallb] in F. apply andb_prop in F as [F1 F2].
  destruct (IH F2) as (r & E). cbn [flat_map]. rewrite E. unfold scaled in F1. destruct (stored (S := Xn) m 0 j) eqn:Es.
  - destruct (mul_fin _ _ F1) as (v & Ev). exists (v :: r). cbn [app map]. apply (f_equal (fun z => z :: map Fin r)). exact Ev.
  - exists r. reflexivity.
Qed.

Lemma entries_app (a b : list (nat * nat * R)) : Fin_entries (a ++ b) = Fin_entries a ++ Fin_entries b.
Proof. apply map_app. Qed.

Lemma start_A sc k rows a : A_at (S := Xn) n t q k rows x = Ok a -> mat_fin (S := Xn) (cb_A (S := Xn) n t q k rows sc x) = true -> exists A, a = Fin_entries A.
Proof.
  intros Hg F. unfold A_at in Hg. unfold cb_A in F. destruct (at_x (S := Xn) t q x) as [q'| | |]; cbn [obind] in Hg, F; try discriminate.
  destruct (jget_mat (S := Xn) k q') as [m| | |]; cbn [obind total] in Hg, F; try discriminate. injection Hg as <-.
  assert (Fe : forall i j, In i (seq 0 rows) -> In j (seq 0 n) -> stored (S := Xn) m i j = true -> exists v, entry (S := Xn) m i j = Fin v).
  { intros i j Hi Hj Es. unfold mat_fin, dense in F. rewrite forallb_forall in F. specialize (F _ (in_map _ _ _ Hi)). unfold all_fin in F. rewrite forallb_forall in F.
    specialize (F _ (in_map _ _ _ Hj)). unfold scaled in F. rewrite Es in F. exact (mul_fin _ _ F). }
  clear F. unfold to_sparse. induction (seq 0 n) as [|j l IH]; [exists []; reflexivity|]. cbn [flat_map].
  destruct IH as (A & EA); [intros i j' Hi Hj; apply Fe; [exact Hi|right; exact Hj]|]. rewrite EA.
  assert (exists B, flat_map (fun i => if stored (S := Xn) m i j then [(i, j, entry (S := Xn) m i j)] else []) (seq 0 rows) = Fin_entries B) as (B & EB).
  { assert (Fj : forall i, In i (seq 0 rows) -> stored (S := Xn) m i j = true -> exists v, entry (S := Xn) m i j = Fin v) by (intros i Hi; apply Fe; [exact Hi|left; reflexivity]).
    clear - Fj. induction (seq 0 rows) as [|i l IH]; [exists []; reflexivity|]. cbn [flat_map]. destruct IH as (B & EB); [intros i' Hi; apply Fj; right; exact Hi|]. rewrite EB.
    destruct (stored (S := Xn) m i j) eqn:Es; [|exists B; reflexivity]. destruct (Fj i (or_introl eq_refl) Es) as (v & Ev). exists ((i, j, v) :: B). cbn [app Fin_entries map fst snd].
    apply (f_equal (fun z => (i, j, z) :: Fin_entries B)). exact Ev. }
  exists (B ++ A). rewrite entries_app. rewrite EB. reflexivity.
Qed.
End Start.

Lemma rows_pos rows A : exists d, scale_rows (S := Xn) rows (Fin_entries A) = map Fin d /\ length d = rows /\ forall v, In v d -> (0 < v)%R.
Proof.
  pose proof (scale_rows_length Xn rows (Fin_entries A)) as L.
  assert (H : forall v, In v (scale_rows (S := Xn) rows (Fin_entries A)) -> exists f, v = Fin f /\ (0 < f)%R).
  { intros v I. apply In_nth_error in I as (r & Er). assert (Lr : r < rows) by (rewrite <- L; apply nth_error_Some; congruence).
    destruct (scale_rows_spec A rows r Lr) as (f & Ef & (Pf & _)). rewrite Ef in Er. injection Er as <-. exists f. split; [reflexivity|lra]. }
  set (l := scale_rows _ _) in *. clearbody l. revert rows L. induction l as [|v l IH]; intros rows L; [exists []; split; [reflexivity|split; [exact L|contradiction]]|].
  destruct (H v (or_introl eq_refl)) as (f & -> & Pf). destruct (IH (fun w I => H w (or_intror I)) (length l) eq_refl) as (d & -> & Ld & Pd).
  exists (f :: d). split; [reflexivity|]. split; [cbn in L |- *; rewrite map_length in L; lia|]. intros w [<-|I]; auto.
Qed.

Lemma sqp_scaling (p : prog X_ops) x0 P : sqp_given p x0 P -> all_fin (S := Xn) (sp_g P x0) = true -> mat_fin (S := Xn) (sp_Ae P x0) = true ->
  exists f de, sp_sc P = fsc f de [] /\ (0 < f)%R /\ length de = sp_me P /\ forall v, In v de -> (0 < v)%R.
Proof.
  intros (nodes & t & q & g & Ae & _ & _ & Hg & HA & ->). cbn [sqp_prob sp_g sp_Ae sp_sc sp_me]. intros Fg FA.
  destruct (start_g _ _ _ _ _ _ Hg Fg) as (gr & ->). destruct (start_A _ _ _ _ _ _ _ _ HA FA) as (Ar & ->).
  destruct (scale_of_spec gr) as (f & Ef & (Pf & _)). destruct (rows_pos (length (t_ce t)) Ar) as (de & Ede & Lde & Pde).
  exists f, de. split; [|split; [lra|split; assumption]]. unfold scaling_sqp, fsc. change (fv de) with (map Fin de). rewrite <- Ede. f_equal. exact Ef.
Qed.

Lemma ipm_scaling (p : prog X_ops) x0 P : ipm_given p x0 P -> all_fin (S := Xn) (ip_g P x0) = true -> mat_fin (S := Xn) (ip_Ae P x0) = true -> mat_fin (S := Xn) (ip_Ai P x0) = true ->
  exists f de di, ip_sc P = fsc f de di /\ (0 < f)%R /\ length de = ip_me P /\ length di = ip_mi P /\ (forall v, In v de -> (0 < v)%R) /\ (forall v, In v di -> (0 < v)%R).
Proof.
  intros (nodes & t & q & g & Ae & Ai & _ & _ & Hg & HA & HB & ->). cbn [ipm_prob ip_g ip_Ae ip_Ai ip_sc ip_me ip_mi]. intros Fg FA FB.
  destruct (start_g _ _ _ _ _ _ Hg Fg) as (gr & ->). destruct (start_A _ _ _ _ _ _ _ _ HA FA) as (Ar & ->). destruct (start_A _ _ _ _ _ _ _ _ HB FB) as (Br & ->).
  destruct (scale_of_spec gr) as (f & Ef & (Pf & _)). destruct (rows_pos (length (t_ce t)) Ar) as (de & Ede & Lde & Pde). destruct (rows_pos (length (t_ci t)) Br) as (di & Edi & Ldi & Pdi).
  exists f, de, di. split; [|split; [lra|repeat split; assumption]]. unfold scaling_ipm, fsc. change (fv de) with (map Fin de). change (fv di) with (map Fin di). rewrite <- Ede, <- Edi. f_equal. exact Ef.
Qed.

Lemma newton_scaling (p : prog X_ops) x0 P : newton_given p x0 P -> all_fin (S := Xn) (np_g P x0) = true ->
  exists f, sc_f (np_sc P) = Fin f /\ (0 < f)%R.
Proof.
  intros (nodes & t & q & g & _ & _ & Hg & ->). cbn [newton_prob np_g np_sc]. intros Fg.
  destruct (start_g _ _ _ _ _ _ Hg Fg) as (gr & ->). destruct (scale_of_spec gr) as (f & Ef & (Pf & _)). exists f. split; [exact Ef|lra].
Qed.

(** *** SUCCESS: the start was finite, and the final point has the right shape *)
Section Success.
Context {U : Type}.
Variables (E : env Xn) (o : options Xn).
Hypothesis Hs : solve_ok E.
Hypothesis He : est_ok E.

Lemma sqp_success fuel (P : sprob Xn) (cbs : list (callback Xn U)) x0 u clk fin : sprob_ok P -> length x0 = sp_n P ->
  sqp_solve E o fuel P cbs x0 u clk = Ok (SUCCESS, fin) ->
  all_fin (S := Xn) (sp_g P x0) = true /\ mat_fin (S := Xn) (sp_Ae P x0) = true /\ length (s_x E fin) = sp_n P /\ length (s_y E fin) = sp_me P.
Proof.
  intros Hp Lx H. unfold sqp_solve, sqp, sqp_from in H. apply oassert_ok in H. destruct H as [_ H].
  destruct (Nat.ltb _ _); [discriminate|]. destruct (_ || _) eqn:NF; [discriminate|].
  cbn [sqp_init s_f s_g s_H s_ce s_Ae] in NF. rewrite !orb_false_iff, !negb_false_iff in NF. destruct NF as ((((_ & Fg) & _) & _) & FA). split; [exact Fg|]. split; [exact FA|].
  apply (drive_ok _ _ _ (s_inv E P o (sqp_restore (U := U) E o fuel P) (x0, repeat (s_ofZ Xn 0) (sp_me P)))) in H.
  - destruct H as (st1 & I & [(_ & -> & L)|(L & B)]); [apply I|]. pose proof (sbody_inv E P o cbs _ Hp Hs (sqp_restore_ok E o fuel P Hp Hs He) _ _ _ _ _ I B) as (_ & Ns & _). congruence.
  - intros st1 st2 I _ B. pose proof (sbody_inv E P o cbs _ Hp Hs (sqp_restore_ok E o fuel P Hp Hs He) _ _ _ _ _ I B) as [K _]. exact K.
  - unfold s_inv. cbn [sqp_init s_f s_g s_H s_ce s_Ae s_E s_it s_x s_y].
    do 6 (split; [reflexivity|]). split; [split; [exact Lx|apply repeat_length]|]. split; [lia|]. split; [auto|]. exists O. split; [constructor|lia].
Qed.

Lemma ipm_success fuel (P : iprob Xn) (cbs : list (callback Xn U)) x0 u clk fin : iprob_ok P -> length x0 = ip_n P ->
  ipm_solve E o fuel P cbs x0 u clk = Ok (SUCCESS, fin) ->
  all_fin (S := Xn) (ip_g P x0) = true /\ mat_fin (S := Xn) (ip_Ae P x0) = true /\ mat_fin (S := Xn) (ip_Ai P x0) = true /\
  length (is_x E fin) = ip_n P /\ length (is_s E fin) = ip_mi P /\ length (is_y E fin) = ip_me P /\ length (is_z E fin) = ip_mi P.
Proof.
  intros Hp Lx H. unfold ipm_solve, ipm, ipm_from in H. apply oassert_ok in H. destruct H as [_ H].
  destruct (Nat.ltb _ _); [discriminate|]. destruct (_ || _) eqn:NF; [discriminate|].
  cbn [ipm_init is_f is_g is_H is_ce is_Ae is_ci is_Ai] in NF. rewrite !orb_false_iff, !negb_false_iff in NF. destruct NF as ((((((_ & Fg) & _) & _) & FA) & _) & FB).
  split; [exact Fg|]. split; [exact FA|]. split; [exact FB|].
  set (p0 := mkPt x0 (repeat (s_ofZ Xn 1) (ip_mi P)) (repeat (s_ofZ Xn 0) (ip_me P)) (repeat (s_ofZ Xn 1) (ip_mi P))).
  assert (Pk0 : pt_ok P p0) by (unfold pt_ok, p0; cbn [pt_x pt_s pt_y pt_z]; rewrite !repeat_length; auto).
  assert (Hr : forall rst, Some (ipm_restore (U := U) E o fuel P) = Some rst -> restore_ok P o rst) by (intros rst Q; injection Q as <-; apply ipm_restore_ok; auto).
  apply (drive_ok _ _ _ (i_inv E P o (Some (ipm_restore (U := U) E o fuel P)) 0 p0)) in H.
  - destruct H as (st1 & I & [(_ & -> & L)|(L & B)]).
    + destruct I as (_ & _ & _ & _ & _ & _ & _ & _ & Pk & _). exact Pk.
    + pose proof (body_inv E P o cbs _ Hp Hs Hr _ _ _ _ _ _ I B) as (_ & Ns & _). congruence.
  - intros st1 st2 I _ B. pose proof (body_inv E P o cbs _ Hp Hs Hr _ _ _ _ _ _ I B) as [K _]. exact K.
  - unfold i_inv. cbn [ipm_init is_f is_g is_H is_ce is_Ae is_ci is_Ai is_E is_it is_x is_s is_y is_z point_of].
    do 8 (split; [reflexivity|]). split; [exact Pk0|]. split; [lia|]. split; [auto|]. exists O. split; [constructor|lia].
Qed.
End Success.

(** *** Undoing the scaling *)
Local Open Scope R_scope.
Definition div_rows (de : list R) (A : list (list R)) : list (list R) := map (fun p => map (fun v => v / fst p) (snd p)) (combine de A).
Lemma div_rows_wf r n de A : length de = r -> wf r n A -> wf r n (div_rows de A).
Proof.
  intros L [LA H]. split; [unfold div_rows; rewrite map_length, combine_length; lia|]. intros w I. unfold div_rows in I. apply in_map_iff in I as ((c, v) & <- & I).
  rewrite map_length. apply H. eapply in_combine_r, I.
Qed.
Lemma div_nth c (v : list R) j : 0 < c -> c * (map (fun w => w / c) v).[j] = v.[j].
Proof.
  intros P. destruct (Nat.lt_ge_cases j (length v)) as [H|H].
  - rewrite (nth_indep (map (fun w => w / c) v) 0 (0 / c)) by (rewrite map_length; exact H). rewrite (map_nth (fun w => w / c)). field. lra.
  - rewrite !nth_overflow; [ring|exact H|rewrite map_length; exact H].
Qed.
Lemma div_rows_ent r n de A i j : length de = r -> wf r n A -> (i < r)%nat -> (forall v, In v de -> 0 < v) -> ent A i j = de.[i] * ent (div_rows de A) i j.
Proof.
  intros L [LA _] Hi P. unfold ent, div_rows. assert (Pi : 0 < de.[i]) by (apply P, nth_In; lia).
  rewrite (nth_indep (map (fun p => map (fun v => v / fst p) (snd p)) (combine de A)) [] ((fun p => map (fun v => v / fst p) (snd p)) (0, []))) by (rewrite map_length, combine_length; lia).
  rewrite (map_nth (fun p => map (fun v => v / fst p) (snd p))). rewrite combine_nth by lia. cbn [fst snd]. symmetry. apply div_nth, Pi.
Qed.
Lemma dims_wf r n A : mat_dims (S := Xn) r n (fm A) = true -> wf r n A.
Proof.
  intros H. apply mat_dims_ok in H as [H1 H2]. unfold fm in *. rewrite map_length in H1. split; [exact H1|]. intros w I. rewrite <- (H2 (fv w)); [symmetry; apply fv_len|]. apply in_map, I.
Qed.
Lemma fv_mul (de ge : list R) : vmap2 (S := Xn) X_mul (map Fin de) (map Fin ge) = fv (vmap2 (S := Rn) Rmult de ge).
Proof. apply (vmap2_f X_mul Rmult). reflexivity. Qed.
Lemma mul_nth (de ge : list R) i : length de = length ge -> (vmap2 (S := Rn) Rmult de ge).[i] = de.[i] * ge.[i].
Proof. revert ge i. induction de as [|a de IH]; intros [|b ge] i L; try discriminate; [destruct i; cbn; ring|]. destruct i as [|i]; [reflexivity|]. cbn in L. apply (IH ge i). lia. Qed.
Lemma mul_len2 (de ge : list R) : length de = length ge -> length (vmap2 (S := Rn) Rmult de ge) = length ge.
Proof. revert ge. induction de as [|a de IH]; intros [|b ge] L; try discriminate; [reflexivity|]. cbn in *. f_equal. apply IH. lia. Qed.

Section Near.
Context {U : Type}.
Variables (E : env Xn) (o : options Xn) (t : R).
Hypothesis Hs : solve_ok E.
Hypothesis He : est_ok E.
Hypothesis Ht : o_tol o = Fin t.
Hypothesis Pt : 0 < t.

Lemma sqp_near fuel (P : sprob Xn) (cbs : list (callback Xn U)) x0 u clk fin f de ge :
  sprob_ok P -> length x0 = sp_n P -> (0 < sp_me P)%nat -> sqp_solve E o fuel P cbs x0 u clk = Ok (SUCCESS, fin) ->
  sp_sc P = fsc f de [] -> 0 < f -> length de = sp_me P -> (forall v, In v de -> 0 < v) ->
  all_fin (S := Xn) (sp_g P (s_x E fin)) = true -> mat_fin (S := Xn) (sp_Ae P (s_x E fin)) = true -> all_fin (S := Xn) (s_y E fin) = true ->
  length ge = sp_me P -> sp_ce P (s_x E fin) = vmap2 (S := Xn) X_mul (sc_e (sp_sc P)) (map Fin ge) ->
  forall i, (i < sp_me P)%nat -> Rabs ge.[i] <= t.
Proof.
  intros Hp Lx Me H Sc Pf Ld Pd Fg FA Fy Lg Ec. destruct (sqp_success E o Hs He _ _ _ _ _ _ _ Hp Lx H) as (_ & _ & Lf & Ly).
  destruct (Hp _ Lf) as (Dg & Dc & DA). destruct (fin_list _ Fg) as (g & Eg). destruct (fin_mat _ FA) as (A & EA). destruct (fin_list _ Fy) as (y & Ey).
  rewrite Eg, fv_len in Dg. rewrite EA in DA. apply dims_wf in DA. rewrite Ey, fv_len in Ly.
  rewrite Sc in Ec. change (sc_e (fsc f de [])) with (map Fin de) in Ec. rewrite fv_mul in Ec.
  pose (d' := mkData g A (vmap2 (S := Rn) Rmult de ge) [] []). pose (d := mkData (map (fun v => v / f) g) (div_rows de A) ge [] []).
  assert (K : within_eq (sp_n P) (sp_me P) d (fun i => de.[i] * y.[i] / f) t).
  { eapply (c34_sqp E o t Hs He Ht Pt fuel P cbs x0 u clk fin f de d d' y); eauto.
    - split; [cbn; rewrite map_length; exact Dg|]. split; [apply div_rows_wf; auto|]. split; [exact Lg|]. split; [split; [reflexivity|intros ? []]|reflexivity].
    - split; [split; [exact Dg|split; [exact DA|split; [exact (eq_trans (mul_len2 de ge (eq_trans Ld (eq_sym Lg))) Lg)|split; [split; [reflexivity|intros ? []]|reflexivity]]]]|].
      split; [intros j _; symmetry; apply div_nth, Pf|]. split; [intros i Hi; apply (mul_nth de ge i (eq_trans Ld (eq_sym Lg)))|]. split; [intros i Hi; lia|].
      split; [intros i j Hi; eapply div_rows_ent; eauto|intros i j Hi; lia]. }
  apply K.
Qed.

Lemma ipm_near fuel (P : iprob Xn) (cbs : list (callback Xn U)) x0 u clk fin f de di ge gi :
  iprob_ok P -> length x0 = ip_n P -> (0 < ip_mi P)%nat -> ipm_solve E o fuel P cbs x0 u clk = Ok (SUCCESS, fin) ->
  ip_sc P = fsc f de di -> 0 < f -> length de = ip_me P -> length di = ip_mi P -> (forall v, In v de -> 0 < v) -> (forall v, In v di -> 0 < v) ->
  all_fin (S := Xn) (ip_g P (is_x E fin)) = true -> mat_fin (S := Xn) (ip_Ae P (is_x E fin)) = true -> mat_fin (S := Xn) (ip_Ai P (is_x E fin)) = true ->
  all_fin (S := Xn) (is_x E fin) = true -> all_fin (S := Xn) (is_s E fin) = true -> all_fin (S := Xn) (is_y E fin) = true -> all_fin (S := Xn) (is_z E fin) = true ->
  length ge = ip_me P -> ip_ce P (is_x E fin) = vmap2 (S := Xn) X_mul (sc_e (ip_sc P)) (map Fin ge) ->
  length gi = ip_mi P -> ip_ci P (is_x E fin) = vmap2 (S := Xn) X_mul (sc_i (ip_sc P)) (map Fin gi) ->
  (forall i, (i < ip_me P)%nat -> Rabs ge.[i] <= t) /\ (forall i, (i < ip_mi P)%nat -> - t <= gi.[i]).
Proof.
  intros Hp Lx Mi H Sc Pf Lde Ldi Pde Pdi Fg FA FB Fx Fs Fy Fz Lge Ece Lgi Eci. destruct (ipm_success E o Hs He _ _ _ _ _ _ _ Hp Lx H) as (_ & _ & _ & Lf & Ls & Ly & Lz).
  destruct (Hp _ Lf) as (Dg & Dce & Dci & DA & DB). destruct (fin_list _ Fg) as (g & Eg). destruct (fin_mat _ FA) as (A & EA). destruct (fin_mat _ FB) as (B & EB).
  destruct (fin_list _ Fs) as (s & Es). destruct (fin_list _ Fy) as (y & Ey). destruct (fin_list _ Fz) as (z & Ez).
  rewrite Eg, fv_len in Dg. rewrite EA in DA. apply dims_wf in DA. rewrite EB in DB. apply dims_wf in DB. rewrite Es, fv_len in Ls. rewrite Ey, fv_len in Ly. rewrite Ez, fv_len in Lz.
  rewrite Sc in Ece, Eci. change (sc_e (fsc f de di)) with (map Fin de) in Ece. change (sc_i (fsc f de di)) with (map Fin di) in Eci. rewrite fv_mul in Ece, Eci.
  pose (d' := mkData g A (vmap2 (S := Rn) Rmult de ge) B (vmap2 (S := Rn) Rmult di gi)). pose (d := mkData (map (fun v => v / f) g) (div_rows de A) ge (div_rows di B) gi).
  eapply (c34_ipm E o t Hs He Ht Pt fuel P cbs x0 u clk fin f de di d d' s y z); eauto.
  - split; [cbn; rewrite map_length; exact Dg|]. split; [apply div_rows_wf; auto|]. split; [exact Lge|]. split; [apply div_rows_wf; auto|exact Lgi].
  - split; [split; [exact Dg|split; [exact DA|split; [exact (eq_trans (mul_len2 de ge (eq_trans Lde (eq_sym Lge))) Lge)|split; [exact DB|exact (eq_trans (mul_len2 di gi (eq_trans Ldi (eq_sym Lgi))) Lgi)]]]]|].
    split; [intros j _; symmetry; apply div_nth, Pf|]. split; [intros i Hi; apply (mul_nth de ge i (eq_trans Lde (eq_sym Lge)))|]. split; [intros i Hi; apply (mul_nth di gi i (eq_trans Ldi (eq_sym Lgi)))|].
    split; intros i j Hi; eapply div_rows_ent; eauto.
Qed.
End Near.

Lemma rels_nearly t rho l gs : Forall2 (gap rho) l gs ->
  ((forall r, In r l -> is_eq (r_cmp r) = true) -> (forall i, (i < length l)%nat -> Rabs gs.[i] <= t) -> List.Forall (nearly t rho) l) /\
  ((forall r, In r l -> is_eq (r_cmp r) = false) -> (forall i, (i < length l)%nat -> - t <= gs.[i]) -> List.Forall (nearly t rho) l).
Proof.
  induction 1 as [|r g l gs (a & b & A & B & ->) F [IH1 IH2]]; [split; constructor|]. split; intros Hc Hg; constructor.
  - exists a, b. split; [exact A|]. split; [exact B|]. specialize (Hc r (or_introl eq_refl)). specialize (Hg O ltac:(cbn; lia)). cbn in Hg. destruct (r_cmp r); try discriminate. exact Hg.
  - apply IH1; [intros r' I; apply Hc; right; exact I|]. intros i Hi. apply (Hg (Datatypes.S i)). cbn. lia.
  - exists a, b. split; [exact A|]. split; [exact B|]. specialize (Hc r (or_introl eq_refl)). specialize (Hg O ltac:(cbn; lia)). cbn in Hg. destruct (r_cmp r); try discriminate; lra.
  - apply IH2; [intros r' I; apply Hc; right; exact I|]. intros i Hi. apply (Hg (Datatypes.S i)). cbn. lia.
Qed.
Lemma eqs_kind sp (p : prog X_ops) : plink sp p -> (forall r, In r (sp_eqs sp) -> is_eq (r_cmp r) = true) /\ (forall r, In r (sp_ineqs sp) -> is_eq (r_cmp r) = false).
Proof.
  intros (E & dv & _ & [_ _ _ _ _ T6 T7]). split; intros r I.
  - revert I. clear - T6. induction T6 as [|a b l l' [H _] F IH]; [contradiction|]. intros [<-|I]; auto.
  - revert I. clear - T7. induction T7 as [|a b l l' [H _] F IH]; [contradiction|]. intros [<-|I]; auto.
Qed.
Lemma gap_len rho l gs : Forall2 (gap rho) l gs -> length gs = length l.
Proof. intros F. symmetry. eapply f2len, F. Qed.
