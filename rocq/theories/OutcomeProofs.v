(** Proofs for C34: what SUCCESS says about the constraints. *)
From Coq Require Import ZArith Reals List Bool Lia Lra.
From Verif Require Import Base ExprModel ExprReal ExprXR NumModel UtilModel LinR KktModel KktSpec KktProofs FilterModel FilterProofs ExitModel SolverModel SolverSpec SolverProofs
  NewtonModel SqpModel SqpSpec SqpProofs IpmModel IpmShape IpmSpec IpmProofs RestoreModel RestoreProofs XArith PosX PosProofs FinEval.
Import ListNotations.
Local Open Scope R_scope.

Section Outcome.
Context {U : Type}.
Variables (E : env Xn) (o : options Xn) (t : R).
Hypothesis Hs : solve_ok E.
Hypothesis He : est_ok E.
Hypothesis Ht : o_tol o = Fin t.
Hypothesis Pt : 0 < t.

Lemma c34_sqp fuel (P : sprob Xn) (cbs : list (callback Xn U)) x0 u clk st f de (d d' : data) y :
  sprob_ok P -> length x0 = sp_n P -> (0 < sp_me P)%nat ->
  sqp_solve E o fuel P cbs x0 u clk = Ok (SUCCESS, st) ->
  sp_sc P = fsc f de [] -> 0 < f -> length de = sp_me P -> (forall v, In v de -> 0 < v) ->
  data_ok (sp_n P) (sp_me P) 0 d -> is_scaled (sp_n P) (sp_me P) 0 f (fun i => de.[i]) (fun _ => 0) d d' ->
  sp_g P (s_x _ st) = fv (D_g d') -> sp_Ae P (s_x _ st) = fm (D_Ae d') -> sp_ce P (s_x _ st) = fv (D_ce d') ->
  s_y _ st = fv y -> length y = sp_me P ->
  within_eq (sp_n P) (sp_me P) d (fun i => de.[i] * y.[i] / f) t.
Proof.
  intros Hp Lx Me H Sc Pf Ld Pd Dk Is Eg EA Ec Ey Ly. apply sqp_solve_meaning in H; auto. destruct H as (M & _). cbn [sqp_means] in M. unfold serror_at in M.
  rewrite Sc, Eg, EA, Ec, Ey in M. rewrite unscaled_sqp_f in M; [|lra|intros v I; specialize (Pd v I); lra|lia|lia].
  rewrite Ht, xltb in M. apply R_ltb_false in M. apply c41_sqp with (4 := Ld) (d' := d'); auto. lra.
Qed.
Lemma c34_ipm fuel (P : iprob Xn) (cbs : list (callback Xn U)) x0 u clk st f de di (d d' : data) s y z :
  iprob_ok P -> length x0 = ip_n P -> (0 < ip_mi P)%nat ->
  ipm_solve E o fuel P cbs x0 u clk = Ok (SUCCESS, st) ->
  ip_sc P = fsc f de di -> 0 < f -> length de = ip_me P -> length di = ip_mi P -> (forall v, In v de -> 0 < v) -> (forall v, In v di -> 0 < v) ->
  data_ok (ip_n P) (ip_me P) (ip_mi P) d -> is_scaled (ip_n P) (ip_me P) (ip_mi P) f (fun i => de.[i]) (fun i => di.[i]) d d' ->
  ip_g P (is_x _ st) = fv (D_g d') -> ip_Ae P (is_x _ st) = fm (D_Ae d') -> ip_ce P (is_x _ st) = fv (D_ce d') ->
  ip_Ai P (is_x _ st) = fm (D_Ai d') -> ip_ci P (is_x _ st) = fv (D_ci d') ->
  is_s _ st = fv s -> is_y _ st = fv y -> is_z _ st = fv z -> length s = ip_mi P -> length y = ip_me P -> length z = ip_mi P -> all_fin (is_x _ st) = true ->
  within (ip_n P) (ip_me P) (ip_mi P) d (fun i => s.[i] / di.[i]) (fun i => de.[i] * y.[i] / f) (fun i => di.[i] * z.[i] / f) (0 / f) t /\
  (forall i, (i < ip_me P)%nat -> Rabs ((D_ce d).[i]) <= t) /\ (forall i, (i < ip_mi P)%nat -> - t <= (D_ci d).[i]).
Proof.
  intros Hp Lx Mi H Sc Pf Lde Ldi Pde Pdi Dk Is Eg EA Ec EB Ed Es Ey Ez Ls Ly Lz Fx. pose proof H as H'.
  apply ipm_solve_meaning in H; auto. destruct H as (M & _). cbn [ipm_means] in M. unfold error_at, point_of in M. cbn [pt_x pt_s pt_y pt_z] in M.
  rewrite Sc, Eg, EA, Ec, EB, Ed, Es, Ey, Ez in M. change (s_ofZ Xn 0) with (Fin 0) in M.
  rewrite unscaled_ipm_f in M; [|lra|intros v I; specialize (Pde v I); lra|intros v I; specialize (Pdi v I); lra|lia|lia].
  rewrite Ht, xltb in M. apply R_ltb_false in M. apply (c41 (ip_n P) (ip_me P) (ip_mi P) d d' f de di s y z 0 t) in M; auto; [|lra].
  split; [exact M|]. destruct M as (M1 & M2 & M3 & M4). split; [exact M3|].
  assert (Ps : List.Forall pos (fv s)).
  { apply (ipm_solve_pos E o False Hs He) with (V := fun _ => True) in H'; auto; try contradiction.
    - destruct H' as [_ K]. specialize (K eq_refl). rewrite Es in K. destruct K as [K|[K|K]]; [congruence| |apply K].
      apply not_true_iff_false in K. exfalso. apply K. apply all_fin_Forall. unfold fv. rewrite List.Forall_map. apply List.Forall_forall. intros; reflexivity.
    - rewrite Ht. apply pos_Fin. exact Pt.
    - rewrite Sc. apply pos_Fin. exact Pf. }
  intros i Li. specialize (M4 i Li). 
  assert (0 < s.[i]).
  { rewrite List.Forall_forall in Ps. destruct (Ps (Fin s.[i])) as (r & Q & Pr). { unfold fv. apply in_map. apply nth_In. lia. } injection Q as ->. exact Pr. }
  assert (0 < di.[i]) by (apply Pdi, nth_In; lia). assert (0 < s.[i] / di.[i]) by (apply Rdiv_lt_0_compat; auto).
  unfold Rabs in M4. destruct (Rcase_abs _) in M4; lra.
Qed.
End Outcome.
