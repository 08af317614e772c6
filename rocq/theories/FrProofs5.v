(** Proofs for C73: where feasibility restoration starts. *)
From Coq Require Import ZArith Reals List Bool Lia Lra.
From Verif Require Import Base ExprModel ExprReal ExprXR NumModel LinR UtilModel UtilSpec KktModel FilterModel ExitModel SolverModel NewtonModel SqpModel IpmModel RestoreModel
  UtilProofs RestoreProofs.
Import ListNotations.
Local Open Scope R_scope.

Lemma segR_mid (a b c : list R) p m : length a = p -> length b = m -> segment (S := Rn) (a ++ b ++ c) p m = b.
Proof.
  intros <- <-. unfold segment. change (car (nbase Rn)) with R. rewrite skipn_app, skipn_all, Nat.sub_diag. cbn. rewrite firstn_app, Nat.sub_diag, firstn_all. cbn. apply app_nil_r.
Qed.
Lemma posR_nth (l : list R) i : List.Forall (fun v => 0 < v) l -> (i < length l)%nat -> 0 < nth i l 0.
Proof. intros F H. rewrite Forall_forall in F. apply F, nth_In, H. Qed.

Section Start.
Variables (P : iprob Rn) (x s : list R) (mu : R).
Notation n := (ip_n P).
Notation me := (ip_me P).
Notation mi := (ip_mi P).
Notation k := (2 * ip_me P + 2 * ip_mi P)%nat.
Hypothesis Hx : length x = n.
Hypothesis Hs : length s = mi.
Hypothesis Hce : @length R (ip_ce P x) = me.
Hypothesis Hci : @length R (ip_ci P x) = mi.
Hypothesis Ps : List.Forall (fun v => 0 < v) s.
Hypothesis Pmu : 0 < mu.

Lemma c73_start : let '(frx, frs, frz, m) := fr_ipm_start (S := Rn) P x s mu in
  let Q := fr_ipm_prob (S := Rn) P x (sqrt m) in
  let e : list R := ip_ce Q frx in let c : list R := ip_ci Q frx in
  length frx = (n + k)%nat /\ @length R frs = (mi + k)%nat /\ @length R frz = (mi + k)%nat /\ firstn n frx = x /\
  mu <= m /\ length e = me /\ length c = (mi + k)%nat /\
  (forall r, (r < me)%nat -> e.[r] = 0) /\
  (forall r, (r < mi)%nat -> c.[r] = (frs : list R).[r]) /\
  (forall r, (r < mi + k)%nat -> 0 < c.[r] /\ 0 < (frs : list R).[r] /\ 0 < (frz : list R).[r] /\ c.[r] * (frz : list R).[r] = m).
Proof.
  unfold fr_ipm_start. change (car (nbase Rn)) with R.
  set (cis := vsub (S := Rn) (ip_ci P x) s). set (m := smax (S := Rn) (smax (S := Rn) mu (norminf (ip_ce P x))) (norminf cis)).
  assert (Lcis : @length R cis = mi) by (unfold cis, vsub; rewrite vmap2_length_R; change (car (nbase Rn)) with R; lia).
  assert (Hm : mu <= m). { unfold m. rewrite !smax_R. eapply Rle_trans; [|apply Rmax_l]. apply Rmax_l. }
  pose proof (c48 (ip_ce P x) 1000 m ltac:(lra) ltac:(lra)) as C1. pose proof (c48 cis 1000 m ltac:(lra) ltac:(lra)) as C2.
  change (fr_rho (S := Rn)) with 1000. destruct (compute_p_n (S := Rn) (ip_ce P x) 1000 m) as [pe ne]. destruct (compute_p_n (S := Rn) cis 1000 m) as [pi ni].
  change (car (nbase Rn)) with R in *. destruct C1 as (L1 & L2 & C1). destruct C2 as (L3 & L4 & C2). rewrite Hce in L1, L2. rewrite Lcis in L3, L4.
  set (W := pe ++ ne ++ pi ++ ni). assert (LW : length W = k) by (unfold W; rewrite !app_length; lia).
  assert (Ppe : List.Forall (fun v => 0 < v) pe). { apply Forall_forall. intros v Hv. apply (In_nth _ _ 0) in Hv. destruct Hv as (i & Hi & <-). apply C1. rewrite Hce. lia. }
  assert (Pne : List.Forall (fun v => 0 < v) ne). { apply Forall_forall. intros v Hv. apply (In_nth _ _ 0) in Hv. destruct Hv as (i & Hi & <-). apply C1. rewrite Hce. lia. }
  assert (Ppi : List.Forall (fun v => 0 < v) pi). { apply Forall_forall. intros v Hv. apply (In_nth _ _ 0) in Hv. destruct Hv as (i & Hi & <-). apply C2. rewrite Lcis. lia. }
  assert (Pni : List.Forall (fun v => 0 < v) ni). { apply Forall_forall. intros v Hv. apply (In_nth _ _ 0) in Hv. destruct Hv as (i & Hi & <-). apply C2. rewrite Lcis. lia. }
  assert (PW : List.Forall (fun v => 0 < v) W) by (unfold W; repeat (apply Forall_app; split); assumption).
  assert (Ez : vscale (S := Rn) m (vinv (S := Rn) s) ++ vscale (S := Rn) m (vinv (S := Rn) pe) ++ vscale (S := Rn) m (vinv (S := Rn) ne) ++ vscale (S := Rn) m (vinv (S := Rn) pi) ++ vscale (S := Rn) m (vinv (S := Rn) ni)
    = map (fun v => m * (1 / v)) (s ++ W)).
  { unfold W, vscale, vinv. rewrite !map_map, !map_app. reflexivity. }
  change (car (nbase Rn)) with R in *. rewrite Ez. cbn [fr_ipm_prob ip_ce ip_ci]. unfold fr_ce, fr_ci. change (car (nbase Rn)) with R in *.
  assert (S0 : segment (S := Rn) (x ++ W) 0 n = x). { unfold segment. cbn [skipn]. rewrite <- Hx, firstn_app, Nat.sub_diag, firstn_all. cbn. apply app_nil_r. }
  assert (S1 : segment (S := Rn) (x ++ W) n me = pe) by (apply segR_mid; assumption).
  assert (S2 : segment (S := Rn) (x ++ W) (n + me) me = ne). { unfold W. rewrite app_assoc. apply segR_mid; [rewrite app_length; lia|assumption]. }
  assert (S3 : segment (S := Rn) (x ++ W) (n + 2 * me) mi = pi). { unfold W. rewrite (app_assoc pe), (app_assoc x). apply segR_mid; [rewrite !app_length; lia|assumption]. }
  assert (S4 : segment (S := Rn) (x ++ W) (n + 2 * me + mi) mi = ni). { unfold W. rewrite (app_assoc ne), (app_assoc pe), (app_assoc x). rewrite <- (app_nil_r ni) at 1. apply segR_mid; [rewrite !app_length; lia|assumption]. }
  assert (S5 : segment (S := Rn) (x ++ W) n k = W). { rewrite <- (app_nil_r W) at 1. apply segR_mid; assumption. }
  rewrite S0, S1, S2, S3, S4, S5. set (ci' := vadd (S := Rn) (vsub (S := Rn) (ip_ci P x) pi) ni).
  assert (La : @length R (vsub (S := Rn) (ip_ci P x) pi) = mi) by (unfold vsub; rewrite vmap2_length_R; change (car (nbase Rn)) with R; lia).
  assert (Lci' : @length R ci' = mi) by (unfold ci', vadd; rewrite vmap2_length_R; change (car (nbase Rn)) with R; lia).
  assert (Eci : ci' = s).
  { apply (nth_ext _ _ 0 0); [change (car (nbase Rn)) with R; lia|]. intros i Hi. change (car (nbase Rn)) with R in Hi. rewrite Lci' in Hi. unfold ci'. change (car (nbase Rn)) with R. rewrite vadd_nth by lia. rewrite vsub_nth by lia.
    destruct (C2 i ltac:(lia)) as (_ & _ & E & _). unfold cis in E. rewrite vsub_nth in E by lia. lra. }
  assert (Lb : @length R (vsub (S := Rn) (ip_ce P x) pe) = me) by (unfold vsub; rewrite vmap2_length_R; change (car (nbase Rn)) with R; lia).
  rewrite Eci. change (car (nbase Rn)) with R. repeat split.
  - rewrite app_length; lia.
  - rewrite app_length, repeat_length. lia.
  - rewrite map_length, app_length. lia.
  - rewrite <- Hx, firstn_app, Nat.sub_diag, firstn_all. cbn. apply app_nil_r.
  - exact Hm.
  - unfold vadd. rewrite vmap2_length_R. change (car (nbase Rn)) with R. lia.
  - rewrite app_length. lia.
  - intros r Hr. rewrite vadd_nth by lia. rewrite vsub_nth by lia. destruct (C1 r ltac:(lia)) as (_ & _ & E & _). exact E.
  - intros r Hr. rewrite !app_nth1 by lia. reflexivity.
  - apply posR_nth; [apply Forall_app; auto|]. rewrite app_length. lia.
  - apply posR_nth; [|rewrite app_length, repeat_length; lia]. apply Forall_app. split; [exact Ps|]. apply Forall_forall. intros v Hv. apply repeat_spec in Hv. rewrite Hv. cbn. lra.
  - rewrite (nth_map_lt _ _ _ 0) by (rewrite app_length; lia). assert (0 < nth r (s ++ W) 0) by (apply posR_nth; [apply Forall_app; auto|rewrite app_length; lia]).
    apply Rmult_lt_0_compat; [lra|]. apply Rdiv_lt_0_compat; lra.
  - rewrite (nth_map_lt _ _ _ 0) by (rewrite app_length; lia). assert (0 < nth r (s ++ W) 0) by (apply posR_nth; [apply Forall_app; auto|rewrite app_length; lia]). field. lra.
Qed.
End Start.

(** The slacks of the bounds on the relaxation variables are 1, not those variables: min 0 subject to x = 0 from x = 0. *)
Definition linear1 : iprob Rn :=
  mkIP (S := Rn) 1 1 0 (fun _ => 0) (fun _ => [0]) (fun _ _ _ => [[0]]) (fun _ _ _ => [[0]]) (fun x => x) (fun _ => [[1]]) (fun _ => []) (fun _ => []) (mkSc (S := Rn) 1 [1] []).
Lemma c73_refuted : let '(frx, frs, frz, m) := fr_ipm_start (S := Rn) linear1 [0] [] 1 in
  m = 1 /\ frs = [1; 1] /\ (frz : list R).[0%nat] = 1000 /\ (frz : list R).[1%nat] = 1000.
Proof.
  unfold fr_ipm_start. cbn. unfold smax, p_n. cbn. unfold R_ltb. rewrite Rabs_R0. destruct (Rlt_dec 1 0); [lra|]. cbn. destruct (Rlt_dec 1 0); [lra|]. cbn.
  replace ((1000 * 0 - 1) * (1000 * 0 - 1) - 4 * 1000 * (- (1) * 0 / 2)) with 1 by field. rewrite sqrt_1. repeat split; field.
Qed.
