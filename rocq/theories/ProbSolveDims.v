(** Shapes of the Hessians solve() hands to its solvers, at every point and for all multipliers. *)
From Coq Require Import ZArith Reals List Bool Arith Lia Lra.
From Verif Require Import Base ExprModel GraphSpec GraphProofs ExprInv VarModel VarReach VarProofs ExprReal ExprXR MathSpec MathProofs VarSpec Faith FaithX HistProofs
  JacModel JacProofs JacReach JacHist JacSame NumModel UtilModel ScaleProofs BoundsModel ExitModel SolverModel NewtonModel SqpModel IpmModel IpmShape RestoreModel RestoreProofs
  FinEval ProblemModel ProblemSpec ProblemInv ProblemProofs ProblemProofs2 ProblemProofs3 ProblemProofs4 ProbSolveModel ProbSolveInv ProbSolveEval ProbSolveSpec ProbSolveProofs ProbSolvePrep ProbSolveEnd.
Import ListNotations.
Local Open Scope nat_scope.

Lemma moved_decides {S : nops} (q : jstate S) ns v q' l ls : moved q ns v q' -> Forall2 (decides (qenv q) (qst q)) l ls -> Forall2 (decides (qenv q') (qst q')) l ls.
Proof.
  intros (_ & E & _ & N & _) F. eapply JacProofs.Forall2_impl; [|exact F]. intros a b (u & U1 & U2 & U3). exists u. rewrite E, N. auto.
Qed.

Section Dims.
Context {S : nops}.
Variables (kd : kind) (p : prog S) (nodes : list nat) (t : setup) (q : jstate S).
Hypothesis Rd : ready kd p nodes t q.
Hypothesis Dec : Forall2 (decides (p_env p) (p_st p)) (p_dec p) nodes.
Let n := length (p_dec p).

Lemma vmap2_len (a b : list S) : length a = length b -> length (vmap2 (s_mul S) a b) = length b.
Proof. intros L. unfold vmap2. rewrite map_length, combine_length, L. apply Nat.min_id. Qed.

Lemma at_xyz_ok sc x y z : length x = n -> length (sc_e sc) = length y -> length (sc_i sc) = length z -> length y = length (p_eq p) -> length z = length (p_ineq p) ->
  exists q', at_xyz t q sc x y z = Ok q' /\ jreach q' /\ qobjs q' = qobjs q.
Proof.
  intros Lx Le Li Ly Lz. destruct (at_x_ok kd p nodes t q Rd Dec x Lx) as (q1 & A1 & M1 & R1).
  destruct (rd_yz _ _ _ _ _ Rd) as (ys & zs & Fy & Fz & _ & Hy & Hz & _).
  destruct (jsets_ok (t_y t) ys (vmap2 (s_mul S) (sc_e sc) y) q1 R1) as (q2 & A2 & M2).
  { eapply moved_decides; eauto. }
  { rewrite vmap2_len by exact Le. rewrite (f2len _ _ _ Fy). lia. }
  pose proof (moved_reach _ _ _ _ R1 M2) as R2.
  destruct (jsets_ok (t_z t) zs (vmap2 (s_mul S) (sc_i sc) z) q2 R2) as (q3 & A3 & M3).
  { eapply moved_decides; [exact M2|]. eapply moved_decides; eauto. }
  { rewrite vmap2_len by exact Li. rewrite (f2len _ _ _ Fz). lia. }
  exists q3. split; [unfold at_xyz; rewrite A1; cbn [obind]; rewrite A2; exact A3|]. split; [eapply moved_reach; eauto|].
  destruct M1 as (_ & _ & O1 & _). destruct M2 as (_ & _ & O2 & _). destruct M3 as (_ & _ & O3 & _). congruence.
Qed.

Lemma Hf_lt : t_Hf t < length (qobjs q). Proof. eapply made_lt; [|apply (rd_Hf _ _ _ _ _ Rd)]. exact I. Qed.
Lemma Hc_lt : kd <> KNewton -> t_Hc t < length (qobjs q).
Proof. intros H. destruct (rd_Hc _ _ _ _ _ Rd H) as (ny & Le & L & _ & _ & _ & _ & M). eapply made_lt; [|exact M]. exact I. Qed.

Lemma Hn_dims sc x : length x = n -> mat_dims n n (cb_H_newton n t q sc x) = true.
Proof.
  intros Lx. destruct (at_x_ok kd p nodes t q Rd Dec x Lx) as (q1 & A1 & (_ & _ & O1 & _) & R1). destruct (jget_mat_ok (t_Hf t) q1 R1) as (m & E); [rewrite O1; apply Hf_lt|].
  unfold cb_H_newton. rewrite A1. cbn [obind]. rewrite E. cbn [obind total]. apply dense_dims.
Qed.
Lemma H_dims sc x y z : kd <> KNewton -> length x = n -> length (sc_e sc) = length y -> length (sc_i sc) = length z -> length y = length (p_eq p) -> length z = length (p_ineq p) ->
  mat_dims n n (cb_H n t q sc x y z) = true /\ mat_dims n n (cb_Hc n t q sc x y z) = true.
Proof.
  intros K Lx Le Li Ly Lz. destruct (at_xyz_ok sc x y z Lx Le Li Ly Lz) as (q1 & A1 & R1 & O1).
  destruct (jget_mat_ok (t_Hf t) q1 R1) as (m & E); [rewrite O1; apply Hf_lt|]. destruct (jget_mat_ok (t_Hc t) q1 R1) as (m' & E'); [rewrite O1; apply Hc_lt, K|].
  unfold cb_H, cb_Hc. rewrite A1. cbn [obind]. rewrite E, E'. cbn [obind total]. split; apply dense_dims.
Qed.
End Dims.

(** For the problems that prepare() makes. *)
Lemma newton_H_dims (p : prog X_ops) x0 P : newton_given p x0 P -> forall x, length x = np_n P -> mat_dims (S := Xn) (np_n P) (np_n P) (np_H P x) = true.
Proof. intros (nodes & t & q & g & D & Rd & _ & ->) x Lx. exact (Hn_dims (S := Xn) KNewton p nodes t q Rd D _ x Lx). Qed.
Lemma sqp_H_dims (p : prog X_ops) x0 P : p_ineq p = [] -> sqp_given p x0 P -> length (sc_e (sp_sc P)) = sp_me P -> sc_i (sp_sc P) = [] -> forall x y, length x = sp_n P -> length y = sp_me P ->
  mat_dims (S := Xn) (sp_n P) (sp_n P) (sp_H P x y) = true /\ mat_dims (S := Xn) (sp_n P) (sp_n P) (sp_Hc P x y) = true.
Proof.
  intros Ni (nodes & t & q & g & Ae & D & Rd & _ & _ & ->). set (sc := scaling_sqp _ _ _). clearbody sc. cbn [sqp_prob sp_n sp_me sp_sc sp_H sp_Hc]. intros L1 L2 x y Lx Ly.
  pose proof (f2len _ _ _ (rd_ce _ _ _ _ _ Rd)) as Q.
  apply (H_dims (S := Xn) KSqp p nodes t q Rd D sc x y []); try assumption; try discriminate; try (exact (f_equal (@length _) L2)).
  - exact (eq_trans L1 (eq_sym Ly)).
  - rewrite Q. exact Ly.
  - exact (eq_sym (f_equal (@length _) Ni)).
Qed.
Lemma ipm_H_dims (p : prog X_ops) x0 P : ipm_given p x0 P -> length (sc_e (ip_sc P)) = ip_me P -> length (sc_i (ip_sc P)) = ip_mi P -> forall x y z, length x = ip_n P -> length y = ip_me P -> length z = ip_mi P ->
  mat_dims (S := Xn) (ip_n P) (ip_n P) (ip_H P x y z) = true /\ mat_dims (S := Xn) (ip_n P) (ip_n P) (ip_Hc P x y z) = true.
Proof.
  intros (nodes & t & q & g & Ae & Ai & D & Rd & _ & _ & _ & ->). set (sc := scaling_ipm _ _ _ _ _). clearbody sc. cbn [ipm_prob ip_n ip_me ip_mi ip_sc ip_H ip_Hc]. intros L1 L2 x y z Lx Ly Lz.
  pose proof (f2len _ _ _ (rd_ce _ _ _ _ _ Rd)) as Q1. pose proof (f2len _ _ _ (rd_ci _ _ _ _ _ Rd)) as Q2.
  apply (H_dims (S := Xn) KIpm p nodes t q Rd D sc x y z); try assumption; try discriminate.
  - exact (eq_trans L1 (eq_sym Ly)).
  - exact (eq_trans L2 (eq_sym Lz)).
  - rewrite Q1. exact Ly.
  - rewrite Q2. exact Lz.
Qed.
