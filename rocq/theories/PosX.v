(** Positivity and finiteness of what the interior-point method computes, with NaN and infinities. *)
From Coq Require Import ZArith Reals List Bool Lra Lia.
From Verif Require Import Base ExprModel ExprReal ExprXR NumModel UtilModel KktModel FilterModel FilterProofs ExitModel SolverModel SolverProofs NewtonModel
  SqpModel IpmModel IpmShape LinR ScaleProofs UtilProofs XArith.
Import ListNotations.
Local Open Scope R_scope.

Definition pos (v : XR) : Prop := exists r, v = Fin r /\ 0 < r.
Lemma pos_fin v : pos v -> fin v. Proof. intros (r & -> & _). reflexivity. Qed.
Lemma pos_Fin r : 0 < r -> pos (Fin r). Proof. exists r. auto. Qed.

(** ** Lists *)
Lemma all_fin_Forall (l : list XR) : all_fin (S := Xn) l = true <-> List.Forall fin l.
Proof. unfold all_fin, fin. rewrite forallb_forall, List.Forall_forall. tauto. Qed.
Lemma Forall_map2_r (f : XR -> XR -> XR) (Q R : XR -> Prop) : (forall a b, Q (f a b) -> R b) ->
  forall a b, length a = length b -> List.Forall Q (vmap2 (S := Xn) f a b) -> List.Forall R b.
Proof.
  intros H. induction a as [|x a IH]; intros [|y b] L F; try discriminate; [constructor|]. inversion F; subst. constructor; eauto.
Qed.
Lemma Forall_map2_l (f : XR -> XR -> XR) (Q R : XR -> Prop) : (forall a b, Q (f a b) -> R a) ->
  forall a b, length a = length b -> List.Forall Q (vmap2 (S := Xn) f a b) -> List.Forall R a.
Proof.
  intros H. induction a as [|x a IH]; intros [|y b] L F; try discriminate; [constructor|]. inversion F; subst. constructor; eauto.
Qed.
Lemma Forall_map2 (f : XR -> XR -> XR) (Q R T : XR -> Prop) : (forall a b, Q a -> R b -> T (f a b)) ->
  forall a b, List.Forall Q a -> List.Forall R b -> List.Forall T (vmap2 (S := Xn) f a b).
Proof.
  intros H. induction a as [|x a IH]; intros [|y b] F G; try (constructor; fail). inversion F; inversion G; subst.
  constructor; [cbn; auto|]. apply IH; auto.
Qed.
Lemma vsum_from (l : list XR) a : fin (fold_left (s_add Xn) l a) -> fin a /\ List.Forall fin l.
Proof.
  revert a. induction l as [|x l IH]; intros a H; cbn [fold_left] in H; [split; [exact H|constructor]|].
  apply IH in H. destruct H as [H1 H2]. apply fin_add in H1. destruct H1. split; [|constructor]; auto.
Qed.
Lemma vsum_fin (l : list XR) : fin (vsum (S := Xn) l) -> List.Forall fin l.
Proof. intros H. apply vsum_from in H. apply H. Qed.
Lemma vsum_Fin_from (l : list XR) a : List.Forall fin l -> fin a -> fin (fold_left (s_add Xn) l a).
Proof.
  intros F. revert a. induction F as [|x l Fx Fl IH]; intros a Ha; cbn [fold_left]; auto. apply IH.
  apply fin_Fin in Fx, Ha. destruct Fx as [r ->], Ha as [q ->]. reflexivity.
Qed.
Lemma vsum_Fin (l : list XR) : List.Forall fin l -> fin (vsum (S := Xn) l).
Proof. intros F. apply vsum_Fin_from; auto. reflexivity. Qed.
Lemma fin_add_r x y : fin x -> fin y -> fin (s_add Xn x y).
Proof. destruct x, y; intros; try discriminate; reflexivity. Qed.
Lemma fin_sub_r x y : fin x -> fin y -> fin (s_sub Xn x y).
Proof. destruct x, y; intros; try discriminate; reflexivity. Qed.
Lemma fin_mul_r x y : fin x -> fin y -> fin (s_mul Xn x y).
Proof. destruct x, y; intros; try discriminate; reflexivity. Qed.
Lemma fin_mul_l m y : fin (s_mul Xn (Fin m) y) -> fin y.
Proof.
  destruct (Req_EM_T m 0) as [->|]; [|apply fin_mul; auto]. destruct y; auto; intros H; exfalso; unfold fin in H; cbn -[Rlt_dec] in H;
    destruct (Rlt_dec 0 0); try lra; discriminate.
Qed.
Lemma vdot_fin (a b : list XR) : List.Forall fin a -> List.Forall fin b -> fin (vdot (S := Xn) a b).
Proof. intros. apply vsum_Fin. apply (Forall_map2 _ fin fin); auto. apply fin_mul_r. Qed.
Lemma mvec_fin A (x : list XR) : mat_fin (S := Xn) A = true -> List.Forall fin x -> List.Forall fin (mvec (S := Xn) A x).
Proof.
  intros H F. unfold mat_fin in H. rewrite forallb_forall in H. apply List.Forall_forall. intros v I. unfold mvec in I. apply in_map_iff in I.
  destruct I as (r & <- & I). apply vdot_fin; auto. apply all_fin_Forall. apply H. exact I.
Qed.

(** ** The barrier term *)
Lemma fin_log x : fin (s_log Xn x) -> pos x.
Proof.
  destruct x; intros H; try discriminate. unfold fin in H. cbn -[Req_EM_T Rlt_dec] in H.
  destruct (Req_EM_T r 0); [discriminate|]. destruct (Rlt_dec 0 r); [apply pos_Fin; auto|discriminate].
Qed.
Lemma fin_cost f (mu : R) (s : list XR) : mu <> 0 -> fin (s_sub Xn f (s_mul Xn (Fin mu) (vsum (S := Xn) (map (s_log Xn) s)))) -> List.Forall pos s.
Proof.
  intros M H. apply fin_sub in H. destruct H as [_ H]. apply fin_mul in H; auto. apply vsum_fin in H.
  rewrite List.Forall_map in H. eapply List.Forall_impl; [|exact H]. intros a. apply fin_log.
Qed.
Lemma try_add_fin (flt : filter Xn) cur e d a flt' : try_add flt cur e d a = (flt', true) -> fin (fe_cost e).
Proof.
  unfold try_add. destruct (s_finite Xn (fe_cost e)) eqn:F; [intros _; exact F|]. cbn [negb orb]. discriminate.
Qed.

(** ** The fraction-to-the-boundary rule *)
Lemma R_ltb_false' a b : R_ltb a b = false -> b <= a.
Proof. intros H. apply R_ltb_false in H. exact H. Qed.
Definition kept (b : R) (x p : XR) : Prop :=
  match p with Fin _ => pos (s_add Xn x (s_mul Xn (Fin b) p)) | MInf => b = 0 | _ => True end.
Lemma ftb_from_X t : 0 < t < 1 -> forall (x p : list XR) a, List.Forall pos x -> length p = length x -> 0 <= a <= 1 ->
  exists b, ftb_from (S := Xn) x p (Fin t) (Fin a) = Fin b /\ 0 <= b <= a /\ List.Forall2 (kept b) x p.
Proof.
  intros Ht. induction x as [|v x IH]; intros p a F L Ha; (destruct p as [|q p]; [try discriminate|]); [|discriminate|].
  { exists a. split; [reflexivity|]. split; [lra|constructor]. }
  inversion F as [|? ? (r & -> & Hr) F']; subst. cbn [ftb_from]. rewrite xopp, xmul.
  assert (K : exists a', (if s_ltb Xn (s_mul Xn (Fin a) q) (Fin (- t * r)) then s_mul Xn (s_div Xn (Fin (- t)) q) (Fin r) else Fin a) = Fin a' /\
    0 <= a' <= a /\ match q with Fin w => - t * r <= a' * w | MInf => a' = 0 | _ => True end).
  { destruct q as [w| | |].
    - rewrite xmul, xltb. destruct (R_ltb (a * w) (- t * r)) eqn:C.
      + apply R_ltb_true in C. assert (Hw : w < 0) by nra. rewrite xdiv by lra. rewrite xmul. exists (- t / w * r).
        assert (Hq : 0 < - t / w * r). { replace (- t / w * r) with (t * r * / - w) by (field; lra). apply Rmult_lt_0_compat; [nra|]. apply Rinv_0_lt_compat. lra. }
        assert (Hm : - t / w * r * w = - t * r) by (field; lra).
        split; [reflexivity|]. split; [split; [lra|]|lra]. apply Rmult_le_reg_r with (- w); [lra|]. rewrite !Ropp_mult_distr_r_reverse. rewrite Hm. lra.
      + apply R_ltb_false' in C. exists a. split; [reflexivity|]. split; lra.
    - exists a. split; [|split; [lra|exact I]]. cbn -[Rlt_dec]. destruct (Rlt_dec 0 a); [reflexivity|]. destruct (Rlt_dec a 0); [lra|reflexivity].
    - cbn -[Rlt_dec Req_EM_T Rmult]. destruct (Rlt_dec 0 a).
      + exists 0. cbn. rewrite Rmult_0_l. split; [reflexivity|]. split; lra.
      + exists a. destruct (Rlt_dec a 0); [lra|]. split; [reflexivity|]. split; lra.
    - exists a. split; [reflexivity|]. split; [lra|exact I]. }
  destruct K as (a' & -> & Ha' & K). destruct (IH p a' F' ltac:(cbn in L; lia) ltac:(lra)) as (b & E & Hb & G). exists b.
  split; [exact E|]. split; [lra|]. constructor; [|exact G]. unfold kept. destruct q as [w| | |]; auto; [|lra].
  rewrite xmul, xadd. apply pos_Fin. destruct (Rle_dec 0 w); [|]; nra.
Qed.
Lemma ftb_X t (x p : list XR) : 0 < t < 1 -> List.Forall pos x -> length p = length x ->
  exists b, ftb (S := Xn) x p (Fin t) = Fin b /\ 0 <= b <= 1 /\ List.Forall2 (kept b) x p.
Proof. intros. apply ftb_from_X; auto. lra. Qed.

(** Nothing moved by an infinite or undefined step stays a number, except to infinity. *)
Lemma kept_step b (x p : list XR) : 0 <= b -> List.Forall2 (kept b) x p -> List.Forall pos x -> List.Forall (fun v => v <> NaN) (vstep (S := Xn) x (Fin b) p) ->
  List.Forall (fun v => pos v \/ v = PInf) (vstep (S := Xn) x (Fin b) p) /\
  (List.Forall fin p \/ exists v, List.In v (vstep (S := Xn) x (Fin b) p) /\ v = PInf).
Proof.
  intros Hb. unfold vstep, vadd, vscale, vmap2. induction 1 as [|v q x p K F IH]; intros P N; cbn [map combine fst snd] in *. { split; [constructor|left; constructor]. }
  inversion P as [|? ? (r & -> & Hr) P']; inversion N as [|? ? N1 N2]; subst. destruct (IH P' N2) as [I1 I2].
  assert (Q : (fin q /\ pos (s_add Xn (Fin r) (s_mul Xn (Fin b) q))) \/ s_add Xn (Fin r) (s_mul Xn (Fin b) q) = PInf).
  { destruct q as [w| | |]; cbn [kept] in K.
    - left. split; [reflexivity|exact K].
    - cbn -[Rlt_dec] in N1 |- *. destruct (Rlt_dec 0 b); auto. destruct (Rlt_dec b 0); [|contradiction]. exfalso. lra.
    - subst b. cbn -[Rlt_dec] in N1. destruct (Rlt_dec 0 0); [lra|]. contradiction.
    - contradiction. }
  split.
  - constructor; [|exact I1]. tauto.
  - destruct Q as [[Q1 Q2]|Q]; [|right; eexists; split; [left; reflexivity|exact Q]].
    destruct I2 as [I2|(u & I2 & I3)]; [left; constructor; auto|right; exists u; split; [right; auto|auto]].
Qed.

Lemma kept_pos b (x p : list XR) : List.Forall2 (kept b) x p -> List.Forall fin p -> List.Forall pos (vstep (S := Xn) x (Fin b) p).
Proof.
  unfold vstep, vadd, vscale, vmap2. induction 1 as [|v q x p K F IH]; intros P; cbn [map combine fst snd]; constructor; inversion P; subst; auto.
  match goal with H : fin q |- _ => apply fin_Fin in H; destruct H as [w ->] end. exact K.
Qed.
Lemma vstep_fin (x p : list XR) a : length p = length x -> List.Forall fin (vstep (S := Xn) x (Fin a) p) -> List.Forall fin p.
Proof.
  intros L F. unfold vstep, vadd in F. apply (Forall_map2_r _ fin fin) in F.
  - unfold vscale in F. rewrite List.Forall_map in F. eapply List.Forall_impl; [|exact F]. intros v. apply fin_mul_l.
  - intros u v H. apply fin_add in H. apply H.
  - unfold vscale. rewrite map_length. auto.
Qed.

(** ** Absolute sums that compare *)
Definition num (v : XR) : Prop := v <> NaN.
Lemma num_add x y : num (s_add Xn x y) -> num x /\ num y.
Proof. unfold num. destruct x, y; cbn; intros H; split; congruence. Qed.
Lemma num_sub x y : num (s_sub Xn x y) -> num x /\ num y.
Proof. unfold num. destruct x, y; cbn; intros H; split; congruence. Qed.
Lemma num_abs x : num (s_abs Xn x) -> num x.
Proof. unfold num. destruct x; cbn; intros H; congruence. Qed.
Lemma num_vsum_from (l : list XR) a : num (fold_left (s_add Xn) l a) -> num a /\ List.Forall num l.
Proof.
  revert a. induction l as [|x l IH]; intros a H; cbn [fold_left] in H; [split; [exact H|constructor]|].
  apply IH in H. destruct H as [H1 H2]. apply num_add in H1. destruct H1. split; [|constructor]; auto.
Qed.
Lemma num_norm1 (l : list XR) : num (norm1 (S := Xn) l) -> List.Forall num l.
Proof.
  intros H. apply num_vsum_from in H. destruct H as [_ H]. rewrite List.Forall_map in H. eapply List.Forall_impl; [|exact H]. intros v. apply num_abs.
Qed.
Lemma leb_num x y : s_leb Xn x y = true -> num x /\ num y.
Proof. unfold num. destruct x, y; cbn; intros H; split; congruence. Qed.

(** ** Divergence *)
Lemma not_diverging (x : list XR) : diverging (S := Xn) x = false -> List.Forall fin x.
Proof. unfold diverging. intros H. apply orb_false_iff in H. destruct H as [_ H]. apply negb_false_iff in H. apply all_fin_Forall. exact H. Qed.
Lemma infinite_diverges (x : list XR) v : List.In v x -> ~ fin v -> diverging (S := Xn) x = true.
Proof.
  intros I N. unfold diverging. apply orb_true_iff. right. apply negb_true_iff. apply not_true_iff_false. intros H. apply N.
  apply all_fin_Forall in H. rewrite List.Forall_forall in H. auto.
Qed.

Lemma diverging_fin (x : list XR) : diverging (S := Xn) x = false -> all_fin (S := Xn) x = true.
Proof. unfold diverging. intros H. apply orb_false_iff in H. destruct H as [_ H]. apply negb_false_iff in H. exact H. Qed.
Lemma infinite_not_fin (x : list XR) v : List.In v x -> ~ fin v -> all_fin (S := Xn) x = false.
Proof.
  intros I N. apply not_true_iff_false. intros H. apply N. apply all_fin_Forall in H. rewrite List.Forall_forall in H. auto.
Qed.

(** ** Clamping *)
Lemma kappa_X : kappa_sigma (S := Xn) = Fin 10000000000. Proof. reflexivity. Qed.
Lemma clamp_z_X (mu : R) s z : 0 < mu -> pos s \/ s = PInf -> exists v, clamp_z (S := Xn) (Fin mu) s z = Ok v /\ (pos s -> num z -> pos v).
Proof.
  intros M [(r & -> & Hr) | ->]; unfold clamp_z; rewrite kappa_X.
  - change (s_ofZ Xn 1) with (Fin 1). rewrite xdiv by lra. rewrite !xmul, !xdiv by lra.
    assert (L : 0 < 1 / 10000000000 * mu / r < 10000000000 * mu / r).
    { split. { apply Rdiv_lt_0_compat; lra. } apply Rmult_lt_compat_r; [apply Rinv_0_lt_compat; lra|]. lra. }
    set (lo := 1 / 10000000000 * mu / r) in *. set (hi := 10000000000 * mu / r) in *.
    unfold clamp. rewrite xltb. destruct (R_ltb hi lo) eqn:C. { apply R_ltb_true in C. lra. }
    eexists. split; [reflexivity|]. intros _ N. destruct z as [w| | |]; [|apply pos_Fin; cbn; lra|apply pos_Fin; lra|contradiction].
    rewrite !xltb. destruct (R_ltb w lo) eqn:C1; [apply pos_Fin; lra|]. apply R_ltb_false' in C1.
    destruct (R_ltb hi w) eqn:C2; apply pos_Fin; lra.
  - change (s_ofZ Xn 1) with (Fin 1). rewrite xdiv by lra. rewrite !xmul. unfold clamp. 
    change (s_div Xn (Fin (1 / 10000000000 * mu)) PInf) with (Fin 0). change (s_div Xn (Fin (10000000000 * mu)) PInf) with (Fin 0).
    rewrite xltb. destruct (R_ltb 0 0) eqn:C. { apply R_ltb_true in C. lra. } eexists. split; [reflexivity|]. intros (r & Q & _). discriminate.
Qed.
Lemma clamp_zs_X (mu : R) : 0 < mu -> forall s z, length z = length s -> List.Forall (fun v => pos v \/ v = PInf) s ->
  exists vs, clamp_zs (S := Xn) (Fin mu) s z = Ok vs /\ (List.Forall pos s -> List.Forall num z -> List.Forall pos vs).
Proof.
  intros M. induction s as [|x s IH]; intros [|w z] L F; try discriminate. { exists []. split; [reflexivity|constructor]. }
  inversion F; subst. destruct (clamp_z_X mu x w M) as (v & E & Hv); auto. destruct (IH z) as (vs & Es & Hs); auto.
  exists (v :: vs). cbn [clamp_zs]. rewrite E, Es. split; [reflexivity|]. intros P N. inversion P; inversion N; subst. constructor; auto.
Qed.

(** ** Norms *)
Lemma Forall_fin_map (l : list XR) : List.Forall fin l -> exists r : list R, l = map Fin r.
Proof.
  induction 1 as [|x l Fx F [r ->]]; [exists []; reflexivity|]. apply fin_Fin in Fx. destruct Fx as [q ->]. exists (q :: r). reflexivity.
Qed.
Lemma norminf_fin (l : list XR) : List.Forall fin l -> fin (norminf (S := Xn) l).
Proof. intros H. apply Forall_fin_map in H. destruct H as [r ->]. rewrite norminf_Fin. reflexivity. Qed.
Lemma smax_X a y : fin y -> exists m, smax (S := Xn) (Fin a) y = Fin m /\ a <= m.
Proof.
  intros H. apply fin_Fin in H. destruct H as [b ->]. unfold smax. rewrite xltb. destruct (R_ltb a b) eqn:C.
  - apply R_ltb_true in C. exists b. split; [reflexivity|lra].
  - exists a. split; [reflexivity|lra].
Qed.

(** ** The starting slacks of restoration *)
Lemma xsqrt r : 0 <= r -> s_sqrt Xn (Fin r) = Fin (sqrt r).
Proof. intros H. cbn. unfold R_leb. destruct (Rle_dec 0 r); [reflexivity|contradiction]. Qed.
Lemma p_n_X c rho mu : 0 < rho -> 0 < mu -> pos (fst (p_n (S := Xn) (Fin c) (Fin rho) (Fin mu))) /\ pos (snd (p_n (S := Xn) (Fin c) (Fin rho) (Fin mu))).
Proof.
  intros Hr Hm. pose proof (c48_row c rho mu Hr Hm) as K. unfold p_n in *. 
  assert (Rd : 0 <= (rho * c - mu) * (rho * c - mu) - 4 * rho * (- mu * c / 2)) by nra.
  change (s_ofZ Xn 2) with (Fin 2). change (s_ofZ Xn 4) with (Fin 4). rewrite ?xopp, ?xmul, ?xsub, ?xopp. rewrite (xdiv _ 2) by lra. rewrite !xmul, !xsub.
  rewrite xsqrt by exact Rd. cbn in K. rewrite !xadd. rewrite !xdiv by lra. rewrite ?xadd. cbn [fst snd].
  destruct K as (K1 & K2 & _). split; apply pos_Fin; [exact K1|exact K2].
Qed.
Lemma compute_p_n_X (c : list XR) rho mu : 0 < rho -> 0 < mu -> List.Forall fin c ->
  List.Forall pos (fst (compute_p_n (S := Xn) c (Fin rho) (Fin mu))) /\ List.Forall pos (snd (compute_p_n (S := Xn) c (Fin rho) (Fin mu))).
Proof.
  intros Hr Hm F. apply Forall_fin_map in F. destruct F as [r ->]. unfold compute_p_n. cbn [fst snd]. rewrite !map_map, !List.Forall_map.
  split; apply List.Forall_forall; intros x _; apply p_n_X; auto.
Qed.
Lemma recip_pos (mu : R) (v : list XR) : 0 < mu -> List.Forall pos v -> List.Forall pos (vscale (S := Xn) (Fin mu) (vinv (S := Xn) v)).
Proof.
  intros M F. unfold vscale, vinv. rewrite map_map, List.Forall_map. eapply List.Forall_impl; [|exact F]. intros a (r & -> & Hr).
  change (s_ofZ Xn 1) with (Fin 1). rewrite xdiv by lra. rewrite xmul. apply pos_Fin. apply Rmult_lt_0_compat; auto. apply Rdiv_lt_0_compat; lra.
Qed.
