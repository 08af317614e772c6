(** Proofs for C49: what satisfies the relaxed constraints, and the Hessian. *)
From Coq Require Import ZArith Reals List Bool Lia Lra FunctionalExtensionality.
From Coquelicot Require Import Coquelicot.
From Verif Require Import Base ExprModel ExprReal ExprXR NumModel UtilModel KktModel FilterModel ExitModel SolverModel NewtonModel SqpModel IpmModel RestoreModel
  LinR XArith FinEval EstProofs SystemProofs IpmShape RestoreProofs RestoreSpec FrProofs FrProofs2.
Import ListNotations.
Local Open Scope R_scope.

Lemma X_sub_0 v : X_sub v (Fin 0) = v. Proof. destruct v; cbn; try reflexivity. f_equal. ring. Qed.
Lemma X_add_0 v : X_add v (Fin 0) = v. Proof. destruct v; cbn; try reflexivity. f_equal. ring. Qed.
Lemma relax_zero (c : list XR) m : length c = m -> vadd (S := Xn) (vsub (S := Xn) c (repeat (Fin 0) m)) (repeat (Fin 0) m) = c.
Proof.
  intros <-. unfold vadd, vsub, vmap2. induction c as [|v c IH]; [reflexivity|]. cbn [length repeat combine map fst snd]. f_equal; [|exact IH].
  change (X_add (X_sub v (Fin 0)) (Fin 0) = v). rewrite X_sub_0, X_add_0. reflexivity.
Qed.
Lemma firstn_repeat {T} (x : T) a b : (a <= b)%nat -> firstn a (repeat x b) = repeat x a.
Proof. revert b. induction a as [|a IH]; intros [|b] H; try lia; [reflexivity|reflexivity|]. cbn. f_equal. apply IH. lia. Qed.
Lemma skipn_repeat {T} (x : T) a b : skipn a (repeat x b) = repeat x (b - a).
Proof. revert b. induction a as [|a IH]; intros [|b]; try reflexivity. cbn. apply IH. Qed.
Lemma seg_zero (x : list XR) n k a m : length x = n -> (n <= a)%nat -> (a + m <= n + k)%nat -> segment (S := Xn) (x ++ repeat (Fin 0) k) a m = repeat (Fin 0) m.
Proof.
  intros Hx Ha Hm. unfold segment. nx. rewrite skipn_app, (skipn_all2 x) by lia. cbn [app]. rewrite skipn_repeat. apply firstn_repeat. lia.
Qed.
Lemma seg_front (x : list XR) n (w : list XR) : length x = n -> segment (S := Xn) (x ++ w) 0 n = x.
Proof. intros <-. unfold segment. cbn [skipn]. rewrite firstn_app, Nat.sub_diag, firstn_all. cbn. apply app_nil_r. Qed.
Lemma satisfied_more e i m : satisfied e (i ++ repeat (Fin 0) m) <-> satisfied e i.
Proof.
  unfold satisfied. rewrite Forall_app. split; [tauto|]. intros [H1 H2]. split; [exact H1|]. split; [exact H2|].
  apply Forall_forall. intros v Hv. apply repeat_spec in Hv. subst. lra.
Qed.

Section Zero.
Variables (P : iprob Xn) (xr : list XR) (zeta : XR) (x : list XR).
Notation k := (2 * ip_me P + 2 * ip_mi P)%nat.
Hypothesis Hx : length x = ip_n P.
Hypothesis He : length (ip_ce P x) = ip_me P.
Hypothesis Hi : length (ip_ci P x) = ip_mi P.
Lemma zero_satisfied : let Q := fr_ipm_prob P xr zeta in
  satisfied (ip_ce Q (x ++ repeat (Fin 0) k)) (ip_ci Q (x ++ repeat (Fin 0) k)) <-> satisfied (ip_ce P x) (ip_ci P x).
Proof.
  cbn [fr_ipm_prob ip_ce ip_ci]. unfold fr_ce, fr_ci. rewrite !seg_front by exact Hx. rewrite !(seg_zero x (ip_n P) k) by (try exact Hx; lia).
  rewrite !relax_zero by assumption. apply satisfied_more.
Qed.
End Zero.

(** *** The cheapest relaxation of a point costs its constraint violation *)
Lemma Forall_nth' {T} (Pr : T -> Prop) (l : list T) d : List.Forall Pr l <-> forall i, (i < length l)%nat -> Pr (nth i l d).
Proof.
  split; [intros H i Hi; rewrite Forall_forall in H; apply H, nth_In, Hi|]. intros H. apply Forall_forall. intros v Hv.
  apply (In_nth _ _ d) in Hv. destruct Hv as (i & Hi & <-). apply H, Hi.
Qed.
Section Cheapest.
Variables (P : iprob Xn) (xr : list R) (zeta : R) (x e i : list R).
Notation n := (ip_n P).
Notation me := (ip_me P).
Notation mi := (ip_mi P).
Notation k := (2 * ip_me P + 2 * ip_mi P)%nat.
Notation Q := (fr_ipm_prob P (fv xr) (Fin zeta)).
Hypothesis Hx : length x = n.
Hypothesis He : ip_ce P (fv x) = fv e.
Hypothesis Hi : ip_ci P (fv x) = fv i.
Hypothesis Le : length e = me.
Hypothesis Li : length i = mi.

Definition relaxes (w : list R) : Prop :=
  (forall r, (r < me)%nat -> nth r e 0 - nth r w 0 + nth (me + r) w 0 = 0) /\
  (forall r, (r < mi)%nat -> 0 <= nth r i 0 - nth (2 * me + r) w 0 + nth (2 * me + mi + r) w 0) /\
  (forall r, (r < k)%nat -> 0 <= nth r w 0).

Lemma sat_iff w : length w = k -> satisfied (ip_ce Q (fv (x ++ w))) (ip_ci Q (fv (x ++ w))) <-> relaxes w.
Proof.
  intros Hw. assert (Hv : length (x ++ w) = (n + k)%nat) by (rewrite app_length; lia).
  assert (Hf : firstn n (x ++ w) = x). { rewrite <- Hx, firstn_app, Nat.sub_diag, firstn_all. cbn. apply app_nil_r. }
  assert (Lce : length (ip_ce P (fv (firstn n (x ++ w)))) = me) by (rewrite Hf, He, fv_len; exact Le).
  assert (Lci : length (ip_ci P (fv (firstn n (x ++ w)))) = mi) by (rewrite Hf, Hi, fv_len; exact Li).
  assert (Nw : forall j, nth (n + j) (x ++ w) 0 = nth j w 0). { intros j. rewrite app_nth2 by lia. f_equal. lia. }
  assert (Ve : forall r, (r < me)%nat -> nth r (ip_ce Q (fv (x ++ w))) NaN = Fin (nth r e 0 - nth r w 0 + nth (me + r) w 0)).
  { intros r Hr. rewrite (q_ce_nth P xr zeta (x ++ w) r Hv Lce Hr). rewrite Hf, He. nx. rewrite fv_nth by lia. rewrite <- Nat.add_assoc, !Nw. reflexivity. }
  assert (Vi : forall r, (r < mi)%nat -> nth r (ip_ci Q (fv (x ++ w))) NaN = Fin (nth r i 0 - nth (2 * me + r) w 0 + nth (2 * me + mi + r) w 0)).
  { intros r Hr. rewrite (q_ci_nth P xr zeta (x ++ w) r Hv Lci Hr). rewrite Hf, Hi. nx. rewrite fv_nth by lia. rewrite <- !Nat.add_assoc, !Nw. rewrite !Nat.add_assoc. reflexivity. }
  assert (Vb : forall r, (r < k)%nat -> nth (mi + r) (ip_ci Q (fv (x ++ w))) NaN = Fin (nth r w 0)).
  { intros r Hr. rewrite (q_ci_bound P xr zeta (x ++ w) r Hv Lci Hr). rewrite Nw. reflexivity. }
  pose proof (q_ce_len P xr zeta (x ++ w) Hv Lce) as Q1. pose proof (q_ci_len P xr zeta (x ++ w) Hv Lci) as Q2.
  unfold satisfied. rewrite !(Forall_nth' _ _ NaN). nx. rewrite Q1, Q2. split.
  - intros [H1 H2]. split; [|split].
    + intros r Hr. specialize (H1 r Hr). rewrite Ve in H1 by exact Hr. injection H1; auto.
    + intros r Hr. specialize (H2 r ltac:(lia)). rewrite Vi in H2 by exact Hr. exact H2.
    + intros r Hr. specialize (H2 (mi + r)%nat ltac:(lia)). rewrite Vb in H2 by exact Hr. exact H2.
  - intros (H1 & H2 & H3). split.
    + intros r Hr. rewrite Ve by exact Hr. f_equal. apply H1, Hr.
    + intros r Hr. destruct (Nat.lt_ge_cases r mi) as [L|L].
      * rewrite Vi by exact L. apply H2, L.
      * replace r with (mi + (r - mi))%nat by lia. rewrite Vb by lia. apply H3. lia.
Qed.

Lemma sumn_four (w : list R) : sumn k (fun j => nth j w 0) =
  sumn me (fun r => nth r w 0 + nth (me + r) w 0) + sumn mi (fun r => nth (2 * me + r) w 0 + nth (2 * me + mi + r) w 0).
Proof.
  rewrite sumn_split. replace (2 * me)%nat with (me + me)%nat by lia. replace (2 * mi)%nat with (mi + mi)%nat by lia. rewrite !sumn_split, !sumn_plus.
  f_equal. f_equal. apply sumn_ext. intros r _. f_equal. lia.
Qed.
Lemma relax_lower w : relaxes w -> violation e i <= sumn k (fun j => nth j w 0).
Proof.
  intros (H1 & H2 & H3). rewrite sumn_four. unfold violation. rewrite Le, Li. apply Rplus_le_compat.
  - apply sumn_le. intros r Hr. specialize (H1 r Hr). pose proof (H3 r ltac:(lia)). pose proof (H3 (me + r)%nat ltac:(lia)).
    apply Rabs_le. lra.
  - apply sumn_le. intros r Hr. specialize (H2 r Hr). pose proof (H3 (2 * me + r)%nat ltac:(lia)). pose proof (H3 (2 * me + mi + r)%nat ltac:(lia)).
    apply Rmax_lub; lra.
Qed.
Definition cheapest : list R :=
  map (fun v => Rmax 0 v) e ++ map (fun v => Rmax 0 (- v)) e ++ repeat 0 mi ++ map (fun v => Rmax 0 (- v)) i.
Lemma cheapest_len : length cheapest = k.
Proof. unfold cheapest. rewrite !app_length, !map_length, repeat_length. lia. Qed.
Lemma ch1 r : (r < me)%nat -> nth r cheapest 0 = Rmax 0 (nth r e 0).
Proof. intros H. unfold cheapest. rewrite app_nth1 by (rewrite map_length; lia). apply nth_map_lt. lia. Qed.
Lemma ch2 r : (r < me)%nat -> nth (me + r) cheapest 0 = Rmax 0 (- nth r e 0).
Proof.
  intros H. unfold cheapest. rewrite app_nth2 by (rewrite map_length; lia). rewrite map_length, Le. replace (me + r - me)%nat with r by lia.
  rewrite app_nth1 by (rewrite map_length; lia). apply (nth_map_lt (fun v => Rmax 0 (- v))). lia.
Qed.
Lemma ch3 r : (r < mi)%nat -> nth (2 * me + r) cheapest 0 = 0.
Proof.
  intros H. unfold cheapest. rewrite app_nth2 by (rewrite map_length; lia). rewrite app_nth2 by (rewrite !map_length; lia). rewrite !map_length, Le.
  rewrite app_nth1 by (rewrite repeat_length; lia). apply nth_repeat.
Qed.
Lemma ch4 r : (r < mi)%nat -> nth (2 * me + mi + r) cheapest 0 = Rmax 0 (- nth r i 0).
Proof.
  intros H. unfold cheapest. rewrite app_nth2 by (rewrite map_length; lia). rewrite app_nth2 by (rewrite !map_length; lia). rewrite !map_length, Le.
  rewrite app_nth2 by (rewrite repeat_length; lia). rewrite repeat_length. replace (2 * me + mi + r - me - me - mi)%nat with r by lia. apply (nth_map_lt (fun v => Rmax 0 (- v))). lia.
Qed.
Lemma cheapest_ok : relaxes cheapest /\ sumn k (fun j => nth j cheapest 0) = violation e i.
Proof.
  split; [split; [|split]|].
  - intros r Hr. rewrite ch1, ch2 by exact Hr. unfold Rmax. repeat destruct Rle_dec; lra.
  - intros r Hr. rewrite ch3, ch4 by exact Hr. unfold Rmax. repeat destruct Rle_dec; lra.
  - apply (Forall_nth' (fun v => 0 <= v) cheapest 0 : Forall _ _ -> _) ||
    (intros r Hr; rewrite <- cheapest_len in Hr; revert r Hr; apply (Forall_nth' (fun v => 0 <= v) cheapest 0)).
    unfold cheapest. rewrite !Forall_app, !Forall_map. repeat split; apply Forall_forall; intros v Hv; try (apply repeat_spec in Hv; subst); try apply Rmax_l; lra.
  - rewrite sumn_four. unfold violation. rewrite Le, Li. f_equal.
    + apply sumn_ext. intros r Hr. rewrite ch1, ch2 by exact Hr. unfold Rabs, Rmax. destruct Rcase_abs; repeat destruct Rle_dec; lra.
    + apply sumn_ext. intros r Hr. rewrite ch3, ch4 by exact Hr. ring.
Qed.
Lemma c49_violation :
  (forall w, length w = k -> satisfied (ip_ce Q (fv (x ++ w))) (ip_ci Q (fv (x ++ w))) -> violation e i <= sumn k (fun j => nth j w 0)) /\
  (exists w, length w = k /\ satisfied (ip_ce Q (fv (x ++ w))) (ip_ci Q (fv (x ++ w))) /\ sumn k (fun j => nth j w 0) = violation e i).
Proof.
  split.
  - intros w Hw H. apply relax_lower, (sat_iff w Hw), H.
  - exists cheapest. split; [apply cheapest_len|]. destruct cheapest_ok as [H1 H2]. split; [|exact H2]. apply sat_iff; [apply cheapest_len|exact H1].
Qed.
End Cheapest.
