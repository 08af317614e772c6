(** Proofs for C40. *)
From Coq Require Import ZArith Reals List Bool Lra Lia Psatz.
From Verif Require Import Base ExprModel ExprReal ExprXR NumModel LinR UtilModel UtilSpec FilterProofs.
Import ListNotations.
Local Open Scope R_scope.

Lemma smax_Fin (a b : R) : smax (S := Xn) (Fin a) (Fin b) = Fin (smax (S := Rn) a b).
Proof. unfold smax. cbn. destruct (R_ltb a b); auto. Qed.
Lemma fold_Fin (v : list R) m :
  fold_left (fun m x => smax (S := Xn) m (s_abs Xn x)) (map Fin v) (Fin m) = Fin (fold_left (fun m x => smax (S := Rn) m (Rabs x)) v m).
Proof. revert m. induction v as [|x v IH]; intros m; auto. cbn [map fold_left]. rewrite <- IH. f_equal. apply smax_Fin. Qed.
Lemma norminf_Fin (v : list R) : norminf (S := Xn) (map Fin v) = Fin (norminf (S := Rn) v).
Proof. destruct v as [|x v]; [reflexivity|]. apply (fold_Fin v (Rabs x)). Qed.

Lemma quot_scales (v : list R) f : (norminf (S := Rn) v = 0 -> f = 1) ->
  (norminf (S := Rn) v <> 0 -> f = Rmin 1 (100 / norminf (S := Rn) v)) -> scales f v.
Proof.
  intros Z N. pose proof (norminf_ge0 v) as P. set (n := norminf (S := Rn) v) in *.
  destruct (Req_dec n 0) as [E|E].
  - rewrite (Z E). split; [lra|]. split; [|left; auto]. intros x I. pose proof (norminf_le v x I). fold n in H.
    rewrite Rmult_1_l. lra.
  - rewrite (N E). assert (0 < n) by lra. assert (Q : 0 < 100 / n) by (apply Rdiv_lt_0_compat; lra).
    assert (Qn : 100 / n * n = 100) by (field; lra).
    assert (M : 0 < Rmin 1 (100 / n) <= 1 /\ Rmin 1 (100 / n) <= 100 / n).
    { unfold Rmin. destruct (Rle_dec 1 (100 / n)); lra. }
    split; [tauto|]. split.
    + intros x I. pose proof (norminf_le v x I). fold n in H0. rewrite Rabs_mult, (Rabs_pos_eq (Rmin _ _)) by lra.
      pose proof (Rabs_pos x). nra.
    + unfold Rmin. destruct (Rle_dec 1 (100 / n)); [left; auto|right].
      destruct (norminf_attained v) as [A|(x & I & A)]; fold n in A; [lra|]. exists x. split; auto.
      rewrite Rabs_mult, (Rabs_pos_eq (100 / n)), <- A by lra. auto.
Qed.
Lemma scale_of_spec (v : list R) : exists f, scale_of (S := Xn) (norminf (S := Xn) (map Fin v)) = Fin f /\ scales f v.
Proof.
  rewrite norminf_Fin. unfold scale_of, smin, g_max. cbn -[norminf]. destruct (Req_EM_T (norminf (S := Rn) v) 0) as [E|E].
  - destruct (Rlt_dec 0 100); [|lra]. exists 1. split; auto. apply quot_scales; auto. contradiction.
  - exists (Rmin 1 (100 / norminf (S := Rn) v)). split; [|apply quot_scales; auto; contradiction].
    cbn -[norminf]. unfold R_ltb, Rmin. set (q := 100 / _). destruct (Rlt_dec q 1), (Rle_dec 1 q); f_equal; lra.
Qed.
Lemma scale_row_spec (v : list R) : exists f, smin (S := Xn) (s_div Xn (g_max (S := Xn)) (Fin (norminf (S := Rn) v))) (s_ofZ Xn 1) = Fin f /\ scales f v.
Proof.
  unfold smin, g_max. cbn -[norminf]. destruct (Req_EM_T (norminf (S := Rn) v) 0) as [E|E].
  - destruct (Rlt_dec 0 100); [|lra]. exists 1. split; auto. apply quot_scales; auto. contradiction.
  - exists (Rmin 1 (100 / norminf (S := Rn) v)). split; [|apply quot_scales; auto; contradiction].
    cbn -[norminf]. unfold R_ltb, Rmin. set (q := 100 / _). destruct (Rlt_dec 1 q), (Rle_dec 1 q); f_equal; lra.
Qed.

Lemma set_nth_length (S : nops) (l : list S) i v : length (set_nth l i v) = length l.
Proof. revert i. induction l; intros [|i]; cbn; auto. Qed.
Lemma set_nth_nth (S : nops) (l : list S) i v r d : nth r (set_nth l i v) d = if Nat.eqb i r && Nat.ltb r (length l) then v else nth r l d.
Proof.
  revert i r. induction l as [|x l IH]; intros i r; [destruct i; cbn; rewrite andb_false_r; auto|].
  destruct i, r; cbn [set_nth nth Nat.eqb andb]; auto. rewrite IH. cbn [length]. change (Nat.ltb (Datatypes.S r) (Datatypes.S (length l))) with (Nat.ltb r (length l)). auto.
Qed.
Definition nstep := fun (ns : list Xn) (e : nat * nat * Xn) => let '(r, _, v) := e in set_nth ns r (smax (nth r ns (s_ofZ Xn 0)) (s_abs Xn v)).
Lemma norms_fold (A : list (nat * nat * R)) (ns : list Xn) r m : (r < length ns)%nat -> nth r ns (s_ofZ Xn 0) = Fin m ->
  length (fold_left nstep (Fin_entries A) ns) = length ns /\
  nth r (fold_left nstep (Fin_entries A) ns) (s_ofZ Xn 0) = Fin (fold_left (fun m x => smax (S := Rn) m (Rabs x)) (row_values r A) m).
Proof.
  revert ns m. induction A as [|[[i j] v] A IH]; intros ns m L N; [split; auto|].
  cbn [Fin_entries map fold_left nstep fst snd].
  change (map (fun e : nat * nat * R => (fst e, Fin (snd e) : Xn)) A) with (Fin_entries A).
  unfold row_values. cbn [filter fst snd].
  assert (X : forall m', nth r (set_nth ns i (smax (nth i ns (s_ofZ Xn 0)) (s_abs Xn (Fin v)))) (s_ofZ Xn 0) = Fin m' ->
    length (fold_left nstep (Fin_entries A) (set_nth ns i (smax (nth i ns (s_ofZ Xn 0)) (s_abs Xn (Fin v))))) = length ns /\
    nth r (fold_left nstep (Fin_entries A) (set_nth ns i (smax (nth i ns (s_ofZ Xn 0)) (s_abs Xn (Fin v))))) (s_ofZ Xn 0) =
    Fin (fold_left (fun m x => smax (S := Rn) m (Rabs x)) (row_values r A) m')).
  { intros m' E. destruct (IH (set_nth ns i (smax (nth i ns (s_ofZ Xn 0)) (s_abs Xn (Fin v)))) m') as [H1 H2]; auto.
    { rewrite set_nth_length. auto. } rewrite set_nth_length in H1. auto. }
  destruct (Nat.eqb i r) eqn:E; cbn [map fold_left snd]; apply X; rewrite set_nth_nth, E; cbn [andb].
  - apply Nat.eqb_eq in E. subst i. replace (Nat.ltb r (length ns)) with true by (symmetry; apply Nat.ltb_lt; auto).
    rewrite N. apply smax_Fin.
  - auto.
Qed.
Lemma scale_rows_spec (A : list (nat * nat * R)) rows r : (r < rows)%nat ->
  exists f, nth_error (scale_rows (S := Xn) rows (Fin_entries A)) r = Some (Fin f) /\ scales f (row_values r A).
Proof.
  intros L. unfold scale_rows, sparse_inf_norms. fold nstep.
  destruct (norms_fold A (repeat (s_ofZ Xn 0) rows) r 0) as [P Q]. { rewrite repeat_length. auto. } { apply nth_repeat. }
  rewrite repeat_length in P.
  destruct (scale_row_spec (row_values r A)) as (f & E & H). exists f. split; auto.
  rewrite nth_error_map, (nth_error_nth' _ (s_ofZ Xn 0)) by (rewrite P; auto).
  cbn [option_map]. f_equal. rewrite norminf_R in E. rewrite Q. exact E.
Qed.
Lemma scale_rows_length (S : nops) rows (A : sparse S) : length (scale_rows rows A) = rows.
Proof.
  unfold scale_rows, sparse_inf_norms. rewrite map_length.
  assert (forall A ns, length (fold_left (fun (ns : list S) '(r, _, v) => set_nth ns r (smax (nth r ns (s_ofZ S 0)) (s_abs S v))) A ns) = length ns) as ->.
  { clear. induction A as [|[[i j] v] A IH]; intros ns; auto. cbn. rewrite IH. apply set_nth_length. }
  apply repeat_length.
Qed.

Lemma c40 : forall (g : list R) (me mi : nat) (Ae Ai : list (nat * nat * R)),
  let s := scaling_ipm (S := Xn) (map Fin g) me (Fin_entries Ae) mi (Fin_entries Ai) in
  (exists f, sc_f s = Fin f /\ scales f g) /\
  length (sc_e s) = me /\ length (sc_i s) = mi /\
  (forall r, (r < me)%nat -> exists f, nth_error (sc_e s) r = Some (Fin f) /\ scales f (row_values r Ae)) /\
  (forall r, (r < mi)%nat -> exists f, nth_error (sc_i s) r = Some (Fin f) /\ scales f (row_values r Ai)).
Proof.
  intros. cbn [s scaling_ipm sc_f sc_e sc_i]. split; [apply scale_of_spec|].
  split; [apply scale_rows_length|]. split; [apply scale_rows_length|].
  split; intros; apply scale_rows_spec; auto.
Qed.
Lemma c40_sqp_newton : forall (g : list R) (me : nat) (Ae : list (nat * nat * R)),
  scaling_sqp (S := Xn) (map Fin g) me (Fin_entries Ae) = scaling_ipm (S := Xn) (map Fin g) me (Fin_entries Ae) 0 [] /\
  scaling_newton (S := Xn) (map Fin g) = scaling_ipm (S := Xn) (map Fin g) 0 [] 0 [].
Proof. intros. split; reflexivity. Qed.
(** Uniqueness: the conditions determine the factor, and small gradients leave it at 1. *)
Lemma scales_unique f f' xs : scales f xs -> scales f' xs -> f = f'.
Proof.
  intros (A & B & C) (A' & B' & C').
  assert (forall f f', 0 < f <= 1 -> (forall x, In x xs -> Rabs (f * x) <= 100) -> 0 < f' <= 1 ->
    (f' = 1 \/ exists x, In x xs /\ Rabs (f' * x) = 100) -> f <= f') as K.
  { clear. intros f f' A B A' [->|(x & I & E)]; [lra|]. specialize (B x I).
    rewrite Rabs_mult, Rabs_pos_eq in B, E by lra. pose proof (Rabs_pos x). nra. }
  apply Rle_antisym; eapply K; eauto.
Qed.
Lemma scales_small f xs : scales f xs -> (forall x, In x xs -> Rabs x <= 100) -> f = 1.
Proof.
  intros H K. apply (scales_unique f 1 xs H). split; [lra|]. split; [|left; auto].
  intros. rewrite Rmult_1_l. auto.
Qed.
Lemma c40_ex : row_values 1 [(0%nat, 0%nat, 5); (1%nat, 0%nat, 1000); (1%nat, 2%nat, -3)] = [1000; -3] /\ scales (1/10) [1000; -3].
Proof.
  split; [reflexivity|]. split; [lra|]. split.
  - intros x [<-|[<-|[]]]; unfold Rabs; destruct (Rcase_abs _); lra.
  - right. exists 1000. split; [left; auto|]. unfold Rabs; destruct (Rcase_abs _); lra.
Qed.
