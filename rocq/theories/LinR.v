(** Real vectors as lists: the operations of NumModel at the reals, in terms of finite sums. *)
From Coq Require Import ZArith Reals List Bool Lra Lia.
From Verif Require Import ExprModel ExprReal NumModel.
Import ListNotations.
Local Open Scope R_scope.

(** f 0 + ... + f (n-1) *)
Fixpoint sumn (n : nat) (f : nat -> R) : R := match n with O => 0 | S n => sumn n f + f n end.

Lemma sumn_ext n f g : (forall i, (i < n)%nat -> f i = g i) -> sumn n f = sumn n g.
Proof. induction n; cbn; intros H; auto. rewrite IHn by (intros; apply H; lia). rewrite H by lia. auto. Qed.
Lemma sumn_plus n f g : sumn n (fun i => f i + g i) = sumn n f + sumn n g.
Proof. induction n; cbn; [lra|]. rewrite IHn. lra. Qed.
Lemma sumn_minus n f g : sumn n (fun i => f i - g i) = sumn n f - sumn n g.
Proof. induction n; cbn; [lra|]. rewrite IHn. lra. Qed.
Lemma sumn_scal n c f : sumn n (fun i => c * f i) = c * sumn n f.
Proof. induction n; cbn; [lra|]. rewrite IHn. lra. Qed.
Lemma sumn_0 n f : (forall i, (i < n)%nat -> f i = 0) -> sumn n f = 0.
Proof. induction n; cbn; intros H; auto. rewrite IHn, H by (intros; try apply H; lia). lra. Qed.
Lemma sumn_le n f g : (forall i, (i < n)%nat -> f i <= g i) -> sumn n f <= sumn n g.
Proof. induction n; cbn; intros H; [lra|]. assert (f n <= g n) by (apply H; lia). specialize (IHn ltac:(intros; apply H; lia)). lra. Qed.
Lemma sumn_nonneg n f : (forall i, (i < n)%nat -> 0 <= f i) -> 0 <= sumn n f.
Proof. induction n; cbn; intros H; [lra|]. assert (0 <= f n) by (apply H; lia). specialize (IHn ltac:(intros; apply H; lia)). lra. Qed.
Lemma sumn_swap n m f : sumn n (fun i => sumn m (fun j => f i j)) = sumn m (fun j => sumn n (fun i => f i j)).
Proof.
  induction n; cbn. { symmetry. apply sumn_0. auto. } rewrite IHn, <- sumn_plus. auto.
Qed.
Lemma sumn_shift n f : sumn (S n) f = f O + sumn n (fun i => f (S i)).
Proof. induction n; [cbn; lra|]. cbn in IHn |- *. lra. Qed.
Lemma sumn_split a b f : sumn (a + b) f = sumn a f + sumn b (fun i => f (a + i)%nat).
Proof. induction b; [rewrite Nat.add_0_r; cbn; lra|]. rewrite Nat.add_succ_r. cbn. rewrite IHb. lra. Qed.
Lemma sumn_elem n f i : (forall i, (i < n)%nat -> 0 <= f i) -> (i < n)%nat -> f i <= sumn n f.
Proof.
  induction n; intros H L; [lia|]. cbn. destruct (Nat.eq_dec i n) as [->|D].
  - enough (0 <= sumn n f) by lra. apply sumn_nonneg. auto.
  - assert (f i <= sumn n f) by (apply IHn; auto; lia). assert (0 <= f n) by auto. lra.
Qed.

Notation "v .[ i ]" := (nth i v 0) (at level 2, left associativity, format "v .[ i ]").

Lemma fold_plus (v : list R) a : fold_left Rplus v a = a + sumn (length v) (fun i => v.[i]).
Proof.
  revert a. induction v as [|x v IH]; intros a; [cbn; lra|]. cbn [fold_left length]. rewrite IH, sumn_shift. cbn. lra.
Qed.
Lemma vsum_R (v : list R) : vsum (S := Rn) v = sumn (length v) (fun i => v.[i]).
Proof. unfold vsum. cbn. rewrite fold_plus. lra. Qed.
Lemma nth_map_lt {A B} (f : A -> B) v i d d' : (i < length v)%nat -> nth i (map f v) d' = f (nth i v d).
Proof. intros H. rewrite (nth_indep _ _ (f d)) by (rewrite map_length; auto). apply map_nth. Qed.
Lemma norm1_R (v : list R) : norm1 (S := Rn) v = sumn (length v) (fun i => Rabs (v.[i])).
Proof.
  unfold norm1. rewrite vsum_R, map_length. apply sumn_ext. intros i H. apply (nth_map_lt Rabs); auto.
Qed.
Lemma norm2_R (v : list R) : norm2 (S := Rn) v = sqrt (sumn (length v) (fun i => v.[i] * v.[i])).
Proof.
  unfold norm2. rewrite vsum_R, map_length. change (s_sqrt Rn) with sqrt. f_equal. apply sumn_ext. intros i H.
  apply (nth_map_lt (fun x => x * x)); auto.
Qed.
Lemma smax_R (a b : R) : smax (S := Rn) a b = Rmax a b.
Proof. unfold smax, Rmax. cbn. unfold R_ltb. destruct (Rlt_dec a b), (Rle_dec a b); lra. Qed.
Lemma smin_R (a b : R) : smin (S := Rn) a b = Rmin a b.
Proof. unfold smin, Rmin. cbn. unfold R_ltb. destruct (Rlt_dec b a), (Rle_dec a b); lra. Qed.

Lemma fold_norminf (v : list R) m :
  m <= fold_left (fun m x => smax (S := Rn) m (Rabs x)) v m /\
  (forall x, In x v -> Rabs x <= fold_left (fun m x => smax (S := Rn) m (Rabs x)) v m) /\
  (fold_left (fun m x => smax (S := Rn) m (Rabs x)) v m = m \/ exists x, In x v /\ fold_left (fun m x => smax (S := Rn) m (Rabs x)) v m = Rabs x).
Proof.
  revert m. induction v as [|y v IH]; intros m; cbn [fold_left In].
  { repeat split; auto; try lra; intros; contradiction. }
  destruct (IH (smax (S := Rn) m (Rabs y))) as (A & B & C). rewrite smax_R in *.
  assert (m <= Rmax m (Rabs y)) by apply Rmax_l. assert (Rabs y <= Rmax m (Rabs y)) by apply Rmax_r.
  split; [lra|]. split. { intros x [->|X]; auto. lra. }
  destruct C as [C|(x & X & C)]; [|right; exists x; auto].
  rewrite C. unfold Rmax. destruct (Rle_dec m (Rabs y)); [right; exists y; auto|left; auto].
Qed.
Lemma norminf_R (v : list R) : norminf (S := Rn) v = fold_left (fun m x => smax (S := Rn) m (Rabs x)) v 0.
Proof.
  destruct v as [|x v]; [reflexivity|]. unfold norminf. cbn [fold_left]. f_equal. rewrite smax_R.
  rewrite Rmax_right by apply Rabs_pos. reflexivity.
Qed.
(** The infinity norm is the least upper bound of the absolute values and 0. *)
Lemma norminf_le (v : list R) x : In x v -> Rabs x <= norminf (S := Rn) v.
Proof. intros H. rewrite norminf_R. apply (fold_norminf v 0). auto. Qed.
Lemma norminf_ge0 (v : list R) : 0 <= norminf (S := Rn) v.
Proof. rewrite norminf_R. apply (fold_norminf v 0). Qed.
Lemma norminf_attained (v : list R) : norminf (S := Rn) v = 0 \/ exists x, In x v /\ norminf (S := Rn) v = Rabs x.
Proof. rewrite norminf_R. apply (fold_norminf v 0). Qed.
Lemma norminf_lub (v : list R) b : 0 <= b -> (forall x, In x v -> Rabs x <= b) -> norminf (S := Rn) v <= b.
Proof. intros H0 H. destruct (norminf_attained v) as [->|(x & X & ->)]; auto. Qed.
Lemma norminf_nth (v : list R) i : Rabs (v.[i]) <= norminf (S := Rn) v.
Proof.
  destruct (Nat.lt_ge_cases i (length v)) as [L|L]; [apply norminf_le, nth_In; auto|].
  rewrite nth_overflow by auto. rewrite Rabs_R0. apply norminf_ge0.
Qed.

Lemma vmap2_length {S : nops} (f : S -> S -> S) a b : length (vmap2 f a b) = Nat.min (length a) (length b).
Proof. unfold vmap2. rewrite map_length, combine_length. auto. Qed.
Lemma vmap2_length_R (f : R -> R -> R) (a b : list R) : @length R (vmap2 (S := Rn) f a b) = Nat.min (length a) (length b).
Proof. apply (vmap2_length (S := Rn)). Qed.
Lemma vmap2_nth (f : R -> R -> R) (a b : list R) i : (i < length a)%nat -> (i < length b)%nat ->
  (vmap2 (S := Rn) f a b : list R).[i] = f (a.[i]) (b.[i]).
Proof.
  unfold vmap2. revert b i. induction a as [|x a IH]; intros [|y b] i A B; cbn in *; try lia.
  destruct i; auto. apply IH; lia.
Qed.
Lemma vadd_nth (a b : list R) i : length a = length b -> (vadd (S := Rn) a b : list R).[i] = a.[i] + b.[i].
Proof.
  intros E. destruct (Nat.lt_ge_cases i (length a)) as [L|L].
  - unfold vadd. rewrite vmap2_nth by lia. auto.
  - rewrite !nth_overflow; try lia; try lra. unfold vadd. rewrite (vmap2_length_R Rplus). cbn in *. lia.
Qed.
Lemma vsub_nth (a b : list R) i : length a = length b -> (vsub (S := Rn) a b : list R).[i] = a.[i] - b.[i].
Proof.
  intros E. destruct (Nat.lt_ge_cases i (length a)) as [L|L].
  - unfold vsub. rewrite vmap2_nth by lia. auto.
  - rewrite !nth_overflow; try lia; try lra. unfold vsub. rewrite (vmap2_length_R Rminus). cbn in *. lia.
Qed.
Lemma vscale_length {S : nops} (c : S) v : length (vscale c v) = length v.
Proof. apply map_length. Qed.
Lemma vscale_nth (c : R) (v : list R) i : (vscale (S := Rn) c v : list R).[i] = c * v.[i].
Proof.
  destruct (Nat.lt_ge_cases i (length v)) as [L|L].
  - unfold vscale. apply (nth_map_lt (fun x => c * x)); auto.
  - rewrite !nth_overflow; try lia; try lra. etransitivity; [apply Nat.eq_le_incl, (vscale_length (S := Rn))|]. auto.
Qed.
Lemma vdot_R (a b : list R) : length a = length b -> vdot (S := Rn) a b = sumn (length a) (fun i => a.[i] * b.[i]).
Proof.
  intros E. unfold vdot. rewrite vsum_R, (vmap2_length_R Rmult). rewrite <- E, Nat.min_id. apply sumn_ext.
  intros i L. apply (vmap2_nth Rmult); auto. cbn in *; lia.
Qed.

(** [wf m n A]: A has m rows of length n. *)
Definition wf (m n : nat) (A : list (list R)) : Prop := length A = m /\ forall r, In r A -> length r = n.
Definition ent (A : list (list R)) (i j : nat) : R := (nth i A []).[j].

Lemma mvec_length {S : nops} (A : mat (S := S)) x : length (mvec A x) = length A.
Proof. apply map_length. Qed.
Lemma mvec_nth m n (A : list (list R)) (x : list R) i : wf m n A -> length x = n -> (i < m)%nat ->
  (mvec (S := Rn) A x : list R).[i] = sumn n (fun j => ent A i j * x.[j]).
Proof.
  intros [L W] E H. unfold mvec. rewrite (nth_map_lt _ _ _ []) by (cbn in *; lia).
  assert (length (nth i A []) = n) by (apply W, nth_In; lia). rewrite vdot_R by (etransitivity; [exact H0|auto]). unfold ent. rewrite <- H0 at 1. reflexivity.
Qed.
Lemma mtvec_aux n (L : list (list R)) (z : list R) : (forall r, In r L -> length r = n) -> length z = n ->
  length (fold_left (vadd (S := Rn)) L z) = n /\
  forall j, (fold_left (vadd (S := Rn)) L z : list R).[j] = z.[j] + sumn (length L) (fun i => (nth i L []).[j]).
Proof.
  revert z. induction L as [|r L IH]; intros z W E; [split; auto; intros; cbn; lra|].
  cbn [fold_left].
  assert (length r = n) by (apply W; cbn; auto).
  destruct (IH (vadd (S := Rn) z r)) as [A B].
  { intros; apply W; cbn; auto. } { etransitivity; [apply (vmap2_length_R Rplus)|]. lia. }
  split; auto. intros j. rewrite B, vadd_nth by congruence. cbn [length]. rewrite sumn_shift. cbn. lra.
Qed.
Lemma mtvec_spec m n (A : list (list R)) (y : list R) : wf m n A -> length y = m ->
  length (mtvec (S := Rn) n A y) = n /\
  forall j, (mtvec (S := Rn) n A y : list R).[j] = sumn m (fun i => ent A i j * y.[i]).
Proof.
  intros [L W] E. unfold mtvec.
  destruct (mtvec_aux n (map (fun p => vscale (S := Rn) (snd p) (fst p)) (combine A y)) (repeat 0 n)) as [P Q].
  { intros r I. apply in_map_iff in I as ([a b] & <- & I). etransitivity; [apply (vscale_length (S := Rn))|]. apply in_combine_l in I. apply W. auto. }
  { apply repeat_length. }
  split; [exact P|]. intros j. etransitivity; [exact (Q j)|].
  rewrite nth_repeat, map_length, combine_length, Rplus_0_l.
  cbn in L, E. rewrite L, E, Nat.min_id. apply sumn_ext. intros i I.
  rewrite (nth_map_lt _ _ _ ([], 0)) by (rewrite combine_length; lia).
  rewrite vscale_nth, combine_nth by (etransitivity; [exact L|auto]). cbn. unfold ent. lra.
Qed.
Lemma wf_mtvec_length m n (A : list (list R)) (y : list R) : wf m n A -> length y = m -> length (mtvec (S := Rn) n A y) = n.
Proof. intros. eapply mtvec_spec; eauto. Qed.
