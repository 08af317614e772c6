(** Proofs for C49. *)
From Coq Require Import ZArith Reals List Bool Lia Lra FunctionalExtensionality.
From Coquelicot Require Import Coquelicot.
From Verif Require Import Base ExprModel ExprReal ExprXR NumModel UtilModel KktModel FilterModel ExitModel SolverModel NewtonModel SqpModel IpmModel RestoreModel
  LinR XArith FinEval EstProofs IpmShape RestoreProofs RestoreSpec.
Import ListNotations.
Local Open Scope R_scope.

(** ** Points *)
Lemma put_len v j t : (j < length v)%nat -> length (put v j t) = length v.
Proof. intros H. unfold put. rewrite app_length, firstn_length. cbn [length]. rewrite skipn_length. lia. Qed.
Lemma put_nth v j t i : (j < length v)%nat -> nth i (put v j t) 0 = if Nat.eqb i j then t else nth i v 0.
Proof.
  intros H. unfold put. destruct (Nat.eqb_spec i j) as [->|Hn].
  - rewrite app_nth2, firstn_length by (rewrite firstn_length; lia). replace (j - Nat.min j (length v))%nat with 0%nat by lia. reflexivity.
  - destruct (Nat.lt_ge_cases i j) as [Hl|Hl].
    + rewrite app_nth1 by (rewrite firstn_length; lia). rewrite <- (firstn_skipn j v) at 2. rewrite app_nth1 by (rewrite firstn_length; lia). reflexivity.
    + rewrite app_nth2, firstn_length by (rewrite firstn_length; lia). replace (i - Nat.min j (length v))%nat with (S (i - j - 1)) by lia. cbn [nth].
      rewrite <- (firstn_skipn (S j) v) at 2. rewrite app_nth2, firstn_length by (rewrite firstn_length; lia). f_equal. lia.
Qed.
Lemma put_same v j : (j < length v)%nat -> put v j (nth j v 0) = v.
Proof.
  intros H. apply (nth_ext _ _ 0 0). { apply put_len, H. } intros i _. rewrite put_nth by exact H. destruct (Nat.eqb_spec i j) as [->|]; reflexivity.
Qed.
Lemma firstn_put_lo v n j t : (j < n <= length v)%nat -> firstn n (put v j t) = put (firstn n v) j t.
Proof.
  intros H. apply (nth_ext _ _ 0 0). { rewrite firstn_length, !put_len, ?firstn_length; rewrite ?firstn_length; lia. }
  rewrite firstn_length, put_len by lia. intros i Hi. rewrite put_nth by (rewrite firstn_length; lia).
  rewrite !nth_firstn_lt by lia. rewrite put_nth by lia. reflexivity.
Qed.
Lemma firstn_put_hi v n j t : (n <= j < length v)%nat -> firstn n (put v j t) = firstn n v.
Proof.
  intros H. unfold put. rewrite firstn_app, firstn_firstn, firstn_length. replace (n - Nat.min j (length v))%nat with 0%nat by lia. cbn [firstn]. rewrite app_nil_r. f_equal. lia.
Qed.
Lemma fv_nth v i : (i < length v)%nat -> nth i (fv v) NaN = Fin (nth i v 0).
Proof. intros H. unfold fv. rewrite (nth_indep _ NaN (Fin 0)) by (rewrite map_length; exact H). apply map_nth. Qed.
Lemma seg_fv (v : list R) a k : segment (S := Xn) (fv v) a k = fv (firstn k (skipn a v)).
Proof. unfold segment, fv. rewrite <- firstn_map, <- skipn_map. reflexivity. Qed.
Lemma seg_nth (v : list R) a k i : (i < k)%nat -> (a + k <= length v)%nat -> nth i (segment (S := Xn) (fv v) a k) NaN = Fin (nth (a + i) v 0).
Proof.
  intros Hi Hk. rewrite seg_fv, fv_nth by (rewrite firstn_length, skipn_length; lia). rewrite nth_firstn_lt by exact Hi. f_equal. apply nth_skipn'.
Qed.
Lemma seg_length (v : list R) a k : (a + k <= length v)%nat -> length (segment (S := Xn) (fv v) a k) = k.
Proof. intros H. rewrite seg_fv, fv_len, firstn_length, skipn_length. lia. Qed.
Lemma vmap2_x f (a b : list XR) i : (i < length a)%nat -> (i < length b)%nat -> nth i (vmap2 (S := Xn) f a b) NaN = f (nth i a NaN) (nth i b NaN).
Proof.
  revert b i. induction a as [|x a IH]; intros [|y b] i Ha Hb; cbn in Ha, Hb; try lia. destruct i; [reflexivity|]. cbn. apply IH; lia.
Qed.
Lemma vmap2_xlen f (a b : list XR) : @length XR (vmap2 (S := Xn) f a b) = Nat.min (length a) (length b).
Proof. exact (vmap2_length (S := Xn) f a b). Qed.
Lemma unit_xlen k r (v : XR) : @length XR (unit_row (S := Xn) k r v) = k.
Proof. exact (unit_row_len (S := Xn) k r v). Qed.
Ltac nx := change (car (nbase Xn)) with XR in *.
Lemma unit_x n r (v : XR) j : (j < n)%nat -> nth j (unit_row (S := Xn) n r v) NaN = if Nat.eqb j r then v else Fin 0.
Proof.
  intros H. unfold unit_row. rewrite (nth_map_lt _ _ _ 0%nat) by (rewrite seq_length; exact H). rewrite seq_nth by exact H. reflexivity.
Qed.

(** ** Derivatives of the relaxed constraints *)
Section Relax.
Variables (n N : nat) (c0 h : list XR -> XR) (a b : nat).
Hypothesis HN : (n <= a < N)%nat.
Hypothesis HN' : (n <= b < N)%nat.
Hypothesis Hab : a <> b.
Hypothesis Hh : forall u : list R, length u = N -> h (fv u) = X_add (X_sub (c0 (fv (firstn n u))) (Fin (nth a u 0))) (Fin (nth b u 0)).

Lemma relax_x v j d : length v = N -> (j < n)%nat -> has_partial c0 (firstn n v) j d -> has_partial h v j d.
Proof.
  intros Hv Hj (F & r & HF & HD & ->). exists (fun t => F t - nth a v 0 + nth b v 0), r. split; [|split; [|reflexivity]].
  - intros t. rewrite Hh by (rewrite put_len; lia). rewrite firstn_put_lo by lia. rewrite HF, !put_nth by lia.
    destruct (Nat.eqb_spec a j); [lia|]. destruct (Nat.eqb_spec b j); [lia|]. reflexivity.
  - rewrite nth_firstn_lt in HD by lia. auto_derive. { exists r. exact HD. } match goal with |- context [Derive ?f ?x] => replace (Derive f x) with r by (symmetry; exact (is_derive_unique F _ _ HD)) end. ring.
Qed.
Lemma relax_pn v j x0 : length v = N -> (n <= j < N)%nat -> c0 (fv (firstn n v)) = Fin x0 ->
  has_partial h v j (Fin (if Nat.eqb j a then -1 else if Nat.eqb j b then 1 else 0)).
Proof.
  intros Hv Hj Hx. exists (fun t => x0 - (if Nat.eqb a j then t else nth a v 0) + (if Nat.eqb b j then t else nth b v 0)).
  eexists. split; [|split; [|reflexivity]].
  - intros t. rewrite Hh by (rewrite put_len; lia). rewrite firstn_put_hi by lia. rewrite Hx, !put_nth by lia. reflexivity.
  - rewrite (Nat.eqb_sym j a), (Nat.eqb_sym j b). destruct (Nat.eqb_spec a j) as [->|Ha]; destruct (Nat.eqb_spec b j) as [->|Hb]; try (exfalso; congruence); auto_derive; trivial; ring.
Qed.
End Relax.

Lemma coord_partial N (h : list XR -> XR) a v j : (a < N)%nat -> (forall u : list R, length u = N -> h (fv u) = Fin (nth a u 0)) ->
  length v = N -> (j < N)%nat -> has_partial h v j (Fin (if Nat.eqb j a then 1 else 0)).
Proof.
  intros Ha Hh Hv Hj. exists (fun t => if Nat.eqb a j then t else nth a v 0). eexists. split; [|split; [|reflexivity]].
  - intros t. rewrite Hh by (rewrite put_len; lia). rewrite put_nth by lia. reflexivity.
  - rewrite (Nat.eqb_sym j a). destruct (Nat.eqb a j); auto_derive; trivial.
Qed.

(** ** The problem handed to the interior-point method *)
Section Ipm.
Variables (P : iprob Xn) (xr : list R) (zeta : R).
Notation n := (ip_n P).
Notation me := (ip_me P).
Notation mi := (ip_mi P).
Notation k := (2 * ip_me P + 2 * ip_mi P)%nat.
Notation N := (ip_n P + (2 * ip_me P + 2 * ip_mi P))%nat.
Notation Q := (fr_ipm_prob P (fv xr) (Fin zeta)).

Lemma seg0 (v : list R) : segment (S := Xn) (fv v) 0 n = fv (firstn n v).
Proof. apply seg_fv. Qed.

Lemma q_ce_nth v r : length v = N -> length (ip_ce P (fv (firstn n v))) = me -> (r < me)%nat ->
  nth r (ip_ce Q (fv v)) NaN = X_add (X_sub (nth r (ip_ce P (fv (firstn n v))) NaN) (Fin (nth (n + r) v 0))) (Fin (nth (n + me + r) v 0)).
Proof.
  intros Hv Hc Hr. cbn [fr_ipm_prob ip_ce]. unfold fr_ce. rewrite seg0. unfold vadd, vsub.
  rewrite vmap2_x. 2: nx; rewrite vmap2_xlen, Hc, seg_length; lia. 2: nx; rewrite seg_length; lia.
  rewrite vmap2_x. 2: nx; lia. 2: nx; rewrite seg_length; lia. rewrite !seg_nth by lia. reflexivity.
Qed.
Lemma q_ce_len v : length v = N -> length (ip_ce P (fv (firstn n v))) = me -> length (ip_ce Q (fv v)) = me.
Proof. intros Hv Hc. apply (fr_ce_len (S := Xn) n me (2 * mi)); rewrite ?fv_len, ?seg0; [lia|exact Hc]. Qed.

Lemma q_ci_len v : length v = N -> length (ip_ci P (fv (firstn n v))) = mi -> length (ip_ci Q (fv v)) = (mi + k)%nat.
Proof. intros Hv Hc. apply (fr_ci_len (S := Xn)); rewrite ?fv_len, ?seg0; [lia|exact Hc]. Qed.
Lemma q_ci_nth v r : length v = N -> length (ip_ci P (fv (firstn n v))) = mi -> (r < mi)%nat ->
  nth r (ip_ci Q (fv v)) NaN = X_add (X_sub (nth r (ip_ci P (fv (firstn n v))) NaN) (Fin (nth (n + 2 * me + r) v 0))) (Fin (nth (n + 2 * me + mi + r) v 0)).
Proof.
  intros Hv Hc Hr. cbn [fr_ipm_prob ip_ci]. unfold fr_ci. rewrite seg0. unfold vadd, vsub.
  rewrite app_nth1. 2: nx; rewrite !vmap2_xlen, Hc, !seg_length; lia.
  rewrite vmap2_x. 2: nx; rewrite vmap2_xlen, Hc, seg_length; lia. 2: nx; rewrite seg_length; lia.
  rewrite vmap2_x. 2: nx; lia. 2: nx; rewrite seg_length; lia. rewrite !seg_nth by lia. reflexivity.
Qed.
Lemma q_ci_bound v r : length v = N -> length (ip_ci P (fv (firstn n v))) = mi -> (r < k)%nat ->
  nth (mi + r) (ip_ci Q (fv v)) NaN = Fin (nth (n + r) v 0).
Proof.
  intros Hv Hc Hr. cbn [fr_ipm_prob ip_ci]. unfold fr_ci. rewrite seg0. unfold vadd, vsub.
  rewrite app_nth2; nx; rewrite !vmap2_xlen, Hc, !seg_length by lia. 2: nx; lia.
  replace (mi + r - Nat.min (Nat.min mi mi) mi)%nat with r by lia. apply seg_nth; lia.
Qed.

(** *** Jacobians *)
Lemma fr_Ae_row (A : list XR -> list (list XR)) w r : (r < me)%nat -> length (A (segment (S := Xn) w 0 n)) = me ->
  nth r (fr_Ae (S := Xn) n me (2 * mi) A w) [] =
  nth r (A (segment (S := Xn) w 0 n)) [] ++ unit_row (S := Xn) me r (X_opp (Fin 1)) ++ unit_row (S := Xn) me r (Fin 1) ++ repeat (Fin 0) (2 * mi).
Proof.
  intros Hr Hl. unfold fr_Ae. rewrite (nth_map_lt _ _ _ (0%nat, [])) by (nx; rewrite combine_length, seq_length, Hl; lia).
  rewrite combine_nth by (nx; rewrite seq_length, Hl; reflexivity). rewrite seq_nth by exact Hr. reflexivity.
Qed.
Lemma fr_bounds_row m q r : (r < q)%nat -> nth r (fr_bounds (S := Xn) m q) [] = repeat (Fin 0) m ++ unit_row (S := Xn) q r (Fin 1).
Proof. intros Hr. unfold fr_bounds. rewrite (nth_map_lt _ _ _ 0%nat) by (rewrite seq_length; exact Hr). rewrite seq_nth by exact Hr. reflexivity. Qed.

Lemma dims_of (m q : nat) (A : list (list XR)) : mat_dims (S := Xn) m q A = true -> length A = m /\ forall r, In r A -> length r = q.
Proof.
  unfold mat_dims. intros H. apply andb_prop in H as [H1 H2]. apply Nat.eqb_eq in H1. split; [exact H1|].
  intros r Hr. apply Nat.eqb_eq. rewrite forallb_forall in H2. apply H2, Hr.
Qed.
Lemma to_dims (m q : nat) (A : list (list XR)) : length A = m -> (forall r, In r A -> length r = q) -> mat_dims (S := Xn) m q A = true.
Proof.
  intros H1 H2. unfold mat_dims. nx. rewrite H1, Nat.eqb_refl. cbn. apply forallb_forall. intros r Hr. apply Nat.eqb_eq, H2, Hr.
Qed.

Lemma jac_e : jacobian_of n me (ip_ce P) (ip_Ae P) -> jacobian_of N me (ip_ce Q) (ip_Ae Q).
Proof.
  intros HJ v Hv. destruct (HJ (firstn n v)) as (Lc & LA & LR & HE). { rewrite firstn_length. lia. }
  split; [apply q_ce_len; assumption|].
  assert (HD : mat_dims (S := Xn) me N (ip_Ae Q (fv v)) = true).
  { rewrite Nat.add_assoc. apply fr_Ae_dims. rewrite seg0. apply to_dims; assumption. }
  apply dims_of in HD. destruct HD as [D1 D2]. split; [exact D1|]. split; [exact D2|].
  intros r Hr. destruct (HE r Hr) as ((x0 & Hx0) & HP). split.
  { eexists. etransitivity; [apply q_ce_nth; assumption|]. nx. rewrite Hx0. reflexivity. }
  intros j Hj.
  assert (Hh : forall u : list R, length u = N -> (fun w => nth r (ip_ce Q w) NaN) (fv u) =
     X_add (X_sub ((fun w => nth r (ip_ce P w) NaN) (fv (firstn n u))) (Fin (nth (n + r) u 0))) (Fin (nth (n + me + r) u 0))).
  { intros u Hu. apply q_ce_nth; [exact Hu| |exact Hr]. apply (HJ (firstn n u)). rewrite firstn_length. lia. }
  cbn [ip_Ae fr_ipm_prob]. rewrite fr_Ae_row; [|exact Hr|rewrite seg0; exact LA]. rewrite seg0. nx.
  assert (Lr : length (nth r (ip_Ae P (fv (firstn n v))) []) = n). { apply LR, nth_In. nx. rewrite LA. assumption. }
  nx.
  destruct (Nat.lt_ge_cases j n) as [Hjn|Hjn].
  - rewrite app_nth1 by lia. eapply (relax_x n N); try exact Hh; try lia; auto.
  - rewrite app_nth2 by lia. rewrite Lr.
    assert (HR := relax_pn n N _ _ (n + r) (n + me + r) ltac:(lia) ltac:(lia) ltac:(lia) Hh v j x0 Hv ltac:(lia) Hx0).
    match goal with |- has_partial _ _ _ ?d => assert (d = Fin (if Nat.eqb j (n + r) then -1 else if Nat.eqb j (n + me + r) then 1 else 0)) as -> end; [|exact HR].
    destruct (Nat.lt_ge_cases (j - n) me) as [H1|H1].
    + rewrite app_nth1 by (rewrite unit_xlen; lia). rewrite unit_x by lia.
      destruct (Nat.eqb_spec (j - n) r) as [?Eq|?Eq]; destruct (Nat.eqb_spec j (n + r)) as [?Eq|?Eq]; try lia; [cbn; f_equal; lra|]. destruct (Nat.eqb_spec j (n + me + r)) as [?Eq|?Eq]; [lia|reflexivity].
    + rewrite app_nth2 by (rewrite unit_xlen; lia). rewrite unit_xlen. destruct (Nat.eqb_spec j (n + r)) as [?Eq|?Eq]; [lia|].
      destruct (Nat.lt_ge_cases (j - n - me) me) as [H2|H2].
      * rewrite app_nth1 by (rewrite unit_xlen; lia). rewrite unit_x by lia.
        destruct (Nat.eqb_spec (j - n - me) r) as [?Eq|?Eq]; destruct (Nat.eqb_spec j (n + me + r)) as [?Eq|?Eq]; try lia; reflexivity.
      * rewrite app_nth2 by (rewrite unit_xlen; lia). rewrite unit_xlen. destruct (Nat.eqb_spec j (n + me + r)) as [?Eq|?Eq]; [lia|].
        rewrite (nth_indep _ NaN (Fin 0)) by (rewrite repeat_length; lia). apply nth_repeat.
Qed.

Lemma fr_Ai_row (A : list XR -> list (list XR)) w r : (r < mi)%nat -> length (A (segment (S := Xn) w 0 n)) = mi ->
  nth r (fr_Ai (S := Xn) n me mi A w) [] =
  nth r (A (segment (S := Xn) w 0 n)) [] ++ repeat (Fin 0) (2 * me) ++ unit_row (S := Xn) mi r (X_opp (Fin 1)) ++ unit_row (S := Xn) mi r (Fin 1).
Proof.
  intros Hr Hl. unfold fr_Ai. rewrite app_nth1 by (nx; rewrite map_length, combine_length, seq_length, Hl; lia).
  rewrite (nth_map_lt _ _ _ (0%nat, [])) by (nx; rewrite combine_length, seq_length, Hl; lia).
  rewrite combine_nth by (nx; rewrite seq_length, Hl; reflexivity). rewrite seq_nth by exact Hr. reflexivity.
Qed.
Lemma fr_Ai_row2 (A : list XR -> list (list XR)) w r : (r < k)%nat -> length (A (segment (S := Xn) w 0 n)) = mi ->
  nth (mi + r) (fr_Ai (S := Xn) n me mi A w) [] = repeat (Fin 0) n ++ unit_row (S := Xn) k r (Fin 1).
Proof.
  intros Hr Hl. unfold fr_Ai. rewrite app_nth2; nx; rewrite map_length, combine_length, seq_length, Hl. 2: nx; lia.
  replace (mi + r - Nat.min mi mi)%nat with r by lia. apply fr_bounds_row, Hr.
Qed.

Lemma jac_i : jacobian_of n mi (ip_ci P) (ip_Ai P) -> jacobian_of N (mi + k) (ip_ci Q) (ip_Ai Q).
Proof.
  intros HJ v Hv. destruct (HJ (firstn n v)) as (Lc & LA & LR & HE). { rewrite firstn_length. lia. }
  split; [apply q_ci_len; assumption|].
  assert (HD : mat_dims (S := Xn) (mi + k) N (ip_Ai Q (fv v)) = true).
  { apply fr_Ai_dims. rewrite seg0. apply to_dims; assumption. }
  apply dims_of in HD. destruct HD as [D1 D2]. split; [exact D1|]. split; [exact D2|].
  intros r Hr. cbn [ip_Ai fr_ipm_prob].
  destruct (Nat.lt_ge_cases r mi) as [Hm|Hm].
  - destruct (HE r Hm) as ((x0 & Hx0) & HP). split.
    { eexists. etransitivity; [apply q_ci_nth; assumption|]. nx. rewrite Hx0. reflexivity. }
    intros j Hj.
    assert (Hh : forall u : list R, length u = N -> (fun w => nth r (ip_ci Q w) NaN) (fv u) =
       X_add (X_sub ((fun w => nth r (ip_ci P w) NaN) (fv (firstn n u))) (Fin (nth (n + 2 * me + r) u 0))) (Fin (nth (n + 2 * me + mi + r) u 0))).
    { intros u Hu. apply q_ci_nth; [exact Hu| |exact Hm]. apply (HJ (firstn n u)). rewrite firstn_length. lia. }
    rewrite fr_Ai_row; [|exact Hm|rewrite seg0; exact LA]. rewrite seg0. nx.
    assert (Lr : length (nth r (ip_Ai P (fv (firstn n v))) []) = n). { apply LR, nth_In. nx. rewrite LA. assumption. }
  nx.
    destruct (Nat.lt_ge_cases j n) as [Hjn|Hjn].
    + rewrite app_nth1 by lia. eapply (relax_x n N); try exact Hh; try lia; auto.
    + rewrite app_nth2 by lia. rewrite Lr.
      assert (HR := relax_pn n N _ _ (n + 2 * me + r) (n + 2 * me + mi + r) ltac:(lia) ltac:(lia) ltac:(lia) Hh v j x0 Hv ltac:(lia) Hx0).
      match goal with |- has_partial _ _ _ ?d => assert (d = Fin (if Nat.eqb j (n + 2 * me + r) then -1 else if Nat.eqb j (n + 2 * me + mi + r) then 1 else 0)) as -> end; [|exact HR].
      destruct (Nat.lt_ge_cases (j - n) (2 * me)) as [H1|H1].
      { rewrite app_nth1 by (rewrite repeat_length; lia). destruct (Nat.eqb_spec j (n + 2 * me + r)) as [?Eq|?Eq]; [lia|]. destruct (Nat.eqb_spec j (n + 2 * me + mi + r)) as [?Eq|?Eq]; [lia|].
        rewrite (nth_indep _ NaN (Fin 0)) by (rewrite repeat_length; lia). apply nth_repeat. }
      rewrite app_nth2 by (rewrite repeat_length; lia). rewrite repeat_length.
      destruct (Nat.lt_ge_cases (j - n - 2 * me) mi) as [H2|H2].
      * rewrite app_nth1 by (rewrite unit_xlen; lia). rewrite unit_x by lia.
        destruct (Nat.eqb_spec (j - n - 2 * me) r) as [?Eq|?Eq]; destruct (Nat.eqb_spec j (n + 2 * me + r)) as [?Eq|?Eq]; try lia; [cbn; f_equal; lra|]. destruct (Nat.eqb_spec j (n + 2 * me + mi + r)) as [?Eq|?Eq]; [lia|reflexivity].
      * rewrite app_nth2 by (rewrite unit_xlen; lia). rewrite unit_xlen. destruct (Nat.eqb_spec j (n + 2 * me + r)) as [?Eq|?Eq]; [lia|].
        rewrite unit_x by lia.
        destruct (Nat.eqb_spec (j - n - 2 * me - mi) r) as [?Eq|?Eq]; destruct (Nat.eqb_spec j (n + 2 * me + mi + r)) as [?Eq|?Eq]; try lia; reflexivity.
  - assert (r = (mi + (r - mi))%nat) as Er by lia. rewrite Er. set (q := (r - mi)%nat) in *. assert (Hq : (q < k)%nat) by lia.
    assert (Hh : forall u : list R, length u = N -> (fun w => nth (mi + q) (ip_ci Q w) NaN) (fv u) = Fin (nth (n + q) u 0)).
    { intros u Hu. apply q_ci_bound; [exact Hu| |exact Hq]. apply (HJ (firstn n u)). rewrite firstn_length. lia. }
    split. { eexists. apply (Hh v Hv). }
    intros j Hj. rewrite fr_Ai_row2; [|exact Hq|rewrite seg0; exact LA].
    assert (HC := coord_partial N _ (n + q) v j ltac:(lia) Hh Hv Hj).
    match goal with |- has_partial _ _ _ ?d => assert (d = Fin (if Nat.eqb j (n + q) then 1 else 0)) as -> end; [|exact HC].
    destruct (Nat.lt_ge_cases j n) as [H1|H1].
    + rewrite app_nth1 by (rewrite repeat_length; lia). destruct (Nat.eqb_spec j (n + q)) as [?Eq|?Eq]; [lia|].
      rewrite (nth_indep _ NaN (Fin 0)) by (rewrite repeat_length; lia). apply nth_repeat.
    + rewrite app_nth2 by (rewrite repeat_length; lia). rewrite repeat_length, unit_x by lia.
      destruct (Nat.eqb_spec (j - n) q) as [?Eq|?Eq]; destruct (Nat.eqb_spec j (n + q)) as [?Eq|?Eq]; try lia; reflexivity.
Qed.
End Ipm.
