(** Proofs for C57. *)
From Coq Require Import Reals List Bool Arith Lia Lra Permutation.
From Verif Require Import Base ExprModel ExprReal ExprXR NumModel FilterProofs ExitModel MultiModel MultiSpec.
Import ListNotations.
Local Open Scope nat_scope.

Section Threads.
Context {S : nops} {V : Type} (solve : V -> mresult S V) (gs : list V).

Lemma fill_length (l : list (option (mresult S V))) : forall i r, length (fill l i r) = length l.
Proof. induction l; intros [|i] r; cbn; auto. Qed.
Lemma fill_same (l : list (option (mresult S V))) : forall i r, i < length l -> nth_error (fill l i r) i = Some (Some r).
Proof. induction l; intros [|i] r H; cbn in *; try lia; auto. apply IHl. lia. Qed.
Lemma fill_other (l : list (option (mresult S V))) : forall i j r, i <> j -> nth_error (fill l i r) j = nth_error l j.
Proof. induction l; intros [|i] [|j] r H; cbn; auto; congruence. Qed.

(** Guesses of the tasks that have run. *)
Fixpoint ran (l : list (option (mresult S V))) (gs : list V) : list V :=
  match l, gs with
  | o :: l, g :: gs => match o with Some _ => g :: ran l gs | None => ran l gs end
  | _, _ => []
  end.
Lemma ran_none l : forall gs, ran (l ++ [None]) gs = ran l gs.
Proof. induction l as [|o l IH]; intros [|g gs']; cbn; auto. destruct o; rewrite IH; auto. Qed.
Lemma ran_fill l : forall gs i g r, nth_error l i = Some None -> nth_error gs i = Some g ->
  Permutation (ran (fill l i r) gs) (ran l gs ++ [g]).
Proof.
  induction l as [|o l IH]; intros gs' i g r H H'; [destruct i; discriminate|].
  destruct gs' as [|g' gs']; [destruct i; discriminate|]. destruct i as [|i]; cbn in H, H'.
  - injection H as ->. injection H' as ->. cbn. apply Permutation_cons_append.
  - cbn. destruct o; cbn; [apply perm_skip|]; apply IH; auto.
Qed.
Lemma ran_all l : forall gs, length l = length gs -> (forall i, i < length l -> nth_error l i <> Some None) -> ran l gs = gs.
Proof.
  induction l as [|o l IH]; intros [|g gs'] L H; cbn in L; try lia; auto. cbn.
  destruct o; [|exfalso; apply (H 0); cbn; [lia|reflexivity]]. f_equal. apply IH; [lia|]. intros i Hi. apply (H (Datatypes.S i)). cbn. lia.
Qed.
Fixpoint pend (l : list (option (mresult S V))) : nat :=
  match l with [] => 0 | None :: l => Datatypes.S (pend l) | _ :: l => pend l end.
Lemma pend_app l : pend (l ++ [None]) = Datatypes.S (pend l).
Proof. induction l as [|[|] l IH]; cbn; auto. Qed.
Lemma pend_fill l : forall i r, nth_error l i = Some None -> pend l = Datatypes.S (pend (fill l i r)).
Proof.
  induction l as [|o l IH]; intros [|i] r H; cbn in H; try discriminate.
  - injection H as ->. reflexivity.
  - destruct o; cbn; rewrite (IH i r H) at 1; auto.
Qed.

Definition tinv (s : mstate S V) : Prop :=
  length (ms_futures s) <= length gs /\
  (forall i r, nth_error (ms_futures s) i = Some (Some r) -> exists g, nth_error gs i = Some g /\ r = solve g) /\
  (exists k, ms_results s = map solve (firstn k gs) /\ k <= length gs /\ k = length (ms_results s) /\
     (forall i, i < k -> exists r, nth_error (ms_futures s) i = Some (Some r))) /\
  Permutation (ms_calls s) (ran (ms_futures s) gs).

Lemma firstn_snoc {A} (l : list A) k x : nth_error l k = Some x -> firstn (Datatypes.S k) l = firstn k l ++ [x].
Proof. revert k. induction l as [|y l IH]; intros [|k] H; cbn in *; try discriminate; [injection H as ->; auto|]. f_equal. apply IH, H. Qed.

Lemma tinv_init : tinv ms_init.
Proof.
  unfold tinv, ms_init. cbn. split; [lia|]. split; [intros i r H; destruct i; discriminate|].
  split; [exists 0; cbn; repeat split; auto; lia|]. destruct gs; constructor.
Qed.

Lemma tinv_step s s' : mstep solve gs s s' -> tinv s -> tinv s'.
Proof.
  intros H (L & F & (k & Ek & Lk & Kk & Fk) & P). destruct H as [s Hl|s i g Hi Hg|s r Hf Hr]; unfold tinv; cbn.
  - rewrite app_length. cbn. split; [lia|]. split; [|split].
    + intros i r Hi. destruct (Nat.lt_ge_cases i (length (ms_futures s))) as [Hlt|Hge].
      * rewrite nth_error_app1 in Hi by auto. eauto.
      * rewrite nth_error_app2 in Hi by auto. destruct (i - _) as [|[|?]]; cbn in Hi; discriminate.
    + exists k. split; [auto|]. split; [auto|]. split; [auto|]. intros i Hi. destruct (Fk i Hi) as (r & E). exists r.
      rewrite nth_error_app1; auto. apply nth_error_Some. congruence.
    + rewrite ran_none. exact P.
  - rewrite fill_length. split; [auto|]. assert (Hlt : i < length (ms_futures s)) by (apply nth_error_Some; congruence).
    split; [|split].
    + intros j r Hj. destruct (Nat.eq_dec i j) as [<-|N].
      * rewrite fill_same in Hj by auto. injection Hj as <-. eauto.
      * rewrite fill_other in Hj by auto. eauto.
    + exists k. split; [auto|]. split; [auto|]. split; [auto|]. intros j Hj. destruct (Nat.eq_dec i j) as [<-|N].
      * rewrite fill_same by auto. eauto.
      * rewrite fill_other by auto. eauto.
    + rewrite (ran_fill _ _ _ _ (solve g) Hi Hg). apply Permutation_app_tail. exact P.
  - split; [auto|]. split; [auto|]. split; [|exact P].
    destruct (F _ _ Hr) as (g & Eg & ->). rewrite <- Kk in Eg. exists (Datatypes.S k). rewrite Ek, (firstn_snoc _ _ _ Eg), map_app.
    split; [reflexivity|]. assert (k < length gs) by (apply nth_error_Some; congruence). split; [lia|].
    split; [rewrite app_length, map_length, firstn_length; cbn; lia|].
    intros i Hi. destruct (Nat.eq_dec i k) as [->|N]; [rewrite Kk; eauto|]. apply Fk. lia.
Qed.

Lemma tinv_steps n s s' : msteps solve gs n s s' -> tinv s -> tinv s'.
Proof. induction 1; auto. intros. apply IHmsteps. eapply tinv_step; eauto. Qed.

(** Remaining work. *)
Definition todo (s : mstate S V) : nat :=
  2 * (length gs - length (ms_futures s)) + pend (ms_futures s) + (length gs - length (ms_results s)).
Lemma todo_step s s' : mstep solve gs s s' -> tinv s -> todo s = Datatypes.S (todo s').
Proof.
  intros H (L & F & (k & Ek & Lk & Kk & Fk) & P). destruct H as [s Hl|s i g Hi Hg|s r Hf Hr]; unfold todo; cbn.
  - rewrite app_length, pend_app. cbn. lia.
  - rewrite fill_length, (pend_fill _ _ (solve g) Hi). lia.
  - rewrite app_length. cbn. assert (length (ms_results s) < length (ms_futures s)) by (apply nth_error_Some; congruence). lia.
Qed.
Lemma todo_steps n s s' : msteps solve gs n s s' -> tinv s -> todo s = n + todo s'.
Proof.
  induction 1; intros I; auto. rewrite (todo_step _ _ H I), IHmsteps by (eapply tinv_step; eauto). reflexivity.
Qed.

Lemma progress s : tinv s -> collected gs s \/ exists s', mstep solve gs s s'.
Proof.
  intros (L & F & (k & Ek & Lk & Kk & Fk) & P). destruct (Nat.eq_dec (length (ms_futures s)) (length gs)) as [E|N].
  - destruct (Nat.eq_dec (length (ms_results s)) (length gs)) as [E'|N']; [left; split; auto|]. right.
    assert (Hk : length (ms_results s) < length gs) by lia.
    destruct (nth_error (ms_futures s) (length (ms_results s))) as [[r|]|] eqn:En.
    + eexists. eapply mstep_get; eauto.
    + destruct (nth_error gs (length (ms_results s))) as [g|] eqn:Eg; [|apply nth_error_None in Eg; lia].
      eexists. eapply mstep_run; eauto.
    + apply nth_error_None in En. lia.
  - right. eexists. apply mstep_launch. lia.
Qed.

Lemma c57_schedule n s : msteps solve gs n ms_init s ->
  n <= 3 * length gs /\ (collected gs s \/ exists s', mstep solve gs s s') /\
  (collected gs s -> n = 3 * length gs /\ ms_results s = map solve gs /\ Permutation (ms_calls s) gs).
Proof.
  intros H. pose proof (tinv_steps _ _ _ H tinv_init) as I. pose proof (todo_steps _ _ _ H tinv_init) as T.
  unfold todo at 1 in T. cbn in T. split; [lia|]. split; [apply progress, I|]. intros [C1 C2].
  pose proof I as (L & F & (k & Ek & Lk & Kk & Fk) & P).
  assert (Hall : forall i, i < length (ms_futures s) -> nth_error (ms_futures s) i <> Some None).
  { intros i Hi E. destruct (Fk i) as (r & E'); [lia|congruence]. }
  assert (Hp : pend (ms_futures s) = 0).
  { clear - Hall. induction (ms_futures s) as [|o l IH]; auto. cbn. destruct o.
    - apply IH. intros i Hi. apply (Hall (Datatypes.S i)). cbn. lia.
    - exfalso. apply (Hall 0); [cbn; lia|reflexivity]. }
  split; [|split].
  - unfold todo in T. rewrite Hp in T. lia.
  - rewrite Ek. replace k with (length gs) by lia. rewrite firstn_all. reflexivity.
  - rewrite P, ran_all; auto.
Qed.
End Threads.

Section Best.
Context {V : Type}.
Local Open Scope R_scope.
Notation res := (mresult Rn V).

Lemma success_dec (r : res) : {succeeded r} + {~ succeeded r}.
Proof. unfold succeeded. destruct (m_status r); (left; reflexivity) || (right; discriminate). Qed.
Lemma success_b (r : res) : is_success (m_status r) = true <-> succeeded r.
Proof. unfold succeeded. destruct (m_status r); cbn; split; intros; congruence. Qed.

Lemma best_nonempty (r : res) : best [r] r.
Proof.
  unfold best. split; [left; auto|]. split.
  - intros (r' & [<-|[]] & H). split; [auto|]. intros r' [<-|[]] _. unfold cost. lra.
  - intros _ r' [<-|[]]. unfold cost. lra.
Qed.

Lemma min_from_best (l done : list res) b : failures_dearer (done ++ l) -> best done b -> best (done ++ l) (min_from b l).
Proof.
  revert done b. induction l as [|r l IH]; intros done b H B; [rewrite app_nil_r; exact B|]. cbn [min_from].
  replace (done ++ r :: l) with ((done ++ [r]) ++ l) by (rewrite <- app_assoc; reflexivity).
  apply IH; [rewrite <- app_assoc; exact H|]. destruct B as (Bi & Bs & Bf).
  assert (Hr : In r (done ++ r :: l)) by (apply in_or_app; right; left; auto).
  assert (Hd : forall x, In x done -> In x (done ++ r :: l)) by (intros; apply in_or_app; auto).
  assert (Lt : s_ltb Rn (m_cost r) (m_cost b) = true <-> cost r < cost b).
  { unfold cost. change (s_ltb Rn (m_cost r) (m_cost b)) with (R_ltb (m_cost r) (m_cost b)). split; [apply R_ltb_true|].
    intros Hlt. destruct (R_ltb (m_cost r) (m_cost b)) eqn:E; auto. apply R_ltb_false in E. lra. }
  unfold better. destruct (is_success (m_status r)) eqn:Sr, (is_success (m_status b)) eqn:Sb; cbn [andb negb].
  - (* both succeed *)
    apply success_b in Sr. apply success_b in Sb. destruct (Bs (ex_intro _ b (conj Bi Sb))) as [_ Bs'].
    destruct (s_ltb Rn (m_cost r) (m_cost b)); [assert (E : cost r < cost b) by (apply Lt; reflexivity)|assert (E' : ~ cost r < cost b) by (rewrite <- Lt; discriminate)].
    + split; [apply in_or_app; right; left; auto|]. split.
      * intros _. split; [auto|]. intros r' Hr' Sr'. apply in_app_or in Hr' as [Hr'|[<-|[]]]; [specialize (Bs' r' Hr' Sr')|]; lra.
      * intros N. destruct (N r); [apply in_or_app; right; left; auto|auto].
    + split; [apply in_or_app; auto|]. split.
      * intros _. split; [auto|]. intros r' Hr' Sr'. apply in_app_or in Hr' as [Hr'|[<-|[]]]; [apply Bs'; auto|lra].
      * intros N. destruct (N b); [apply in_or_app; auto|auto].
  - (* only r succeeds *)
    apply success_b in Sr. assert (Nb : ~ succeeded b) by (rewrite <- success_b; congruence).
    split; [apply in_or_app; right; left; auto|]. split.
    + intros _. split; [auto|]. intros r' Hr' Sr'. apply in_app_or in Hr' as [Hr'|[<-|[]]]; [|lra].
      destruct (Bs (ex_intro _ r' (conj Hr' Sr'))) as [Sb' _]. contradiction.
    + intros N. destruct (N r); [apply in_or_app; right; left; auto|auto].
  - (* only b succeeds *)
    apply success_b in Sb. assert (Nr : ~ succeeded r) by (rewrite <- success_b; congruence).
    destruct (Bs (ex_intro _ b (conj Bi Sb))) as [_ Bs'].
    assert (E' : ~ cost r < cost b) by (specialize (H b r (Hd b Bi) Hr Sb Nr); lra).
    replace (s_ltb Rn (m_cost r) (m_cost b)) with false by (symmetry; apply Bool.not_true_is_false; rewrite Lt; exact E'). split; [apply in_or_app; auto|]. split.
    + intros _. split; [auto|]. intros r' Hr' Sr'. apply in_app_or in Hr' as [Hr'|[<-|[]]]; [apply Bs'; auto|contradiction].
    + intros N. destruct (N b); [apply in_or_app; auto|auto].
  - (* neither *)
    assert (Nr : ~ succeeded r) by (rewrite <- success_b; congruence).
    assert (Nb : ~ succeeded b) by (rewrite <- success_b; congruence).
    assert (NN : forall r', In r' done -> ~ succeeded r').
    { intros r' Hr' Sr'. destruct (Bs (ex_intro _ r' (conj Hr' Sr'))) as [Sb' _]. contradiction. }
    assert (NA : forall r', In r' (done ++ [r]) -> ~ succeeded r').
    { intros r' Hr'. apply in_app_or in Hr' as [Hr'|[<-|[]]]; auto. }
    destruct (s_ltb Rn (m_cost r) (m_cost b)); [assert (E : cost r < cost b) by (apply Lt; reflexivity)|assert (E' : ~ cost r < cost b) by (rewrite <- Lt; discriminate)].
    + split; [apply in_or_app; right; left; auto|]. split.
      * intros (r' & Hr' & Sr'). destruct (NA r' Hr' Sr').
      * intros _ r' Hr'. apply in_app_or in Hr' as [Hr'|[<-|[]]]; [specialize (Bf NN r' Hr')|]; lra.
    + split; [apply in_or_app; auto|]. split.
      * intros (r' & Hr' & Sr'). destruct (NA r' Hr' Sr').
      * intros _ r' Hr'. apply in_app_or in Hr' as [Hr'|[<-|[]]]; [specialize (Bf NN r' Hr')|]; lra.
Qed.

Lemma c57_best (rs : list res) : rs <> [] -> failures_dearer rs -> exists r, min_element rs = Ok r /\ best rs r.
Proof.
  destruct rs as [|r rs]; [congruence|]. intros _ H. exists (min_from r rs). split; [reflexivity|].
  apply (min_from_best rs [r] r H (best_nonempty r)).
Qed.
End Best.

Local Open Scope R_scope.
Lemma c57_refuted : exists rs r : mresult Rn unit, let l := [rs; r] in succeeded rs /\
  min_element l = Ok r /\ ~ succeeded r /\ ~ best l r /\ exists r', min_element [r; rs] = Ok r' /\ succeeded r'.
Proof.
  exists (mkM (S := Rn) SUCCESS (10 : R) tt), (mkM (S := Rn) LOCALLY_INFEASIBLE (5 : R) tt). cbn zeta.
  assert (L : R_ltb 5 10 = true) by (unfold R_ltb; destruct (Rlt_dec 5 10); [auto|lra]).
  split; [reflexivity|]. split.
  - unfold min_element. cbn [min_from]. unfold better. cbn [is_success m_status andb negb m_cost].
    change (s_ltb Rn (5 : R) (10 : R)) with (R_ltb 5 10). rewrite L. reflexivity.
  - split; [discriminate|]. split.
    + intros (_ & B & _). destruct B as [B _]; [|discriminate B]. eexists. split; [left; reflexivity|reflexivity].
    + eexists. split; [reflexivity|]. unfold better. cbn. reflexivity.
Qed.
Lemma c57_nan : min_element (S := Xn) (V := unit) [mkM (S := Xn) SUCCESS NaN tt; mkM (S := Xn) SUCCESS (Fin 1) tt]
  = Ok (mkM (S := Xn) SUCCESS NaN tt).
Proof. reflexivity. Qed.
Lemma c57_empty : exists gs : list unit, forall s : mstate Rn unit, collected gs s -> multistart s = UB.
Proof.
  exists []. intros s [_ H]. unfold multistart. destruct (ms_results s); [reflexivity|discriminate H].
Qed.
Lemma c57_nan_ex : exists a b : mresult Xn unit, (m_cost a : XR) = NaN /\ m_status b = SUCCESS /\ (m_cost b : XR) = Fin 1 /\
  min_element [a; b] = Ok a.
Proof. eexists _, _. split; [|split; [|split; [|exact c57_nan]]]; reflexivity. Qed.
