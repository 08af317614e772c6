(** Proofs for C66, C67 and C70. *)
From Coq Require Import ZArith Reals List Bool Arith Lia Lra Permutation.
From Verif Require Import Base ExprModel ExprReal NumModel GuardModel GuardSpec.
Import ListNotations.
Local Open Scope nat_scope.

Lemma gset_length l : forall i g, length (gset l i g) = length l.
Proof. induction l; intros [|i] g; cbn; auto. Qed.
Lemma gset_same l : forall i g, i < length l -> nth_error (gset l i g) i = Some g.
Proof. induction l; intros [|i] g H; cbn in *; try lia; auto. apply IHl. lia. Qed.
Lemma gset_other l : forall i j g, i <> j -> nth_error (gset l i g) j = nth_error l j.
Proof. induction l; intros [|i] [|j] g H; cbn; auto; congruence. Qed.

Lemma nth_snoc_inv {A} (l : list A) x i y : nth_error (l ++ [x]) i = Some y -> nth_error l i = Some y \/ (i = length l /\ y = x).
Proof.
  intros H. destruct (Nat.lt_ge_cases i (length l)); [rewrite nth_error_app1 in H; auto|].
  rewrite nth_error_app2 in H by auto. destruct (i - length l) as [|[|?]] eqn:E; cbn in H; try discriminate.
  injection H as <-. right. split; [lia|auto].
Qed.
Lemma nth_snoc_l {A} (l : list A) x i y : nth_error l i = Some y -> nth_error (l ++ [x]) i = Some y.
Proof. intros H. rewrite nth_error_app1; auto. apply nth_error_Some. congruence. Qed.
Lemma nth_snoc_r {A} (l : list A) x : nth_error (l ++ [x]) (length l) = Some x.
Proof. rewrite nth_error_app2, Nat.sub_diag by lia. reflexivity. Qed.

Lemma owner_snoc h o a i : owner (h ++ [o]) a i <->
  match o with
  | GNew => (a = actions h /\ i = objects h) \/ owner h a i
  | GMove j => (owner h a j /\ i = objects h) \/ (owner h a i /\ i <> j)
  | GRelease j | GDestroy j => owner h a i /\ i <> j
  end.
Proof.
  split.
  - intros H. remember (h ++ [o]) as h' eqn:E. destruct H as [h0|h0 j a H|h0 o' i a H N1 N2 N3];
      apply app_inj_tail in E as [<- <-].
    + auto.
    + auto.
    + destruct o'; auto; try (right; split; [auto|congruence]); split; auto; congruence.
  - destruct o as [|j|j|j].
    + intros [[-> ->]|H]; [constructor|]. apply own_keep; auto; discriminate.
    + intros [[H ->]|[H N]]; [constructor; auto|]. apply own_keep; auto; congruence.
    + intros [H N]. apply own_keep; auto; congruence.
    + intros [H N]. apply own_keep; auto; congruence.
Qed.
Lemma objects_snoc h o : objects (h ++ [o]) = objects h + match o with GNew | GMove _ => 1 | _ => 0 end.
Proof. unfold objects. rewrite filter_app, app_length. destruct o; reflexivity. Qed.
Lemma actions_snoc h o : actions (h ++ [o]) = actions h + match o with GNew => 1 | _ => 0 end.
Proof. unfold actions. rewrite filter_app, app_length. destruct o; reflexivity. Qed.
Lemma grun_snoc l o : forall s, grun (l ++ [o]) s = (let* s := grun l s in gstep o s).
Proof.
  induction l as [|o' l IH]; intros s; cbn; [destruct (gstep o s); reflexivity|]. destruct (gstep o' s); cbn; auto.
Qed.

Definition ran_in (h : list gop) (a : nat) : Prop := exists h1 i h2, h = h1 ++ GDestroy i :: h2 /\ owner h1 a i.
Definition ginv (h : list gop) (s : gstate) : Prop :=
  length (gs_guards s) = objects h /\ gs_made s = actions h /\
  (forall a i, owner h a i <-> nth_error (gs_guards s) i = Some (mkG a true false)) /\
  (forall a i j, owner h a i -> owner h a j -> i = j) /\
  (forall a i, owner h a i -> a < actions h /\ ~ In a (gs_log s)) /\
  NoDup (gs_log s) /\ (forall a, In a (gs_log s) -> a < actions h) /\
  (forall a, In a (gs_log s) <-> ran_in h a) /\
  ((forall i, ~ In (GRelease i) h) -> forall a, a < actions h -> In a (gs_log s) \/ exists i, owner h a i).

Lemma ran_snoc h o a : ran_in (h ++ [o]) a <-> ran_in h a \/ exists i, o = GDestroy i /\ owner h a i.
Proof.
  split.
  - intros (h1 & i & h2 & E & H). destruct h2 as [|o' h2 _] using rev_ind.
    + apply app_inj_tail in E as [<- ->]. right. eauto.
    + change (h1 ++ GDestroy i :: h2 ++ [o']) with (h1 ++ (GDestroy i :: h2) ++ [o']) in E. rewrite app_assoc in E.
      apply app_inj_tail in E as [-> _]. left. exists h1, i, h2. auto.
  - intros [(h1 & i & h2 & -> & H)|(i & -> & H)].
    + exists h1, i, (h2 ++ [o]). rewrite <- app_assoc. auto.
    + exists h, i, []. auto.
Qed.

Lemma owner_nil a i : ~ owner [] a i.
Proof. intros H. remember [] as h eqn:E. destruct H; destruct h; discriminate. Qed.

Lemma live_ok s i g : live s i = Ok g -> nth_error (gs_guards s) i = Some g /\ g_dead g = false.
Proof. unfold live. destruct (nth_error (gs_guards s) i) as [g'|]; try discriminate. destruct (g_dead g') eqn:E; try discriminate. intros H. injection H as <-. auto. Qed.

Lemma ginv_run h : forall s, grun h gs_init = Ok s -> ginv h s.
Proof.
  induction h as [|o h IH] using rev_ind; intros s0 Hrun.
  - cbn in Hrun. injection Hrun as <-. unfold ginv. cbn. split; [auto|]. split; [auto|]. split; [|split; [|split; [|split; [|split; [|split]]]]].
    + intros a i. split; [intros H; destruct (owner_nil _ _ H)|destruct i; discriminate].
    + intros a i j H. destruct (owner_nil _ _ H).
    + intros a i H. destruct (owner_nil _ _ H).
    + constructor.
    + intros a [].
    + intros a. split; [intros []|]. intros (h1 & i & h2 & E & _). destruct h1; discriminate.
    + intros _ a H. lia.
  - rewrite grun_snoc in Hrun. apply obind_ok in Hrun as (s & Hs & Ho). destruct (IH s Hs) as (L & M & O & U & A & ND & LA & LR & NR).
    assert (Hlog : forall s', gs_log s' = gs_log s -> (forall i, o <> GDestroy i) -> forall a, In a (gs_log s') <-> ran_in (h ++ [o]) a).
    { intros s' -> N a. rewrite ran_snoc, LR. split; [auto|]. intros [H|(i & -> & _)]; [auto|]. destruct (N i eq_refl). }
    destruct o as [|j|j|j]; cbn [gstep] in Ho.
    + injection Ho as <-. unfold ginv. rewrite objects_snoc, actions_snoc. cbn [gs_guards gs_made gs_log].
      split; [rewrite app_length; cbn; lia|]. split; [lia|]. split; [|split; [|split; [|split; [|split; [|split]]]]].
      * intros a i. rewrite owner_snoc. split.
        -- intros [[-> ->]|H]; [rewrite <- L, nth_snoc_r, M; reflexivity|]. apply nth_snoc_l, O, H.
        -- intros H. apply nth_snoc_inv in H as [H|[-> E]]; [right; apply O, H|]. injection E as ->. left. split; lia.
      * intros a i i'. rewrite !owner_snoc. intros [[-> ->]|H] [[E1 ->]|H']; auto.
        -- destruct (A _ _ H') as [Hlt _]. lia.
        -- subst. destruct (A _ _ H) as [Hlt _]. lia.
        -- eapply U; eauto.
      * intros a i. rewrite owner_snoc. intros [[-> ->]|H].
        -- split; [lia|]. intros Hin. specialize (LA _ Hin). lia.
        -- destruct (A _ _ H). split; [lia|auto].
      * exact ND.
      * intros a Ha. specialize (LA _ Ha). lia.
      * apply (Hlog s); [reflexivity|discriminate].
      * intros N a Ha. destruct (Nat.eq_dec a (actions h)) as [->|Ne].
        -- right. exists (objects h). rewrite owner_snoc. auto.
        -- destruct (NR (fun i Hi => N i (in_or_app _ _ _ (or_introl Hi))) a) as [H|(i & H)]; [lia|auto|].
           right. exists i. rewrite owner_snoc. auto.
    + apply obind_ok in Ho as (g & Hg & Ho). apply live_ok in Hg as [Hg Hd]. injection Ho as <-. unfold ginv.
      assert (Hj : j < length (gs_guards s)) by (apply nth_error_Some; congruence).
      rewrite objects_snoc, actions_snoc. cbn [gs_guards gs_made gs_log].
      split; [rewrite app_length, gset_length; cbn; lia|]. split; [lia|].
      assert (G : forall a i, owner (h ++ [GMove j]) a i <-> nth_error (gset (gs_guards s) j (mkG (g_action g) false false) ++ [mkG (g_action g) (g_active g) false]) i = Some (mkG a true false)).
      { intros a i. rewrite owner_snoc. split.
        - intros [[H ->]|[H N]].
          + apply O in H. assert (g = mkG a true false) as -> by congruence. cbn.
            rewrite <- L, <- (gset_length (gs_guards s) j (mkG a false false)). apply nth_snoc_r.
          + apply nth_snoc_l. rewrite gset_other by auto. apply O, H.
        - intros H. apply nth_snoc_inv in H as [H|[-> E]].
          + right. destruct (Nat.eq_dec i j) as [->|N]; [rewrite gset_same in H by auto; discriminate|].
            rewrite gset_other in H by auto. split; [apply O, H|auto].
          + left. rewrite gset_length. split; [|auto]. apply O. destruct g as [ga gact gd]. cbn in *. congruence. }
      split; [exact G|]. split; [|split; [|split; [|split; [|split]]]].
      * intros a i i'. rewrite !owner_snoc. intros [[H ->]|[H N]] [[H' ->]|[H' N']]; auto.
        -- destruct (N' (U _ _ _ H' H)).
        -- destruct (N (U _ _ _ H H')).
        -- eapply U; eauto.
      * intros a i. rewrite owner_snoc. intros [[H ->]|[H N]]; destruct (A _ _ H); split; auto; lia.
      * exact ND.
      * intros a Ha. specialize (LA _ Ha). lia.
      * apply (Hlog s); [reflexivity|discriminate].
      * intros N a Ha. destruct (NR (fun i Hi => N i (in_or_app _ _ _ (or_introl Hi))) a) as [H|(i & H)]; [lia|auto|].
        right. destruct (Nat.eq_dec i j) as [->|Ne].
        -- exists (objects h). rewrite owner_snoc. auto.
        -- exists i. rewrite owner_snoc. auto.
    + apply obind_ok in Ho as (g & Hg & Ho). apply live_ok in Hg as [Hg Hd]. injection Ho as <-. unfold ginv.
      assert (Hj : j < length (gs_guards s)) by (apply nth_error_Some; congruence).
      rewrite objects_snoc, actions_snoc. cbn [gs_guards gs_made gs_log].
      split; [rewrite gset_length; lia|]. split; [lia|]. split; [|split; [|split; [|split; [|split; [|split]]]]].
      * intros a i. rewrite owner_snoc. split.
        -- intros [H N]. rewrite gset_other by auto. apply O, H.
        -- intros H. destruct (Nat.eq_dec i j) as [->|N]; [rewrite gset_same in H by auto; discriminate|].
           rewrite gset_other in H by auto. split; [apply O, H|auto].
      * intros a i i'. rewrite !owner_snoc. intros [H N] [H' N']. eapply U; eauto.
      * intros a i. rewrite owner_snoc. intros [H N]; destruct (A _ _ H); split; auto; lia.
      * exact ND.
      * intros a Ha. specialize (LA _ Ha). lia.
      * apply (Hlog s); [reflexivity|discriminate].
      * intros N. destruct (N j). apply in_or_app. right. left. reflexivity.
    + apply obind_ok in Ho as (g & Hg & Ho). apply live_ok in Hg as [Hg Hd]. injection Ho as <-. unfold ginv.
      assert (Hj : j < length (gs_guards s)) by (apply nth_error_Some; congruence).
      rewrite objects_snoc, actions_snoc. cbn [gs_guards gs_made gs_log].
      assert (Ow : g_active g = true -> owner h (g_action g) j).
      { intros Ha. apply O. destruct g as [ga gact gd]. cbn in *. congruence. }
      assert (Ow' : forall a, owner h a j -> g_active g = true /\ a = g_action g).
      { intros a H. apply O in H. assert (g = mkG a true false) as -> by congruence. auto. }
      split; [rewrite gset_length; lia|]. split; [lia|]. split; [|split; [|split; [|split; [|split; [|split]]]]].
      * intros a i. rewrite owner_snoc. split.
        -- intros [H N]. rewrite gset_other by auto. apply O, H.
        -- intros H. destruct (Nat.eq_dec i j) as [->|N]; [rewrite gset_same in H by auto; discriminate|].
           rewrite gset_other in H by auto. split; [apply O, H|auto].
      * intros a i i'. rewrite !owner_snoc. intros [H N] [H' N']. eapply U; eauto.
      * intros a i. rewrite owner_snoc. intros [H N]; destruct (A _ _ H) as [A1 A2]. split; [lia|].
        destruct (g_active g) eqn:Ea; [|auto]. intros Hin. apply in_app_or in Hin as [Hin|[<-|[]]]; [auto|].
        apply N. eapply U; eauto.
      * destruct (g_active g) eqn:Ea; [|auto]. apply (Permutation_NoDup (Permutation_cons_append (gs_log s) (g_action g))).
        constructor; [|auto]. destruct (A _ _ (Ow eq_refl)); auto.
      * intros a Ha. destruct (g_active g) eqn:Ea; [apply in_app_or in Ha as [Ha|[<-|[]]]|]; try (specialize (LA _ Ha); lia).
        destruct (A _ _ (Ow eq_refl)). lia.
      * intros a. rewrite ran_snoc, <- LR. split.
        -- intros Ha. destruct (g_active g) eqn:Ea; [apply in_app_or in Ha as [Ha|[<-|[]]]|]; auto. right. exists j. auto.
        -- intros [Ha|(i & E & H)].
           ++ destruct (g_active g); [apply in_or_app|]; auto.
           ++ injection E as <-. destruct (Ow' _ H) as [Ea ->]. rewrite Ea. apply in_or_app. right. left. reflexivity.
      * intros N a Ha. destruct (NR (fun i Hi => N i (in_or_app _ _ _ (or_introl Hi))) a) as [H|(i & H)]; [lia| |].
        -- left. destruct (g_active g); [apply in_or_app|]; auto.
        -- destruct (Nat.eq_dec i j) as [->|Ne].
           ++ left. destruct (Ow' _ H) as [Ea ->]. rewrite Ea. apply in_or_app. right. left. reflexivity.
           ++ right. exists i. rewrite owner_snoc. auto.
Qed.

Lemma c66_runs h s : grun h gs_init = Ok s -> NoDup (gs_log s) /\
  (forall a i j, owner h a i -> owner h a j -> i = j) /\
  forall a, In a (gs_log s) <-> exists h1 i h2, h = h1 ++ GDestroy i :: h2 /\ owner h1 a i.
Proof. intros H. destruct (ginv_run h s H) as (_ & _ & _ & U & _ & ND & _ & LR & _). auto. Qed.

Lemma grun_app l1 l2 : forall s, grun (l1 ++ l2) s = (let* s := grun l1 s in grun l2 s).
Proof. induction l1 as [|o l IH]; intros s; cbn; auto. destruct (gstep o s); cbn; auto. Qed.

Lemma gone_forever h h2 a : a < actions h -> (forall i, ~ owner h a i) -> forall i, ~ owner (h ++ h2) a i.
Proof.
  intros Ha N. induction h2 as [|o h2 IH] using rev_ind; [rewrite app_nil_r; auto|]. intros i. rewrite app_assoc, owner_snoc.
  assert (Ha' : a < actions (h ++ h2)) by (unfold actions in *; rewrite filter_app, app_length; lia).
  destruct o; intros H.
  - destruct H as [[E _]|H]; [lia|]. eapply IH; eauto.
  - destruct H as [[H _]|[H _]]; eapply IH; eauto.
  - destruct H as [H _]; eapply IH; eauto.
  - destruct H as [H _]; eapply IH; eauto.
Qed.
Lemma owner_lt h a i : owner h a i -> a < actions h.
Proof. induction 1; rewrite actions_snoc; cbn; lia. Qed.

Lemma c66_released h1 i h2 a s : grun (h1 ++ GRelease i :: h2) gs_init = Ok s -> owner h1 a i -> ~ In a (gs_log s).
Proof.
  intros Hr Ho Hin. destruct (ginv_run _ _ Hr) as (_ & _ & _ & U & A & _ & _ & LR & _).
  change (h1 ++ GRelease i :: h2) with (h1 ++ [GRelease i] ++ h2) in *. rewrite app_assoc in *.
  rewrite !grun_app in Hr. cbn [app] in Hr.
  destruct (grun (h1 ++ [GRelease i]) gs_init) as [s1| | |] eqn:E1; try (rewrite grun_app in E1; rewrite E1 in Hr; discriminate).
  pose proof (ginv_run _ _ E1) as (_ & _ & _ & U1 & A1 & _ & _ & LR1 & _).
  assert (E0 : exists s0, grun h1 gs_init = Ok s0).
  { rewrite grun_app in E1. apply obind_ok in E1 as (s0 & E0 & _). eauto. }
  destruct E0 as (s0 & E0). destruct (ginv_run _ _ E0) as (_ & _ & _ & U0 & A0 & _ & _ & LR0 & _).
  assert (NO : forall j, ~ owner (h1 ++ [GRelease i]) a j).
  { intros j. rewrite owner_snoc. intros [H N]. apply N. eapply U0; eauto. }
  assert (Ha : a < actions (h1 ++ [GRelease i])) by (rewrite actions_snoc; pose proof (owner_lt _ _ _ Ho); lia).
  assert (NR : ~ ran_in (h1 ++ [GRelease i]) a).
  { rewrite ran_snoc. intros [H|(j & E & _)]; [|discriminate]. apply LR0 in H. destruct (A0 _ _ Ho). contradiction. }
  clear - Hin LR NO NR Ha. apply LR in Hin. clear LR.
  induction h2 as [|o h2 IH] using rev_ind; [rewrite app_nil_r in Hin; auto|].
  rewrite app_assoc, ran_snoc in Hin. destruct Hin as [H|(j & -> & H)]; [auto|].
  eapply (gone_forever (h1 ++ [GRelease i]) h2); eauto.
Qed.

Lemma c66_all h s : grun h gs_init = Ok s -> (forall i, ~ In (GRelease i) h) ->
  (forall g, In g (gs_guards s) -> g_dead g = true) -> Permutation (gs_log s) (seq 0 (actions h)).
Proof.
  intros Hr N D. destruct (ginv_run _ _ Hr) as (_ & _ & O & _ & _ & ND & LA & _ & NR).
  apply NoDup_Permutation; [auto|apply seq_NoDup|]. intros a. rewrite in_seq. split.
  - intros Ha. specialize (LA _ Ha). lia.
  - intros [_ Ha]. destruct (NR N a Ha) as [H|(i & H)]; [auto|]. apply O, nth_error_In in H. specialize (D _ H). discriminate.
Qed.

(** SolveProfiler. *)
Local Open Scope R_scope.
Lemma total_snoc l d : total_of (l ++ [d]) = total_of l + d.
Proof. induction l; cbn; [lra|]. rewrite IHl. lra. Qed.

Definition pinv (p : profiler Rn) (ds : list R) : Prop :=
  p_num p = Z.of_nat (length ds) /\ (p_total p : R) = total_of ds /\ (p_average p : R) * IZR (p_num p) = total_of ds /\
  match rev ds with d :: _ => (p_current p : R) = d | [] => True end.

Lemma pinv_fold (l : list (pop Rn)) : forall p ds, pinv p ds ->
  pinv (fold_left (fun p o => p_step o p) l p) (ds ++ durations (p_start p) l).
Proof.
  induction l as [|o l IH]; intros p ds H; cbn [fold_left durations]; [rewrite app_nil_r; auto|]. destruct o as [t|t].
  - apply (IH (p_do_start t p) ds). exact H.
  - cbn [p_step]. specialize (IH (p_do_stop t p) (ds ++ [(t - p_start p)%R])). rewrite <- app_assoc in IH. cbn [app] in IH.
    apply IH. destruct H as (N & T & A & C). unfold pinv, p_do_stop. cbn [p_num p_total p_average p_current].
    rewrite app_length. cbn [length]. split; [lia|]. rewrite total_snoc.
    change (s_add Rn (p_total p) (s_sub Rn t (p_start p))) with ((p_total p : R) + (t - p_start p))%R.
    split; [rewrite T; reflexivity|]. split.
    + set (n := IZR (p_num p + 1)). assert (Hn : n <> 0) by (apply not_0_IZR; lia).
      match goal with |- (?x * _ = _)%R => change x with ((n - 1) / n * p_average p + 1 / n * (t - p_start p))%R end.
      rewrite <- A. assert (IZR (p_num p) = n - 1) as -> by (unfold n; rewrite plus_IZR; lra). field. auto.
    + rewrite rev_app_distr. cbn. reflexivity.
Qed.

Lemma c67 (l : list (pop Rn)) : let p := p_run l in let ds := durations 0 l in
  p_num p = Z.of_nat (length ds) /\ (p_total p : R) = total_of ds /\ (p_average p : R) * IZR (p_num p) = p_total p /\
  match rev ds with d :: _ => (p_current p : R) = d | [] => True end.
Proof.
  cbn zeta. assert (H0 : pinv (p_init (S := Rn)) []).
  { unfold pinv, p_init. cbn. repeat split; lra. }
  pose proof (pinv_fold l p_init [] H0) as (N & T & A & C). cbn [app] in *.
  change (p_start (p_init (S := Rn))) with 0 in *. unfold p_run. split; [exact N|]. split; [exact T|].
  split; [rewrite A, T; reflexivity|exact C].
Qed.

(** ScopedProfiler. *)
Local Open Scope nat_scope.
Lemma srun_snoc l o : forall s, srun (l ++ [o]) s = (let* s := srun l s in sstep o s).
Proof.
  induction l as [|o' l IH]; intros s; cbn; [destruct (sstep o s); reflexivity|]. destruct (sstep o' s); cbn; auto.
Qed.
Lemma gset_id l : forall i g, nth_error l i = Some g -> gset l i g = l.
Proof. induction l; intros [|i] g H; cbn in *; try discriminate; [congruence|]. rewrite IHl; auto. Qed.
Lemma calls_app a l e : calls_of a (l ++ [e]) = calls_of a l ++ (if Nat.eqb (fst e) a then [snd e] else []).
Proof. unfold calls_of. rewrite filter_app, map_app. cbn. destruct (Nat.eqb (fst e) a); reflexivity. Qed.
Lemma slive_ok s i g : slive s i = Ok g -> nth_error (ss_guards s) i = Some g /\ g_dead g = false.
Proof. unfold slive. destruct (nth_error (ss_guards s) i) as [g'|]; try discriminate. destruct (g_dead g') eqn:E; try discriminate. intros H. injection H as <-. auto. Qed.

Definition stopped_in (h : list sop) (a : nat) : Prop :=
  exists h1 i o h2, h = h1 ++ o :: h2 /\ (o = SStop i \/ o = SDestroy i) /\ owner (map as_guard h1) a i.
Lemma stopped_snoc h o a : stopped_in (h ++ [o]) a <->
  stopped_in h a \/ exists i, (o = SStop i \/ o = SDestroy i) /\ owner (map as_guard h) a i.
Proof.
  split.
  - intros (h1 & i & o' & h2 & E & Ho & H). destruct h2 as [|o2 h2 _] using rev_ind.
    + apply app_inj_tail in E as [<- ->]. right. eauto.
    + change (h1 ++ o' :: h2 ++ [o2]) with (h1 ++ (o' :: h2) ++ [o2]) in E. rewrite app_assoc in E.
      apply app_inj_tail in E as [-> _]. left. exists h1, i, o', h2. auto.
  - intros [(h1 & i & o' & h2 & -> & Ho & H)|(i & Ho & H)].
    + exists h1, i, o', (h2 ++ [o]). rewrite <- app_assoc. auto.
    + exists h, i, o, []. auto.
Qed.

Definition sinv (h : list sop) (s : sstate) : Prop :=
  (exists g, grun (map as_guard h) gs_init = Ok g /\ gs_guards g = ss_guards s /\ gs_made g = ss_made s) /\
  (forall a, ss_made s <= a -> calls_of a (ss_log s) = [] /\ ~ stopped_in h a) /\
  (forall a, a < ss_made s ->
     (calls_of a (ss_log s) = [CStart] /\ ~ stopped_in h a /\ exists i, owner (map as_guard h) a i) \/
     (calls_of a (ss_log s) = [CStart; CStop] /\ stopped_in h a /\ forall i, ~ owner (map as_guard h) a i)).

Lemma sinv_run h : forall s, srun h ss_init = Ok s -> sinv h s.
Proof.
  induction h as [|o h IH] using rev_ind; intros s0 Hrun.
  - cbn in Hrun. injection Hrun as <-. split; [exists gs_init; cbn; auto|]. cbn. split; [|intros; lia].
    intros a _. split; [auto|]. intros (h1 & i & o & h2 & E & _). destruct h1; discriminate.
  - rewrite srun_snoc in Hrun. apply obind_ok in Hrun as (s & Hs & Ho). destruct (IH s Hs) as ((g & Hg & Eg & Em) & B & C).
    pose proof (ginv_run _ _ Hg) as (L & M & O & U & A & _).
    unfold sinv. rewrite map_app. cbn [map].
    destruct o as [|j|j|j]; cbn [sstep as_guard] in *.
    + injection Ho as <-. split; [|cbn [ss_made ss_log]; split].
      * rewrite grun_snoc, Hg. cbn. eexists. split; [reflexivity|]. cbn. rewrite Eg, Em. auto.
      * intros a Ha. rewrite calls_app, stopped_snoc. cbn [fst snd]. destruct (Nat.eqb_spec (ss_made s) a) as [E0|_]; [lia|].
        destruct (B a) as [-> N]; [lia|]. split; [auto|]. intros [H|(i & [E|E] & _)]; try discriminate. contradiction.
      * intros a Ha. rewrite calls_app. cbn [fst snd]. destruct (Nat.eqb_spec (ss_made s) a) as [<-|Ne].
        -- left. destruct (B (ss_made s)) as [-> N]; [lia|]. split; [auto|]. split.
           ++ rewrite stopped_snoc. intros [H|(i & [E|E] & _)]; try discriminate. contradiction.
           ++ exists (objects (map as_guard h)). rewrite owner_snoc. left. split; [congruence|auto].
        -- rewrite app_nil_r. destruct (C a) as [(H1 & H2 & i & H3)|(H1 & H2 & H3)]; [lia| |].
           ++ left. split; [auto|]. split; [|exists i; rewrite owner_snoc; auto].
              rewrite stopped_snoc. intros [H|(i' & [E|E] & _)]; try discriminate. contradiction.
           ++ right. split; [auto|]. split; [rewrite stopped_snoc; auto|]. intros i. rewrite owner_snoc.
              intros [[E _]|H]; [|eapply H3; eauto]. apply Ne. congruence.
    + apply obind_ok in Ho as (gg & Hgg & Ho). apply slive_ok in Hgg as [Hgg Hd]. injection Ho as <-.
      split; [|cbn [ss_made ss_log]; split].
      * rewrite grun_snoc, Hg. cbn [obind gstep]. unfold live. rewrite Eg, Hgg, Hd. cbn. eexists. split; [reflexivity|]. cbn.
        rewrite Em. auto.
      * intros a Ha. rewrite stopped_snoc. destruct (B a Ha) as [-> N]. split; [auto|].
        intros [H|(i & [E|E] & _)]; try discriminate. contradiction.
      * intros a Ha. destruct (C a Ha) as [(H1 & H2 & i & H3)|(H1 & H2 & H3)].
        -- left. split; [auto|]. split.
           ++ rewrite stopped_snoc. intros [H|(i' & [E|E] & _)]; try discriminate. contradiction.
           ++ destruct (Nat.eq_dec i j) as [->|Ne]; [exists (objects (map as_guard h))|exists i]; rewrite owner_snoc; auto.
        -- right. split; [auto|]. split; [rewrite stopped_snoc; auto|]. intros i. rewrite owner_snoc.
           intros [[H _]|[H _]]; eapply H3; eauto.
    + apply obind_ok in Ho as (gg & Hgg & Ho). apply slive_ok in Hgg as [Hgg Hd].
      assert (Ow : g_active gg = true <-> owner (map as_guard h) (g_action gg) j).
      { rewrite O, Eg, Hgg. destruct gg as [ga gact gd]. cbn in *. subst. split; [intros ->; auto|congruence]. }
      assert (Ow' : forall a, owner (map as_guard h) a j -> a = g_action gg /\ g_active gg = true).
      { intros a H. rewrite O, Eg, Hgg in H. injection H as ->. auto. }
      assert (Hgr : grun (map as_guard h ++ [GRelease j]) gs_init =
                Ok (mkGS (gset (ss_guards s) j (mkG (g_action gg) false false)) (ss_made s) (gs_log g))).
      { rewrite grun_snoc, Hg. cbn [obind gstep]. unfold live. rewrite Eg, Hgg, Hd. cbn. rewrite Em. reflexivity. }
      assert (Hn : forall a i, a < ss_made s -> owner (map as_guard h) a i -> a <> g_action gg ->
                owner (map as_guard h ++ [GRelease j]) a i).
      { intros a i _ H Ne. rewrite owner_snoc. split; [auto|]. intros ->. apply Ne. apply (Ow' _ H). }
      destruct (g_active gg) eqn:Ea.
      * injection Ho as <-. split; [eexists; split; [exact Hgr|]; cbn; auto|]. cbn [ss_made ss_log].
        destruct Ow as [Ow _]. specialize (Ow eq_refl).
        assert (Hlt : g_action gg < ss_made s) by (destruct (A _ _ Ow); lia).
        split.
        -- intros a Ha. rewrite calls_app, stopped_snoc. cbn [fst snd]. destruct (Nat.eqb_spec (g_action gg) a) as [E0|_]; [lia|].
           destruct (B a Ha) as [-> N]. split; [auto|]. intros [H|(i & [E|E] & H)]; try discriminate; [contradiction|].
           injection E as <-. destruct (Ow' _ H). lia.
        -- intros a Ha. rewrite calls_app. cbn [fst snd]. destruct (Nat.eqb_spec (g_action gg) a) as [<-|Ne].
           ++ right. destruct (C _ Ha) as [(H1 & H2 & i & H3)|(H1 & H2 & H3)]; [|destruct (H3 _ Ow)].
              rewrite H1. split; [auto|]. split; [rewrite stopped_snoc; right; exists j; auto|].
              intros i'. rewrite owner_snoc. intros [H N]. apply N. eapply U; eauto.
           ++ rewrite app_nil_r. destruct (C _ Ha) as [(H1 & H2 & i & H3)|(H1 & H2 & H3)].
              ** left. split; [auto|]. split; [|exists i; apply Hn; auto].
                 rewrite stopped_snoc. intros [H|(i' & [E|E] & H)]; try discriminate; [contradiction|].
                 injection E as <-. destruct (Ow' _ H) as [E _]. congruence.
              ** right. split; [auto|]. split; [rewrite stopped_snoc; auto|]. intros i'. rewrite owner_snoc.
                 intros [H _]. eapply H3; eauto.
      * injection Ho as <-. split.
        { eexists; split; [exact Hgr|]; cbn. split; [|auto]. apply gset_id. rewrite Hgg. destruct gg; cbn in *; congruence. }
        assert (NO : forall a, ~ owner (map as_guard h) a j).
        { intros a H. destruct (Ow' _ H). discriminate. }
        split.
        -- intros a Ha. rewrite stopped_snoc. destruct (B a Ha) as [-> N]. split; [auto|].
           intros [H|(i & [E|E] & H)]; try discriminate; [contradiction|]. injection E as <-. eapply NO; eauto.
        -- intros a Ha. destruct (C _ Ha) as [(H1 & H2 & i & H3)|(H1 & H2 & H3)].
           ++ left. split; [auto|]. split; [|exists i; rewrite owner_snoc; split; [auto|intros ->; eapply NO; eauto]].
              rewrite stopped_snoc. intros [H|(i' & [E|E] & H)]; try discriminate; [contradiction|].
              injection E as <-. eapply NO; eauto.
           ++ right. split; [auto|]. split; [rewrite stopped_snoc; auto|]. intros i'. rewrite owner_snoc.
              intros [H _]. eapply H3; eauto.
    + apply obind_ok in Ho as (gg & Hgg & Ho). apply slive_ok in Hgg as [Hgg Hd]. injection Ho as <-.
      assert (Ow : g_active gg = true -> owner (map as_guard h) (g_action gg) j).
      { rewrite O, Eg, Hgg. destruct gg as [ga gact gd]. cbn in *. subst. intros ->; auto. }
      assert (Ow' : forall a, owner (map as_guard h) a j -> a = g_action gg /\ g_active gg = true).
      { intros a H. rewrite O, Eg, Hgg in H. injection H as ->. auto. }
      split.
      { rewrite grun_snoc, Hg. cbn [obind gstep]. unfold live. rewrite Eg, Hgg, Hd. cbn. eexists. split; [reflexivity|]. cbn. auto. }
      cbn [ss_made ss_log]. split.
      * intros a Ha. destruct (B a Ha) as [Bc N]. assert (Hno : forall i, ~ owner (map as_guard h) a i).
        { intros i H. apply A in H. lia. }
        split.
        -- destruct (g_active gg) eqn:Ea; [|auto]. rewrite calls_app. cbn [fst snd].
           destruct (Nat.eqb_spec (g_action gg) a) as [<-|_]; [destruct (Hno j); auto|]. rewrite Bc. auto.
        -- rewrite stopped_snoc. intros [H|(i & _ & H)]; [contradiction|]. eapply Hno; eauto.
      * intros a Ha. destruct (C _ Ha) as [(H1 & H2 & i & H3)|(H1 & H2 & H3)].
        -- destruct (Nat.eq_dec i j) as [->|Ne].
           ++ right. destruct (Ow' _ H3) as [-> Ea]. rewrite Ea, calls_app. cbn [fst snd]. rewrite Nat.eqb_refl, H1.
              split; [auto|]. split; [rewrite stopped_snoc; right; exists j; auto|].
              intros i'. rewrite owner_snoc. intros [H N]. apply N. eapply U; eauto.
           ++ left. split; [|split; [|exists i; rewrite owner_snoc; auto]].
              ** destruct (g_active gg) eqn:Ea; [|auto]. rewrite calls_app. cbn [fst snd].
                 destruct (Nat.eqb_spec (g_action gg) a) as [<-|_]; [|rewrite H1; auto].
                 destruct Ne. eapply U; [exact H3|]. auto.
              ** rewrite stopped_snoc. intros [H|(i' & [E|E] & H)]; try discriminate; [contradiction|].
                 injection E as <-. apply Ne. eapply U; eauto.
        -- right. split; [|split; [rewrite stopped_snoc; auto|]].
           ++ destruct (g_active gg) eqn:Ea; [|auto]. rewrite calls_app. cbn [fst snd].
              destruct (Nat.eqb_spec (g_action gg) a) as [<-|_]; [|rewrite H1; auto].
              destruct (H3 j). auto.
           ++ intros i'. rewrite owner_snoc. intros [H _]. eapply H3; eauto.
Qed.

Lemma made_actions h : forall s, srun h ss_init = Ok s -> ss_made s = actions (map as_guard h).
Proof. intros s H. destruct (sinv_run h s H) as ((g & Hg & _ & <-) & _). apply (ginv_run _ _ Hg). Qed.

Lemma c70 h s : srun h ss_init = Ok s -> forall a, a < actions (map as_guard h) ->
  (calls_of a (ss_log s) = [CStart; CStop] <->
     exists h1 i o h2, h = h1 ++ o :: h2 /\ (o = SStop i \/ o = SDestroy i) /\ owner (map as_guard h1) a i) /\
  (calls_of a (ss_log s) = [CStart] \/ calls_of a (ss_log s) = [CStart; CStop]) /\
  ((forall g, In g (ss_guards s) -> g_dead g = true) -> calls_of a (ss_log s) = [CStart; CStop]).
Proof.
  intros Hr a Ha. rewrite <- (made_actions h s Hr) in Ha. destruct (sinv_run h s Hr) as ((g & Hg & Eg & _) & _ & C).
  destruct (C a Ha) as [(H1 & H2 & i & H3)|(H1 & H2 & H3)]; rewrite H1; split; [|split| |split]; auto.
  - split; [discriminate|]. intros H. destruct (H2 H).
  - intros D. destruct (ginv_run _ _ Hg) as (_ & _ & O & _). apply O in H3. rewrite Eg in H3. apply nth_error_In, D in H3. discriminate.
  - split; auto.
Qed.
