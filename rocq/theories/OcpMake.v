(** Proofs for C58-C62: the variables an OCP makes. *)
From Coq Require Import Reals List Bool Arith Lia Lra.
From Verif Require Import Base ExprModel MathSpec VarModel ExprReal VarSpec HistProofs ProblemModel ProblemSpec ProblemProofs ProblemProofs4 OcpModel OcpSpec OcpProofs OcpRk4 OcpLoop.
Import ListNotations.
Local Open Scope nat_scope.

Definition newv (n cnt : nat) : list uexp := map (fun k => XVar (n + k)) (seq 0 cnt).
Lemma newv_len n cnt : length (newv n cnt) = cnt. Proof. unfold newv. rewrite map_length, seq_length. reflexivity. Qed.
Lemma newv_nth n cnt k : k < cnt -> nth_error (newv n cnt) k = Some (XVar (n + k)).
Proof. intros H. unfold newv. rewrite nth_error_map. rewrite (nth_error_nth' _ 0) by (rewrite seq_length; lia). cbn. rewrite seq_nth by lia. reflexivity. Qed.
Lemma newv_S n cnt : newv n (S cnt) = XVar n :: newv (S n) cnt.
Proof. unfold newv. cbn [seq map]. rewrite Nat.add_0_r. f_equal. rewrite <- seq_shift, map_map. apply map_ext. intros k. f_equal. lia. Qed.

Definition grown (sp : spec) (l : list uexp) (cnt : nat) (ds : list nat) (val : nat -> R) : spec :=
  mkS (mkSE (se_exp (sp_se sp) ++ l) (se_n (sp_se sp) + cnt) val) (sp_cons sp) (sp_dec sp ++ ds) (sp_goal sp) (sp_eqs sp) (sp_ineqs sp).
Definition inside (n cnt v : nat) : bool := (n <=? v) && (v <? n + cnt).

Lemma inside_spec n cnt v : reflect (n <= v < n + cnt) (inside n cnt v).
Proof. apply iff_reflect. unfold inside. rewrite andb_true_iff, Nat.leb_le, Nat.ltb_lt. reflexivity. Qed.
Lemma upd_at (rho : nat -> R) k x v : upd rho k x v = if Nat.eqb v k then x else rho v. Proof. unfold upd. destruct (Nat.eqb_spec v k), (Nat.eqb_spec k v); congruence. Qed.

Lemma zeros_at : forall cnt n rho v, zeros rho n cnt v = if inside n cnt v then 0%R else rho v.
Proof.
  induction cnt as [|cnt IH]; intros n rho v; unfold zeros in *; cbn [seq fold_left].
  - destruct (inside_spec n 0 v); [lia|reflexivity].
  - rewrite IH, upd_at. destruct (inside_spec (S n) cnt v), (inside_spec n (S cnt) v), (Nat.eqb_spec v n); try lia; reflexivity.
Qed.

Lemma T_decision sp r c : T sp (gdecision r c) (fun sp' m => m = mkM r c (seq (len sp) (r * c)) /\ exists val,
  sp' = grown sp (newv (se_n (sp_se sp)) (r * c)) (r * c) (seq (se_n (sp_se sp)) (r * c)) val /\
  forall v, val v = if inside (se_n (sp_se sp)) (r * c) v then 0%R else se_val (sp_se sp) v).
Proof.
  intros g [Hv Hc]. eexists _, _, _. split.
  - split; [reflexivity|]. split; [|eexists; split; [reflexivity|reflexivity]]. split; cbn; [rewrite app_length, map_length, seq_length; lia|exact Hc].
  - split; [unfold len; rewrite Hv; reflexivity|]. eexists. split; [reflexivity|]. intros v. apply zeros_at.
Qed.

Lemma T_do sp o sp' : spec_step (PH o) sp = Some (sp', []) -> len sp' = len sp -> length (sp_cons sp') = length (sp_cons sp) -> T sp (gdo_ o) (fun s _ => s = sp').
Proof.
  intros H L1 L2 g [Hv Hc]. exists tt, (mkGen (g_vars g) (g_cons g) (g_code g ++ [PH o])), sp'. split; [|reflexivity].
  split; [reflexivity|]. split; [split; cbn; unfold len in *; congruence|]. exists [PH o]. split; [reflexivity|]. cbn [spec_run]. rewrite H. reflexivity.
Qed.

Lemma T_news {A} : forall (l : list A) sp, T sp (gmap (fun _ => gvar HNew) l) (fun sp' ks => ks = seq (len sp) (length l) /\ exists val,
  sp' = grown sp (newv (se_n (sp_se sp)) (length l)) (length l) [] val /\
  forall v, val v = if inside (se_n (sp_se sp)) (length l) v then 0%R else se_val (sp_se sp) v).
Proof.
  induction l as [|a l IH]; intros sp; cbn [gmap].
  - apply T_ret. split; [reflexivity|]. exists (se_val (sp_se sp)). split.
    + unfold grown. cbn. rewrite !app_nil_r, Nat.add_0_r. destruct sp as [[? ? ?] ? ? ? ? ?]; reflexivity.
    + intros v. destruct (inside_spec (se_n (sp_se sp)) (length (@nil A)) v) as [H|H]; [cbn in H; lia|reflexivity].
  - set (sp1 := set_se sp (mkSE (se_exp (sp_se sp) ++ [XVar (se_n (sp_se sp))]) (S (se_n (sp_se sp))) (upd (se_val (sp_se sp)) (se_n (sp_se sp)) 0%R))).
    assert (L1 : len sp1 = S (len sp)) by (unfold len, sp1; cbn; rewrite app_length; cbn; lia).
    eapply T_bind with (Q := fun s k => s = sp1 /\ k = len sp).
    { intros g [Hv Hc]. eexists (g_vars g), _, sp1. split; [|split; [reflexivity|exact Hv]]. split; [reflexivity|]. split; [split; cbn; [rewrite app_length; cbn; lia|exact Hc]|]. eexists. split; reflexivity. }
    intros s k [-> ->]. eapply T_bind; [apply IH|]. intros s2 ks (-> & val & -> & Hval). apply T_ret. split; [cbn [length seq]; rewrite L1; reflexivity|]. exists val. split.
    + unfold grown, sp1. cbn [length]. rewrite newv_S. cbn. rewrite <- app_assoc. cbn. rewrite <- plus_n_Sm. reflexivity.
    + intros v. rewrite Hval. unfold sp1. cbn [sp_se set_se se_n se_val length]. rewrite upd_at. destruct (inside_spec (S (se_n (sp_se sp))) (length l) v), (inside_spec (se_n (sp_se sp)) (S (length l)) v), (Nat.eqb_spec v (se_n (sp_se sp))); try lia; reflexivity.
Qed.
Lemma T_matrix sp r c : T sp (gmatrix r c) (fun sp' m => m = mkM r c (seq (len sp) (r * c)) /\ exists val,
  sp' = grown sp (newv (se_n (sp_se sp)) (r * c)) (r * c) [] val /\
  forall v, val v = if inside (se_n (sp_se sp)) (r * c) v then 0%R else se_val (sp_se sp) v).
Proof.
  unfold gmatrix. eapply T_bind; [apply T_news|]. intros s ks (-> & val & -> & Hval). apply T_ret. rewrite seq_length in *. split; [reflexivity|]. exists val. auto.
Qed.

(** Overwriting the last variables. *)
Lemma sset_mid (e0 l : list uexp) y x : sset (e0 ++ y :: l) (length e0) x = e0 ++ x :: l.
Proof. induction e0 as [|a e0 IH]; cbn; [reflexivity|]. now rewrite IH. Qed.
Definition with_exps (sp : spec) (e : list uexp) : spec := set_se sp (mkSE e (se_n (sp_se sp)) (se_val (sp_se sp))).

Lemma T_overwrite (o : nat -> hop R_ops) x : forall l e0 sp, se_exp (sp_se sp) = e0 ++ l ->
  (forall sp' i, length e0 <= i -> i < len sp -> len sp' = len sp -> (forall j, j < length e0 -> nth_error (se_exp (sp_se sp')) j = nth_error (se_exp (sp_se sp)) j) ->
     spec_step (PH (o i)) sp' = Some (with_exps sp' (sset (se_exp (sp_se sp')) i x), [])) ->
  T sp (gmap (fun i => gdo_ (o i)) (seq (length e0) (length l))) (fun sp' _ => sp' = with_exps sp (e0 ++ repeat x (length l))).
Proof.
  intros l e0 sp E H.
  assert (G : forall done l, e0 ++ repeat x done ++ l <> [] \/ True -> forall sp', sp' = with_exps sp (e0 ++ repeat x done ++ l) -> length (e0 ++ repeat x done ++ l) = len sp ->
    T sp' (gmap (fun i => gdo_ (o i)) (seq (length e0 + done) (length l))) (fun s _ => s = with_exps sp (e0 ++ repeat x (done + length l)))).
  { intros done l0 _. revert done. induction l0 as [|y l0 IH]; intros done sp' -> Ln.
    - cbn. apply T_ret. rewrite Nat.add_0_r, app_nil_r. reflexivity.
    - cbn [length seq gmap].
      assert (Es : sset (e0 ++ repeat x done ++ y :: l0) (length e0 + done) x = e0 ++ repeat x (S done) ++ l0).
      { replace (e0 ++ repeat x done ++ y :: l0) with ((e0 ++ repeat x done) ++ y :: l0) by now rewrite app_assoc. replace (length e0 + done) with (length (e0 ++ repeat x done)) by (rewrite app_length, repeat_length; reflexivity).
        rewrite sset_mid. rewrite <- app_assoc. f_equal. clear. induction done; cbn; [reflexivity|]. cbn in IHdone. now rewrite IHdone. }
      eapply T_bind; [eapply T_do; [apply H| |reflexivity]|].
      + lia.
      + rewrite <- Ln, !app_length, repeat_length. cbn. lia.
      + exact Ln.
      + intros j Hj. cbn. rewrite E. rewrite !nth_error_app1 by lia. reflexivity.
      + cbn [with_exps sp_se set_se se_exp]. rewrite Es. unfold len in Ln |- *. cbn -[repeat]. rewrite !app_length, !repeat_length. cbn. lia.
      + intros s y0 ->. cbn [with_exps sp_se set_se se_exp]. rewrite Es. eapply T_bind.
        * replace (S (length e0 + done)) with (length e0 + S done) by lia. apply (IH (S done)); [reflexivity|]. rewrite <- Ln, !app_length, !repeat_length. cbn. lia.
        * intros s ys ->. apply T_ret. f_equal. f_equal. f_equal. lia. }
  specialize (G 0 l (or_intror I) sp). cbn [repeat app] in G. rewrite Nat.add_0_r in G. apply G; [|unfold len; rewrite E; reflexivity].
  rewrite <- E. unfold with_exps. destruct sp as [[? ? ?] ? ? ? ? ?]; reflexivity.
Qed.

(** Setting the values of variables that are decision-like. *)
Lemma T_sets (dt : R) : forall cnt h n sp, (forall k, k < cnt -> nth_error (se_exp (sp_se sp)) (h + k) = Some (XVar (n + k))) ->
  T sp (gmap (fun k => gdo_ (HSet (S := R_ops) k dt)) (seq h cnt)) (fun sp' _ => exists val, sp' = set_se sp (mkSE (se_exp (sp_se sp)) (se_n (sp_se sp)) val) /\
    forall v, val v = if inside n cnt v then dt else se_val (sp_se sp) v).
Proof.
  induction cnt as [|cnt IH]; intros h n sp H; cbn [seq gmap].
  - apply T_ret. exists (se_val (sp_se sp)). split; [destruct sp as [[? ? ?] ? ? ? ? ?]; reflexivity|]. intros v. destruct (inside_spec n 0 v); [lia|reflexivity].
  - eapply T_bind; [eapply (T_do sp (HSet (S := R_ops) h dt) (set_se sp (mkSE (se_exp (sp_se sp)) (se_n (sp_se sp)) (upd (se_val (sp_se sp)) n dt)))); [|reflexivity..]|].
    { specialize (H 0 ltac:(lia)). rewrite !Nat.add_0_r in H. cbn. rewrite H. reflexivity. }
    intros s y0 ->. eapply T_bind; [apply (IH (S h) (S n)); intros k Hk; cbn [sp_se set_se se_exp]; replace (S h + k) with (h + S k) by lia; replace (S n + k) with (n + S k) by lia; apply H; lia|].
    intros s y1 (val & -> & Hval). apply T_ret. exists val. split; [reflexivity|]. intros v. rewrite Hval. cbn [sp_se set_se se_val]. rewrite upd_at.
    destruct (inside_spec (S n) cnt v), (inside_spec n (S cnt) v), (Nat.eqb_spec v n); try lia; reflexivity.
Qed.

(** *** The timesteps *)
Definition dt_exp (tm : timestep) (dt : R) (n k : nat) : uexp := match tm with FIXED => XConst dt | VARIABLE_SINGLE => XVar n | VARIABLE => XVar (n + k) end.
Definition dt_dec (tm : timestep) (n N : nat) : list nat := match tm with FIXED => [] | VARIABLE_SINGLE => [n] | VARIABLE => seq n (N + 1) end.
Definition dt_cnt (tm : timestep) (N : nat) : nat := match tm with FIXED => N + 1 | VARIABLE_SINGLE => 1 + (N + 1) | VARIABLE => N + 1 end.

Lemma seq_bound (n h cnt : nat) : h + cnt <= n -> List.Forall (fun i => i < n) (seq h cnt).
Proof. intros H. apply List.Forall_forall. intros i Hi. apply in_seq in Hi. lia. Qed.
Lemma nth_seq h cnt k : k < cnt -> nth_error (seq h cnt) k = Some (h + k).
Proof. intros H. rewrite (nth_error_nth' _ 0) by (rewrite seq_length; lia). rewrite seq_nth by lia. reflexivity. Qed.

Lemma T_make_dt tm dt N sp : T sp (make_dt tm dt N) (fun sp' m => exists h0 l val, sp' = grown sp l (dt_cnt tm N) (dt_dec tm (se_n (sp_se sp)) N) val /\
  m = mkM 1 (N + 1) (seq h0 (N + 1)) /\ len sp <= h0 /\ h0 + (N + 1) <= len sp' /\
  (forall k, k <= N -> nth_error (se_exp (sp_se sp')) (h0 + k) = Some (dt_exp tm dt (se_n (sp_se sp)) k)) /\
  (forall v, inside (se_n (sp_se sp)) (dt_cnt tm N) v = false -> val v = se_val (sp_se sp) v) /\
  (forall k, k <= N -> XEv val (dt_exp tm dt (se_n (sp_se sp)) k) dt)).
Proof.
  set (n := se_n (sp_se sp)). destruct tm; unfold make_dt.
  - eapply T_bind; [apply T_matrix|]. intros s m (-> & val & -> & Hval). cbn [v_at]. rewrite Nat.mul_1_l in *.
    set (s1 := grown sp (newv n (N + 1)) (N + 1) [] val).
    eapply T_bind.
    { pose proof (T_overwrite (fun k => HAssignScalar (S := R_ops) k dt) (XConst dt) (newv n (N + 1)) (se_exp (sp_se sp)) s1 eq_refl) as K. rewrite newv_len in K. apply K.
      intros sp' i H1 H2 H3 _. cbn. destruct (nth_error (se_exp (sp_se sp')) i) eqn:E; [reflexivity|]. apply nth_error_None in E. unfold len in *. lia. }
    intros s y0 ->. apply T_ret. exists (len sp), (repeat (XConst dt) (N + 1)), val. unfold s1, with_exps, grown. cbn.
    split; [reflexivity|]. split; [reflexivity|]. split; [lia|]. split; [unfold len; cbn; rewrite app_length, repeat_length; lia|]. split; [|split].
    + intros k Hk. rewrite nth_error_app2 by (unfold len; lia). unfold len. replace (length (se_exp (sp_se sp)) + k - length (se_exp (sp_se sp))) with k by lia.
      apply nth_error_repeat. lia.
    + intros v Hv. rewrite Hval. fold n. rewrite Hv. reflexivity.
    + intros. constructor.
  - eapply T_bind; [apply T_decision|]. intros s d (-> & val & -> & Hval). change (1 * 1) with 1 in *. fold n in Hval |- *.
    set (s1 := grown sp (newv n 1) 1 (seq n 1) val). assert (L1 : len s1 = S (len sp)) by (unfold len, s1; cbn; rewrite app_length; cbn; lia).
    assert (E1 : nth_error (se_exp (sp_se s1)) (len sp) = Some (XVar n)). { unfold s1. cbn. rewrite nth_error_app2 by (unfold len; lia). unfold len. rewrite Nat.sub_diag. cbn. now rewrite Nat.add_0_r. }
    apply (get_bind s1 (mkM 1 1 (seq (len sp) 1)) 0 0 1 1); [|lia|lia|].
    { split; [split; reflexivity|]. split; [reflexivity|]. constructor; [unfold len in *; lia|constructor]. }
    intros k Hk Nk _. clear Hk. cbn in Nk. injection Nk as <-.
    eapply T_bind; [eapply (T_do s1 (HSet (S := R_ops) (len sp) dt) (set_se s1 (mkSE (se_exp (sp_se s1)) (se_n (sp_se s1)) (upd val n dt)))); [|reflexivity..]|].
    { cbn [spec_step sstep]. rewrite E1. reflexivity. }
    intros s y0 ->. set (s2 := set_se s1 _). eapply T_bind; [apply T_matrix|]. intros s m (-> & val2 & -> & Hval2). cbn [v_at]. rewrite Nat.mul_1_l in *.
    change (len s2) with (len s1) in *. set (s3 := grown s2 _ _ _ _).
    eapply T_bind.
    { pose proof (T_overwrite (fun i => HAssign (S := R_ops) i (len sp)) (XVar n) (newv (se_n (sp_se s2)) (N + 1)) (se_exp (sp_se s1)) s3 eq_refl) as K. rewrite newv_len in K. apply K.
      intros sp' i H1 H2 H3 H4. cbn. destruct (nth_error (se_exp (sp_se sp')) i) eqn:E; [|apply nth_error_None in E; unfold len in *; lia].
      rewrite H4 by (unfold len in *; lia). unfold s3. cbn [grown sp_se se_exp]. change (se_exp (sp_se s2)) with (se_exp (sp_se s1)). rewrite nth_error_app1 by (unfold len in *; lia). rewrite E1. reflexivity. }
    intros s y2 ->. apply T_ret. exists (len s1), (newv n 1 ++ repeat (XVar n) (N + 1)), val2. unfold s3, with_exps, grown, s2, s1, set_se. cbn -[newv Nat.add inside].
    split; [rewrite <- ?app_assoc, ?app_nil_r, <- ?Nat.add_assoc; reflexivity|].

    split; [reflexivity|]. split; [change (len sp <= len s1); lia|]. split; [unfold len; cbn -[newv Nat.add]; rewrite !app_length, repeat_length, !newv_len; lia|]. split; [|split].
    + intros k Hk. rewrite nth_error_app2; unfold len; cbn -[newv Nat.add Nat.sub length]; rewrite !app_length, newv_len; [|lia]. replace (_ - _) with k by lia. apply nth_error_repeat. lia.
    + intros v Hv. rewrite Hval2. cbn -[newv inside Nat.add]. rewrite upd_at, Hval. fold n. destruct (inside_spec n (1 + (N + 1)) v); [discriminate|]. destruct (inside_spec (n + 1) (N + 1) v); [lia|]. destruct (Nat.eqb_spec v n); [lia|]. destruct (inside_spec n 1 v); [lia|reflexivity].
    + intros k Hk. cbn [dt_exp]; replace dt with (val2 n); [constructor|]. rewrite Hval2. cbn -[newv inside Nat.add]. fold n. rewrite upd_at, Nat.eqb_refl. destruct (inside_spec (n + 1) (N + 1) n); [lia|reflexivity].
  - eapply T_bind; [apply T_decision|]. intros s d (-> & val & -> & Hval). rewrite Nat.mul_1_l in *. fold n in Hval |- *. cbn [v_at].
    set (s1 := grown sp (newv n (N + 1)) (N + 1) (seq n (N + 1)) val).
    assert (E1 : forall k, k < N + 1 -> nth_error (se_exp (sp_se s1)) (len sp + k) = Some (XVar (n + k))).
    { intros k Hk. unfold s1. cbn -[newv]. rewrite nth_error_app2 by (unfold len; lia). unfold len. replace (_ - _) with k by lia. apply newv_nth, Hk. }
    eapply T_bind; [apply (T_sets dt (N + 1) (len sp) n s1 E1)|]. intros s y0 (val2 & -> & Hval2). apply T_ret. exists (len sp), (newv n (N + 1)), val2.
    split; [reflexivity|]. split; [reflexivity|]. split; [lia|]. split; [unfold len, s1; cbn -[newv]; rewrite app_length, newv_len; lia|]. split; [|split].
    + intros k Hk. apply E1. lia.
    + intros v Hv. rewrite Hval2. unfold dt_cnt in Hv. rewrite Hv. cbn [s1 grown sp_se se_val]. rewrite Hval, Hv. reflexivity.
    + intros k Hk. cbn [dt_exp]. replace dt with (val2 (n + k)); [constructor|]. rewrite Hval2. destruct (inside_spec n (N + 1) (n + k)); [reflexivity|lia].
Qed.
