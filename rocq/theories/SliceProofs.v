From Coq Require Import ZArith Lia Bool ZifyBool.
From Verif Require Import Base SliceModel SliceSpec.
Open Scope Z_scope.


Lemma int_ok z : is_int z -> int z = Ok z.
Proof.
  intros [H1 H2]. unfold int, in_int.
  replace (INT_MIN <=? z) with true by lia. replace (z <=? INT_MAX) with true by lia. reflexivity.
Qed.

Lemma int_inv z r : int z = Ok r -> r = z /\ is_int z.
Proof.
  unfold int. destruct (in_int z) eqn:E; intros H; [|discriminate].
  injection H as <-. unfold in_int in E. apply andb_prop in E. unfold is_int. split; [reflexivity|lia].
Qed.

(** The clamped bound is Python's, for every C++ int bound. *)
Lemma clamp_bound_spec n step b :
  0 <= n <= INT_MAX -> is_int b -> step <> 0 ->
  clamp_bound step n b = Ok (py_clamp n step b).
Proof.
  intros Hn Hb Hs. unfold clamp_bound, py_clamp, py_lower, py_upper.
  unfold is_int, INT_MIN, INT_MAX in *.
  destruct (b <? 0) eqn:E1.
  - rewrite int_ok by (unfold is_int, INT_MIN, INT_MAX; lia). simpl.
    destruct (b + n <? 0) eqn:E2; destruct (step <? 0) eqn:E3; f_equal; lia.
  - destruct (n <=? b) eqn:E2; destruct (step <? 0) eqn:E3.
    + rewrite int_ok by (unfold is_int, INT_MIN, INT_MAX; lia). f_equal; lia.
    + f_equal; lia.
    + f_equal; lia.
    + f_equal; lia.
Qed.


Lemma py_start_none n step : 0 <= n <= INT_MAX ->
  py_clamp n step (if step <? 0 then INT_MAX else 0) = py_start n None step.
Proof.
  intros H. unfold py_clamp, py_start, py_lower, py_upper.
  destruct (step <? 0) eqn:E.
  - change (INT_MAX <? 0) with false. cbv iota. lia.
  - change (0 <? 0) with false. cbv iota. lia.
Qed.

Lemma py_stop_none n step : 0 <= n <= INT_MAX ->
  py_clamp n step (if step <? 0 then INT_MIN else INT_MAX) = py_stop n None step.
Proof.
  intros H. unfold py_clamp, py_stop, py_lower, py_upper.
  destruct (step <? 0) eqn:E.
  - change (INT_MIN <? 0) with true. cbv iota. unfold INT_MAX, INT_MIN in *. lia.
  - change (INT_MAX <? 0) with false. cbv iota. lia.
Qed.

Lemma py_clamp_range n step b : 0 <= n ->
  py_lower step <= py_clamp n step b <= py_upper n step.
Proof.
  intros. unfold py_clamp, py_lower, py_upper. destruct (step <? 0); lia.
Qed.

Lemma py_clamp_sgn n a b x : (a <? 0) = (b <? 0) -> py_clamp n a x = py_clamp n b x.
Proof. intros H. unfold py_clamp, py_lower, py_upper. rewrite H. reflexivity. Qed.

(** Counting the points of an arithmetic progression before a bound. *)
Lemma count_up a b st t : 0 < st -> a < b -> 0 <= t ->
  (t < (b - a - 1) / st + 1 <-> a + t * st < b).
Proof.
  intros Hst Hab Ht.
  assert (H : t <= (b - a - 1) / st <-> t * st <= b - a - 1).
  { split; intros.
    - pose proof (Z.mul_div_le (b - a - 1) st Hst). nia.
    - apply Z.div_le_lower_bound; lia. }
  lia.
Qed.

Lemma count_up_bounds a b st : 0 < st -> a < b -> 0 <= (b - a - 1) / st <= b - a - 1.
Proof.
  intros. split; [apply Z.div_pos; lia|]. apply Z.div_le_upper_bound; nia.
Qed.

(** Core lemma about [adjust]. *)
Lemma adjust_spec n s e st :
  0 <= n <= INT_MAX -> is_int s -> is_int e -> - INT_MAX <= st <= INT_MAX -> st <> 0 ->
  exists len,
    adjust (mkSlice s e st) n = Ok (mkSlice (py_clamp n st s) (py_clamp n st e) st, len) /\
    0 <= len <= n /\
    (forall t, 0 <= t ->
       (t < len <->
        (0 < st -> py_clamp n st s + t * st < py_clamp n st e) /\
        (st < 0 -> py_clamp n st e < py_clamp n st s + t * st))) /\
    (forall t, 0 <= t < len -> 0 <= py_clamp n st s + t * st < n).
Proof.
  intros Hn Hs He Hst Hnz.
  pose proof (py_clamp_range n st s (proj1 Hn)) as Rs.
  pose proof (py_clamp_range n st e (proj1 Hn)) as Re.
  unfold adjust. cbn [sl_start sl_stop sl_step].
  replace (negb (st =? 0)) with true by lia.
  replace (- INT_MAX <=? st) with true by lia.
  unfold oassert. rewrite !clamp_bound_spec by assumption. cbn [obind].
  set (a := py_clamp n st s) in *. set (b := py_clamp n st e) in *. clearbody a b.
  unfold py_lower, py_upper in Rs, Re. unfold is_int, INT_MIN, INT_MAX in *.
  destruct (st <? 0) eqn:Eneg.
  - destruct (b <? a) eqn:Eab.
    + rewrite !int_ok by (unfold is_int, INT_MIN, INT_MAX; lia). cbn [obind].
      rewrite !int_ok by (unfold is_int, INT_MIN, INT_MAX; lia). cbn [obind].
      assert (Hq : Z.quot (a - b - 1) (- st) = (a - b - 1) / (- st)) by (apply Z.quot_div_nonneg; lia).
      rewrite Hq.
      pose proof (count_up_bounds b a (- st) ltac:(lia) ltac:(lia)) as Hb.
      pose proof (fun t => count_up b a (- st) t ltac:(lia) ltac:(lia)) as Hc.
      set (q := (a - b - 1) / (- st)) in *. clearbody q.
      rewrite int_ok by (unfold is_int, INT_MIN, INT_MAX; lia). cbn [obind].
      exists (q + 1). split; [reflexivity|]. split; [lia|]. split.
      * intros t Ht. specialize (Hc t Ht). split; [intros L|intros [_ L]].
        -- split; [lia|]. intros _. apply Hc in L. lia.
        -- apply Hc. assert (st < 0) by lia. specialize (L H). lia.
      * intros t [Ht L]. apply Hc in L; [|exact Ht]. assert (0 <= t * - st) by nia. lia.
    + exists 0. split; [reflexivity|]. split; [lia|]. split; [|lia].
      intros t Ht. split; [lia|]. intros [_ L]. assert (st < 0) by lia. specialize (L H).
      assert (0 <= t * - st) by nia. lia.
  - destruct (a <? b) eqn:Eab.
    + rewrite !int_ok by (unfold is_int, INT_MIN, INT_MAX; lia). cbn [obind].
      rewrite !int_ok by (unfold is_int, INT_MIN, INT_MAX; lia). cbn [obind].
      assert (Hq : Z.quot (b - a - 1) st = (b - a - 1) / st) by (apply Z.quot_div_nonneg; lia).
      rewrite Hq.
      pose proof (count_up_bounds a b st ltac:(lia) ltac:(lia)) as Hb.
      pose proof (fun t => count_up a b st t ltac:(lia) ltac:(lia)) as Hc.
      set (q := (b - a - 1) / st) in *. clearbody q.
      rewrite int_ok by (unfold is_int, INT_MIN, INT_MAX; lia). cbn [obind].
      exists (q + 1). split; [reflexivity|]. split; [lia|]. split.
      * intros t Ht. specialize (Hc t Ht). split; [intros L|intros [L _]].
        -- split; [|lia]. intros _. apply Hc in L. lia.
        -- apply Hc. assert (0 < st) by lia. specialize (L H). lia.
      * intros t [Ht L]. apply Hc in L; [|exact Ht]. assert (0 <= t * st) by nia. lia.
    + exists 0. split; [reflexivity|]. split; [lia|]. split; [|lia].
      intros t Ht. split; [lia|]. intros [L _]. assert (0 < st) by lia. specialize (L H).
      assert (0 <= t * st) by nia. lia.
Qed.

(** C01: building a slice and adjusting it to a length selects the Python indices. *)
Lemma slice_python n start stop step :
  0 <= n <= INT_MAX -> is_int_opt start -> is_int_opt stop -> is_int_opt step ->
  eff_step step <> 0 -> 
  exists sl sl' len,
    slice_make start stop step = Ok sl /\
    adjust sl n = Ok (sl', len) /\
    0 <= len <= n /\
    (forall t x, py_selects n start stop (eff_step step) t x <->
                 (0 <= t < len /\ x = sl_start sl' + t * sl_step sl')) /\
    (forall t, 0 <= t < len -> 0 <= sl_start sl' + t * sl_step sl' < n).
Proof.
  intros Hn Hs He Hst Hnz.
  set (st := eff_step step) in *.
  set (st' := if st =? INT_MIN then - INT_MAX else st).
  assert (Hsgn : (st' <? 0) = (st <? 0)).
  { unfold st', INT_MIN, INT_MAX in *. destruct (st =? -2147483648) eqn:E; lia. }
  assert (Hst' : - INT_MAX <= st' <= INT_MAX /\ st' <> 0).
  { unfold st', is_int_opt, is_int, st, eff_step, INT_MIN, INT_MAX in *.
    destruct step as [z|]; [destruct (z =? -2147483648) eqn:E|]; simpl; lia. }
  set (s := match start with Some s => s | None => if st' <? 0 then INT_MAX else 0 end).
  set (e := match stop with Some e => e | None => if st' <? 0 then INT_MIN else INT_MAX end).
  assert (Hmk : slice_make start stop step = Ok (mkSlice s e st')).
  { unfold slice_make. destruct step as [z|]; cbn [obind].
    - unfold oassert. replace (negb (z =? 0)) with true by (unfold st, eff_step in Hnz; lia).
      cbn [obind]. reflexivity.
    - reflexivity. }
  assert (Is : is_int s).
  { unfold s, is_int_opt, is_int in *. destruct start; [assumption|].
    destruct (st' <? 0); unfold INT_MIN, INT_MAX; lia. }
  assert (Ie : is_int e).
  { unfold e, is_int_opt, is_int in *. destruct stop; [assumption|].
    destruct (st' <? 0); unfold INT_MIN, INT_MAX; lia. }
  destruct (adjust_spec n s e st' Hn Is Ie (proj1 Hst') (proj2 Hst')) as (len & Had & Hlen & Hiff & Hin).
  assert (Ps : py_clamp n st' s = py_start n start st).
  { rewrite (py_clamp_sgn n st' st s Hsgn). unfold s. rewrite Hsgn. destruct start as [z|].
    - reflexivity.
    - apply py_start_none; assumption. }
  assert (Pe : py_clamp n st' e = py_stop n stop st).
  { rewrite (py_clamp_sgn n st' st e Hsgn). unfold e. rewrite Hsgn. destruct stop as [z|].
    - reflexivity.
    - apply py_stop_none; assumption. }
  exists (mkSlice s e st'), (mkSlice (py_clamp n st' s) (py_clamp n st' e) st'), len.
  split; [exact Hmk|]. split; [exact Had|]. split; [exact Hlen|]. split; [|exact Hin].
  cbn [sl_start sl_step sl_stop]. rewrite Ps, Pe in *.
  assert (Rs : py_lower st <= py_start n start st <= py_upper n st).
  { rewrite <- Ps, (py_clamp_sgn n st' st s Hsgn). apply py_clamp_range; lia. }
  assert (Re : py_lower st <= py_stop n stop st <= py_upper n st).
  { rewrite <- Pe, (py_clamp_sgn n st' st e Hsgn). apply py_clamp_range; lia. }
  set (a := py_start n start st) in *. set (b := py_stop n stop st) in *.
  unfold py_lower, py_upper in *.
  destruct (Z.eq_dec st INT_MIN) as [Emin|Emin].
  - (* the INT_MIN step is replaced by -INT_MAX: same selection, at most one index *)
    assert (E' : st' = - INT_MAX) by (unfold st'; rewrite Emin; reflexivity).
    unfold py_selects. fold a b. intros t x. rewrite Emin, E' in *.
    unfold INT_MIN, INT_MAX in *. cbn in Rs, Re.
    specialize (Hiff t). split.
    + intros (H0 & H1 & _ & H3). assert (t = 0) by lia. subst t.
      split; [|lia]. split; [lia|]. apply Hiff; lia.
    + intros (H0 & H1). assert (Ht : t < len) by lia. apply Hiff in Ht; [|lia].
      destruct Ht as [_ Ht]. assert (t = 0) by lia. subst t. lia.
  - assert (E' : st' = st) by (unfold st'; destruct (st =? INT_MIN) eqn:E; lia).
    unfold py_selects. fold a b. intros t x. rewrite E' in *.
    specialize (Hiff t). split.
    + intros (H0 & H1 & H2 & H3). split; [|exact H1]. split; [exact H0|]. apply Hiff; [exact H0|]. subst x; auto.
    + intros ((H0 & H0') & H1). apply Hiff in H0'; [|exact H0]. subst x. tauto.
Qed.

(** C02: a single-integer slice selects one element. *)
Lemma slice_index_selects n i :
  0 < n <= INT_MAX -> - n <= i < n ->
  exists sl sl',
    slice_index i = Ok sl /\ adjust sl n = Ok (sl', 1) /\
    sl_start sl' = (if i <? 0 then i + n else i) /\ sl_step sl' = 1.
Proof.
  intros Hn Hi. unfold slice_index.
  assert (exists stop, (if i =? -1 then Ok INT_MAX else int (i + 1)) = Ok stop /\ is_int stop /\
           stop = if i =? -1 then INT_MAX else i + 1) as (stop & E & I & V).
  { destruct (i =? -1) eqn:E.
    - exists INT_MAX. repeat split; unfold INT_MIN, INT_MAX; lia.
    - exists (i + 1). assert (is_int (i + 1)) by (unfold is_int, INT_MIN, INT_MAX in *; lia).
      rewrite int_ok by assumption. auto. }
  rewrite E. cbn [obind].
  destruct (adjust_spec n i stop 1) as (len & Had & Hlen & Hiff & Hin).
  - lia.
  - unfold is_int, INT_MIN, INT_MAX in *; lia.
  - exact I.
  - unfold INT_MAX; lia.
  - lia.
  - 
    assert (Ps : py_clamp n 1 i = if i <? 0 then i + n else i).
    { unfold py_clamp, py_lower, py_upper. simpl. destruct (i <? 0) eqn:E2; lia. }
    assert (Pe : py_clamp n 1 stop = (if i <? 0 then i + n else i) + 1).
    { unfold py_clamp, py_lower, py_upper. simpl. subst stop.
      destruct (i =? -1) eqn:E3; unfold INT_MAX in *.
      - simpl. destruct (i <? 0) eqn:E2; lia.
      - destruct (i + 1 <? 0) eqn:E2; destruct (i <? 0) eqn:E4; lia. }
    assert (len = 1).
    { pose proof (Hiff 0) as H0. pose proof (Hiff 1) as H1. rewrite Ps, Pe in H0, H1.
      destruct (Z.lt_trichotomy len 1) as [L|[L|L]]; [|exact L|].
      - assert (0 < len) by (apply H0; lia). lia.
      - assert (1 < len) by lia. apply H1 in H; lia. }
    subst len. exists (mkSlice i stop 1). eexists. split; [reflexivity|]. split; [exact Had|].
    cbn [sl_start sl_step]. auto.
Qed.

(** C02 is false at the extreme index: [Slice(INT_MAX)] overflows. *)
Lemma slice_index_overflow : slice_index INT_MAX = UB.
Proof. reflexivity. Qed.
