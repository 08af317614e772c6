(** The Python bindings: lemmas behind the properties. *)
From Coq Require Import ZArith List Lia Bool ZifyBool Permutation.
From Verif Require Import Base SliceModel SliceSpec SliceProofs Loops MatrixModel MatrixSpec MatrixProofs MatrixProofs2 MatrixProofs3 PyModel PySpec PyProofs.
Import ListNotations.
Open Scope Z_scope.

Lemma selects_range n i l f t : 0 <= n -> selects n i l f -> 0 <= t < l -> 0 <= f t < n.
Proof.
  intros Hn S Ht. destruct S as [i Hi|a b s len f Hs Hl Hf]; [destruct (i <? 0) eqn:?; lia|].
  assert (P : py_selects n a b (eff_step s) t (f t)) by (apply Hf; auto).
  assert (P0 : py_selects n a b (eff_step s) 0 (f 0)) by (apply Hf; split; [lia|reflexivity]).
  destruct P as (_ & E & P1 & P2), P0 as (_ & E0 & P3 & P4).
  assert (Ra : py_lower (eff_step s) <= py_start n a (eff_step s) <= py_upper n (eff_step s)).
  { destruct a as [a|]; [apply py_clamp_range; lia|]. unfold py_start, py_lower, py_upper. destruct (eff_step s <? 0); lia. }
  assert (Rb : py_lower (eff_step s) <= py_stop n b (eff_step s) <= py_upper n (eff_step s)).
  { destruct b as [b|]; [apply py_clamp_range; lia|]. unfold py_stop, py_lower, py_upper. destruct (eff_step s <? 0); lia. }
  unfold py_lower, py_upper in *. destruct (eff_step s <? 0) eqn:Q.
  - specialize (P2 ltac:(lia)). specialize (P4 ltac:(lia)). assert (0 <= t * - eff_step s) by nia. lia.
  - specialize (P1 ltac:(lia)). specialize (P3 ltac:(lia)). assert (0 <= t * eff_step s) by nia. lia.
Qed.

Lemma selects_inj n i l f t t' : selects n i l f -> 0 <= t < l -> 0 <= t' < l -> f t = f t' -> t = t'.
Proof.
  intros S Ht Ht' E. destruct S as [i Hi|a b s len f Hs Hl Hf]; [lia|].
  assert (P : py_selects n a b (eff_step s) t (f t)) by (apply Hf; auto).
  assert (P' : py_selects n a b (eff_step s) t' (f t')) by (apply Hf; auto).
  destruct P as (_ & P & _), P' as (_ & P' & _). nia.
Qed.

Section Use.
  Context {E : Type} (m : vmat E) (r c : Z) (F : Z -> Z -> E).
  Hypotheses (HR : represents m r c F) (HM : moderate r c).

  Lemma HR' : represents m (m_rows m) (m_cols m) F.
  Proof. destruct HR as (-> & -> & H). unfold represents. auto. Qed.
  Lemma HM' : moderate (m_rows m) (m_cols m).
  Proof. destruct HR as (-> & -> & _). exact HM. Qed.

  Lemma c92_entry_fun x a b p q p' q' : entry m x a b p q -> entry m x a b p' q' -> p' = p /\ q' = q.
  Proof.
    intros H H'. destruct (entry_pos m F HR' HM' _ _ _ _ _ H) as (_ & _ & -> & ->).
    destruct (entry_pos m F HR' HM' _ _ _ _ _ H') as (_ & _ & -> & ->). auto.
  Qed.

  Lemma c92_element x i j li f lj g : held m x -> selects (o_rows m x) (IInt i) li f -> selects (o_cols m x) (IInt j) lj g ->
    exists p q, entry m x (f 0) (g 0) p q /\ getitem m x (IInt i) (IInt j) = Ok (RVar (F p q)).
  Proof.
    intros H S1 S2. inversion S1 as [? Hi|]; subst. inversion S2 as [? Hj|]; subst.
    assert (J : inr (o_rows m x) (o_cols m x) (if i <? 0 then i + o_rows m x else i) (if j <? 0 then j + o_cols m x else j))
      by (split; [destruct (i <? 0) eqn:?|destruct (j <? 0) eqn:?]; lia).
    eexists _, _. split; [exact (entry_here m F HR' HM' x _ _ H J)|].
    pose proof (held_sound m F HR' HM' x H) as S.
    apply (getitem_ints m F HR' HM' m x i j); auto; [exact (wf_m m F HR')|].
    apply (cell_m m F HR'). apply sound_inside; assumption.
  Qed.

  Lemma c92_block x i j li f lj g : held m x -> 1 <= o_rows m x -> 1 <= o_cols m x ->
    selects (o_rows m x) i li f -> selects (o_cols m x) j lj g -> modest (o_rows m x) i -> modest (o_cols m x) j ->
    ~ odd_row x i j -> is_slice i \/ is_slice j ->
    exists v, getitem m x i j = Ok (RBlock v) /\ o_rows m (OBlock v) = li /\ o_cols m (OBlock v) = lj /\
      forall a b, inr li lj a b -> exists e, getitem m (OBlock v) (IInt a) (IInt b) = Ok (RVar e) /\
                                             getitem m x (IInt (f a)) (IInt (g b)) = Ok (RVar e).
  Proof.
    intros H H1 H2 S1 S2 M1 M2 O SL. pose proof (held_sound m F HR' HM' x H) as S.
    destruct (getitem_block m F HR' HM' x i j li f lj g S H1 H2 S1 S2 M1 M2 O SL) as (v & G & K & P1 & P2 & Q1 & Q2).
    exists v. split; [exact G|]. split; [exact P1|]. split; [exact P2|]. intros a b [Ha Hb].
    destruct (Q1 a Ha) as [R1 E1]. destruct (Q2 b Hb) as [R2 E2]. destruct (sound_dims m F HR' HM' x S) as [D1 D2].
    exists (F (o_row x (f a)) (o_col x (g b))). split.
    - apply (getitem_ints m F HR' HM' m (OBlock v) a b); try exact K; cbn [o_rows o_cols o_row o_col]; try lia; [exact (wf_m m F HR')|].
      replace (a <? 0) with false by lia. replace (b <? 0) with false by lia. rewrite E1, E2.
      apply (cell_m m F HR'). apply sound_inside; [exact S|]. split; assumption.
    - apply (getitem_ints m F HR' HM' m x (f a) (g b)); try exact S; try lia; [exact (wf_m m F HR')|].
      replace (f a <? 0) with false by lia. replace (g b <? 0) with false by lia.
      apply (cell_m m F HR'). apply sound_inside; [exact S|]. split; assumption.
  Qed.

  Lemma c92_refused x i j : held m x -> 1 <= o_rows m x -> 1 <= o_cols m x -> is_int i -> is_int j ->
    refuses (o_rows m x) (IInt i) \/ refuses (o_cols m x) (IInt j) -> getitem m x (IInt i) (IInt j) = AssertFail.
  Proof. intros H. apply (getitem_ints_refused m F HR' HM' x i j). exact (held_sound m F HR' HM' x H). Qed.

  (** M[-k, j]: no element of the result can be read. *)
  Lemma c92_odd i a b s lj g : - r <= i < 0 -> selects c (ISlice a b s) lj g -> modest c (ISlice a b s) ->
    exists v, getitem m OMat (IInt i) (ISlice a b s) = Ok (RBlock v) /\ o_rows m (OBlock v) = 1 /\ o_cols m (OBlock v) = lj /\
      forall p q, is_int p -> is_int q -> getitem m (OBlock v) (IInt p) (IInt q) = AssertFail.
  Proof.
    intros Hi S2 M2. pose proof HR as (Er & Ec & D & _). destruct (mod_dims m F HR' HM') as (Dr & Dc & _). rewrite Er, Ec in *. 
    unfold getitem at 1, get_block. cbn [o_rows o_cols]. rewrite Er, Ec.
    destruct (pick_ok true c _ lj g Dc S2 M2) as (cs & E2 & F2 & L2); [left; reflexivity|].
    unfold pick at 1. unfold LIM in *. replace (in_int i) with true by (unfold in_int, INT_MIN, INT_MAX; lia). unfold oassert at 1. cbn [andb obind].
    rewrite int_ok by (unfold is_int, INT_MIN, INT_MAX; lia). cbn [obind]. rewrite slice_make_step1. cbn [obind].
    rewrite E2. cbn [obind o_sub]. eexists. split; [reflexivity|]. split; [reflexivity|]. split; [reflexivity|].
    intros p q Ip Iq. unfold getitem. unfold is_int, INT_MIN, INT_MAX in *.
    replace (in_int p && in_int q) with true by (unfold in_int, INT_MIN, INT_MAX; lia).
    unfold oassert at 1. destruct (negb _) eqn:Q; [|reflexivity]. cbn [o_rows o_cols v_rl v_cl] in *.
    destruct F2 as ((R & Hs & F2) & _).
    assert (Fi : forall n k, 0 <= n <= 268435456 -> -2147483648 <= k < n -> from_end n k = Ok (if k <? 0 then k + n else k)).
    { intros n k Hn Hk. unfold from_end. destruct (k <? 0) eqn:?; [|reflexivity]. apply int_ok. unfold is_int, INT_MIN, INT_MAX. lia. }
    rewrite (Fi 1 p), (Fi lj q) by lia. cbn [obind o_get]. set (p' := if p <? 0 then _ else _). set (q' := if q <? 0 then _ else _). clearbody p' q'.
    unfold view_get, view_pos. cbn [v_rl v_cl v_rs v_cs]. unfold oassert at 1. destruct ((0 <=? p') && (p' <? 1)) eqn:A1; [|reflexivity].
    unfold oassert at 1. destruct ((0 <=? q') && (q' <? lj)) eqn:A2; [|reflexivity].
    assert (p' = 0) by lia. subst p'.
    assert (Ea : slice_at (mkSlice i (i + 1) 1) 0 = Ok i).
    { unfold slice_at. cbn [sl_step sl_start]. rewrite int_ok by (unfold is_int, INT_MIN, INT_MAX; lia). cbn [obind]. rewrite int_ok by (unfold is_int, INT_MIN, INT_MAX; lia). f_equal. lia. }
    rewrite Ea. cbn [obind]. rewrite (slice_at_ok' cs lj c q'); [|split; auto|unfold INT_MAX; lia|lia]. cbn [obind].
    unfold mat_get, mat_offset, oassert. rewrite Er. replace ((0 <=? i) && (i <? r)) with false by lia. reflexivity.
  Qed.

  (** A step of zero. *)
  Lemma c92_step x i j : refuses 1 i /\ is_slice i \/ refuses 1 j /\ is_slice j /\ (forall k, i = IInt k -> - 268435456 <= k <= 268435456) -> held m x -> 
    getitem m x i j = AssertFail.
  Proof.
    intros H Hx. pose proof (held_sound m F HR' HM' x Hx) as S. destruct (sound_dims m F HR' HM' x S) as [D1 D2].
    assert (P : forall neg n a b s, eff_step s = 0 -> pick neg n (ISlice a b s) = AssertFail).
    { intros neg n a b s Es. cbn [pick]. unfold compute. destruct s as [s|]; cbn in Es; [subst s|discriminate Es]. reflexivity. }
    destruct H as [[H1 H2]|(H1 & H2 & H3)].
    - destruct i as [|a b s]; [destruct H2|]. cbn in H1. unfold getitem, get_block. rewrite P by exact H1. reflexivity.
    - destruct j as [|a b s]; [destruct H2|]. cbn in H1.
      assert (G : forall neg, exists sl l, pick neg (o_rows m x) i = Ok (sl, l) \/ pick neg (o_rows m x) i = AssertFail).
      { intros neg. destruct i as [k|a' b' s'].
        - specialize (H3 k eq_refl). unfold LIM in *. cbn [pick]. replace (in_int k) with true by (unfold in_int, INT_MIN, INT_MAX; lia). unfold oassert.
          destruct (neg && (k <? 0)); [rewrite (int_ok (k + _)) by (unfold is_int, INT_MIN, INT_MAX; lia)|]; cbn [obind];
            rewrite int_ok by (unfold is_int, INT_MIN, INT_MAX; lia); cbn [obind]; rewrite slice_make_step1; cbn [obind]; eauto.
        - cbn [pick]. unfold compute, oassert. set (st := match s' with None => _ | Some _ => _ end). destruct (negb (st =? 0)); cbn [obind].
          + unfold slice_of, oassert. destruct (negb (st =? 0)); cbn [obind]; [eexists _, _; left; reflexivity|exists (mkSlice 0 0 0), 0; right; reflexivity].
          + exists (mkSlice 0 0 0), 0. right. reflexivity. }
      assert (B : get_block m x i (ISlice a b s) = AssertFail).
      { unfold get_block. destruct (G (match x with OMat => false | OBlock _ => true end)) as (sl & l & [-> | ->]); cbn [obind]; [|reflexivity].
        rewrite P by exact H1. reflexivity. }
      unfold getitem. destruct i; exact B.
  Qed.

  (** ** Writing *)
  Lemma set_target x i j li f lj g : sound m x -> 1 <= o_rows m x -> 1 <= o_cols m x ->
    selects (o_rows m x) i li f -> selects (o_cols m x) j lj g -> modest (o_rows m x) i -> modest (o_cols m x) j ->
    exists v, (forall val, setitem m x i j val = match val with VMat src => view_assign m v src | VScalar e => view_assign_scalar m v e end) /\
      sound m (OBlock v) /\ v_rl v = li /\ v_cl v = lj /\
      (forall a, 0 <= a < li -> sel (v_rs v) a = o_row x (f a)) /\ (forall b, 0 <= b < lj -> sel (v_cs v) b = o_col x (g b)).
  Proof.
    intros S H1 H2 S1 S2 M1 M2. destruct (sound_dims m F HR' HM' x S) as [D1 D2].
    destruct (pick_ok true _ i li f D1 S1 M1) as (rs & E1 & F1 & L1); [left; reflexivity|].
    destruct (pick_ok true _ j lj g D2 S2 M2) as (cs & E2 & F2 & L2); [left; reflexivity|].
    destruct (o_sub_ok m F HR' HM' x rs li cs lj S H1 H2 F1 F2) as (v & E3 & K & P1 & P2 & Q1 & Q2).
    exists v. split. { intros val. unfold setitem. rewrite E1. cbn [obind]. rewrite E2. cbn [obind]. rewrite E3. reflexivity. }
    repeat (split; [assumption|]). split.
    - intros a Ha. rewrite <- (L1 a Ha). auto.
    - intros b Hb. rewrite <- (L2 b Hb). auto.
  Qed.

  Lemma written_of x li lj f g v m' G : held m x ->
    (forall a, 0 <= a < li -> 0 <= f a < o_rows m x /\ sel (v_rs v) a = o_row x (f a)) -> (forall b, 0 <= b < lj -> 0 <= g b < o_cols m x /\ sel (v_cs v) b = o_col x (g b)) ->
    wf m' r c ->
    (forall a b, inr li lj a b -> cell m' (sel (v_rs v) a) (sel (v_cs v) b) = Some (G a b)) ->
    (forall i' j', inr r c i' j' -> (forall a b, inr li lj a b -> ~ (i' = sel (v_rs v) a /\ j' = sel (v_cs v) b)) -> cell m' i' j' = cell m i' j') ->
    written m m' x li lj f g G.
  Proof.
    intros H Q1 Q2 W C1 C2. pose proof HR as (Er & Ec & D & _). pose proof W as (W1 & W2 & _). 
    pose proof (held_sound m F HR' HM' x H) as S. destruct (mod_dims m F HR' HM') as (Dr & Dc & _). destruct (sound_dims m F HR' HM' x S) as [D1 D2].
    assert (W' : wf m' (m_rows m) (m_cols m)) by (rewrite Er, Ec; exact W).
    unfold written. rewrite W1, W2, Er, Ec. split; [reflexivity|]. split; [reflexivity|]. split.
    - intros a b [Ha Hb]. destruct (Q1 a Ha) as [R1 E1]. destruct (Q2 b Hb) as [R2 E2].
      apply (getitem_ints m F HR' HM' m' x (f a) (g b)); try exact S; try lia; [exact W'|].
      replace (f a <? 0) with false by lia. replace (g b <? 0) with false by lia. rewrite <- E1, <- E2. apply C1. split; assumption.
    - intros p q I N. assert (Cm : cell m' p q = Some (F p q)).
      { rewrite C2; [|exact I|]; [apply (cell_m m F HR'); rewrite Er, Ec; exact I|].
        intros a b J [-> ->]. apply (N a b J). destruct J as [Ha Hb]. destruct (Q1 a Ha) as [R1 E1]. destruct (Q2 b Hb) as [R2 E2].
        rewrite E1, E2. apply (entry_here m F HR' HM' x _ _ H). split; assumption. }
      destruct I as [Hp Hq]. rewrite Er, Ec in *.
      assert (X : forall mm, wf mm r c -> cell mm p q = Some (F p q) -> getitem mm OMat (IInt p) (IInt q) = Ok (RVar (F p q))).
      { intros mm Wm Cmm. apply (getitem_ints m F HR' HM' mm OMat p q); cbn [o_rows o_cols o_row o_col]; rewrite ?Er, ?Ec; try lia; [exact Wm|exact I|].
        replace (p <? 0) with false by lia. replace (q <? 0) with false by lia. exact Cmm. }
      rewrite (X m' W Cm). symmetry. apply X; [|apply (cell_m m F HR'); rewrite Er, Ec; split; assumption].
      pose proof (wf_m m F HR') as Wm. rewrite Er, Ec in Wm. exact Wm.
  Qed.

  Lemma c93_set x i j li f lj g a G : held m x -> 1 <= o_rows m x -> 1 <= o_cols m x ->
    selects (o_rows m x) i li f -> selects (o_cols m x) j lj g -> modest (o_rows m x) i -> modest (o_cols m x) j ->
    denotes a li lj G ->
    exists m', setitem m x i j (VMat (fun _ => a)) = Ok m' /\ written m m' x li lj f g G.
  Proof.
    intros H H1 H2 S1 S2 M1 M2 Da. pose proof (held_sound m F HR' HM' x H) as S. pose proof HR as (Er & Ec & D & _).
    destruct (set_target x i j li f lj g S H1 H2 S1 S2 M1 M2) as (v & Es & [[K1 _] [K2 _]] & P1 & P2 & Q1 & Q2). rewrite Er, Ec in *.
    assert (V : view_in v r c) by (split; assumption).
    assert (W : wf m r c) by (pose proof (wf_m m F HR') as Wm; rewrite Er, Ec in Wm; exact Wm).
    rewrite <- P1, <- P2 in Da. destruct (view_assign_const m r c v a G W V Da) as (m' & A & Wm & C1 & C2). rewrite P1, P2 in *.
    exists m'. split; [rewrite Es; exact A|]. eapply (written_of x li lj f g v m' G H); eauto.
    - intros k Hk. split; [eapply selects_range; eauto; lia|auto].
    - intros k Hk. split; [eapply selects_range; eauto; lia|auto].
  Qed.

  Lemma scalar_as_mat (m' : vmat E) v e : v_rl v = 1 -> v_cl v = 1 -> view_assign_scalar m' v e = view_assign m' v (fun _ => mkLike 1 1 (fun _ _ => Ok e)).
  Proof.
    intros P1 P2. unfold view_assign, view_assign_scalar. cbn [ml_rows ml_cols ml_get]. rewrite P1, P2. cbn [Z.eqb Pos.eqb andb oassert].
    unfold for_rc, for_z. change (Z.to_nat 1) with 1%nat. cbn -[view_set]. destruct (view_set m' v 0 0 e); reflexivity.
  Qed.
  Lemma c93_scalar x i j f g e : held m x -> 1 <= o_rows m x -> 1 <= o_cols m x ->
    selects (o_rows m x) i 1 f -> selects (o_cols m x) j 1 g -> modest (o_rows m x) i -> modest (o_cols m x) j ->
    exists m', setitem m x i j (VScalar e) = Ok m' /\ written m m' x 1 1 f g (fun _ _ => e).
  Proof.
    intros H H1 H2 S1 S2 M1 M2. pose proof (held_sound m F HR' HM' x H) as S.
    destruct (set_target x i j 1 f 1 g S H1 H2 S1 S2 M1 M2) as (v & Es & _ & P1 & P2 & _).
    destruct (c93_set x i j 1 f 1 g (mkLike 1 1 (fun _ _ => Ok e)) (fun _ _ => e) H H1 H2 S1 S2 M1 M2) as (m' & A & B).
    { split; [reflexivity|]. split; [reflexivity|]. split; [|reflexivity]. unfold dims, INT_MAX. lia. }
    exists m'. split; [|exact B]. rewrite Es in A |- *. rewrite (scalar_as_mat m v e P1 P2). exact A.
  Qed.

  Lemma c93_shape x i j li f lj g val : held m x -> 1 <= o_rows m x -> 1 <= o_cols m x ->
    selects (o_rows m x) i li f -> selects (o_cols m x) j lj g -> modest (o_rows m x) i -> modest (o_cols m x) j ->
    (match val with VMat src => ~ (ml_rows (src m) = li /\ ml_cols (src m) = lj) | VScalar _ => ~ (li = 1 /\ lj = 1) end) ->
    setitem m x i j val = AssertFail.
  Proof.
    intros H H1 H2 S1 S2 M1 M2 N. pose proof (held_sound m F HR' HM' x H) as S.
    destruct (set_target x i j li f lj g S H1 H2 S1 S2 M1 M2) as (v & Es & _ & P1 & P2 & _). rewrite Es.
    destruct val as [src|e]; unfold view_assign, view_assign_scalar, oassert; rewrite P1, P2; (destruct (_ && _) eqn:Q; [exfalso; apply N; lia|reflexivity]).
  Qed.

  (** From a block of the same matrix. *)
  Lemma c93_same x i j li f lj g w : held m x -> 1 <= o_rows m x -> 1 <= o_cols m x ->
    selects (o_rows m x) i li f -> selects (o_cols m x) j lj g -> modest (o_rows m x) i -> modest (o_cols m x) j ->
    held m (OBlock w) -> o_rows m (OBlock w) = li -> o_cols m (OBlock w) = lj ->
    (forall a b a' b' p q, inr li lj a b -> inr li lj a' b' -> entry m x (f a) (g b) p q -> entry m (OBlock w) a' b' p q ->
       a' < a \/ (a' = a /\ b' <= b)) ->
    exists m' G, setitem m x i j (VMat (fun m => like_view m w)) = Ok m' /\ written m m' x li lj f g G /\
      forall a b, inr li lj a b -> getitem m (OBlock w) (IInt a) (IInt b) = Ok (RVar (G a b)).
  Proof.
    intros H H1 H2 S1 S2 M1 M2 Hw Wr Wc N. pose proof (held_sound m F HR' HM' x H) as S. pose proof (held_sound m F HR' HM' _ Hw) as Sw. pose proof HR as (Er & Ec & D & _).
    destruct (mod_dims m F HR' HM') as (Dr & Dc & _). destruct (sound_dims m F HR' HM' _ Sw) as [D1 D2].
    destruct (set_target x i j li f lj g S H1 H2 S1 S2 M1 M2) as (v & Es & [[K1 _] [K2 _]] & P1 & P2 & Q1 & Q2).
    pose proof Sw as [[L1 _] [L2 _]]. rewrite Er, Ec in *. cbn [o_rows o_cols] in Wr, Wc, D1, D2.
    assert (V : view_in v r c) by (split; assumption). assert (V' : view_in w r c) by (split; assumption).
    assert (X1 : forall k, 0 <= k < li -> 0 <= f k < o_rows m x /\ sel (v_rs v) k = o_row x (f k)) by (intros k Hk; split; [eapply selects_range; eauto; lia|auto]).
    assert (X2 : forall k, 0 <= k < lj -> 0 <= g k < o_cols m x /\ sel (v_cs v) k = o_col x (g k)) by (intros k Hk; split; [eapply selects_range; eauto; lia|auto]).
    destruct (view_assign_view m r c v w F HR V V' ltac:(congruence) ltac:(congruence)) as (m' & A & Wm & C1 & C2).
    { rewrite P1, P2. intros a b a' b' J J' B [Ea Eb]. pose proof J as [Ja Jb]. destruct (X1 a Ja) as [Y1 Z1]. destruct (X2 b Jb) as [Y2 Z2].
      pose proof (entry_here m F HR' HM' x (f a) (g b) H (conj Y1 Y2)) as En. rewrite <- Z1, <- Z2, Ea, Eb in En.
      assert (En' : entry m (OBlock w) a' b' (sel (v_rs w) a') (sel (v_cs w) b')) by (apply (entry_here m F HR' HM' (OBlock w) a' b' Hw); cbn; rewrite Wr, Wc; exact J').
      pose proof (N a b a' b' _ _ J J' En En'). lia. }
    rewrite P1, P2 in *. exists m', (fun a b => F (sel (v_rs w) a) (sel (v_cs w) b)). split; [rewrite Es; exact A|]. split.
    - eapply (written_of x li lj f g v m' _ H); eauto.
    - intros a b [Ja Jb]. apply (getitem_ints m F HR' HM' m (OBlock w) a b); try exact Sw; cbn [o_rows o_cols o_row o_col]; try lia; [exact (wf_m m F HR')|].
      replace (a <? 0) with false by lia. replace (b <? 0) with false by lia. apply (cell_m m F HR').
      apply (sound_inside m (OBlock w) a b Sw). cbn. unfold inr. lia.
  Qed.

  (** ** Iteration *)
  Lemma c94_iter x : held m x -> exists l, py_iter m x = Ok l /\ Z.of_nat (length l) = o_rows m x * o_cols m x /\
    forall a b, inr (o_rows m x) (o_cols m x) a b -> exists e,
      nth_error l (Z.to_nat (a * o_cols m x + b)) = Some (Some e) /\ getitem m x (IInt a) (IInt b) = Ok (RVar e) /\
      getitem1 m x (a * o_cols m x + b) = Ok e /\ getitem1 m x (a * o_cols m x + b - o_rows m x * o_cols m x) = Ok e.
  Proof.
    intros H. pose proof (held_sound m F HR' HM' x H) as S. pose proof HR as (Er & Ec & D & L & HF). destruct (sound_dims m F HR' HM' x S) as [D1 D2].
    assert (Hm : o_rows m x * o_cols m x <= INT_MAX).
    { destruct (mod_dims m F HR' HM') as (_ & _ & D'). destruct x as [|v]; cbn [o_rows o_cols]; [apply D'|].
      destruct S as [[V1 _] [V2 _]]. apply (view_dims v _ _ D'). split; assumption. }
    assert (G1 : forall k, 0 <= k < o_rows m x * o_cols m x ->
      match x with OMat => mat_get1 m k | OBlock v => view_get1 m v k end = Ok (F (o_row x (k / o_cols m x)) (o_col x (k mod o_cols m x)))).
    { intros k Hk. destruct x as [|v]; cbn [o_rows o_cols o_row o_col] in *.
      - apply (mat_get1_ok m (m_rows m) (m_cols m) F); [exact HR'|exact Hk].
      - destruct S as [[V1 _] [V2 _]]. apply (view_get1_ok m (m_rows m) (m_cols m) F v); [exact HR'|split; assumption|exact Hk]. }
    assert (G2 : forall a b, inr (o_rows m x) (o_cols m x) a b -> 0 <= a * o_cols m x + b < o_rows m x * o_cols m x /\
      (a * o_cols m x + b) / o_cols m x = a /\ (a * o_cols m x + b) mod o_cols m x = b).
    { intros a b [Ha Hb]. rewrite (Z.add_comm (a * _)), Z.div_add, Z.mod_add by lia. rewrite (Z.div_small b), (Z.mod_small b) by lia. split; [nia|lia]. }
    assert (IT : exists l, py_iter m x = Ok l /\ Z.of_nat (length l) = o_rows m x * o_cols m x /\
      forall a b, inr (o_rows m x) (o_cols m x) a b -> nth_error l (Z.to_nat (a * o_cols m x + b)) = Some (Some (F (o_row x a) (o_col x b)))).
    { destruct x as [|v]; cbn [o_rows o_cols o_row o_col py_iter] in *.
      - exists (mat_iterate m). split; [reflexivity|]. rewrite Er, Ec. split; [exact L|]. intros a b J. apply HF. exact J.
      - destruct S as [[V1 _] [V2 _]]. destruct (view_iterate_ok m (m_rows m) (m_cols m) F v HR' ltac:(split; assumption)) as (l & El & Ll & Hl).
        exists (map Some l). rewrite El. cbn [obind]. split; [reflexivity|]. rewrite map_length. split; [exact Ll|].
        intros a b J. apply map_nth_error. apply Hl. exact J. }
    destruct IT as (l & E1 & E2 & E3). exists l. split; [exact E1|]. split; [exact E2|]. intros a b J.
    exists (F (o_row x a) (o_col x b)). split; [apply E3; exact J|].
    destruct (G2 a b J) as (K1 & K2 & K3). pose proof (G1 _ K1) as K. rewrite K2, K3 in K. split; [|split].
    - pose proof J as [Ja Jb]. apply (getitem_ints m F HR' HM' m x a b); try exact S; try lia; [exact (wf_m m F HR')|].
      replace (a <? 0) with false by lia. replace (b <? 0) with false by lia. apply (cell_m m F HR'). apply sound_inside; assumption.
    - unfold getitem1. unfold INT_MAX in *. replace (in_int _) with true by (unfold in_int, INT_MIN, INT_MAX; lia). unfold oassert at 1.
      replace (a * o_cols m x + b <? 0) with false by lia. exact K.
    - unfold getitem1. unfold INT_MAX in *. replace (in_int _) with true by (unfold in_int, INT_MIN, INT_MAX; lia). unfold oassert at 1.
      replace (a * o_cols m x + b - o_rows m x * o_cols m x <? 0) with true by lia.
      rewrite int_ok by (unfold is_int, INT_MIN, INT_MAX; lia). cbn [obind].
      rewrite int_ok by (unfold is_int, INT_MIN, INT_MAX; lia). cbn [obind]. 
      replace (a * o_cols m x + b - o_rows m x * o_cols m x + o_rows m x * o_cols m x) with (a * o_cols m x + b) by lia. exact K.
  Qed.
End Use.

(** ** Keyword arguments *)
Section Kw.
  Context {obj D : Type} (to_double : obj -> option D) (to_i : obj -> option Z) (to_bool : obj -> option bool).
  Notation kwa := (kw_all to_double to_i to_bool). Notation us := (usable to_double to_i to_bool).

  Lemma kw_set_ok o kv : us kv -> exists o', kw_set to_double to_i to_bool o kv = Ok o' /\
    gives [kv] KTolerance to_double (k_tol o) (k_tol o') /\ gives [kv] KMaxIterations to_i (k_iter o) (k_iter o') /\
    gives [kv] KTimeout to_double (k_timeout o) (k_timeout o') /\ gives [kv] KFeasibleIpm to_bool (k_feas o) (k_feas o') /\
    gives [kv] KDiagnostics to_bool (k_diag o) (k_diag o') /\ gives [kv] KSpy to_bool (k_spy o) (k_spy o').
  Proof.
    destruct kv as [k v]. unfold usable, kw_set. cbn [fst snd]. intros H. unfold gives.
    destruct k; try contradiction;
      match goal with H : ?f v <> None |- _ => destruct (f v) as [a|] eqn:Ea; [|contradiction] end; cbn [oget obind];
      (eexists; split; [reflexivity|]; cbn [k_tol k_iter k_timeout k_feas k_diag k_spy]; repeat split;
       ((left; exists v; split; [left; reflexivity|exact Ea]) || (right; split; [intros w [W|[]]; discriminate W|reflexivity]))).
  Qed.

  Lemma gives_cons {A} kv kvs k (cast : obj -> option A) a b c : NoDup (map fst (kv :: kvs)) -> gives [kv] k cast a b -> gives kvs k cast b c -> gives (kv :: kvs) k cast a c.
  Proof.
    intros N [(v & [->|[]] & Hv)|[N1 ->]] [(w & Hw & Ew)|[N2 ->]].
    - exfalso. cbn in N. inversion N; subst. apply H1. apply (in_map fst) in Hw. exact Hw.
    - left. exists v. split; [left; reflexivity|exact Hv].
    - left. exists w. split; [right; exact Hw|exact Ew].
    - right. split; [|reflexivity]. intros v [Hv|Hv]; [apply (N1 v); left; exact Hv|apply (N2 v); exact Hv].
  Qed.

  Lemma kw_all_ok kvs : forall o, NoDup (map fst kvs) -> Forall us kvs -> exists o', kwa o kvs = Ok o' /\
    gives kvs KTolerance to_double (k_tol o) (k_tol o') /\ gives kvs KMaxIterations to_i (k_iter o) (k_iter o') /\
    gives kvs KTimeout to_double (k_timeout o) (k_timeout o') /\ gives kvs KFeasibleIpm to_bool (k_feas o) (k_feas o') /\
    gives kvs KDiagnostics to_bool (k_diag o) (k_diag o') /\ gives kvs KSpy to_bool (k_spy o) (k_spy o').
  Proof.
    induction kvs as [|kv kvs IH]; intros o N U.
    - exists o. split; [reflexivity|]. repeat split; right; (split; [intros v []|reflexivity]).
    - inversion U as [|? ? U1 U2]; subst. destruct (kw_set_ok o kv U1) as (o1 & E1 & A1 & A2 & A3 & A4 & A5 & A6).
      pose proof N as N'. cbn in N'. inversion N'; subst.
      destruct (IH o1 ltac:(assumption) U2) as (o2 & E2 & B1 & B2 & B3 & B4 & B5 & B6).
      exists o2. cbn [kw_all]. rewrite E1. cbn [obind]. split; [exact E2|]. repeat split; eapply gives_cons; eauto.
  Qed.

  Lemma c95_used {A} d kvs (solve : kwopts -> outcome A) : NoDup (map fst kvs) -> Forall us kvs ->
    exists o, solve_kwargs to_double to_i to_bool d kvs solve = solve o /\
      gives kvs KTolerance to_double (k_tol d) (k_tol o) /\ gives kvs KMaxIterations to_i (k_iter d) (k_iter o) /\
      gives kvs KTimeout to_double (k_timeout d) (k_timeout o) /\ gives kvs KFeasibleIpm to_bool (k_feas d) (k_feas o) /\
      gives kvs KDiagnostics to_bool (k_diag d) (k_diag o) /\ gives kvs KSpy to_bool (k_spy d) (k_spy o).
  Proof.
    intros N U. destruct (kw_all_ok kvs d N U) as (o & E & H). exists o. split; [|exact H]. unfold solve_kwargs. rewrite E. reflexivity.
  Qed.

  Lemma kw_set_bad o kv : ~ us kv -> kw_set to_double to_i to_bool o kv = AssertFail.
  Proof.
    destruct kv as [k v]. unfold usable, kw_set. cbn [fst snd]. intros H.
    destruct k; try reflexivity; match goal with |- context [oget (?f v)] => destruct (f v) eqn:Ea; [exfalso; apply H; discriminate|reflexivity] end.
  Qed.
  Lemma us_dec kv : {us kv} + {~ us kv}.
  Proof.
    destruct kv as [k v]. unfold usable. cbn [fst snd]. destruct k; try (right; tauto);
      match goal with |- context [?f v <> None] => destruct (f v); [left; discriminate|right; intros H; apply H; reflexivity] end.
  Qed.
  Lemma c95_refused {A} d kvs (solve : kwopts -> outcome A) : ~ Forall us kvs -> solve_kwargs to_double to_i to_bool d kvs solve = AssertFail.
  Proof.
    intros H. unfold solve_kwargs. enough (G : kwa d kvs = AssertFail) by (rewrite G; reflexivity).
    revert d H. induction kvs as [|kv kvs IH]; intros d H; [exfalso; apply H; constructor|]. cbn [kw_all].
    destruct (us_dec kv) as [U|U]; [|rewrite (kw_set_bad d kv U); reflexivity].
    destruct (kw_set_ok d kv U) as (o & -> & _). cbn [obind]. apply IH. intros G. apply H. constructor; assumption.
  Qed.

  Lemma gives_det {A} kvs kvs' k (cast : obj -> option A) d a b : NoDup (map fst kvs) -> Permutation kvs kvs' -> gives kvs k cast d a -> gives kvs' k cast d b -> a = b.
  Proof.
    intros N P G G'.
    assert (X : forall v w, In (k, v) kvs -> In (k, w) kvs -> v = w).
    { clear -N. induction kvs as [|[k0 v0] kvs IH]; intros v w [] []; cbn in N; inversion N; subst.
      - congruence.
      - injection H as -> ->. exfalso. apply H3. apply (in_map fst) in H0. exact H0.
      - injection H0 as -> ->. exfalso. apply H3. apply (in_map fst) in H. exact H.
      - apply IH; assumption. }
    destruct G as [(v & Hv & Ev)|[N1 ->]], G' as [(w & Hw & Ew)|[N2 ->]].
    - apply (Permutation_in _ (Permutation_sym P)) in Hw. rewrite (X v w Hv Hw) in Ev. congruence.
    - exfalso. apply (N2 v). exact (Permutation_in _ P Hv).
    - exfalso. apply (N1 w). exact (Permutation_in _ (Permutation_sym P) Hw).
    - reflexivity.
  Qed.

  Lemma c95_order {A} d kvs kvs' (solve : kwopts -> outcome A) : NoDup (map fst kvs) -> Permutation kvs kvs' ->
    solve_kwargs to_double to_i to_bool d kvs solve = solve_kwargs to_double to_i to_bool d kvs' solve.
  Proof.
    intros N P. destruct (Forall_dec us us_dec kvs) as [U|U].
    - assert (N' : NoDup (map fst kvs')) by (eapply Permutation_NoDup; [apply Permutation_map; exact P|exact N]).
      assert (U' : Forall us kvs') by (eapply Permutation_Forall; eassumption).
      destruct (c95_used d kvs solve N U) as ([a1 a2 a3 a4 a5 a6] & -> & A1 & A2 & A3 & A4 & A5 & A6).
      destruct (c95_used d kvs' solve N' U') as ([b1 b2 b3 b4 b5 b6] & -> & B1 & B2 & B3 & B4 & B5 & B6). cbn in *.
      f_equal. f_equal; eapply (gives_det kvs kvs' _ _ _ _ _ N P); eassumption.
    - rewrite !c95_refused; auto. intros U'. apply U. eapply Permutation_Forall; [apply Permutation_sym; exact P|exact U'].
  Qed.
End Kw.
