(** Views: composition, blocks; iteration; compound multiplication; block assembly. *)
From Coq Require Import ZArith List Lia Bool ZifyBool Reals Lra.
From Verif Require Import Base SliceModel SliceSpec SliceProofs Loops MatrixModel MatrixSpec MatrixProofs.
Import ListNotations.
Open Scope Z_scope.

(** ** Slices of slices *)

Lemma slice_make_inv a b s sl : slice_make (Some a) (Some b) (Some s) = Ok sl ->
  s <> 0 /\ sl = mkSlice a b (if s =? INT_MIN then - INT_MAX else s).
Proof.
  unfold slice_make, oassert. destruct (negb (s =? 0)) eqn:E; cbn [obind]; [|discriminate].
  intros H. injection H as <-. split; [lia|reflexivity].
Qed.

Lemma slice_make_step1 a b : slice_make (Some a) (Some b) (Some 1) = Ok (mkSlice a b 1).
Proof. reflexivity. Qed.

Lemma compose_slice_ok outer inner sl l l' n :
  n <= INT_MAX -> slice_in outer l n -> slice_in inner l' l ->
  compose_slice outer inner = Ok sl ->
  slice_in sl l' n /\ forall i, 0 <= i < l' -> sel sl i = sel outer (sel inner i).
Proof.
  intros Hn (Ho1 & Ho2 & Ho3) (Hi1 & Hi2 & Hi3) H. unfold compose_slice in H.
  repeat (apply obind_ok in H; destruct H as (? & E & H); apply int_inv in E; destruct E as [-> ?]).
  apply slice_make_inv in H. destruct H as (Hnz & ->).
  assert (Hsel : forall i, 0 <= i < l' ->
    sl_start outer + sl_start inner * sl_step outer +
      i * (if sl_step inner * sl_step outer =? INT_MIN then - INT_MAX else sl_step inner * sl_step outer)
    = sl_start outer + (sl_start inner + i * sl_step inner) * sl_step outer).
  { intros i Hi. destruct (sl_step inner * sl_step outer =? INT_MIN) eqn:E; [|nia].
    assert (i = 0).
    { destruct (Z.eq_dec i 0); [assumption|exfalso].
      assert (A0 : 0 <= sl_start inner + 0 * sl_step inner < l) by (apply Hi3; lia).
      assert (A1 : 0 <= sl_start inner + 1 * sl_step inner < l) by (apply Hi3; lia).
      pose proof (Ho3 _ A0) as B0. pose proof (Ho3 _ A1) as B1.
      unfold INT_MIN, INT_MAX in *. lia. }
    subst i. lia. }
  split.
  - split; [lia|]. split.
    + cbn. destruct (sl_step inner * sl_step outer =? INT_MIN); unfold INT_MAX; lia.
    + intros i Hi. cbn [sl_start sl_step]. rewrite Hsel by exact Hi. apply Ho3. apply Hi3. exact Hi.
  - intros i Hi. unfold sel. cbn [sl_start sl_step]. apply Hsel. exact Hi.
Qed.

(** The ends of the slice (one before, one past) are representable ints. *)
Definition ends_ok (sl : slice) (l : Z) : Prop :=
  is_int (sl_step sl) /\
  forall i, -1 <= i <= l -> is_int (i * sl_step sl) /\ is_int (sl_start sl + i * sl_step sl).

Lemma compose_slice_defined outer a b s l :
  ends_ok outer l -> -1 <= a <= l -> -1 <= b <= l -> s <> 0 -> sl_step outer <> 0 ->
  is_int (s * sl_step outer) ->
  exists sl, compose_slice outer (mkSlice a b s) = Ok sl.
Proof.
  intros (_ & He) Ha Hb Hs Ho Hi. unfold compose_slice. cbn [sl_start sl_stop sl_step].
  destruct (He a Ha) as [A1 A2]. destruct (He b Hb) as [B1 B2].
  rewrite (int_ok (a * sl_step outer)) by exact A1. cbn [obind].
  rewrite (int_ok (sl_start outer + a * sl_step outer)) by exact A2. cbn [obind].
  rewrite (int_ok (b * sl_step outer)) by exact B1. cbn [obind].
  rewrite (int_ok (sl_start outer + b * sl_step outer)) by exact B2. cbn [obind].
  rewrite (int_ok (s * sl_step outer)) by exact Hi. cbn [obind].
  unfold slice_make, oassert. replace (negb (s * sl_step outer =? 0)) with true by nia.
  cbn [obind]. eexists; reflexivity.
Qed.

(** ** Chains of slicings *)

Lemma mk_adjust n s sl sl' len :
  0 <= n <= INT_MAX -> pyslice_int s -> mk s = Ok sl -> adjust sl n = Ok (sl', len) ->
  slice_in sl' len n /\ py_count n s len /\
  (forall t x, py_selects n (py_a s) (py_b s) (py_s s) t x <-> (0 <= t < len /\ x = sel sl' t)) /\
  -1 <= sl_start sl' <= n /\ -1 <= sl_stop sl' <= n.
Proof.
  intros Hn (Ha & Hb & Hs & Hnz) Hmk Had.
  destruct (slice_python n (py_a s) (py_b s) (Some (py_s s)) Hn Ha Hb Hs Hnz)
    as (sl0 & sl1 & len0 & E1 & E2 & E3 & E4 & E5).
  unfold mk in Hmk. rewrite E1 in Hmk. injection Hmk as <-. rewrite E2 in Had.
  injection Had as <- <-.
  assert (Hstep : sl_step sl1 <> 0 /\ -1 <= sl_start sl1 <= n /\ -1 <= sl_stop sl1 <= n).
  { unfold adjust in E2. apply oassert_ok in E2. destruct E2 as [A1 E2].
    apply oassert_ok in E2. destruct E2 as [A2 E2].
    apply obind_ok in E2. destruct E2 as (st & B1 & E2).
    apply obind_ok in E2. destruct E2 as (sp & B2 & E2).
    apply obind_ok in E2. destruct E2 as (ln & B3 & E2). injection E2 as <- <-. cbn.
    split; [lia|].
    assert (C : forall step b r, clamp_bound step n b = Ok r -> -1 <= r <= n).
    { intros step b r Hc. unfold clamp_bound in Hc.
      destruct (b <? 0) eqn:Eb.
      - apply obind_ok in Hc. destruct Hc as (b' & D1 & Hc). apply int_inv in D1. destruct D1 as [-> ?].
        destruct (b + n <? 0) eqn:E0; injection Hc as <-; [destruct (step <? 0); lia|lia].
      - destruct (n <=? b) eqn:E0; [|injection Hc as <-; lia].
        destruct (step <? 0); [apply int_inv in Hc; lia|injection Hc as <-; lia]. }
    split; eapply C; eassumption. }
  destruct Hstep as (Hstep & Hrs & Hre).
  assert (Hin : slice_in sl1 len0 n) by (split; [lia|split; assumption]).
  split; [exact Hin|]. split.
  { split; [lia|]. intros t. split.
    - intros (x & H). apply E4 in H. lia.
    - intros Ht. exists (sel sl1 t). apply E4. split; [assumption|reflexivity]. }
  split; [intros t x; unfold sel; apply E4|]. auto.
Qed.

Lemma mat_slice_inv rows cols rs cs v : mat_slice rows cols rs cs = Ok v ->
  adjust rs rows = Ok (v_rs v, v_rl v) /\ adjust cs cols = Ok (v_cs v, v_cl v).
Proof.
  unfold mat_slice. intros H. apply obind_ok in H. destruct H as ([a b] & E1 & H).
  apply obind_ok in H. destruct H as ([c d] & E2 & H). injection H as <-. auto.
Qed.

Lemma view_slice_inv v rs cs v' : view_slice v rs cs = Ok v' ->
  exists rs1 cs1, adjust rs (v_rl v) = Ok (rs1, v_rl v') /\ adjust cs (v_cl v) = Ok (cs1, v_cl v') /\
    compose_slice (v_rs v) rs1 = Ok (v_rs v') /\ compose_slice (v_cs v) cs1 = Ok (v_cs v').
Proof.
  unfold view_slice, view_slice_raw. intros H. apply obind_ok in H. destruct H as ([a b] & E1 & H).
  apply obind_ok in H. destruct H as ([c d] & E2 & H).
  apply obind_ok in H. destruct H as (x & E3 & H).
  apply obind_ok in H. destruct H as (y & E4 & H). injection H as <-. cbn. eauto 10.
Qed.

(** State of a dimension of a view after the slicings [l]. *)
Definition dim_ok (n : Z) (sl : slice) (len : Z) (l : list pyslice) : Prop :=
  slice_in sl len n /\
  exists S, py_chain n l len S /\ forall t x, S t x <-> (0 <= t < len /\ x = sel sl t).

Lemma dim_snoc n sl len l s sl1 sl2 sl' len' :
  0 <= n <= INT_MAX -> dim_ok n sl len l -> pyslice_int s ->
  mk s = Ok sl1 -> adjust sl1 len = Ok (sl2, len') -> compose_slice sl sl2 = Ok sl' ->
  dim_ok n sl' len' (l ++ [s]).
Proof.
  intros Hn (Hin & S & Hch & HS) Hs Hmk Had Hc.
  assert (Hlen : 0 <= len <= INT_MAX) by (destruct Hin as ((? & ?) & _); lia).
  destruct (mk_adjust len s sl1 sl2 len' Hlen Hs Hmk Had) as (I2 & C2 & P2 & _).
  destruct (compose_slice_ok sl sl2 sl' len len' n ltac:(lia) Hin I2 Hc) as (I3 & Q3).
  split; [exact I3|]. eexists. split; [exact (py_chain_snoc n l len S s len' Hch C2)|].
  intros t x. split.
  - intros (y & Hy & HSy). apply P2 in Hy. destruct Hy as [Ht ->]. apply HS in HSy.
    destruct HSy as [_ ->]. split; [exact Ht|]. symmetry. apply Q3. exact Ht.
  - intros (Ht & ->). exists (sel sl2 t). split; [apply P2; auto|]. apply HS.
    split; [apply I2; exact Ht|]. apply Q3; exact Ht.
Qed.

Lemma chain_ok rows cols first l v :
  0 <= rows <= INT_MAX -> 0 <= cols <= INT_MAX ->
  (forall p, In p (first :: l) -> pyslice_int (fst p) /\ pyslice_int (snd p)) ->
  chain rows cols first l = Ok v ->
  dim_ok rows (v_rs v) (v_rl v) (map fst (first :: l)) /\
  dim_ok cols (v_cs v) (v_cl v) (map snd (first :: l)).
Proof.
  intros Hr Hc Hint H. unfold chain in H.
  apply obind_ok in H. destruct H as (rs & E1 & H). apply obind_ok in H. destruct H as (cs & E2 & H).
  apply obind_ok in H. destruct H as (v0 & E3 & H). apply mat_slice_inv in E3. destruct E3 as [E3 E4].
  destruct (Hint first ltac:(left; reflexivity)) as [I1 I2].
  destruct (mk_adjust rows _ _ _ _ Hr I1 E1 E3) as (A1 & A2 & A3 & _).
  destruct (mk_adjust cols _ _ _ _ Hc I2 E2 E4) as (B1 & B2 & B3 & _).
  assert (D1 : dim_ok rows (v_rs v0) (v_rl v0) (map fst [first])).
  { split; [exact A1|]. eexists. split; [apply py_chain_one; exact A2|exact A3]. }
  assert (D2 : dim_ok cols (v_cs v0) (v_cl v0) (map snd [first])).
  { split; [exact B1|]. eexists. split; [apply py_chain_one; exact B2|exact B3]. }
  assert (Hl : forall p, In p l -> pyslice_int (fst p) /\ pyslice_int (snd p)) by (intros; apply Hint; right; assumption).
  change (first :: l) with ([first] ++ l). clear Hint E1 E2 E3 E4 A1 A2 A3 B1 B2 B3 I1 I2.
  revert v0 D1 D2 H. generalize [first]. induction l as [|[a b] l IH]; intros pre v0 D1 D2 H.
  - simpl in H. injection H as ->. rewrite app_nil_r. auto.
  - cbn [chain_rest] in H.
    apply obind_ok in H. destruct H as (ra & E1 & H). apply obind_ok in H. destruct H as (ca & E2 & H).
    apply obind_ok in H. destruct H as (v1 & E3 & H).
    apply view_slice_inv in E3. destruct E3 as (r1 & c1 & F1 & F2 & F3 & F4).
    destruct (Hl (a, b) ltac:(left; reflexivity)) as [I1 I2]. cbn in I1, I2.
    replace (pre ++ (a, b) :: l) with ((pre ++ [(a, b)]) ++ l) by (rewrite <- app_assoc; reflexivity).
    eapply IH; [intros; apply Hl; right; assumption| | |exact H].
    + rewrite map_app. eapply dim_snoc; eauto.
    + rewrite map_app. eapply dim_snoc; eauto.
Qed.

Lemma view_pos_inv v i j p : view_pos v i j = Ok p -> inr (v_rl v) (v_cl v) i j.
Proof.
  unfold view_pos. intros H. apply oassert_ok in H. destruct H as [A H].
  apply oassert_ok in H. destruct H as [B H]. unfold inr. lia.
Qed.

Lemma chain_addresses rows cols first l v :
  0 <= rows <= INT_MAX -> 0 <= cols <= INT_MAX ->
  (forall p, In p (first :: l) -> pyslice_int (fst p) /\ pyslice_int (snd p)) ->
  chain rows cols first l = Ok v ->
  exists rsel csel,
    py_chain rows (map fst (first :: l)) (v_rl v) rsel /\
    py_chain cols (map snd (first :: l)) (v_cl v) csel /\
    forall i j r c, view_pos v i j = Ok (r, c) <-> (rsel i r /\ csel j c /\ inr rows cols r c).
Proof.
  intros Hr Hc Hint H. destruct (chain_ok rows cols first l v Hr Hc Hint H) as ((A1 & S1 & A2 & A3) & (B1 & S2 & B2 & B3)).
  exists S1, S2. split; [exact A2|]. split; [exact B2|]. intros i j r c. split.
  - intros Hp. pose proof (view_pos_inv _ _ _ _ Hp) as Hin.
    destruct (view_pos_ok v rows cols i j (conj A1 B1) ltac:(lia) ltac:(lia) Hin) as [E1 E2].
    rewrite Hp in E1. injection E1 as -> ->. unfold inr in Hin.
    split; [apply A3; split; [lia|reflexivity]|]. split; [apply B3; split; [lia|reflexivity]|exact E2].
  - intros (P1 & P2 & _). apply A3 in P1. apply B3 in P2. destruct P1 as [P1 ->], P2 as [P2 ->].
    apply (view_pos_ok v rows cols i j (conj A1 B1)); [lia|lia|unfold inr; lia].
Qed.

(** One level of nesting is always defined when the outer slice ends and the step product are
    representable. *)
Lemma view_slice_defined rows cols v rs cs :
  0 <= rows <= INT_MAX -> 0 <= cols <= INT_MAX -> view_in v rows cols ->
  ends_ok (v_rs v) (v_rl v) -> ends_ok (v_cs v) (v_cl v) ->
  pyslice_int rs -> pyslice_int cs ->
  Z.abs (py_s rs * sl_step (v_rs v)) <= INT_MAX -> Z.abs (py_s cs * sl_step (v_cs v)) <= INT_MAX ->
  exists sl1 sl2 v', mk rs = Ok sl1 /\ mk cs = Ok sl2 /\ view_slice v sl1 sl2 = Ok v'.
Proof.
  intros Hr Hc (V1 & V2) E1 E2 I1 I2 M1 M2.
  assert (G : forall n sl l s, 0 <= n <= INT_MAX -> slice_in sl l n -> ends_ok sl l -> pyslice_int s ->
     Z.abs (py_s s * sl_step sl) <= INT_MAX ->
     exists sl1 sl2 len sl3, mk s = Ok sl1 /\ adjust sl1 l = Ok (sl2, len) /\ compose_slice sl sl2 = Ok sl3).
  { intros n sl l s Hn Hin He Hs Hm. pose proof Hs as (Ha & Hb & Hst & Hnz).
    assert (Hl : 0 <= l <= INT_MAX) by (destruct Hin as ((? & ?) & _); lia).
    destruct (slice_python l (py_a s) (py_b s) (Some (py_s s)) Hl Ha Hb Hst Hnz)
      as (sl0 & sl1 & len0 & F1 & F2 & F3 & F4 & F5).
    destruct (mk_adjust l s sl0 sl1 len0 Hl Hs F1 F2) as (_ & _ & _ & R1 & R2).
    assert (Hstep : sl_step sl1 = if py_s s =? INT_MIN then - INT_MAX else py_s s).
    { clear F4 F5. unfold slice_make, oassert in F1.
      destruct (negb (py_s s =? 0)); cbn [obind] in F1; [|discriminate]. injection F1 as <-.
      unfold adjust in F2. apply oassert_ok in F2. destruct F2 as [_ F2].
      apply oassert_ok in F2. destruct F2 as [_ F2].
      apply obind_ok in F2. destruct F2 as (? & _ & F2). apply obind_ok in F2. destruct F2 as (? & _ & F2).
      apply obind_ok in F2. destruct F2 as (? & _ & F2). injection F2 as <- _. reflexivity. }
    destruct Hin as (_ & Hos & _).
    destruct (compose_slice_defined sl (sl_start sl1) (sl_stop sl1) (sl_step sl1) l He R1 R2) as (sl3 & F6).
    - rewrite Hstep. destruct (py_s s =? INT_MIN); unfold INT_MAX; lia.
    - exact Hos.
    - rewrite Hstep. destruct (py_s s =? INT_MIN) eqn:E; unfold is_int, INT_MIN, INT_MAX in *; nia.
    - exists sl0, sl1, len0, sl3. split; [exact F1|]. split; [exact F2|]. destruct sl1; exact F6. }
  destruct (G rows (v_rs v) (v_rl v) rs Hr V1 E1 I1 M1) as (a1 & a2 & a3 & a4 & A1 & A2 & A3).
  destruct (G cols (v_cs v) (v_cl v) cs Hc V2 E2 I2 M2) as (b1 & b2 & b3 & b4 & B1 & B2 & B3).
  exists a1, b1. eexists. split; [exact A1|]. split; [exact B1|].
  unfold view_slice. rewrite A2. cbn [obind]. rewrite B2. cbn [obind].
  unfold view_slice_raw. rewrite A3. cbn [obind]. rewrite B3. reflexivity.
Qed.

(** ** Blocks *)

Lemma adjust_range1 a l n : 0 <= n <= INT_MAX -> 0 <= a -> 0 <= l -> a + l <= n ->
  exists sl, adjust (mkSlice a (a + l) 1) n = Ok (sl, l) /\ slice_in sl l n /\
    sl_step sl = 1 /\ sl_start sl = a /\ sl_stop sl = a + l.
Proof.
  intros Hn Ha Hl Hal.
  destruct (adjust_spec n a (a + l) 1) as (len & E & H1 & H2 & H3);
    try (unfold is_int, INT_MIN, INT_MAX in *; lia).
  assert (Pa : py_clamp n 1 a = a).
  { unfold py_clamp, py_lower, py_upper. replace (a <? 0) with false by lia.
    change (1 <? 0) with false. cbv iota. lia. }
  assert (Pb : py_clamp n 1 (a + l) = a + l).
  { unfold py_clamp, py_lower, py_upper. replace (a + l <? 0) with false by lia.
    change (1 <? 0) with false. cbv iota. lia. }
  rewrite Pa, Pb in *.
  assert (len = l).
  { destruct (Z.lt_trichotomy len l) as [L|[L|L]]; [|exact L|].
    - assert (len < len) by (apply (H2 len); lia). lia.
    - assert (l < len) by lia. apply (H2 l) in H; lia. }
  subst len. eexists. split; [exact E|]. cbn.
  split; [split; [lia|split; [cbn; lia|intros i Hi; cbn; lia]]|]. repeat split; lia.
Qed.

Lemma mat_block_ok rows cols r c h w :
  0 <= rows <= INT_MAX -> 0 <= cols <= INT_MAX ->
  0 <= r -> 0 <= c -> 0 <= h -> 0 <= w -> r + h <= rows -> c + w <= cols ->
  exists v, mat_block rows cols r c h w = Ok v /\ view_in v rows cols /\
    view_addresses v h w (fun i => r + i) (fun j => c + j) /\
    (forall i, sel (v_rs v) i = r + i) /\ (forall j, sel (v_cs v) j = c + j) /\ v_rl v = h /\ v_cl v = w.
Proof.
  intros Hr Hc H1 H2 H3 H4 H5 H6. unfold mat_block, oassert.
  replace ((0 <=? r) && (r <=? rows)) with true by lia.
  replace ((0 <=? c) && (c <=? cols)) with true by lia.
  replace ((0 <=? h) && (h <=? rows - r)) with true by lia.
  replace ((0 <=? w) && (w <=? cols - c)) with true by lia.
  unfold view_ctor.
  rewrite (int_ok (r + h)) by (unfold is_int, INT_MIN, INT_MAX in *; lia). cbn [obind].
  rewrite slice_make_step1. cbn [obind].
  destruct (adjust_range1 r h rows Hr H1 H3 H5) as (rs & E1 & I1 & S1 & A1 & _). rewrite E1. cbn [obind].
  rewrite (int_ok (c + w)) by (unfold is_int, INT_MIN, INT_MAX in *; lia). cbn [obind].
  rewrite slice_make_step1. cbn [obind].
  destruct (adjust_range1 c w cols Hc H2 H4 H6) as (cs & E2 & I2 & S2 & A2 & _). rewrite E2. cbn [obind].
  eexists. split; [reflexivity|].
  assert (V : view_in (mkView rs h cs w) rows cols) by (split; assumption).
  assert (T1 : forall i, sel rs i = r + i) by (intros; unfold sel; rewrite S1, A1; lia).
  assert (T2 : forall i, sel cs i = c + i) by (intros; unfold sel; rewrite S2, A2; lia).
  split; [exact V|]. split; [|cbn; auto].
  split; [reflexivity|]. split; [reflexivity|]. intros i j Hij.
  destruct (view_pos_ok _ rows cols i j V ltac:(lia) ltac:(lia) Hij) as [E _]. rewrite E. cbn.
  rewrite T1, T2. reflexivity.
Qed.

Lemma mat_block_reject rows cols r c h w :
  ~ (0 <= r <= rows /\ 0 <= c <= cols /\ 0 <= h <= rows - r /\ 0 <= w <= cols - c) ->
  mat_block rows cols r c h w = AssertFail.
Proof.
  intros H. unfold mat_block, oassert.
  destruct ((0 <=? r) && (r <=? rows)) eqn:E1; [|reflexivity].
  destruct ((0 <=? c) && (c <=? cols)) eqn:E2; [|reflexivity].
  destruct ((0 <=? h) && (h <=? rows - r)) eqn:E3; [|reflexivity].
  destruct ((0 <=? w) && (w <=? cols - c)) eqn:E4; [|reflexivity].
  exfalso. apply H. lia.
Qed.

Lemma view_block_ok rows cols v r c h w :
  0 <= rows <= INT_MAX -> 0 <= cols <= INT_MAX -> view_in v rows cols ->
  ends_ok (v_rs v) (v_rl v) -> ends_ok (v_cs v) (v_cl v) ->
  0 <= r -> 0 <= c -> 0 <= h -> 0 <= w -> r + h <= v_rl v -> c + w <= v_cl v ->
  exists v', view_block v r c h w = Ok v' /\ view_in v' rows cols /\
    view_addresses v' h w (fun i => sel (v_rs v) (r + i)) (fun j => sel (v_cs v) (c + j)).
Proof.
  intros Hr Hc (V1 & V2) En1 En2 H1 H2 H3 H4 H5 H6.
  assert (L1 : 0 <= v_rl v <= INT_MAX) by (destruct V1 as ((? & ?) & _); lia).
  assert (L2 : 0 <= v_cl v <= INT_MAX) by (destruct V2 as ((? & ?) & _); lia).
  unfold view_block, oassert.
  replace ((0 <=? r) && (r <=? v_rl v)) with true by lia.
  replace ((0 <=? c) && (c <=? v_cl v)) with true by lia.
  replace ((0 <=? h) && (h <=? v_rl v - r)) with true by lia.
  replace ((0 <=? w) && (w <=? v_cl v - c)) with true by lia.
  rewrite (int_ok (r + h)) by (unfold is_int, INT_MIN, INT_MAX in *; lia). cbn [obind].
  rewrite slice_make_step1. cbn [obind].
  rewrite (int_ok (c + w)) by (unfold is_int, INT_MIN, INT_MAX in *; lia). cbn [obind].
  rewrite slice_make_step1. cbn [obind].
  unfold view_slice.
  destruct (adjust_range1 r h (v_rl v) L1 H1 H3 H5) as (rs & E1 & I1 & S1 & A1 & B1). rewrite E1. cbn [obind].
  destruct (adjust_range1 c w (v_cl v) L2 H2 H4 H6) as (cs & E2 & I2 & S2 & A2 & B2). rewrite E2. cbn [obind].
  unfold view_slice_raw.
  assert (St1 : is_int (1 * sl_step (v_rs v))) by (rewrite Z.mul_1_l; apply En1).
  assert (St2 : is_int (1 * sl_step (v_cs v))) by (rewrite Z.mul_1_l; apply En2).
  destruct V1 as (V1a & V1b & V1c), V2 as (V2a & V2b & V2c).
  destruct (compose_slice_defined (v_rs v) (sl_start rs) (sl_stop rs) (sl_step rs) (v_rl v) En1) as (rs' & F1);
    try (rewrite ?A1, ?B1, ?S1; lia); try assumption; [rewrite S1; exact St1|].
  destruct (compose_slice_defined (v_cs v) (sl_start cs) (sl_stop cs) (sl_step cs) (v_cl v) En2) as (cs' & F2);
    try (rewrite ?A2, ?B2, ?S2; lia); try assumption; [rewrite S2; exact St2|].
  assert (F1' : compose_slice (v_rs v) rs = Ok rs') by (destruct rs; exact F1).
  assert (F2' : compose_slice (v_cs v) cs = Ok cs') by (destruct cs; exact F2).
  rewrite F1'. cbn [obind]. rewrite F2'. cbn [obind]. eexists. split; [reflexivity|].
  destruct (compose_slice_ok _ _ _ (v_rl v) h rows ltac:(lia) (conj V1a (conj V1b V1c)) I1 F1') as (J1 & K1).
  destruct (compose_slice_ok _ _ _ (v_cl v) w cols ltac:(lia) (conj V2a (conj V2b V2c)) I2 F2') as (J2 & K2).
  assert (V : view_in (mkView rs' h cs' w) rows cols) by (split; assumption).
  split; [exact V|]. split; [reflexivity|]. split; [reflexivity|]. intros i j Hij.
  destruct (view_pos_ok _ rows cols i j V ltac:(lia) ltac:(lia) Hij) as [E _]. rewrite E. cbn.
  unfold inr in Hij. rewrite K1, K2 by lia. unfold sel at 2 4. rewrite S1, S2, A1, A2.
  rewrite !Z.mul_1_r. reflexivity.
Qed.

Lemma view_block_reject v r c h w :
  ~ (0 <= r <= v_rl v /\ 0 <= c <= v_cl v /\ 0 <= h <= v_rl v - r /\ 0 <= w <= v_cl v - c) ->
  view_block v r c h w = AssertFail.
Proof.
  intros H. unfold view_block, oassert.
  destruct ((0 <=? r) && (r <=? v_rl v)) eqn:E1; [|reflexivity].
  destruct ((0 <=? c) && (c <=? v_cl v)) eqn:E2; [|reflexivity].
  destruct ((0 <=? h) && (h <=? v_rl v - r)) eqn:E3; [|reflexivity].
  destruct ((0 <=? w) && (w <=? v_cl v - c)) eqn:E4; [|reflexivity].
  exfalso. apply H. lia.
Qed.
