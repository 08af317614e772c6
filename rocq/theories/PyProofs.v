(** Proofs about the Python bindings. *)
From Coq Require Import ZArith List Lia Bool ZifyBool.
From Verif Require Import Base SliceModel SliceSpec SliceProofs Loops MatrixModel MatrixSpec MatrixProofs MatrixProofs2 MatrixProofs3 PyModel PySpec.
Import ListNotations.
Open Scope Z_scope.

Definition LIM : Z := 268435456.

Lemma clip_clamp n step b : 0 <= n <= LIM -> adjust_py n step (clip b) = py_clamp n step b.
Proof.
  intros H. unfold LIM in *. unfold adjust_py, clip, py_clamp, py_lower, py_upper, PY_MAX, PY_MIN.
  destruct (step <? 0); destruct (b <? 0) eqn:E1; repeat (match goal with |- context [if ?c then _ else _] => destruct c eqn:? end); lia.
Qed.

Lemma to_int_id z : is_int z -> to_int z = z.
Proof. intros H. unfold is_int, INT_MIN, INT_MAX in H. unfold to_int. rewrite Z.mod_small; lia. Qed.

(** The slice CPython computes is the one specified. *)
Lemma compute_ok n a b s : 0 <= n <= LIM -> eff_step s <> 0 -> Z.abs (eff_step s) <= Z.max 1 n ->
  exists len, compute n a b s = Ok (py_start n a (eff_step s), py_stop n b (eff_step s), eff_step s, len) /\ 0 <= len <= n /\
    (forall t, 0 <= t -> (t < len <-> (0 < eff_step s -> py_start n a (eff_step s) + t * eff_step s < py_stop n b (eff_step s)) /\
                                     (eff_step s < 0 -> py_stop n b (eff_step s) < py_start n a (eff_step s) + t * eff_step s))) /\
    (forall t, 0 <= t < len -> 0 <= py_start n a (eff_step s) + t * eff_step s < n) /\
    -1 <= py_start n a (eff_step s) <= n /\ -1 <= py_stop n b (eff_step s) <= n.
Proof.
  intros Hn Hs Hm. unfold compute.
  assert (Es : (match s with None => 1 | Some s => Z.max (- PY_MAX) (clip s) end) = eff_step s).
  { destruct s as [s|]; cbn in *; [|reflexivity]. unfold clip, PY_MAX, PY_MIN, LIM in *. lia. }
  rewrite Es. set (st := eff_step s) in *. clearbody st. clear Es s.
  replace (negb (st =? 0)) with true by lia. unfold oassert.
  assert (Ea : adjust_py n st (match a with None => if st <? 0 then PY_MAX else 0 | Some b => clip b end) = py_start n a st).
  { destruct a as [a|]; [apply clip_clamp; exact Hn|]. unfold py_start, adjust_py, py_upper, py_lower, PY_MAX, LIM in *.
    destruct (st <? 0); cbn -[Z.leb]; repeat (match goal with |- context [if ?c then _ else _] => destruct c eqn:? end); lia. }
  assert (Eb : adjust_py n st (match b with None => if st <? 0 then PY_MIN else PY_MAX | Some b => clip b end) = py_stop n b st).
  { destruct b as [b|]; [apply clip_clamp; exact Hn|]. unfold py_stop, adjust_py, py_upper, py_lower, PY_MAX, PY_MIN, LIM in *.
    destruct (st <? 0); repeat (match goal with |- context [if ?c then _ else _] => destruct c eqn:? end); lia. }
  rewrite Ea, Eb.
  assert (Ra : py_lower st <= py_start n a st <= py_upper n st).
  { destruct a as [a|]; [apply py_clamp_range; lia|]. unfold py_start, py_lower, py_upper. destruct (st <? 0); lia. }
  assert (Rb : py_lower st <= py_stop n b st <= py_upper n st).
  { destruct b as [b|]; [apply py_clamp_range; lia|]. unfold py_stop, py_lower, py_upper. destruct (st <? 0); lia. }
  set (p := py_start n a st) in *. set (q := py_stop n b st) in *. clearbody p q. clear Ea Eb.
  unfold py_lower, py_upper in *. destruct (st <? 0) eqn:En.
  - destruct (q <? p) eqn:Eq.
    + pose proof (count_up_bounds q p (- st) ltac:(lia) ltac:(lia)) as Hb.
      pose proof (fun t => count_up q p (- st) t ltac:(lia) ltac:(lia)) as Hc.
      set (k := (p - q - 1) / - st) in *. clearbody k.
      exists (k + 1). split; [reflexivity|]. split; [lia|]. split; [|split; [|lia]].
      * intros t Ht. specialize (Hc t Ht). split; [intros L|intros [_ L]].
        -- split; [lia|]. intros _. apply Hc in L. lia.
        -- apply Hc. assert (st < 0) by lia. specialize (L H). lia.
      * intros t [Ht L]. apply Hc in L; [|exact Ht]. assert (0 <= t * - st) by nia. lia.
    + exists 0. split; [reflexivity|]. split; [lia|]. split; [|split; [intros; lia|lia]].
      intros t Ht. split; [lia|]. intros [_ L]. assert (st < 0) by lia. specialize (L H). assert (0 <= t * - st) by nia. lia.
  - destruct (p <? q) eqn:Eq.
    + pose proof (count_up_bounds p q st ltac:(lia) ltac:(lia)) as Hb.
      pose proof (fun t => count_up p q st t ltac:(lia) ltac:(lia)) as Hc.
      set (k := (q - p - 1) / st) in *. clearbody k.
      exists (k + 1). split; [reflexivity|]. split; [lia|]. split; [|split; [|lia]].
      * intros t Ht. specialize (Hc t Ht). split; [intros L|intros [L _]].
        -- split; [|lia]. intros _. apply Hc in L. lia.
        -- apply Hc. assert (0 < st) by lia. specialize (L H). lia.
      * intros t [Ht L]. apply Hc in L; [|exact Ht]. assert (0 <= t * st) by nia. lia.
    + exists 0. split; [reflexivity|]. split; [lia|]. split; [|split; [intros; lia|lia]].
      intros t Ht. split; [lia|]. intros [L _]. assert (0 < st) by lia. specialize (L H). assert (0 <= t * st) by nia. lia.
Qed.

(** One dimension of a subscript. *)
Definition fits (sl : slice) (l n : Z) : Prop :=
  slice_in sl l n /\ Z.abs (sl_step sl) <= Z.max 1 n /\ -1 <= sl_start sl <= n /\ -1 <= sl_stop sl <= n.

Lemma pick_ok neg n i l f : 0 <= n <= LIM -> selects n i l f -> modest n i -> (neg = true \/ match i with IInt i => 0 <= i | _ => True end) ->
  exists sl, pick neg n i = Ok (sl, l) /\ fits sl l n /\ forall t, 0 <= t < l -> sel sl t = f t.
Proof.
  intros Hn S M N. unfold LIM in *. destruct S as [i Hi|a b s len f Hs Hl Hf]; cbn [pick].
  - replace (in_int i) with true by (unfold in_int, INT_MIN, INT_MAX; lia). unfold oassert.
    set (i' := if i <? 0 then i + n else i).
    assert (E : (if neg && (i <? 0) then int (i + n) else Ok i) = Ok i').
    { unfold i'. destruct N as [->|N]; cbn [andb]; destruct (i <? 0) eqn:E0; try lia.
      - apply int_ok. unfold is_int, INT_MIN, INT_MAX. lia.
      - reflexivity.
      - destruct neg; reflexivity. }
    rewrite E. cbn [obind]. assert (0 <= i' < n) by (unfold i'; destruct (i <? 0) eqn:?; lia). clearbody i'.
    rewrite int_ok by (unfold is_int, INT_MIN, INT_MAX; lia). cbn [obind]. rewrite slice_make_step1. cbn [obind].
    eexists. split; [reflexivity|]. split.
    + split; [|cbn; lia]. split; [lia|]. split; [cbn; lia|]. intros t Ht. cbn. lia.
    + intros t Ht. unfold sel. cbn. lia.
  - cbn [modest] in M. destruct (compute_ok n a b s Hn Hs M) as (len' & E & R & C & I & R1 & R2).
    rewrite E. cbn [obind].
    assert (L : len' = len).
    { assert (A : forall t, 0 <= t -> (t < len' <-> t < len)).
      { intros t Ht. rewrite (C t Ht). split.
        - intros [C1 C2]. assert (P : py_selects n a b (eff_step s) t (py_start n a (eff_step s) + t * eff_step s)) by (unfold py_selects; tauto).
          apply Hf in P. lia.
        - intros L. assert (P : py_selects n a b (eff_step s) t (f t)) by (apply Hf; lia).
          destruct P as (_ & -> & P1 & P2). tauto. }
      pose proof (A len). pose proof (A len'). lia. }
    subst len'. unfold slice_of, oassert. replace (negb (eff_step s =? 0)) with true by lia.
    rewrite (to_int_id (eff_step s)) by (unfold is_int, INT_MIN, INT_MAX; lia).
    rewrite !to_int_id by (unfold is_int, INT_MIN, INT_MAX; lia). cbn [obind].
    replace (eff_step s =? INT_MIN) with false by (unfold INT_MIN; lia).
    eexists. split; [reflexivity|]. split.
    + split; [|cbn; lia]. split; [lia|]. split; [exact Hs|]. exact I.
    + intros t Ht. unfold sel. cbn. assert (P : py_selects n a b (eff_step s) t (f t)) by (apply Hf; lia). destruct P as (_ & -> & _). reflexivity.
Qed.

(** A dimension of a block a program can hold. *)
Definition kept (sl : slice) (l n : Z) : Prop := slice_in sl l n /\ Z.abs (sl_step sl) <= 2 * n + 1.

Lemma fits_kept sl l n : fits sl l n -> kept sl l n.
Proof. intros (A & B & _). split; [exact A|]. destruct A as (A & _). lia. Qed.

Lemma kept_ends sl l n : 1 <= l -> n <= LIM -> kept sl l n -> ends_ok sl l.
Proof.
  intros Hl Hn ((Hr & Hs & H) & B). unfold LIM in *.
  pose proof (H 0 ltac:(lia)) as H0. pose proof (H (l - 1) ltac:(lia)) as H1.
  split; [unfold is_int, INT_MIN, INT_MAX; lia|]. intros i Hi.
  set (st := sl_step sl) in *. set (p := sl_start sl) in *. clearbody st p. clear H.
  assert (Z.abs (i * st) <= 4 * n + 2).
  { assert (Z.abs ((l - 1) * st) <= n) by lia. rewrite Z.abs_mul in *.
    rewrite (Z.abs_eq (l - 1)) in H by lia.
    assert (Z.abs i <= l - 1 \/ Z.abs i = l \/ (Z.abs i = 1)) as [A|[A|A]] by lia.
    - assert (Z.abs i * Z.abs st <= (l - 1) * Z.abs st) by (apply Z.mul_le_mono_nonneg_r; lia). lia.
    - rewrite A. lia.
    - rewrite A. lia. }
  unfold is_int, INT_MIN, INT_MAX. lia.
Qed.

Lemma compose_kept outer inner l l' n : 1 <= l -> n <= LIM -> kept outer l n -> fits inner l' l ->
  exists sl, compose_slice outer inner = Ok sl /\ kept sl l' n /\ forall t, 0 <= t < l' -> sel sl t = sel outer (sel inner t).
Proof.
  intros Hl Hn K (I & Hst & Ha & Hb). pose proof K as ((Hr & Hs & H) & B).
  pose proof (kept_ends outer l n Hl Hn K) as En. destruct inner as [a b s]. cbn [sl_start sl_stop sl_step] in *.
  assert (Hsz : s <> 0) by (destruct I as (_ & I & _); exact I).
  assert (P : Z.abs (s * sl_step outer) <= 2 * n + 1).
  { rewrite Z.abs_mul. destruct (Z.eq_dec l 1) as [->|Hl1].
    - assert (Z.abs s * Z.abs (sl_step outer) <= 1 * Z.abs (sl_step outer)) by (apply Z.mul_le_mono_nonneg_r; lia). lia.
    - pose proof (H 0 ltac:(lia)) as H0. pose proof (H 1 ltac:(lia)) as H1. pose proof (H (l - 1) ltac:(lia)) as H2.
      assert (Z.abs ((l - 1) * sl_step outer) <= n - 1) by lia. rewrite Z.abs_mul, (Z.abs_eq (l - 1)) in H3 by lia.
      assert (Z.abs s * Z.abs (sl_step outer) <= l * Z.abs (sl_step outer)) by (apply Z.mul_le_mono_nonneg_r; lia). lia. }
  destruct (compose_slice_defined outer a b s l En) as (sl & E); try lia; try assumption.
  { unfold is_int, INT_MIN, INT_MAX, LIM in *. lia. }
  exists sl. split; [exact E|]. unfold LIM in *.
  destruct (compose_slice_ok outer (mkSlice a b s) sl l l' n) as [S1 S2]; try assumption; [unfold INT_MAX; lia|exact (proj1 K)|].
  split; [|exact S2]. split; [exact S1|].
  unfold compose_slice in E. repeat (apply obind_ok in E; destruct E as (? & E0 & E); apply int_inv in E0; destruct E0 as [-> ?]).
  apply slice_make_inv in E. destruct E as (_ & ->). cbn [sl_step].
  destruct (_ =? INT_MIN) eqn:Q; [unfold INT_MIN in Q; cbn [sl_step] in Q; lia|]. exact P.
Qed.

Section Objects.
  Context {E : Type} (m : vmat E) (F : Z -> Z -> E).
  Notation r := (m_rows m). Notation c := (m_cols m).
  Hypotheses (HR : represents m r c F) (HM : moderate r c).

  Lemma mod_dims : 0 <= r <= LIM /\ 0 <= c <= LIM /\ dims r c.
  Proof. destruct HR as (_ & _ & D & _). pose proof D as (D1 & D2 & _). destruct HM. unfold LIM. repeat split; try lia; apply D. Qed.

  (** Invariant of the objects held. *)
  Definition sound (x : pyobj) : Prop := match x with OMat => True | OBlock v => kept (v_rs v) (v_rl v) r /\ kept (v_cs v) (v_cl v) c end.
  (** Where x[a, b] is in the matrix. *)
  Definition o_row (x : pyobj) (a : Z) : Z := match x with OMat => a | OBlock v => sel (v_rs v) a end.
  Definition o_col (x : pyobj) (b : Z) : Z := match x with OMat => b | OBlock v => sel (v_cs v) b end.

  Lemma sound_dims x : sound x -> 0 <= o_rows m x <= LIM /\ 0 <= o_cols m x <= LIM.
  Proof.
    destruct mod_dims as (A & B & _). destruct x as [|v]; cbn; [lia|]. intros [((K1 & _) & _) ((K2 & _) & _)]. unfold LIM in *. lia.
  Qed.

  Lemma sound_inside x a b : sound x -> inr (o_rows m x) (o_cols m x) a b -> inr r c (o_row x a) (o_col x b).
  Proof.
    destruct x as [|v]; cbn; [tauto|]. intros [((_ & _ & K1) & _) ((_ & _ & K2) & _)] [Ha Hb]. unfold sel. split; [apply K1; lia|apply K2; lia].
  Qed.

  Lemma o_get_cell (m' : vmat E) x a b e : wf m' r c -> sound x -> inr (o_rows m x) (o_cols m x) a b -> cell m' (o_row x a) (o_col x b) = Some e ->
    o_get m' x a b = Ok e.
  Proof.
    destruct mod_dims as (A & B & D). intros W S I C. pose proof (sound_inside x a b S I) as J. destruct x as [|v]; cbn in *.
    - exact (mat_get_ok m' r c _ _ _ W J C).
    - destruct S as [[V1 _] [V2 _]]. assert (V : view_in v r c) by (split; assumption). unfold view_get, LIM in *.
      destruct (view_pos_ok v r c a b V) as [-> _]; try (unfold INT_MAX; lia); [exact I|]. cbn [obind].
      exact (mat_get_ok m' r c _ _ _ W J C).
  Qed.
  Lemma wf_m : wf m r c.
  Proof. apply represents_wf in HR. apply HR. Qed.
  Lemma cell_m a b : inr r c a b -> cell m a b = Some (F a b).
  Proof. apply represents_wf in HR. apply HR. Qed.
  Lemma o_get_ok x a b : sound x -> inr (o_rows m x) (o_cols m x) a b -> o_get m x a b = Ok (F (o_row x a) (o_col x b)).
  Proof. intros S I. apply o_get_cell; auto; [exact wf_m|]. apply cell_m. apply sound_inside; assumption. Qed.

  Lemma o_sub_ok x rs li cs lj : sound x -> 1 <= o_rows m x -> 1 <= o_cols m x -> fits rs li (o_rows m x) -> fits cs lj (o_cols m x) ->
    exists v, o_sub x rs li cs lj = Ok v /\ sound (OBlock v) /\ v_rl v = li /\ v_cl v = lj /\
      (forall a, 0 <= a < li -> sel (v_rs v) a = o_row x (sel rs a)) /\ (forall b, 0 <= b < lj -> sel (v_cs v) b = o_col x (sel cs b)).
  Proof.
    destruct mod_dims as (A & B & D). intros S H1 H2 F1 F2. destruct x as [|v]; cbn in *.
    - eexists. split; [reflexivity|]. cbn. split; [split; apply fits_kept; assumption|auto].
    - destruct S as [S1 S2]. unfold view_slice_raw.
      destruct (compose_kept _ _ _ _ _ H1 (proj2 A) S1 F1) as (s1 & E1 & K1 & L1).
      destruct (compose_kept _ _ _ _ _ H2 (proj2 B) S2 F2) as (s2 & E2 & K2 & L2).
      rewrite E1. cbn [obind]. rewrite E2. cbn [obind]. eexists. split; [reflexivity|]. cbn. auto.
  Qed.

  (** Element access. *)
  Lemma getitem_ints (m' : vmat E) x i j e : wf m' r c -> sound x -> 
    let R := o_rows m x in let C := o_cols m x in
    - R <= i < R -> - C <= j < C ->
    cell m' (o_row x (if i <? 0 then i + R else i)) (o_col x (if j <? 0 then j + C else j)) = Some e ->
    getitem m' x (IInt i) (IInt j) = Ok (RVar e).
  Proof.
    intros W S R C Hi Hj Hc. destruct (sound_dims x S) as [D1 D2]. fold R C in D1, D2. unfold LIM in *.
    assert (ER : o_rows m' x = R /\ o_cols m' x = C) by (destruct W as (W1 & W2 & _); destruct x; cbn; auto).
    destruct ER as [ER EC]. unfold getitem. rewrite ER, EC.
    replace (in_int i && in_int j) with true by (unfold in_int, INT_MIN, INT_MAX; lia).
    replace (negb ((R <=? i) || (C <=? j))) with true by lia. unfold oassert.
    assert (Fi : forall n k, 0 <= n <= 268435456 -> - n <= k < n -> from_end n k = Ok (if k <? 0 then k + n else k)).
    { intros n k Hn Hk. unfold from_end. destruct (k <? 0) eqn:?; [|reflexivity]. apply int_ok. unfold is_int, INT_MIN, INT_MAX. lia. }
    rewrite (Fi R i D1 Hi), (Fi C j D2 Hj). cbn [obind]. rewrite (o_get_cell m' x _ _ e W S); [reflexivity| |exact Hc].
    fold R C. split; [destruct (i <? 0) eqn:?; lia|destruct (j <? 0) eqn:?; lia].
  Qed.

  Lemma getitem_ints_refused x i j : sound x -> 1 <= o_rows m x -> 1 <= o_cols m x -> is_int i -> is_int j ->
    refuses (o_rows m x) (IInt i) \/ refuses (o_cols m x) (IInt j) -> getitem m x (IInt i) (IInt j) = AssertFail.
  Proof.
    intros S H1 H2 Ii Ij H. destruct (sound_dims x S) as [D1 D2]. unfold getitem. cbn [refuses] in H.
    unfold is_int, LIM, INT_MIN, INT_MAX in *.
    replace (in_int i && in_int j) with true by (unfold in_int, INT_MIN, INT_MAX; lia).
    unfold oassert at 1. destruct (negb _) eqn:Q; [|reflexivity].
    assert (Fi : forall n k, 0 <= n <= 268435456 -> -2147483648 <= k < n -> from_end n k = Ok (if k <? 0 then k + n else k)).
    { intros n k Hn Hk. unfold from_end. destruct (k <? 0) eqn:?; [|reflexivity]. apply int_ok. unfold is_int, INT_MIN, INT_MAX. lia. }
    rewrite (Fi _ i), (Fi _ j) by lia. cbn [obind].
    assert (G : ~ inr (o_rows m x) (o_cols m x) (if i <? 0 then i + o_rows m x else i) (if j <? 0 then j + o_cols m x else j)).
    { unfold inr. destruct (i <? 0) eqn:?, (j <? 0) eqn:?; lia. }
    destruct x as [|v]; cbn [o_get o_rows o_cols] in *; unfold inr in G.
    - unfold mat_get, mat_offset, oassert. destruct ((_ <=? _) && (_ <? _)) eqn:A1; [|reflexivity].
      destruct ((_ <=? _) && (_ <? _)) eqn:A2 in |- *; [|reflexivity]. exfalso. apply G. lia.
    - unfold view_get, view_pos, oassert. destruct ((_ <=? _) && (_ <? _)) eqn:A1; [|reflexivity].
      destruct ((_ <=? _) && (_ <? _)) eqn:A2 in |- *; [|reflexivity]. exfalso. apply G. lia.
  Qed.

  (** Subscripting. *)
  Lemma get_block_ok x i j li f lj g : sound x -> 1 <= o_rows m x -> 1 <= o_cols m x ->
    selects (o_rows m x) i li f -> selects (o_cols m x) j lj g -> modest (o_rows m x) i -> modest (o_cols m x) j ->
    (match x, i with OMat, IInt i => 0 <= i | _, _ => True end) ->
    exists v, get_block m x i j = Ok (RBlock v) /\ sound (OBlock v) /\ v_rl v = li /\ v_cl v = lj /\
      (forall a, 0 <= a < li -> 0 <= f a < o_rows m x /\ sel (v_rs v) a = o_row x (f a)) /\
      (forall b, 0 <= b < lj -> 0 <= g b < o_cols m x /\ sel (v_cs v) b = o_col x (g b)).
  Proof.
    intros S H1 H2 S1 S2 M1 M2 O. destruct (sound_dims x S) as [D1 D2]. unfold get_block.
    destruct (pick_ok (match x with OMat => false | OBlock _ => true end) _ i li f D1 S1 M1) as (rs & E1 & F1 & L1).
    { destruct x; [right|left; reflexivity]. destruct i; [exact O|exact I]. }
    destruct (pick_ok true _ j lj g D2 S2 M2) as (cs & E2 & F2 & L2); [left; reflexivity|].
    rewrite E1. cbn [obind]. rewrite E2. cbn [obind].
    destruct (o_sub_ok x rs li cs lj S H1 H2 F1 F2) as (v & E3 & K & P1 & P2 & Q1 & Q2). rewrite E3. cbn [obind].
    exists v. split; [reflexivity|]. split; [exact K|]. split; [exact P1|]. split; [exact P2|]. 
    destruct F1 as ((_ & _ & F1) & _), F2 as ((_ & _ & F2) & _). split.
    - intros a Ha. rewrite <- (L1 a Ha). split; [apply F1; exact Ha|]. apply Q1. exact Ha.
    - intros b Hb. rewrite <- (L2 b Hb). split; [apply F2; exact Hb|]. apply Q2. exact Hb.
  Qed.

  Lemma getitem_block x i j li f lj g : sound x -> 1 <= o_rows m x -> 1 <= o_cols m x ->
    selects (o_rows m x) i li f -> selects (o_cols m x) j lj g -> modest (o_rows m x) i -> modest (o_cols m x) j ->
    ~ odd_row x i j -> is_slice i \/ is_slice j ->
    exists v, getitem m x i j = Ok (RBlock v) /\ sound (OBlock v) /\ v_rl v = li /\ v_cl v = lj /\
      (forall a, 0 <= a < li -> 0 <= f a < o_rows m x /\ sel (v_rs v) a = o_row x (f a)) /\
      (forall b, 0 <= b < lj -> 0 <= g b < o_cols m x /\ sel (v_cs v) b = o_col x (g b)).
  Proof.
    intros S H1 H2 S1 S2 M1 M2 O SL. 
    destruct (get_block_ok x i j li f lj g S H1 H2 S1 S2 M1 M2) as (v & E1 & K).
    { destruct x; [|exact I]. destruct i; [|exact I]. destruct j; [destruct SL as [SL|SL]; destruct SL|].
      cbn in O. destruct (Z.lt_ge_cases i 0); [exfalso; apply O; auto|assumption]. }
    exists v. split; [|exact K]. unfold getitem. destruct i, j; try exact E1. destruct SL as [SL|SL]; destruct SL.
  Qed.

  Lemma subscript_block x i j li f lj g v : sound x -> subscript m x i j li f lj g v ->
    sound (OBlock v) /\ v_rl v = li /\ v_cl v = lj /\
      (forall a, 0 <= a < li -> 0 <= f a < o_rows m x /\ sel (v_rs v) a = o_row x (f a)) /\
      (forall b, 0 <= b < lj -> 0 <= g b < o_cols m x /\ sel (v_cs v) b = o_col x (g b)).
  Proof.
    intros S (H1 & H2 & S1 & S2 & M1 & M2 & O & G).
    assert (SL : is_slice i \/ is_slice j).
    { destruct i as [i|]; [|left; exact I]. destruct j as [j|]; [|right; exact I]. exfalso.
      inversion S1 as [? Hi|]; subst. inversion S2 as [? Hj|]; subst. destruct (sound_dims x S) as [D1 D2].
      assert (J : inr (o_rows m x) (o_cols m x) (if i <? 0 then i + o_rows m x else i) (if j <? 0 then j + o_cols m x else j))
        by (split; [destruct (i <? 0) eqn:?|destruct (j <? 0) eqn:?]; lia).
      pose proof (getitem_ints m x i j _ wf_m S Hi Hj (cell_m _ _ (sound_inside x _ _ S J))) as G'. rewrite G' in G.
      discriminate G. }
    destruct (getitem_block x i j li f lj g S H1 H2 S1 S2 M1 M2 O SL) as (v' & E1 & K). rewrite E1 in G. injection G as <-. exact K.
  Qed.

  Lemma held_sound x : held m x -> sound x.
  Proof. induction 1 as [|x i j li f lj g v H IH S]; [exact I|]. apply (subscript_block x i j li f lj g v IH S). Qed.

  Lemma entry_pos x a b p q : entry m x a b p q -> sound x /\ inr (o_rows m x) (o_cols m x) a b /\ p = o_row x a /\ q = o_col x b.
  Proof.
    induction 1 as [p q H|x i j li f lj g v a b p q S J H (IH1 & IH2 & IH3 & IH4)]; [split; [exact I|]; cbn; auto|].
    destruct (subscript_block x i j li f lj g v IH1 S) as (K & P1 & P2 & Q1 & Q2). split; [exact K|].
    cbn. rewrite P1, P2. split; [exact J|]. destruct J as [Ja Jb]. destruct (Q1 a Ja) as [_ ->]. destruct (Q2 b Jb) as [_ ->]. auto.
  Qed.

  Lemma entry_exists x : held m x -> forall a b, inr (o_rows m x) (o_cols m x) a b -> exists p q, entry m x a b p q.
  Proof.
    induction 1 as [|x i j li f lj g v H IH S]; intros a b J; [exists a, b; constructor; exact J|].
    destruct (subscript_block x i j li f lj g v (held_sound x H) S) as (K & P1 & P2 & Q1 & Q2). cbn in J. rewrite P1, P2 in J.
    pose proof J as [Ja Jb]. destruct (IH (f a) (g b)) as (p & q & Hpq); [split; [apply Q1|apply Q2]; assumption|].
    exists p, q. exact (entry_sub m x i j li f lj g v a b p q S J Hpq).
  Qed.
  Lemma entry_here x a b : held m x -> inr (o_rows m x) (o_cols m x) a b -> entry m x a b (o_row x a) (o_col x b).
  Proof. intros H J. destruct (entry_exists x H a b J) as (p & q & Hpq). destruct (entry_pos x a b p q Hpq) as (_ & _ & Ep & Eq). rewrite <- Ep, <- Eq. exact Hpq. Qed.
End Objects.
