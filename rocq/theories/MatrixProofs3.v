(** Nested blocks, assignment through views, compound multiplication, block assembly, iteration. *)
From Coq Require Import ZArith List Lia Bool ZifyBool Reals Lra.
From Verif Require Import Base SliceModel SliceSpec SliceProofs Loops MatrixModel MatrixSpec MatrixProofs MatrixProofs2.
Import ListNotations.
Open Scope Z_scope.

(** ** Nested blocks *)

(** A view that is an aligned rectangle at offset (r,c). *)
Definition rect_view (v : view) (r c h w : Z) : Prop :=
  v_rl v = h /\ v_cl v = w /\ sl_start (v_rs v) = r /\ sl_step (v_rs v) = 1 /\
  sl_start (v_cs v) = c /\ sl_step (v_cs v) = 1.

Lemma rect_sel v r c h w i : rect_view v r c h w -> sel (v_rs v) i = r + i /\ sel (v_cs v) i = c + i.
Proof. intros (_ & _ & H1 & H2 & H3 & H4). unfold sel. rewrite H1, H2, H3, H4. lia. Qed.

Lemma mat_block_rect rows cols r c h w :
  0 <= rows <= INT_MAX -> 0 <= cols <= INT_MAX ->
  0 <= r -> 0 <= c -> 0 <= h -> 0 <= w -> r + h <= rows -> c + w <= cols ->
  exists v, mat_block rows cols r c h w = Ok v /\ view_in v rows cols /\ rect_view v r c h w.
Proof.
  intros Hr Hc H1 H2 H3 H4 H5 H6.
  destruct (mat_block_ok rows cols r c h w) as (v & E & V & _ & S1 & S2 & L1 & L2); try assumption.
  exists v. split; [exact E|]. split; [exact V|]. unfold rect_view.
  pose proof (S1 0). pose proof (S1 1). pose proof (S2 0). pose proof (S2 1). unfold sel in *. lia.
Qed.

Lemma view_block_rect rows cols v R C H W r c h w :
  0 <= rows <= INT_MAX -> 0 <= cols <= INT_MAX -> view_in v rows cols -> rect_view v R C H W ->
  0 <= R -> 0 <= C -> R + H <= rows -> C + W <= cols ->
  0 <= r -> 0 <= c -> 0 <= h -> 0 <= w -> r + h <= H -> c + w <= W ->
  exists v', view_block v r c h w = Ok v' /\ view_in v' rows cols /\ rect_view v' (R + r) (C + c) h w.
Proof.
  intros Hr Hc V (L1 & L2 & A1 & A2 & A3 & A4) HR HC HRH HCW H1 H2 H3 H4 H5 H6.
  unfold view_block, oassert. rewrite L1, L2.
  replace ((0 <=? r) && (r <=? H)) with true by lia.
  replace ((0 <=? c) && (c <=? W)) with true by lia.
  replace ((0 <=? h) && (h <=? H - r)) with true by lia.
  replace ((0 <=? w) && (w <=? W - c)) with true by lia.
  rewrite (int_ok (r + h)) by (unfold is_int, INT_MIN, INT_MAX in *; lia). cbn [obind].
  rewrite slice_make_step1. cbn [obind].
  rewrite (int_ok (c + w)) by (unfold is_int, INT_MIN, INT_MAX in *; lia). cbn [obind].
  rewrite slice_make_step1. cbn [obind].
  unfold view_slice. rewrite L1, L2.
  destruct (adjust_range1 r h H) as (rs & E1 & I1 & S1 & B1 & B2); try lia. rewrite E1. cbn [obind].
  destruct (adjust_range1 c w W) as (cs & E2 & I2 & S2 & B3 & B4); try lia. rewrite E2. cbn [obind].
  unfold view_slice_raw.
  assert (F1 : compose_slice (v_rs v) rs = Ok (mkSlice (R + r) (R + (r + h)) 1)).
  { unfold compose_slice. rewrite S1, B1, B2, A1, A2, !Z.mul_1_r.
    repeat (rewrite int_ok by (unfold is_int, INT_MIN, INT_MAX in *; lia); cbn [obind]). apply slice_make_step1. }
  assert (F2 : compose_slice (v_cs v) cs = Ok (mkSlice (C + c) (C + (c + w)) 1)).
  { unfold compose_slice. rewrite S2, B3, B4, A3, A4, !Z.mul_1_r.
    repeat (rewrite int_ok by (unfold is_int, INT_MIN, INT_MAX in *; lia); cbn [obind]). apply slice_make_step1. }
  rewrite F1. cbn [obind]. rewrite F2. cbn [obind]. eexists. split; [reflexivity|]. split.
  - split; (split; [cbn; lia|]; split; [cbn; lia|]; intros i Hi; cbn in *; lia).
  - unfold rect_view. cbn. lia.
Qed.

Lemma nested_block_ok rows cols b l :
  0 <= rows <= INT_MAX -> 0 <= cols <= INT_MAX -> path_in rows cols (b :: l) ->
  exists v, nested_block rows cols b l = Ok v /\ view_in v rows cols /\
    rect_view v (path_r (b :: l)) (path_c (b :: l)) (b_h (last l b)) (b_w (last l b)).
Proof.
  intros Hr Hc (B & P). unfold nested_block.
  destruct B as (B1 & B2 & B3 & B4 & B5 & B6).
  destruct (mat_block_rect rows cols (b_r b) (b_c b) (b_h b) (b_w b)) as (v & E & V & RV); try lia.
  rewrite E. cbn [obind]. cbn [path_r path_c].
  clear E. revert v V RV P B1 B2 B5 B6.
  generalize (b_r b) (b_c b). revert b B3 B4. induction l as [|a l IH]; intros b B3 B4 R C v V RV P B1 B2 B5 B6.
  - exists v. cbn. rewrite !Z.add_0_r. auto.
  - cbn [block_path path_r path_c path_in] in *. destruct P as ((P1 & P2 & P3 & P4 & P5 & P6) & P).
    destruct (view_block_rect rows cols v R C (b_h b) (b_w b) (b_r a) (b_c a) (b_h a) (b_w a))
      as (v' & E & V' & RV'); try assumption; try lia.
    rewrite E. cbn [obind].
    destruct (IH a P3 P4 (R + b_r a) (C + b_c a) v' V' RV' P) as (v2 & E2 & V2 & RV2); try lia.
    exists v2. split; [exact E2|]. split; [exact V2|].
    replace (R + (b_r a + path_r l)) with (R + b_r a + path_r l) by lia.
    replace (C + (b_c a + path_c l)) with (C + b_c a + path_c l) by lia.
    replace (last (a :: l) b) with (last l a); [exact RV2|].
    destruct l; [reflexivity|]. clear. cbn [last]. revert r. induction l; intros; [reflexivity|]. cbn [last]. apply IHl.
Qed.

Lemma nested_block_addresses rows cols b l :
  0 <= rows <= INT_MAX -> 0 <= cols <= INT_MAX -> path_in rows cols (b :: l) ->
  exists v, nested_block rows cols b l = Ok v /\
    view_addresses v (b_h (last l b)) (b_w (last l b))
      (fun i => path_r (b :: l) + i) (fun j => path_c (b :: l) + j).
Proof.
  intros Hr Hc P. destruct (nested_block_ok rows cols b l Hr Hc P) as (v & E & V & RV).
  exists v. split; [exact E|]. split; [apply RV|]. split; [apply RV|]. intros i j Hij.
  pose proof RV as (L1 & L2 & _). rewrite <- L1, <- L2 in Hij.
  destruct (view_pos_ok v rows cols i j V ltac:(lia) ltac:(lia) Hij) as [Ep _]. rewrite Ep.
  destruct (rect_sel v _ _ _ _ i RV) as [-> _]. destruct (rect_sel v _ _ _ _ j RV) as [_ ->]. reflexivity.
Qed.

Lemma mat_segment_eq rows cols o n : 0 <= rows -> 
  mat_segment rows cols o n = (if (cols =? 1) && (0 <=? o) && (o <? rows) && (0 <=? n) && (n <=? rows - o)
    then mat_block rows cols o 0 n 1 else AssertFail).
Proof.
  intros. unfold mat_segment, oassert. destruct (cols =? 1); cbn [andb]; [|reflexivity].
  destruct (0 <=? o), (o <? rows); cbn [andb]; try reflexivity.
Qed.

Section P3.
  Context {E : Type}.
  Implicit Types m : vmat E.

  (** ** Assignment *)

  Lemma represents_cell m r c (F : Z -> Z -> E) i j : represents m r c F -> inr r c i j -> cell m i j = Some (F i j).
  Proof. intros H. apply represents_wf in H. apply H. Qed.

  (** Source: any matrix-like value that does not depend on the destination. *)
  Lemma view_assign_const m r c v a (F : Z -> Z -> E) :
    wf m r c -> view_in v r c -> denotes a (v_rl v) (v_cl v) F ->
    exists m', view_assign m v (fun _ => a) = Ok m' /\ wf m' r c /\
      (forall i j, inr (v_rl v) (v_cl v) i j -> cell m' (sel (v_rs v) i) (sel (v_cs v) j) = Some (F i j)) /\
      (forall i' j', inr r c i' j' ->
         (forall i j, inr (v_rl v) (v_cl v) i j -> ~ (i' = sel (v_rs v) i /\ j' = sel (v_cs v) j)) ->
         cell m' i' j' = cell m i' j').
  Proof.
    intros W V (A1 & A2 & _ & A3). apply view_assign_frame; auto.
  Qed.

  (** Source: a view [w] of the same matrix.  No destination element already written is read. *)
  Lemma view_assign_view m r c v w (G : Z -> Z -> E) :
    represents m r c G -> view_in v r c -> view_in w r c -> v_rl w = v_rl v -> v_cl w = v_cl v ->
    (forall a b i j, inr (v_rl v) (v_cl v) a b -> inr (v_rl v) (v_cl v) i j ->
       (a < i \/ (a = i /\ b < j)) ->
       ~ (sel (v_rs v) a = sel (v_rs w) i /\ sel (v_cs v) b = sel (v_cs w) j)) ->
    exists m', view_assign m v (fun m => like_view m w) = Ok m' /\ wf m' r c /\
      (forall i j, inr (v_rl v) (v_cl v) i j ->
         cell m' (sel (v_rs v) i) (sel (v_cs v) j) = Some (G (sel (v_rs w) i) (sel (v_cs w) j))) /\
      (forall i' j', inr r c i' j' ->
         (forall i j, inr (v_rl v) (v_cl v) i j -> ~ (i' = sel (v_rs v) i /\ j' = sel (v_cs v) j)) ->
         cell m' i' j' = cell m i' j').
  Proof.
    intros H V Wv L1 L2 Hno. pose proof H as H0. apply represents_wf in H0. destruct H0 as (W & HG).
    assert (D : dims r c) by apply W.
    apply (view_assign_frame m r c v (fun m => like_view m w)
             (fun i j => G (sel (v_rs w) i) (sel (v_cs w) j))); [exact W|exact V| |].
    - intros m' _. cbn. auto.
    - intros m' i j W' Hij Hst. cbn. unfold view_get.
      destruct (view_pos_ok w r c i j Wv) as [Ep Hin]; try (unfold dims in D; lia).
      { rewrite L1, L2. exact Hij. }
      rewrite Ep. cbn [obind]. apply (mat_get_ok m' r c); [exact W'|exact Hin|].
      destruct (Hst _ _ Hin) as [Eq|(a & b & Hab & Hlt & E1 & E2 & _)].
      + rewrite Eq. apply HG. exact Hin.
      + exfalso. apply (Hno a b i j Hab Hij Hlt). auto.
  Qed.

  (** ** Materializing *)

  Lemma mat_of_like_ok (a : mlike E) r c F : denotes a r c F ->
    exists m, mat_of_like a = Ok m /\ represents m r c F.
  Proof.
    intros (A1 & A2 & D & A3). unfold mat_of_like. rewrite A1, A2.
    pose proof D as (D1 & D2 & D3).
    destruct (for_rc_inv (fun x y d => Z.of_nat (length d) = x * c + y /\ 0 <= x <= r /\ 0 <= y <= c /\
        forall i j, inr r c i j -> (i < x \/ (i = x /\ j < y)) ->
          nth_error d (Z.to_nat (i * c + j)) = Some (Some (F i j)))
      (fun row col d => let* e := ml_get a row col in Ok (d ++ [Some e])) r c (@nil (option E)))
      as (d & E1 & Hlen & _ & _ & H); try lia.
    - cbn. repeat split; try lia. unfold inr. intros; lia.
    - intros x d Hx (L & X & Y & H). repeat split; try lia. intros i j Hij Hlt. apply H; [exact Hij|].
      unfold inr in Hij. lia.
    - intros x y d Hx Hy (L & X & Y & H). rewrite A3 by (unfold inr; lia). cbn [obind].
      eexists. split; [reflexivity|]. rewrite app_length. cbn [length]. repeat split; try lia.
      intros i j Hij Hlt. unfold inr in Hij.
      destruct (Z.eq_dec (i * c + j) (x * c + y)) as [Eo|No].
      + assert (i = x /\ j = y) as [-> ->] by (apply (off_inj r c); unfold inr; lia).
        rewrite nth_error_app2 by lia.
        replace (Z.to_nat (x * c + y) - length d)%nat with 0%nat by lia. reflexivity.
      + rewrite nth_error_app1.
        * apply H; [exact Hij|]. assert (~ (i = x /\ j = y)) by (intros [-> ->]; lia). lia.
        * assert (i * c + j < x * c + y); [|nia]. destruct Hlt as [Hl|[-> Hl]]; nia.
    - rewrite E1. cbn [obind]. eexists. split; [reflexivity|]. split; [reflexivity|]. split; [reflexivity|].
      split; [exact D|]. cbn [m_data]. split; [lia|]. intros i j Hij. apply H; [exact Hij|]. unfold inr in Hij; lia.
  Qed.

  Lemma mat_get1_ok m r c (F : Z -> Z -> E) k : represents m r c F -> 0 <= k < r * c ->
    mat_get1 m k = Ok (F (k / c) (k mod c)).
  Proof.
    intros (H1 & H2 & D & L & H) Hk. pose proof D as (D1 & D2 & D3). unfold mat_get1. rewrite H1, H2.
    rewrite int_ok by (unfold is_int, INT_MIN, INT_MAX in *; lia). cbn [obind]. unfold oassert.
    replace ((0 <=? k) && (k <? r * c)) with true by lia.
    assert (Hc : 0 < c) by nia.
    pose proof (Z.div_mod k c ltac:(lia)) as Hdm. pose proof (Z.mod_pos_bound k c Hc) as Hm.
    assert (Hd : 0 <= k / c < r) by (split; [apply Z.div_pos; lia|apply Z.div_lt_upper_bound; lia]).
    specialize (H (k / c) (k mod c)). unfold get_nth.
    replace (k / c * c + k mod c) with k in H by lia. rewrite H by (unfold inr; lia). reflexivity.
  Qed.

  Lemma view_get_ok m r c (F : Z -> Z -> E) v i j : represents m r c F -> view_in v r c ->
    inr (v_rl v) (v_cl v) i j -> view_get m v i j = Ok (F (sel (v_rs v) i) (sel (v_cs v) j)).
  Proof.
    intros H V Hij. pose proof H as H0. apply represents_wf in H0. destruct H0 as (W & HF).
    pose proof W as (_ & _ & D & _). unfold view_get.
    destruct (view_pos_ok v r c i j V) as [-> Hin]; try (unfold dims in D; lia); [assumption|]. cbn [obind].
    apply (mat_get_ok m r c); auto.
  Qed.

  Lemma view_dims v r c : dims r c -> view_in v r c -> dims (v_rl v) (v_cl v).
  Proof. intros (D1 & D2 & D3) ((V1 & _) & (V2 & _)). unfold dims. nia. Qed.

  Lemma view_denotes m r c (F : Z -> Z -> E) v : represents m r c F -> view_in v r c ->
    denotes (like_view m v) (v_rl v) (v_cl v) (fun i j => F (sel (v_rs v) i) (sel (v_cs v) j)).
  Proof.
    intros H V. split; [reflexivity|]. split; [reflexivity|].
    split; [eapply view_dims; [apply H|exact V]|]. intros i j Hij. cbn. eapply view_get_ok; eauto.
  Qed.

  (** ** Iteration *)

  Lemma view_get1_ok m r c (F : Z -> Z -> E) v k : represents m r c F -> view_in v r c ->
    0 <= k < v_rl v * v_cl v ->
    view_get1 m v k = Ok (F (sel (v_rs v) (k / v_cl v)) (sel (v_cs v) (k mod v_cl v))).
  Proof.
    intros H V Hk. pose proof (view_dims v r c ltac:(apply H) V) as (D1 & D2 & D3).
    unfold view_get1. rewrite int_ok by (unfold is_int, INT_MIN, INT_MAX in *; lia). cbn [obind].
    unfold oassert. replace ((0 <=? k) && (k <? v_rl v * v_cl v)) with true by lia.
    assert (Hc : 0 < v_cl v) by nia.
    rewrite Z.quot_div_nonneg, Z.rem_mod_nonneg by lia.
    pose proof (Z.div_mod k (v_cl v) ltac:(lia)) as Hdm. pose proof (Z.mod_pos_bound k (v_cl v) Hc) as Hm.
    assert (Hd : 0 <= k / v_cl v < v_rl v) by (split; [apply Z.div_pos; lia|apply Z.div_lt_upper_bound; lia]).
    eapply view_get_ok; eauto. unfold inr; lia.
  Qed.

  Lemma view_iterate_ok m r c (F : Z -> Z -> E) v : represents m r c F -> view_in v r c ->
    exists l, view_iterate m v = Ok l /\ Z.of_nat (length l) = v_rl v * v_cl v /\
      forall i j, inr (v_rl v) (v_cl v) i j ->
        nth_error l (Z.to_nat (i * v_cl v + j)) = Some (F (sel (v_rs v) i) (sel (v_cs v) j)).
  Proof.
    intros H V. pose proof (view_dims v r c ltac:(apply H) V) as (D1 & D2 & D3).
    unfold view_iterate. rewrite int_ok by (unfold is_int, INT_MIN, INT_MAX in *; nia). cbn [obind].
    destruct (for_z_inv (fun k l => Z.of_nat (length l) = k /\
        forall t, 0 <= t < k -> nth_error l (Z.to_nat t) = Some (F (sel (v_rs v) (t / v_cl v)) (sel (v_cs v) (t mod v_cl v))))
      (fun k acc => let* e := view_get1 m v k in Ok (acc ++ [e])) (v_rl v * v_cl v) (@nil E)) as (l & E1 & L & Hl).
    - nia.
    - split; [reflexivity|]. intros; lia.
    - intros k l Hk (L & Hl). rewrite (view_get1_ok m r c F v k H V Hk). cbn [obind].
      eexists. split; [reflexivity|]. rewrite app_length. cbn [length]. split; [lia|].
      intros t Ht. destruct (Z.eq_dec t k) as [->|N].
      + rewrite nth_error_app2 by lia. replace (Z.to_nat k - length l)%nat with 0%nat by lia. reflexivity.
      + rewrite nth_error_app1 by lia. apply Hl. lia.
    - exists l. split; [exact E1|]. split; [exact L|]. intros i j Hij. unfold inr in Hij.
      rewrite Hl by nia. 
      rewrite (Z.add_comm (i * v_cl v)), Z.div_add, Z.mod_add by lia.
      rewrite (Z.div_small j), (Z.mod_small j) by lia. reflexivity.
  Qed.

  (** ** Compound multiplication *)

  Section MulAssign.
    Variables (e_zero : E) (e_add e_mul : E -> E -> E).

    Lemma mat_mul_assign_ok m r n F a G : represents m r n F -> denotes a n n G ->
      exists m', mat_mul_assign e_zero e_add e_mul m (fun _ => a) = Ok m' /\
        represents m' r n (fun i j => lsum e_zero e_add (Z.to_nat n) (fun t => e_mul (F i (Z.of_nat t)) (G (Z.of_nat t) j))).
    Proof.
      intros H (A1 & A2 & Da & A3).
      set (P := fun i j => lsum e_zero e_add (Z.to_nat n) (fun t => e_mul (F i (Z.of_nat t)) (G (Z.of_nat t) j))).
      pose proof H as H0. apply represents_wf in H0. destruct H0 as (W & HF).
      pose proof W as (W1 & W2 & D & _). pose proof D as (D1 & D2 & D3).
      unfold mat_mul_assign. rewrite A1, A2, W2, !Z.eqb_refl. cbn [andb oassert]. rewrite W1.
      destruct (for_z_inv (fun x m => wf m r n /\
          forall i j, inr r n i j -> cell m i j = Some (if i <? x then P i j else F i j))
        (fun i m =>
          let* v := mat_row (m_rows m) (m_cols m) i in
          let* old := mat_of_like (like_view m v) in
          for_z n (fun j m =>
            let* s := dot e_zero e_add e_mul (m_cols m) (fun k => mat_get1 old k) (fun k => ml_get a k j) in
            mat_set m i j s) m) r m) as (m' & E1 & W' & H').
      - lia.
      - split; [exact W|]. intros i j Hij. unfold inr in Hij. replace (i <? 0) with false by lia. apply HF. exact Hij.
      - intros x m1 Hx (Wx & Hm1). pose proof Wx as (X1 & X2 & _). rewrite X1, X2.
        unfold mat_row, oassert. replace ((0 <=? x) && (x <? r)) with true by lia.
        destruct (mat_block_ok r n x 0 1 n) as (v & Ev & V & _ & S1 & S2 & L1 & L2); try lia.
        rewrite Ev. cbn [obind].
        assert (R1 : represents m1 r n (fun i j => if i <? x then P i j else F i j)).
        { apply represents_wf. split; assumption. }
        pose proof (view_denotes m1 r n _ v R1 V) as Dv. rewrite L1, L2 in Dv.
        destruct (mat_of_like_ok _ _ _ _ Dv) as (old & Eo & Ro). rewrite Eo. cbn [obind].
        assert (Hold : forall k, 0 <= k < n -> mat_get1 old k = Ok (F x k)).
        { intros k Hk. rewrite (mat_get1_ok old 1 n _ k Ro ltac:(lia)).
          rewrite (Z.div_small k n), (Z.mod_small k n) by lia. rewrite S1, S2.
          replace (x + 0 <? x) with false by lia. rewrite Z.add_0_r, Z.add_0_l. reflexivity. }
        destruct (for_z_inv (fun y m => wf m r n /\
            forall i j, inr r n i j -> cell m i j = Some (if (i <? x) || ((i =? x) && (j <? y)) then P i j else F i j))
          (fun j m =>
            let* s := dot e_zero e_add e_mul (m_cols m) (fun k => mat_get1 old k) (fun k => ml_get a k j) in
            mat_set m x j s) n m1) as (m2 & E2 & W2' & H2).
        + lia.
        + split; [exact Wx|]. intros i j Hij. rewrite Hm1 by exact Hij. unfold inr in Hij.
          replace (j <? 0) with false by lia. rewrite andb_false_r, orb_false_r. reflexivity.
        + intros y m3 Hy (W3 & H3). pose proof W3 as (_ & Y2 & _). rewrite Y2.
          rewrite (dot_ok e_zero e_add e_mul n (fun k => mat_get1 old k) (fun k => ml_get a k y)
                     (fun k => F x k) (fun k => G k y)); [|lia|].
          2:{ intros k Hk. split; [apply Hold; exact Hk|]. apply A3. unfold inr; lia. }
          cbn [obind].
          destruct (mat_set_ok m3 r n x y (P x y) W3 ltac:(unfold inr; lia)) as (m4 & E4 & W4 & H4).
          exists m4. split; [exact E4|]. split; [exact W4|]. intros i j Hij. rewrite H4 by exact Hij.
          destruct ((i =? x) && (j =? y)) eqn:Eq.
          * assert (i = x /\ j = y) as [-> ->] by lia. rewrite Z.eqb_refl.
            replace (y <? y + 1) with true by lia. rewrite orb_true_r. reflexivity.
          * rewrite H3 by exact Hij.
            replace ((i =? x) && (j <? y + 1)) with ((i =? x) && (j <? y)) by lia. reflexivity.
        + exists m2. split; [exact E2|]. split; [exact W2'|]. intros i j Hij. rewrite H2 by exact Hij.
          unfold inr in Hij. replace ((i <? x) || (i =? x) && (j <? n)) with (i <? x + 1) by lia. reflexivity.
      - exists m'. split; [exact E1|]. apply represents_wf. split; [exact W'|]. intros i j Hij.
        rewrite H' by exact Hij. unfold inr in Hij. replace (i <? r) with true by lia. reflexivity.
    Qed.

    (** [+=] / [-=] are correct even when the right-hand side is the matrix itself. *)
    Lemma mat_op_assign_ok (op : E -> E -> E) m r c F (rhs : vmat E -> mlike E) G :
      represents m r c F ->
      (rhs = (fun m => like_mat m) /\ G = F \/ exists a, rhs = (fun _ => a) /\ denotes a r c G) ->
      exists m', mat_op_assign op m rhs = Ok m' /\ represents m' r c (fun i j => op (F i j) (G i j)).
    Proof.
      intros H Hrhs. pose proof H as H0. apply represents_wf in H0. destruct H0 as (W & HF).
      pose proof W as (W1 & W2 & D & _). pose proof D as (D1 & D2 & D3).
      assert (Hd : ml_rows (rhs m) = r /\ ml_cols (rhs m) = c).
      { destruct Hrhs as [(-> & _)|(a & -> & (A1 & A2 & _))]; cbn; auto. }
      unfold mat_op_assign. destruct Hd as [-> ->]. rewrite W1, W2, !Z.eqb_refl. cbn [andb oassert].
      destruct (for_rc_inv (fun x y m => wf m r c /\
          forall i j, inr r c i j -> cell m i j = Some (if (i <? x) || ((i =? x) && (j <? y)) then op (F i j) (G i j) else F i j))
        (fun i j m => let* x := mat_get m i j in let* y := ml_get (rhs m) i j in mat_set m i j (op x y)) r c m)
        as (m' & E1 & W' & H'); try lia.
      - split; [exact W|]. intros i j Hij. rewrite HF by exact Hij. unfold inr in Hij.
        replace ((i <? 0) || (i =? 0) && (j <? 0)) with false by lia. reflexivity.
      - intros x m1 Hx (Wx & Hm). split; [exact Wx|]. intros i j Hij. rewrite Hm by exact Hij. unfold inr in Hij.
        replace ((i <? x + 1) || (i =? x + 1) && (j <? 0)) with ((i <? x) || (i =? x) && (j <? c)) by lia. reflexivity.
      - intros x y m1 Hx Hy (Wx & Hm).
        assert (Hxy : inr r c x y) by (unfold inr; lia).
        assert (Gx : mat_get m1 x y = Ok (F x y)).
        { apply (mat_get_ok m1 r c); auto. rewrite Hm by exact Hxy.
          replace ((x <? x) || (x =? x) && (y <? y)) with false by lia. reflexivity. }
        rewrite Gx. cbn [obind].
        assert (Gy : ml_get (rhs m1) x y = Ok (G x y)).
        { destruct Hrhs as [(-> & ->)|(a & -> & (A1 & A2 & _ & A3))]; [exact Gx|apply A3; exact Hxy]. }
        rewrite Gy. cbn [obind].
        destruct (mat_set_ok m1 r c x y (op (F x y) (G x y)) Wx Hxy) as (m4 & E4 & W4 & H4).
        exists m4. split; [exact E4|]. split; [exact W4|]. intros i j Hij. rewrite H4 by exact Hij.
        destruct ((i =? x) && (j =? y)) eqn:Eq.
        * assert (i = x /\ j = y) as [-> ->] by lia.
          replace ((x <? x) || (x =? x) && (y <? y + 1)) with true by lia. reflexivity.
        * rewrite Hm by exact Hij.
          replace ((i <? x) || (i =? x) && (j <? y + 1)) with ((i <? x) || (i =? x) && (j <? y)) by lia. reflexivity.
      - exists m'. split; [exact E1|]. apply represents_wf. split; [exact W'|]. intros i j Hij.
        rewrite H' by exact Hij. unfold inr in Hij.
        replace ((i <? r) || (i =? r) && (j <? 0)) with true by lia. reflexivity.
    Qed.
  End MulAssign.

  (** ** block() *)

  Lemma sumz_nonneg {A} (f : A -> Z) l : (forall x, In x l -> 0 <= f x) -> 0 <= sumz f l.
  Proof. induction l; intros H; cbn; [lia|]. pose proof (H a ltac:(left; auto)).
    assert (0 <= sumz f l) by (apply IHl; intros; apply H; right; auto). lia. Qed.

  Lemma sumz_app {A} (f : A -> Z) l1 l2 : sumz f (l1 ++ l2) = sumz f l1 + sumz f l2.
  Proof. induction l1; cbn; [lia|]. rewrite IHl1. lia. Qed.

  Lemma full_dims (e : vmat E) : full e -> 0 <= m_rows e /\ 0 <= m_cols e /\ dims (m_rows e) (m_cols e).
  Proof. intros (f & _ & _ & D & _). unfold dims in *. lia. Qed.

  Lemma block_row_cols_ok h row lat :
    (forall e : vmat E, In e row -> m_rows e = h /\ full e) -> 0 <= lat ->
    lat + sumz (@m_cols E) row <= INT_MAX ->
    block_row_cols h row lat = Ok (lat + sumz (@m_cols E) row).
  Proof.
    revert lat. induction row as [|e row IH]; intros lat H L S; cbn in *; [f_equal; lia|].
    destruct (H e ltac:(left; auto)) as [E1 F1]. pose proof (full_dims e F1).
    assert (0 <= sumz (@m_cols E) row).
    { apply sumz_nonneg. intros x Hx. destruct (H x ltac:(right; auto)) as [_ Fx]. apply full_dims in Fx. lia. }
    unfold oassert. replace (h =? m_rows e) with true by lia.
    rewrite int_ok by (unfold is_int, INT_MIN, INT_MAX in *; lia). cbn [obind].
    rewrite IH; [f_equal; lia| |lia|lia]. intros; apply H; right; auto.
  Qed.

  Lemma block_shape_ok (L : list (list (vmat E))) w rows cols :
    (forall row, In row L -> good_row w row) -> 0 <= rows ->
    rows + sumz (@row_height E) L <= INT_MAX -> 0 <= w <= INT_MAX -> (cols = -1 \/ cols = w) ->
    block_shape L rows cols = Ok (rows + sumz (@row_height E) L, if (match L with [] => true | _ => false end) then cols else w).
  Proof.
    revert rows cols. induction L as [|row L IH]; intros rows cols H R S Hw Hc; cbn [block_shape sumz].
    - rewrite Z.add_0_r. reflexivity.
    - destruct (H row ltac:(left; auto)) as (Hne & Hh & Hs).
      cbn [sumz] in S.
      assert (S0 : 0 <= sumz (@row_height E) L).
      { apply sumz_nonneg. intros x Hx. destruct (H x ltac:(right; auto)) as (Nx & Hx2 & _).
        destruct x as [|e x]; [congruence|]. cbn. destruct (Hx2 e ltac:(left; auto)) as [_ Fe].
        apply full_dims in Fe. lia. }
      destruct row as [|e row]; [congruence|]. cbn [row_height] in *.
      destruct (Hh e ltac:(left; auto)) as [_ Fe]. pose proof (full_dims e Fe).
      rewrite int_ok by (unfold is_int, INT_MIN, INT_MAX in *; lia). cbn [obind].
      rewrite block_row_cols_ok; [| exact Hh |lia|lia]. cbn [obind]. rewrite Hs, Z.add_0_l.
      destruct (cols =? -1) eqn:Ec.
      + rewrite IH; [|intros; apply H; right; auto|lia|lia|lia|auto].
        f_equal. f_equal; [lia|]. destruct L; reflexivity.
      + assert (cols = w) by lia. subst cols. unfold oassert. rewrite Z.eqb_refl.
        rewrite IH; [|intros; apply H; right; auto|lia|lia|lia|auto].
        f_equal. f_equal; [lia|]. destruct L; reflexivity.
  Qed.

  Lemma block_fill_row_ok R C h (row : list (vmat E)) : forall r ro co,
    wf r R C -> 0 <= ro -> ro + h <= R -> 0 <= co -> co + sumz (@m_cols E) row <= C ->
    (forall e, In e row -> m_rows e = h /\ full e) ->
    exists r', block_fill_row r ro co row = Ok r' /\ wf r' R C /\
      (forall p e q i j, row = p ++ e :: q -> inr (m_rows e) (m_cols e) i j ->
         cell r' (ro + i) (co + sumz (@m_cols E) p + j) = cell e i j) /\
      (forall i j, inr R C i j -> ~ (ro <= i < ro + h /\ co <= j < co + sumz (@m_cols E) row) ->
         cell r' i j = cell r i j).
  Proof.
    induction row as [|e row IH]; intros r ro co W Hro HR Hco HC He.
    - exists r. cbn. split; [reflexivity|]. split; [exact W|]. split; [intros [|? ?]; discriminate|auto].
    - cbn [block_fill_row sumz] in *. destruct (He e ltac:(left; auto)) as [Eh Fe].
      pose proof (full_dims e Fe) as (P1 & P2 & De). destruct Fe as (f & Fe).
      pose proof W as (W1 & W2 & D & _). pose proof D as (D1 & D2 & D3).
      assert (S0 : 0 <= sumz (@m_cols E) row).
      { apply sumz_nonneg. intros x Hx. destruct (He x ltac:(right; auto)) as [_ Fx]. apply full_dims in Fx. lia. }
      rewrite W1, W2.
      destruct (mat_block_ok R C ro co (m_rows e) (m_cols e)) as (v & Ev & V & _ & S1 & S2 & L1 & L2); try lia.
      rewrite Ev. cbn [obind].
      destruct (view_assign_const r R C v (like_mat e) f W V) as (r1 & Er & Wr & A1 & A2).
      { rewrite L1, L2. apply represents_denotes. exact Fe. }
      rewrite Er. cbn [obind].
      rewrite int_ok by (unfold is_int, INT_MIN, INT_MAX in *; lia). cbn [obind].
      destruct (IH r1 ro (co + m_cols e) Wr Hro HR ltac:(lia) ltac:(lia)) as (r2 & E2 & W2' & B1 & B2).
      { intros x Hx. apply He. right; auto. }
      exists r2. split; [exact E2|]. split; [exact W2'|]. split.
      + intros p e0 q i j Hp Hij. destruct p as [|e1 p]; cbn in Hp; injection Hp as Eq1 Eq2.
        * subst e0 q. cbn [sumz]. rewrite Z.add_0_r. unfold inr in Hij.
          rewrite B2; [|unfold inr; lia|lia].
          rewrite <- (S1 i), <- (S2 j). rewrite A1 by (rewrite L1, L2; exact Hij).
          symmetry. apply (represents_cell e (m_rows e) (m_cols e) f i j); [exact Fe|exact Hij].
        * subst e1 row. cbn [sumz]. replace (co + (m_cols e + sumz (@m_cols E) p) + j)
            with (co + m_cols e + sumz (@m_cols E) p + j) by lia.
          eapply B1; [reflexivity|exact Hij].
      + intros i j Hij Hout. rewrite B2; [|exact Hij|lia]. apply A2; [exact Hij|].
        intros a b Hab [-> ->]. rewrite L1, L2 in Hab. rewrite S1, S2 in Hout. unfold inr in Hab. lia.
  Qed.

  Lemma block_fill_ok R C (L : list (list (vmat E))) : forall r ro,
    wf r R C -> 0 <= ro -> ro + sumz (@row_height E) L <= R ->
    (forall row, In row L -> good_row C row) ->
    exists r', block_fill r ro L = Ok r' /\ wf r' R C /\
      (forall pre row post p e q i j, L = pre ++ row :: post -> row = p ++ e :: q ->
         inr (m_rows e) (m_cols e) i j ->
         cell r' (ro + sumz (@row_height E) pre + i) (sumz (@m_cols E) p + j) = cell e i j) /\
      (forall i j, inr R C i j -> ~ (ro <= i < ro + sumz (@row_height E) L) -> cell r' i j = cell r i j).
  Proof.
    induction L as [|row L IH]; intros r ro W Hro HR HL.
    - exists r. cbn. split; [reflexivity|]. split; [exact W|]. split; [intros [|? ?]; discriminate|auto].
    - cbn [block_fill sumz] in *. destruct (HL row ltac:(left; auto)) as (Hne & Hh & Hs).
      assert (S0 : 0 <= sumz (@row_height E) L).
      { apply sumz_nonneg. intros x Hx. destruct (HL x ltac:(right; auto)) as (Nx & Hx2 & _).
        destruct x as [|e x]; [congruence|]. cbn. destruct (Hx2 e ltac:(left; auto)) as [_ Fe].
        apply full_dims in Fe. lia. }
      pose proof W as (_ & _ & (D1 & D2 & D3) & _).
      destruct (block_fill_row_ok R C (row_height row) row r ro 0 W Hro) as (r1 & E1 & W1 & A1 & A2);
        try lia; [exact Hh|].
      rewrite E1. cbn [obind].
      assert (H0 : 0 <= row_height row).
      { destruct row as [|e x]; [congruence|]. cbn. destruct (Hh e ltac:(left; auto)) as [_ Fe].
        apply full_dims in Fe. lia. }
      assert (Eo : (match row with [] => Ok ro | e :: _ => int (ro + m_rows e) end) = Ok (ro + row_height row)).
      { destruct row as [|e x]; [congruence|]. cbn [row_height] in *.
        apply int_ok. unfold is_int, INT_MIN, INT_MAX in *; lia. }
      rewrite Eo. cbn [obind].
      destruct (IH r1 (ro + row_height row) W1 ltac:(lia) ltac:(lia)) as (r2 & E2 & W2 & B1 & B2).
      { intros x Hx. apply HL. right; auto. }
      exists r2. split; [exact E2|]. split; [exact W2|]. split.
      + intros pre row0 post p e q i j HL0 Hrow Hij. destruct pre as [|r0 pre]; cbn in HL0; injection HL0 as Eq1 Eq2.
        * subst row0 post. cbn [sumz]. rewrite Z.add_0_r.
          destruct (Hh e ltac:(rewrite Hrow; apply in_app_iff; right; left; auto)) as [Ee Fe].
          assert (Sp : 0 <= sumz (@m_cols E) p /\ sumz (@m_cols E) p + m_cols e <= C).
          { rewrite Hrow, sumz_app in Hs. cbn [sumz] in Hs. split.
            - apply sumz_nonneg. intros x Hx. destruct (Hh x ltac:(rewrite Hrow; apply in_app_iff; auto)) as [_ Fx].
              apply full_dims in Fx. lia.
            - assert (0 <= sumz (@m_cols E) q); [|lia]. apply sumz_nonneg. intros x Hx.
              destruct (Hh x ltac:(rewrite Hrow; apply in_app_iff; right; right; auto)) as [_ Fx].
              apply full_dims in Fx. lia. }
          unfold inr in Hij. rewrite B2; [|unfold inr; lia|lia].
          rewrite <- (A1 p e q i j Hrow Hij). f_equal.
        * subst r0 L. cbn [sumz]. replace (ro + (row_height row + sumz (@row_height E) pre) + i)
            with (ro + row_height row + sumz (@row_height E) pre + i) by lia.
          eapply B1; eauto.
      + intros i j Hij Hout. rewrite B2; [|exact Hij|lia]. apply A2; [exact Hij|lia].
  Qed.

  Lemma sumz_find {A} (f : A -> Z) l x : (forall a, In a l -> 0 <= f a) -> 0 <= x < sumz f l ->
    exists p a q, l = p ++ a :: q /\ sumz f p <= x < sumz f p + f a.
  Proof.
    revert x. induction l as [|a l IH]; intros x H Hx; cbn in Hx; [lia|].
    destruct (Z_lt_le_dec x (f a)).
    - exists [], a, l. cbn. split; [reflexivity|lia].
    - destruct (IH (x - f a)) as (p & b & q & E1 & E2); [intros; apply H; right; auto|lia|].
      exists (a :: p), b, q. cbn. split; [rewrite E1; reflexivity|lia].
  Qed.

  Lemma block_ok (L : list (list (vmat E))) w :
    L <> [] -> (forall row, In row L -> good_row w row) -> dims (sumz (@row_height E) L) w ->
    exists m, block L = Ok m /\ m_rows m = sumz (@row_height E) L /\ m_cols m = w /\
      (forall pre row post p e q i j, L = pre ++ row :: post -> row = p ++ e :: q ->
         inr (m_rows e) (m_cols e) i j ->
         exists x, mat_get e i j = Ok x /\
           mat_get m (sumz (@row_height E) pre + i) (sumz (@m_cols E) p + j) = Ok x) /\
      (forall I J, inr (m_rows m) (m_cols m) I J ->
         exists pre row post p e q i j, L = pre ++ row :: post /\ row = p ++ e :: q /\
           inr (m_rows e) (m_cols e) i j /\
           I = sumz (@row_height E) pre + i /\ J = sumz (@m_cols E) p + j).
  Proof.
    intros Hne HL D. pose proof D as (D1 & D2 & D3). unfold block.
    rewrite (block_shape_ok L w 0 (-1)); try lia; auto. cbn [obind]. rewrite Z.add_0_l.
    assert (Hif : (if match L with [] => true | _ => false end then -1 else w) = w) by (destruct L; congruence).
    rewrite Hif. destruct (mat_empty_wf (E:=E) _ _ D) as (m0 & E0 & W0). rewrite E0. cbn [obind].
    destruct (block_fill_ok (sumz (@row_height E) L) w L m0 0 W0) as (m & E1 & W & A1 & _); try lia; [exact HL|].
    assert (Hcells : forall row, In row L -> forall e, In e row -> 0 <= m_rows e /\ 0 <= m_cols e).
    { intros row Hr e He. destruct (HL row Hr) as (_ & Hh & _). destruct (Hh e He) as [_ Fe].
      apply full_dims in Fe. lia. }
    pose proof W as (M1 & M2 & _).
    exists m. split; [exact E1|]. split; [exact M1|]. split; [exact M2|]. split.
    - intros pre row post p e q i j H1 H2 Hij.
      assert (Hin : In row L) by (rewrite H1; apply in_app_iff; right; left; auto).
      destruct (HL row Hin) as (_ & Hh & Hs).
      assert (Hine : In e row) by (rewrite H2; apply in_app_iff; right; left; auto).
      destruct (Hh e Hine) as [Eh (f & Fe)].
      exists (f i j). split.
      + pose proof (represents_denotes e _ _ f Fe) as (_ & _ & _ & Hg). apply Hg. exact Hij.
      + apply (mat_get_ok m (sumz (@row_height E) L) w); [exact W| |].
        * rewrite H1, H2, !sumz_app. cbn [sumz]. rewrite <- H2.
          assert (N1 : forall row', In row' L -> 0 <= row_height row').
          { intros [|y row'] Hy; cbn; [lia|]. apply (Hcells _ Hy y). left; auto. }
          assert (0 <= sumz (@row_height E) pre /\ 0 <= sumz (@row_height E) post).
          { split; apply sumz_nonneg; intros y Hy; apply N1; rewrite H1; apply in_app_iff; auto.
            right; right; auto. }
          assert (0 <= sumz (@m_cols E) p /\ sumz (@m_cols E) p + m_cols e <= w).
          { rewrite H2, sumz_app in Hs. cbn [sumz] in Hs.
            assert (0 <= sumz (@m_cols E) p /\ 0 <= sumz (@m_cols E) q); [|lia].
            split; apply sumz_nonneg; intros y Hy; apply (Hcells row Hin); rewrite H2; apply in_app_iff; auto.
            right; right; auto. }
          unfold inr in *. rewrite <- Eh. lia.
        * specialize (A1 pre row post p e q i j H1 H2 Hij). rewrite Z.add_0_l in A1. rewrite A1.
          eapply represents_cell; eauto.
    - intros I J HIJ. unfold inr in HIJ. rewrite M1, M2 in HIJ.
      destruct (sumz_find (@row_height E) L I) as (pre & row & post & H1 & HI); [|lia|].
      { intros [|y row'] Hy; cbn; [lia|]. apply (Hcells _ Hy y). left; auto. }
      assert (Hin : In row L) by (rewrite H1; apply in_app_iff; right; left; auto).
      destruct (HL row Hin) as (_ & Hh & Hs).
      destruct (sumz_find (@m_cols E) row J) as (p & e & q & H2 & HJ); [|lia|].
      { intros y Hy. apply (Hcells row Hin y Hy). }
      destruct (Hh e ltac:(rewrite H2; apply in_app_iff; right; left; auto)) as [Eh _].
      exists pre, row, post, p, e, q, (I - sumz (@row_height E) pre), (J - sumz (@m_cols E) p).
      split; [exact H1|]. split; [exact H2|]. split; [unfold inr; lia|]. lia.
  Qed.
End P3.

(** ** Views obtained by users *)

Lemma slice_in_bound sl l n : slice_in sl l n -> n <= INT_MAX -> 0 <= l <= INT_MAX.
Proof. intros ((? & ?) & _). lia. Qed.

Lemma user_view_in rows cols v :
  0 <= rows <= INT_MAX -> 0 <= cols <= INT_MAX -> user_view rows cols v -> view_in v rows cols.
Proof.
  intros Hr Hc U. induction U as [rs cs a b v I1 I2 E1 E2 E3|r c h w v E1|v rs cs a b v' U V I1 I2 E1 E2 E3|v r c h w v' U V E1].
  - apply mat_slice_inv in E3. destruct E3 as [A B].
    destruct (mk_adjust rows _ _ _ _ Hr I1 E1 A) as (P1 & _).
    destruct (mk_adjust cols _ _ _ _ Hc I2 E2 B) as (P2 & _). split; assumption.
  - assert (D : 0 <= r <= rows /\ 0 <= c <= cols /\ 0 <= h <= rows - r /\ 0 <= w <= cols - c).
    { unfold mat_block in E1. repeat (apply oassert_ok in E1; destruct E1 as [? E1]). lia. }
    destruct (mat_block_ok rows cols r c h w) as (v1 & E2 & V & _); try lia. rewrite E2 in E1.
    injection E1 as <-. exact V.
  - apply view_slice_inv in E3. destruct E3 as (r1 & c1 & F1 & F2 & F3 & F4). destruct V as [V1 V2].
    pose proof (slice_in_bound _ _ _ V1 ltac:(lia)). pose proof (slice_in_bound _ _ _ V2 ltac:(lia)).
    destruct (mk_adjust (v_rl v) _ _ _ _ ltac:(lia) I1 E1 F1) as (P1 & _).
    destruct (mk_adjust (v_cl v) _ _ _ _ ltac:(lia) I2 E2 F2) as (P2 & _).
    split; [eapply (compose_slice_ok (v_rs v)); eauto; lia|eapply (compose_slice_ok (v_cs v)); eauto; lia].
  - unfold view_block in E1. repeat (apply oassert_ok in E1; destruct E1 as [? E1]).
    apply obind_ok in E1. destruct E1 as (re & A1 & E1). apply int_inv in A1. destruct A1 as [-> J1].
    rewrite slice_make_step1 in E1. cbn [obind] in E1.
    apply obind_ok in E1. destruct E1 as (ce & A2 & E1). apply int_inv in A2. destruct A2 as [-> J2].
    rewrite slice_make_step1 in E1. cbn [obind] in E1.
    apply view_slice_inv in E1. destruct E1 as (r1 & c1 & F1 & F2 & F3 & F4). destruct V as [V1 V2].
    pose proof (slice_in_bound _ _ _ V1 ltac:(lia)). pose proof (slice_in_bound _ _ _ V2 ltac:(lia)).
    destruct (adjust_range1 r h (v_rl v)) as (rs & G1 & K1 & _); try lia. rewrite G1 in F1. injection F1 as <- X1. rewrite X1 in K1.
    destruct (adjust_range1 c w (v_cl v)) as (cs & G2 & K2 & _); try lia. rewrite G2 in F2. injection F2 as <- X2. rewrite X2 in K2.
    split; [eapply (compose_slice_ok (v_rs v)); eauto; lia|eapply (compose_slice_ok (v_cs v)); eauto; lia].
Qed.

Lemma user_view_pos rows cols v i j :
  0 <= rows <= INT_MAX -> 0 <= cols <= INT_MAX -> user_view rows cols v -> inr (v_rl v) (v_cl v) i j ->
  exists r c, view_pos v i j = Ok (r, c) /\ inr rows cols r c.
Proof.
  intros Hr Hc U H. apply user_view_in in U; try assumption.
  destruct (view_pos_ok v rows cols i j U ltac:(lia) ltac:(lia) H) as [A B]. eauto.
Qed.

(** Distinct view elements are distinct matrix elements. *)
Lemma user_view_inj rows cols v i j i' j' r c :
  0 <= rows <= INT_MAX -> 0 <= cols <= INT_MAX -> user_view rows cols v ->
  view_pos v i j = Ok (r, c) -> view_pos v i' j' = Ok (r, c) -> i = i' /\ j = j'.
Proof.
  intros Hr Hc U H1 H2. apply user_view_in in U; try assumption.
  pose proof (view_pos_inv _ _ _ _ H1) as I1. pose proof (view_pos_inv _ _ _ _ H2) as I2.
  destruct (view_pos_ok v rows cols i j U ltac:(lia) ltac:(lia) I1) as [A _].
  destruct (view_pos_ok v rows cols i' j' U ltac:(lia) ltac:(lia) I2) as [B _].
  rewrite H1 in A. rewrite H2 in B. injection A as -> ->. injection B as B1 B2.
  split; [eapply sel_inj; [exact (proj1 U)|exact B1]|eapply sel_inj; [exact (proj2 U)|exact B2]].
Qed.

Section UserAssign.
  Context {E : Type}.
  Implicit Types m : vmat E.

  Lemma cell_mat_get m m' r c i j : wf m r c -> wf m' r c -> inr r c i j -> cell m' i j = cell m i j ->
    mat_get m' i j = mat_get m i j.
  Proof.
    intros (A1 & A2 & A3 & A4) (B1 & B2 & B3 & B4) Hij H. unfold mat_get. rewrite A1, A2, B1, B2.
    rewrite (mat_offset_ok r c i j A3 Hij). cbn [obind]. unfold get_nth. unfold cell in H.
    rewrite A2, B2 in H. pose proof (off_range r c i j Hij).
    assert (G : forall (l : list (option E)) n, (n < length l)%nat -> nth_error l n = Some (nth n l None)).
    { induction l; intros [|n] Hn; cbn in *; try lia; auto. apply IHl. lia. }
    rewrite !G by lia. rewrite H. reflexivity.
  Qed.

  Lemma assign_to_view m r c v src (F : Z -> Z -> E) G :
    represents m r c G -> user_view r c v ->
    ((exists a, src = (fun _ => a) /\ denotes a (v_rl v) (v_cl v) F) \/
     (exists w, src = (fun m => like_view m w) /\ user_view r c w /\ v_rl w = v_rl v /\ v_cl w = v_cl v /\
        (forall i j, inr (v_rl v) (v_cl v) i j -> view_get m w i j = Ok (F i j)) /\
        (forall a b i j p, (a < i \/ (a = i /\ b < j)) -> view_pos v a b = Ok p -> view_pos w i j = Ok p -> False))) ->
    exists m', view_assign m v src = Ok m' /\ m_rows m' = r /\ m_cols m' = c /\
      (forall i j p q, inr (v_rl v) (v_cl v) i j -> view_pos v i j = Ok (p, q) -> mat_get m' p q = Ok (F i j)) /\
      (forall p q, inr r c p q -> (forall i j, view_pos v i j <> Ok (p, q)) -> mat_get m' p q = mat_get m p q).
  Proof.
    intros H U Hsrc. pose proof H as H0. apply represents_wf in H0. destruct H0 as (W & HG).
    pose proof W as (W1 & W2 & D & _). pose proof D as (D1 & D2 & D3).
    pose proof (user_view_in r c v D1 D2 U) as V.
    assert (X : exists m', view_assign m v src = Ok m' /\ wf m' r c /\
      (forall i j, inr (v_rl v) (v_cl v) i j -> cell m' (sel (v_rs v) i) (sel (v_cs v) j) = Some (F i j)) /\
      (forall i' j', inr r c i' j' ->
         (forall i j, inr (v_rl v) (v_cl v) i j -> ~ (i' = sel (v_rs v) i /\ j' = sel (v_cs v) j)) ->
         cell m' i' j' = cell m i' j')).
    { destruct Hsrc as [(a & -> & Da)|(w & -> & Uw & L1 & L2 & Hw & Hno)].
      - apply view_assign_const; assumption.
      - pose proof (user_view_in r c w D1 D2 Uw) as Vw.
        destruct (view_assign_view m r c v w G H V Vw L1 L2) as (m' & E1 & W' & A & B).
        + intros a b i j Hab Hij Hlt [S1 S2].
          destruct (view_pos_ok v r c a b V ltac:(lia) ltac:(lia) Hab) as [P1 _].
          assert (Hij' : inr (v_rl w) (v_cl w) i j) by (rewrite L1, L2; exact Hij).
          destruct (view_pos_ok w r c i j Vw ltac:(lia) ltac:(lia) Hij') as [P2 _].
          eapply (Hno a b i j); [exact Hlt|exact P1|]. rewrite P2, S1, S2. reflexivity.
        + exists m'. split; [exact E1|]. split; [exact W'|]. split; [|exact B].
          intros i j Hij. rewrite A by exact Hij. f_equal.
          assert (Hij' : inr (v_rl w) (v_cl w) i j) by (rewrite L1, L2; exact Hij).
          pose proof (view_get_ok m r c G w i j H Vw Hij') as Eg. rewrite Hw in Eg by exact Hij. congruence. }
    destruct X as (m' & E1 & W' & A & B). exists m'. split; [exact E1|].
    pose proof W' as (X1 & X2 & _). split; [exact X1|]. split; [exact X2|]. split.
    - intros i j p q Hij Hp. destruct (view_pos_ok v r c i j V ltac:(lia) ltac:(lia) Hij) as [P Q].
      rewrite Hp in P. injection P as -> ->. apply (mat_get_ok m' r c); auto.
    - intros p q Hpq Hno. apply (cell_mat_get m m' r c); auto. apply B; [exact Hpq|].
      intros i j Hij [-> ->]. apply (Hno i j).
      apply (view_pos_ok v r c i j V ltac:(lia) ltac:(lia) Hij).
  Qed.

  Lemma iterate_view m r c (F : Z -> Z -> E) v : represents m r c F -> user_view r c v ->
    exists l, view_iterate m v = Ok l /\ Z.of_nat (length l) = v_rl v * v_cl v /\
      forall i j, inr (v_rl v) (v_cl v) i j ->
        exists e, nth_error l (Z.to_nat (i * v_cl v + j)) = Some e /\ view_get m v i j = Ok e /\
          view_get1 m v (i * v_cl v + j) = Ok e.
  Proof.
    intros H U. pose proof (user_view_in r c v (proj1 (proj1 (proj2 (proj2 H)))) (proj1 (proj2 (proj1 (proj2 (proj2 H))))) U) as V.
    destruct (view_iterate_ok m r c F v H V) as (l & E1 & L & Hl).
    exists l. split; [exact E1|]. split; [exact L|]. intros i j Hij. eexists. split; [apply Hl; exact Hij|].
    split; [eapply view_get_ok; eauto|]. unfold inr in Hij.
    rewrite (view_get1_ok m r c F v) by (auto; nia).
    rewrite (Z.add_comm (i * v_cl v)), Z.div_add, Z.mod_add by lia.
    rewrite (Z.div_small j), (Z.mod_small j) by lia. reflexivity.
  Qed.

  Lemma iterate_mat m r c (F : Z -> Z -> E) i j : represents m r c F -> inr r c i j ->
    nth_error (mat_iterate m) (Z.to_nat (i * c + j)) = Some (Some (F i j)) /\
    mat_get m i j = Ok (F i j) /\ mat_get1 m (i * c + j) = Ok (F i j) /\
    Z.of_nat (length (mat_iterate m)) = r * c.
  Proof.
    intros H Hij. pose proof H as (_ & _ & _ & L & HF). split; [apply HF; exact Hij|].
    split; [apply (represents_denotes m r c F H); exact Hij|]. split; [|exact L].
    pose proof (off_range r c i j Hij). unfold inr in Hij. rewrite (mat_get1_ok m r c F) by (auto; lia).
    rewrite (Z.add_comm (i * c)), Z.div_add, Z.mod_add by lia.
    rewrite (Z.div_small j), (Z.mod_small j) by lia. reflexivity.
  Qed.
End UserAssign.

(** ** Values of matrix expressions over element types with a real value *)
Section Values.
  Context {E : Type} (val : E -> R) (e_zero e_one : E) (e_add e_sub e_mul e_div : E -> E -> E) (e_neg : E -> E).
  Hypotheses (v_zero : val e_zero = 0%R) (v_one : val e_one = 1%R)
    (v_add : forall a b, val (e_add a b) = (val a + val b)%R)
    (v_mul : forall a b, val (e_mul a b) = (val a * val b)%R).

  Lemma val_lsum n f : val (lsum e_zero e_add n f) = Rsum n (fun k => val (f k)).
  Proof. induction n; cbn; [exact v_zero|]. rewrite v_add, IHn. reflexivity. Qed.

  Lemma val_mat_mul a b n k p F G :
    denotes a n k F -> denotes b k p G -> dims n p ->
    exists m H, mat_mul e_zero e_add e_mul a b = Ok m /\ represents m n p H /\
      forall i j, val (H i j) = Rsum (Z.to_nat k) (fun t => (val (F i (Z.of_nat t)) * val (G (Z.of_nat t) j))%R).
  Proof.
    intros A B D. destruct (mat_mul_ok e_zero e_add e_mul a b n k p F G A B D) as (m & E1 & R1).
    eexists m, _. split; [exact E1|]. split; [exact R1|]. intros i j. cbv beta. rewrite val_lsum.
    generalize (Z.to_nat k). induction n0; cbn; [reflexivity|]. rewrite IHn0, v_mul. reflexivity.
  Qed.

  Lemma val_mat_mul_assign m r n F a G : represents m r n F -> denotes a n n G ->
    exists m' H, mat_mul_assign e_zero e_add e_mul m (fun _ => a) = Ok m' /\ represents m' r n H /\
      forall i j, val (H i j) = Rsum (Z.to_nat n) (fun t => (val (F i (Z.of_nat t)) * val (G (Z.of_nat t) j))%R).
  Proof.
    intros A B. destruct (mat_mul_assign_ok e_zero e_add e_mul m r n F a G A B) as (m' & E1 & R1).
    eexists m', _. split; [exact E1|]. split; [exact R1|]. intros i j. cbv beta. rewrite val_lsum.
    generalize (Z.to_nat n). induction n0; cbn; [reflexivity|]. rewrite IHn0, v_mul. reflexivity.
  Qed.
End Values.

Section Values2.
  Context {E : Type} (val : E -> R) (e_add e_sub e_mul e_div : E -> E -> E) (e_neg : E -> E).
  Hypotheses
    (v_add : forall a b, val (e_add a b) = (val a + val b)%R)
    (v_sub : forall a b, val (e_sub a b) = (val a - val b)%R)
    (v_mul : forall a b, val (e_mul a b) = (val a * val b)%R)
    (v_div : forall a b, val b <> 0%R -> val (e_div a b) = (val a / val b)%R)
    (v_neg : forall a, val (e_neg a) = (- val a)%R).

  Lemma val_entrywise a b s r c F G :
    denotes a r c F -> denotes b r c G ->
    (exists m H, mat_add e_add a b = Ok m /\ represents m r c H /\ forall i j, val (H i j) = (val (F i j) + val (G i j))%R) /\
    (exists m H, mat_sub e_sub a b = Ok m /\ represents m r c H /\ forall i j, val (H i j) = (val (F i j) - val (G i j))%R) /\
    (exists m H, mat_neg e_neg a = Ok m /\ represents m r c H /\ forall i j, val (H i j) = (- val (F i j))%R) /\
    (exists m H, mat_scale e_mul a s = Ok m /\ represents m r c H /\ forall i j, val (H i j) = (val (F i j) * val s)%R) /\
    (val s <> 0%R ->
     exists m H, mat_divs e_div a s = Ok m /\ represents m r c H /\ forall i j, val (H i j) = (val (F i j) / val s)%R) /\
    (exists m, mat_T a = Ok m /\ represents m c r (fun i j => F j i)).
  Proof.
    intros A B. repeat split.
    - destruct (cwise_reduce_ok a b e_add r c F G A B) as (m & E1 & R1). eexists m, _.
      split; [exact E1|]. split; [exact R1|]. intros. apply v_add.
    - destruct (cwise_reduce_ok a b e_sub r c F G A B) as (m & E1 & R1). eexists m, _.
      split; [exact E1|]. split; [exact R1|]. intros. apply v_sub.
    - destruct (mat_neg_ok e_neg a r c F A) as (m & E1 & R1). eexists m, _.
      split; [exact E1|]. split; [exact R1|]. intros. apply v_neg.
    - destruct (mat_scale_ok e_mul a s r c F A) as (m & E1 & R1). eexists m, _.
      split; [exact E1|]. split; [exact R1|]. intros. apply v_mul.
    - intros Hs. destruct (mat_divs_ok e_div a s r c F A) as (m & E1 & R1). eexists m, _.
      split; [exact E1|]. split; [exact R1|]. intros. apply v_div. exact Hs.
    - exact (mat_T_ok a r c F A).
  Qed.
End Values2.

Lemma segment_row_col rows cols :
  0 <= rows <= INT_MAX -> 0 <= cols <= INT_MAX ->
  (forall o n, cols = 1 -> 0 <= o < rows -> 0 <= n <= rows - o ->
     exists v, mat_segment rows cols o n = Ok v /\ view_addresses v n 1 (fun i => o + i) (fun j => j)) /\
  (forall r, 0 <= r < rows -> exists v, mat_row rows cols r = Ok v /\ view_addresses v 1 cols (fun i => r + i) (fun j => j)) /\
  (forall c, 0 <= c < cols -> exists v, mat_col rows cols c = Ok v /\ view_addresses v rows 1 (fun i => i) (fun j => c + j)) /\
  (forall o n, ~ (cols = 1 /\ 0 <= o < rows /\ 0 <= n <= rows - o) -> mat_segment rows cols o n = AssertFail) /\
  (forall r, ~ (0 <= r < rows) -> mat_row rows cols r = AssertFail) /\
  (forall c, ~ (0 <= c < cols) -> mat_col rows cols c = AssertFail).
Proof.
  intros Hr Hc. split; [|split; [|split; [|split; [|split]]]].
  - intros o n Hc1 Ho Hn. rewrite mat_segment_eq by lia.
    replace ((cols =? 1) && (0 <=? o) && (o <? rows) && (0 <=? n) && (n <=? rows - o)) with true by lia.
    destruct (mat_block_ok rows cols o 0 n 1) as (v & E1 & _ & A & _); try lia. exists v. split; [exact E1|exact A].
  - intros r H. unfold mat_row, oassert. replace ((0 <=? r) && (r <? rows)) with true by lia.
    destruct (mat_block_ok rows cols r 0 1 cols) as (v & E1 & _ & A & _); try lia. exists v. split; [exact E1|exact A].
  - intros c H. unfold mat_col, oassert. replace ((0 <=? c) && (c <? cols)) with true by lia.
    destruct (mat_block_ok rows cols 0 c rows 1) as (v & E1 & _ & A & _); try lia. exists v. split; [exact E1|exact A].
  - intros o n H. rewrite mat_segment_eq by lia.
    replace ((cols =? 1) && (0 <=? o) && (o <? rows) && (0 <=? n) && (n <=? rows - o)) with false by lia. reflexivity.
  - intros r H. unfold mat_row, oassert. replace ((0 <=? r) && (r <? rows)) with false by lia. reflexivity.
  - intros c H. unfold mat_col, oassert. replace ((0 <=? c) && (c <? cols)) with false by lia. reflexivity.
Qed.

Lemma block_of_view rows cols v r c h w :
  0 <= rows <= INT_MAX -> 0 <= cols <= INT_MAX -> user_view rows cols v ->
  ends_ok (v_rs v) (v_rl v) -> ends_ok (v_cs v) (v_cl v) ->
  0 <= r -> 0 <= c -> 0 <= h -> 0 <= w -> r + h <= v_rl v -> c + w <= v_cl v ->
  exists v', view_block v r c h w = Ok v' /\ v_rl v' = h /\ v_cl v' = w /\
    forall i j, inr h w i j -> exists p, view_pos v' i j = Ok p /\ view_pos v (r + i) (c + j) = Ok p.
Proof.
  intros Hr Hc U E1 E2 H1 H2 H3 H4 H5 H6. pose proof (user_view_in rows cols v Hr Hc U) as V.
  destruct (view_block_ok rows cols v r c h w Hr Hc V E1 E2 H1 H2 H3 H4 H5 H6) as (v' & A & B & L1 & L2 & D).
  exists v'. split; [exact A|]. split; [exact L1|]. split; [exact L2|]. intros i j Hij. eexists. split; [exact (D i j Hij)|].
  apply (view_pos_ok v rows cols (r + i) (c + j) V (proj2 Hr) (proj2 Hc)). unfold inr in *. lia.
Qed.
Lemma segment_row_col_of_view rows cols v :
  0 <= rows <= INT_MAX -> 0 <= cols <= INT_MAX -> user_view rows cols v -> ends_ok (v_rs v) (v_rl v) -> ends_ok (v_cs v) (v_cl v) ->
  let is_part r c h w v' := v_rl v' = h /\ v_cl v' = w /\
    forall i j, inr h w i j -> exists p, view_pos v' i j = Ok p /\ view_pos v (r + i) (c + j) = Ok p in
  (forall o n, v_cl v = 1 -> 0 <= o < v_rl v -> 0 <= n <= v_rl v - o -> exists v', view_segment v o n = Ok v' /\ is_part o 0 n 1 v') /\
  (forall r, 0 <= r < v_rl v -> exists v', view_row v r = Ok v' /\ is_part r 0 1 (v_cl v) v') /\
  (forall c, 0 <= c < v_cl v -> exists v', view_col v c = Ok v' /\ is_part 0 c (v_rl v) 1 v') /\
  (forall o n, ~ (v_cl v = 1 /\ 0 <= o < v_rl v /\ 0 <= n <= v_rl v - o) -> view_segment v o n = AssertFail) /\
  (forall r, ~ (0 <= r < v_rl v) -> view_row v r = AssertFail) /\
  (forall c, ~ (0 <= c < v_cl v) -> view_col v c = AssertFail).
Proof.
  intros Hr Hc U E1 E2. cbv zeta. pose proof (user_view_in rows cols v Hr Hc U) as [V1 V2].
  assert (L1 : 0 <= v_rl v) by (destruct V1 as ((? & ?) & _); lia). assert (L2 : 0 <= v_cl v) by (destruct V2 as ((? & ?) & _); lia).
  split; [|split; [|split; [|split; [|split]]]].
  - intros o n Hc1 Ho Hn. unfold view_segment, oassert. replace (v_cl v =? 1) with true by lia. replace ((0 <=? o) && (o <? v_rl v)) with true by lia.
    replace ((0 <=? n) && (n <=? v_rl v - o)) with true by lia. apply (block_of_view rows cols); auto; lia.
  - intros r H. unfold view_row, oassert. replace ((0 <=? r) && (r <? v_rl v)) with true by lia. apply (block_of_view rows cols); auto; lia.
  - intros c H. unfold view_col, oassert. replace ((0 <=? c) && (c <? v_cl v)) with true by lia. apply (block_of_view rows cols); auto; lia.
  - intros o n H. unfold view_segment, oassert. destruct (v_cl v =? 1) eqn:Q1; [|reflexivity]. destruct ((0 <=? o) && (o <? v_rl v)) eqn:Q2; [|reflexivity].
    destruct ((0 <=? n) && (n <=? v_rl v - o)) eqn:Q3; [|reflexivity]. exfalso. apply H. lia.
  - intros r H. unfold view_row, oassert. replace ((0 <=? r) && (r <? v_rl v)) with false by lia. reflexivity.
  - intros c H. unfold view_col, oassert. replace ((0 <=? c) && (c <? v_cl v)) with false by lia. reflexivity.
Qed.
Lemma view_example : let v := mkView (mkSlice 0 6 2) 3 (mkSlice 0 5 1) 5 in
  mat_slice 6 5 (mkSlice 0 6 2) (mkSlice 0 5 1) = Ok v /\ user_view 6 5 v /\ ends_ok (v_rs v) (v_rl v) /\ ends_ok (v_cs v) (v_cl v) /\
  (exists v', view_row v 2 = Ok v' /\ view_pos v' 0 3 = Ok (4, 3)).
Proof.
  split; [vm_compute; reflexivity|]. split.
  { apply (uv_slice 6 5 (mkPy (Some 0) (Some 6) 2) (mkPy (Some 0) (Some 5) 1) (mkSlice 0 6 2) (mkSlice 0 5 1)); try (vm_compute; reflexivity);
      repeat split; cbn; unfold is_int, INT_MIN, INT_MAX; lia. }
  split; [split; [|intros i Hi]; cbn in *; unfold is_int, INT_MIN, INT_MAX; lia|].
  split; [split; [|intros i Hi]; cbn in *; unfold is_int, INT_MIN, INT_MAX; lia|].
  eexists. split; [vm_compute; reflexivity|vm_compute; reflexivity].
Qed.
