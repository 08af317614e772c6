From Coq Require Import ZArith List Lia Bool ZifyBool Reals Lra.
From Verif Require Import Base SliceModel SliceSpec SliceProofs Loops MatrixModel MatrixSpec.
Import ListNotations.
Open Scope Z_scope.

Section Proofs.
  Context {E : Type}.

  Definition wf (m : vmat E) (r c : Z) : Prop :=
    m_rows m = r /\ m_cols m = c /\ dims r c /\ Z.of_nat (length (m_data m)) = r * c.

  Definition cell (m : vmat E) (i j : Z) : option E :=
    nth (Z.to_nat (i * m_cols m + j)) (m_data m) None.

  Lemma off_range r c i j : inr r c i j -> 0 <= i * c + j < r * c.
  Proof. unfold inr. intros. nia. Qed.

  Lemma off_inj r c i j i' j' : inr r c i j -> inr r c i' j' ->
    i * c + j = i' * c + j' -> i = i' /\ j = j'.
  Proof. unfold inr. intros. assert (i = i') by nia. subst. lia. Qed.

  Lemma mat_offset_ok r c i j : dims r c -> inr r c i j -> mat_offset r c i j = Ok (i * c + j).
  Proof.
    intros (Hr & Hc & Hrc) H. pose proof (off_range r c i j H). unfold inr in H.
    unfold mat_offset, oassert.
    replace ((0 <=? i) && (i <? r)) with true by lia.
    replace ((0 <=? j) && (j <? c)) with true by lia.
    rewrite int_ok by (unfold is_int, INT_MIN, INT_MAX in *; nia). cbn [obind].
    apply int_ok. unfold is_int, INT_MIN, INT_MAX in *; nia.
  Qed.

  Lemma set_nth_spec (l : list (option E)) n e : (n < length l)%nat ->
    exists l', set_nth l n e = Ok l' /\ length l' = length l /\
      forall k, nth k l' None = if Nat.eqb k n then Some e else nth k l None.
  Proof.
    revert n; induction l as [|h t IH]; intros n H; [simpl in H; lia|].
    destruct n.
    - eexists. split; [reflexivity|]. split; [reflexivity|]. intros [|k]; reflexivity.
    - simpl in H. destruct (IH n ltac:(lia)) as (l' & E1 & E2 & E3).
      exists (h :: l'). simpl. rewrite E1. simpl. split; [reflexivity|]. split; [lia|].
      intros [|k]; [reflexivity|]. simpl. apply E3.
  Qed.

  Lemma mat_set_ok m r c i j e : wf m r c -> inr r c i j ->
    exists m', mat_set m i j e = Ok m' /\ wf m' r c /\
      forall i' j', inr r c i' j' ->
        cell m' i' j' = if (i' =? i) && (j' =? j) then Some e else cell m i' j'.
  Proof.
    intros (Hr & Hc & Hd & Hlen) H. unfold mat_set. rewrite Hr, Hc.
    rewrite (mat_offset_ok r c) by assumption. cbn [obind].
    pose proof (off_range r c i j H).
    destruct (set_nth_spec (m_data m) (Z.to_nat (i * c + j)) e) as (d & E1 & E2 & E3).
    { lia. }
    rewrite E1. cbn [obind]. eexists. split; [reflexivity|].
    split. { unfold wf. cbn. rewrite E2. auto. }
    intros i' j' H'. unfold cell. cbn [m_data m_cols]. rewrite E3, Hc.
    pose proof (off_range r c i' j' H').
    destruct (Nat.eqb_spec (Z.to_nat (i' * c + j')) (Z.to_nat (i * c + j))).
    - assert (i' * c + j' = i * c + j) by lia.
      destruct (off_inj r c i' j' i j H' H H2) as [-> ->].
      rewrite !Z.eqb_refl. reflexivity.
    - replace ((i' =? i) && (j' =? j)) with false; [reflexivity|].
      symmetry. apply andb_false_iff.
      destruct (Z.eqb_spec i' i), (Z.eqb_spec j' j); subst; auto. lia.
  Qed.

  Lemma nth_some_error (l : list (option E)) n e :
    nth n l None = Some e -> nth_error l n = Some (Some e).
  Proof.
    revert n; induction l; intros [|n] H; simpl in *; try discriminate; auto. congruence.
  Qed.

  Lemma nth_error_nth (l : list (option E)) n e :
    nth_error l n = Some (Some e) -> nth n l None = Some e.
  Proof. revert n; induction l; intros [|n] H; simpl in *; try discriminate; auto. congruence. Qed.

  Lemma mat_get_ok m r c i j e : wf m r c -> inr r c i j -> cell m i j = Some e ->
    mat_get m i j = Ok e.
  Proof.
    intros (Hr & Hc & Hd & Hlen) H Hcell. unfold mat_get. rewrite Hr, Hc.
    rewrite (mat_offset_ok r c) by assumption. cbn [obind]. unfold get_nth.
    unfold cell in Hcell. rewrite Hc in Hcell. apply nth_some_error in Hcell. rewrite Hcell. reflexivity.
  Qed.

  Lemma represents_wf m r c (f : Z -> Z -> E) :
    represents m r c f <-> wf m r c /\ forall i j, inr r c i j -> cell m i j = Some (f i j).
  Proof.
    unfold represents, wf, cell. split.
    - intros (H1 & H2 & H3 & H4 & H5). repeat split; try tauto; try apply H3.
      intros i j H. rewrite H2. apply nth_error_nth. auto.
    - intros ((H1 & H2 & H3 & H4) & H5). repeat split; try tauto; try apply H3.
      intros i j H. apply nth_some_error. rewrite <- H2. auto.
  Qed.

  Lemma represents_denotes m r c (f : Z -> Z -> E) :
    represents m r c f -> denotes (like_mat m) r c f.
  Proof.
    intros H. apply represents_wf in H. destruct H as (W & H).
    pose proof W as (H1 & H2 & H3 & H4).
    repeat split; cbn; try tauto; try apply H3.
    intros i j Hij. apply (mat_get_ok m r c); auto.
  Qed.

  Lemma mat_empty_wf r c : dims r c -> exists m : vmat E, mat_empty r c = Ok m /\ wf m r c.
  Proof.
    intros H. pose proof H as (Hr & Hc & Hrc). unfold mat_empty.
    rewrite int_ok by (unfold is_int, INT_MIN, INT_MAX in *; nia).
    cbn [obind]. eexists. split; [reflexivity|]. unfold wf. cbn. rewrite repeat_length.
    repeat split; try tauto; try lia; try nia.
  Qed.

  Lemma fill_ok r c (f : Z -> Z -> outcome E) (F : Z -> Z -> E) :
    dims r c -> (forall i j, inr r c i j -> f i j = Ok (F i j)) ->
    exists m, fill r c f = Ok m /\ represents m r c F.
  Proof.
    intros Hd Hf. unfold fill. destruct (mat_empty_wf r c Hd) as (m0 & E0 & W0).
    rewrite E0. cbn [obind].
    destruct (for_rc_inv (fun a b m => wf m r c /\
        forall i j, inr r c i j -> (i < a \/ (i = a /\ j < b)) -> cell m i j = Some (F i j))
      (fun row col r => let* e := f row col in mat_set r row col e) r c m0) as (m & E1 & W & H).
    - apply Hd.
    - apply Hd.
    - split; [exact W0|]. unfold inr. intros; lia.
    - intros a m Ha (W & H). split; [exact W|]. intros i j Hij Hlt. apply H; [exact Hij|]. unfold inr in Hij. lia.
    - intros a b m Ha Hb (W & H). rewrite Hf by (unfold inr; lia). cbn [obind].
      destruct (mat_set_ok m r c a b (F a b) W ltac:(unfold inr; lia)) as (m' & E1 & W' & H').
      exists m'. split; [exact E1|]. split; [exact W'|].
      intros i j Hij Hlt. rewrite H' by exact Hij.
      destruct ((i =? a) && (j =? b)) eqn:Eq.
      + apply andb_prop in Eq. assert (i = a) by lia. assert (j = b) by lia. subst. reflexivity.
      + apply H; [exact Hij|]. destruct (Z.eqb_spec i a), (Z.eqb_spec j b); simpl in Eq; try discriminate; lia.
    - exists m. split; [exact E1|]. apply represents_wf. split; [exact W|].
      intros i j Hij. apply H; [exact Hij|]. unfold inr in Hij. lia.
  Qed.

  Section Ops.
    Variables (e_zero e_one : E) (e_add e_sub e_mul e_div : E -> E -> E) (e_neg : E -> E).

    (** The left-to-right sum computed by the inner product loop. *)
    Fixpoint lsum (n : nat) (f : nat -> E) : E :=
      match n with
      | O => e_zero
      | S n' => e_add (lsum n' f) (f n')
      end.

    Lemma dot_ok n (f g : Z -> outcome E) F G :
      0 <= n -> (forall k, 0 <= k < n -> f k = Ok (F k) /\ g k = Ok (G k)) ->
      dot e_zero e_add e_mul n f g =
        Ok (lsum (Z.to_nat n) (fun k => e_mul (F (Z.of_nat k)) (G (Z.of_nat k)))).
    Proof.
      intros Hn H. unfold dot.
      destruct (for_z_inv (fun k s => s = lsum (Z.to_nat k) (fun k => e_mul (F (Z.of_nat k)) (G (Z.of_nat k))))
        (fun k s => let* a := f k in let* b := g k in Ok (e_add s (e_mul a b))) n e_zero) as (s & E1 & E2).
      - exact Hn.
      - reflexivity.
      - intros j s Hj ->. destruct (H j Hj) as [-> ->]. cbn [obind]. eexists. split; [reflexivity|].
        replace (Z.to_nat (j + 1)) with (S (Z.to_nat j)) by lia. cbn [lsum].
        rewrite Z2Nat.id by lia. reflexivity.
      - rewrite E1, E2. reflexivity.
    Qed.

    Lemma mat_mul_ok a b n k p F G :
      denotes a n k F -> denotes b k p G -> dims n p ->
      exists m, mat_mul e_zero e_add e_mul a b = Ok m /\
        represents m n p (fun i j => lsum (Z.to_nat k) (fun t => e_mul (F i (Z.of_nat t)) (G (Z.of_nat t) j))).
    Proof.
      intros (A1 & A2 & Ad & A3) (B1 & B2 & Bd & B3) Hd. unfold mat_mul.
      rewrite A1, A2, B1, B2. replace (k =? k) with true by lia. unfold oassert.
      apply fill_ok; [exact Hd|]. intros i j Hij.
      apply (dot_ok k _ _ (fun t => F i t) (fun t => G t j)); [apply Ad|]. intros t Ht. unfold inr in *. split.
      - apply A3. unfold inr. lia.
      - apply B3. unfold inr. lia.
    Qed.

    Lemma mat_mul_reject a b : ml_cols a <> ml_rows b ->
      mat_mul e_zero e_add e_mul a b = AssertFail.
    Proof. intros. unfold mat_mul. replace (ml_cols a =? ml_rows b) with false by lia. reflexivity. Qed.

    Lemma cwise_transform_ok (a : mlike E) (op : E -> E) r c F : denotes a r c F ->
      exists m, cwise_transform a op = Ok m /\ represents m r c (fun i j => op (F i j)).
    Proof.
      intros (A1 & A2 & Ad & A3). unfold cwise_transform. rewrite A1, A2.
      apply fill_ok; [exact Ad|]. intros i j H. rewrite A3 by exact H. reflexivity.
    Qed.

    Lemma mat_neg_ok a r c F : denotes a r c F ->
      exists m, mat_neg e_neg a = Ok m /\ represents m r c (fun i j => e_neg (F i j)).
    Proof. exact (cwise_transform_ok a e_neg r c F). Qed.

    Lemma mat_scale_ok a s r c F : denotes a r c F ->
      exists m, mat_scale e_mul a s = Ok m /\ represents m r c (fun i j => e_mul (F i j) s).
    Proof. exact (cwise_transform_ok a (fun x => e_mul x s) r c F). Qed.

    Lemma mat_divs_ok a s r c F : denotes a r c F ->
      exists m, mat_divs e_div a s = Ok m /\ represents m r c (fun i j => e_div (F i j) s).
    Proof. exact (cwise_transform_ok a (fun x => e_div x s) r c F). Qed.

    Lemma cwise_reduce_ok (a b : mlike E) (op : E -> E -> E) r c F G : denotes a r c F -> denotes b r c G ->
      exists m, cwise_reduce a b op = Ok m /\ represents m r c (fun i j => op (F i j) (G i j)).
    Proof.
      intros (A1 & A2 & Ad & A3) (B1 & B2 & Bd & B3). unfold cwise_reduce. rewrite A1, A2, B1, B2.
      rewrite !Z.eqb_refl. simpl. 
      apply fill_ok; [exact Ad|]. intros i j H. rewrite A3, B3 by exact H. reflexivity.
    Qed.

    Lemma cwise_reduce_reject (a b : mlike E) (op : E -> E -> E) : ml_rows a <> ml_rows b \/ ml_cols a <> ml_cols b ->
      cwise_reduce a b op = AssertFail.
    Proof.
      intros. unfold cwise_reduce.
      replace ((ml_rows a =? ml_rows b) && (ml_cols a =? ml_cols b)) with false by lia. reflexivity.
    Qed.

    Lemma mat_identity_ok n : dims n n ->
      exists m, mat_identity e_zero e_one n = Ok m /\
        represents m n n (fun i j => if i =? j then e_one else e_zero).
    Proof. intros H. unfold mat_identity. apply fill_ok; auto. Qed.
  End Ops.

  Lemma mat_T_ok (a : mlike E) r c F : denotes a r c F ->
    exists m, mat_T a = Ok m /\ represents m c r (fun i j => F j i).
  Proof.
    intros (A1 & A2 & Ad & A3). unfold mat_T. rewrite A1, A2.
    assert (Hd : dims c r) by (unfold dims in *; nia).
    destruct (mat_empty_wf c r Hd) as (m0 & E0 & W0). rewrite E0. cbn [obind].
    destruct (for_rc_inv (fun x y m => wf m c r /\
        forall i j, inr c r i j -> (j < x \/ (j = x /\ i < y)) -> cell m i j = Some (F j i))
      (fun row col r => let* e := ml_get a row col in mat_set r col row e) r c m0) as (m & E1 & W & H).
    - apply Ad.
    - apply Ad.
    - split; [exact W0|]. unfold inr. intros; lia.
    - intros x m Hx (W & H). split; [exact W|]. intros i j Hij Hlt. apply H; [exact Hij|]. unfold inr in Hij. lia.
    - intros x y m Hx Hy (W & H). rewrite A3 by (unfold inr; lia). cbn [obind].
      destruct (mat_set_ok m c r y x (F x y) W ltac:(unfold inr; lia)) as (m' & E1 & W' & H').
      exists m'. split; [exact E1|]. split; [exact W'|].
      intros i j Hij Hlt. rewrite H' by exact Hij.
      destruct ((i =? y) && (j =? x)) eqn:Eq.
      + apply andb_prop in Eq. assert (i = y) by lia. assert (j = x) by lia. subst. reflexivity.
      + apply H; [exact Hij|]. destruct (Z.eqb_spec i y), (Z.eqb_spec j x); simpl in Eq; try discriminate; lia.
    - exists m. split; [exact E1|]. apply represents_wf. split; [exact W|].
      intros i j Hij. apply H; [exact Hij|]. unfold inr in Hij. lia.
  Qed.

  (** ** Views *)

  (** A slice as stored in a view over a dimension of size [n] with [l] elements: nonzero step,
      and every addressed index in range. *)
  Definition slice_in (sl : slice) (l n : Z) : Prop :=
    0 <= l <= n /\ sl_step sl <> 0 /\
    forall i, 0 <= i < l -> 0 <= sl_start sl + i * sl_step sl < n.

  Definition view_in (v : view) (r c : Z) : Prop :=
    slice_in (v_rs v) (v_rl v) r /\ slice_in (v_cs v) (v_cl v) c.

  Definition sel (sl : slice) (i : Z) : Z := sl_start sl + i * sl_step sl.

  Lemma slice_at_ok sl l n i : slice_in sl l n -> is_int (sl_start sl) -> n <= INT_MAX -> 0 <= i < l ->
    slice_at sl i = Ok (sel sl i).
  Proof.
    intros (Hl & Hs & H) Hint Hn Hi. unfold slice_at, sel.
    assert (H0 : 0 <= sl_start sl + 0 * sl_step sl < n) by (apply H; lia).
    pose proof (H i Hi).
    rewrite int_ok by (unfold is_int, INT_MIN, INT_MAX in *; lia). cbn [obind].
    apply int_ok. unfold is_int, INT_MIN, INT_MAX in *; lia.
  Qed.

  Lemma sel_inj sl l n i i' : slice_in sl l n -> sel sl i = sel sl i' -> i = i'.
  Proof. intros (_ & Hs & _) H. unfold sel in H. nia. Qed.

  Lemma slice_at_ok' sl l n i : slice_in sl l n -> n <= INT_MAX -> 0 <= i < l ->
    slice_at sl i = Ok (sel sl i).
  Proof.
    intros H Hn Hi. eapply slice_at_ok; eauto.
    destruct H as (Hl & Hs & H). specialize (H 0 ltac:(lia)). unfold is_int, INT_MIN, INT_MAX in *. lia.
  Qed.

  Lemma view_pos_ok v r c i j : view_in v r c -> r <= INT_MAX -> c <= INT_MAX ->
    inr (v_rl v) (v_cl v) i j ->
    view_pos v i j = Ok (sel (v_rs v) i, sel (v_cs v) j) /\
    inr r c (sel (v_rs v) i) (sel (v_cs v) j).
  Proof.
    intros (Hr & Hc) Hri Hci Hij. unfold inr in *. unfold view_pos, oassert.
    replace ((0 <=? i) && (i <? v_rl v)) with true by lia.
    replace ((0 <=? j) && (j <? v_cl v)) with true by lia.
    rewrite (slice_at_ok' _ (v_rl v) r) by (auto; lia). cbn [obind].
    rewrite (slice_at_ok' _ (v_cl v) c) by (auto; lia). cbn [obind]. split; [reflexivity|].
    unfold sel. split; [apply Hr; lia|apply Hc; lia].
  Qed.

  (** Adjusting a slice to a dimension of size n gives a slice in that dimension. *)
  Lemma adjust_slice_in s e st n : 0 <= n <= INT_MAX -> is_int s -> is_int e ->
    - INT_MAX <= st <= INT_MAX -> st <> 0 ->
    exists sl len, adjust (mkSlice s e st) n = Ok (sl, len) /\ slice_in sl len n /\
      sl = mkSlice (py_clamp n st s) (py_clamp n st e) st.
  Proof.
    intros Hn Hs He Hst Hnz. destruct (adjust_spec n s e st Hn Hs He Hst Hnz) as (len & E1 & H1 & _ & H3).
    eexists _, len. split; [exact E1|]. split; [|reflexivity]. repeat split; cbn; try lia; try assumption.
    - apply H3; lia.
    - apply H3; lia.
  Qed.

  (** Assigning through a view: exactly the addressed elements change. *)
  Lemma view_assign_frame m r c v src (F : Z -> Z -> E) :
    wf m r c -> view_in v r c ->
    (forall m', wf m' r c -> ml_rows (src m') = v_rl v /\ ml_cols (src m') = v_cl v) ->
    (forall m' i j, wf m' r c -> inr (v_rl v) (v_cl v) i j ->
       (forall i' j', inr r c i' j' ->
          cell m' i' j' = cell m i' j' \/
          exists a b, inr (v_rl v) (v_cl v) a b /\ (a < i \/ (a = i /\ b < j)) /\
                      i' = sel (v_rs v) a /\ j' = sel (v_cs v) b /\ cell m' i' j' = Some (F a b)) ->
       ml_get (src m') i j = Ok (F i j)) ->
    exists m', view_assign m v src = Ok m' /\ wf m' r c /\
      (forall i j, inr (v_rl v) (v_cl v) i j -> cell m' (sel (v_rs v) i) (sel (v_cs v) j) = Some (F i j)) /\
      (forall i' j', inr r c i' j' ->
         (forall i j, inr (v_rl v) (v_cl v) i j -> ~ (i' = sel (v_rs v) i /\ j' = sel (v_cs v) j)) ->
         cell m' i' j' = cell m i' j').
  Proof.
    intros W V Hdim Hsrc. pose proof W as (W1 & W2 & (Wr & Wc & Wrc) & W4).
    unfold view_assign. destruct (Hdim m W) as [-> ->].
    rewrite !Z.eqb_refl. cbn [andb oassert].
    pose proof V as ((Vr0 & Vrs & _) & (Vc0 & Vcs & _)).
    destruct (for_rc_inv (fun x y m' => wf m' r c /\
        (forall i j, inr (v_rl v) (v_cl v) i j -> (i < x \/ (i = x /\ j < y)) ->
           cell m' (sel (v_rs v) i) (sel (v_cs v) j) = Some (F i j)) /\
        (forall i' j', inr r c i' j' ->
           (forall i j, inr (v_rl v) (v_cl v) i j -> (i < x \/ (i = x /\ j < y)) ->
              ~ (i' = sel (v_rs v) i /\ j' = sel (v_cs v) j)) ->
           cell m' i' j' = cell m i' j'))
      (fun row col m => let* e := ml_get (src m) row col in view_set m v row col e)
      (v_rl v) (v_cl v) m) as (m' & E1 & W' & H1 & H2).
    - lia.
    - lia.
    - split; [exact W|]. split; [unfold inr; intros; lia|auto].
    - intros x m' Hx (W' & H1 & H2). split; [exact W'|]. split.
      + intros i j Hij Hlt. apply H1; [exact Hij|]. unfold inr in Hij. lia.
      + intros i' j' Hij' Hno. apply H2; [exact Hij'|]. intros i j Hij Hlt. apply Hno; [exact Hij|].
        unfold inr in Hij; lia.
    - intros x y m' Hx Hy (W' & H1 & H2).
      rewrite Hsrc.
      + cbn [obind]. unfold view_set.
        destruct (view_pos_ok v r c x y V ltac:(lia) ltac:(lia) ltac:(unfold inr; lia)) as [-> Hin].
        cbn [obind].
        destruct (mat_set_ok m' r c _ _ (F x y) W' Hin) as (m'' & E1 & W'' & H'').
        exists m''. split; [exact E1|]. split; [exact W''|]. split.
        * intros i j Hij Hlt.
          destruct (view_pos_ok v r c i j V ltac:(lia) ltac:(lia) Hij) as [_ Hin'].
          rewrite H'' by exact Hin'.
          destruct ((sel (v_rs v) i =? sel (v_rs v) x) && (sel (v_cs v) j =? sel (v_cs v) y)) eqn:Eq.
          -- apply andb_prop in Eq. destruct Eq as [Eq1 Eq2].
             apply Z.eqb_eq in Eq1, Eq2.
             apply (sel_inj _ _ _ _ _ (proj1 V)) in Eq1. apply (sel_inj _ _ _ _ _ (proj2 V)) in Eq2.
             subst. reflexivity.
          -- apply H1; [exact Hij|].
             assert (~ (i = x /\ j = y)) by (intros [-> ->]; rewrite !Z.eqb_refl in Eq; discriminate). lia.
        * intros i' j' Hij' Hno. rewrite H'' by exact Hij'.
          destruct ((i' =? sel (v_rs v) x) && (j' =? sel (v_cs v) y)) eqn:Eq.
          -- exfalso. apply (Hno x y); [unfold inr; lia|lia|]. lia.
          -- apply H2; [exact Hij'|]. intros i j Hij Hlt. apply Hno; [exact Hij|lia].
      + exact W'.
      + unfold inr; lia.
      + intros i' j' Hij'.
        (* decide whether (i',j') was already written *)
        destruct (Z.eq_dec 0 0) as [_|]; [|lia].
        assert (D : forall (sl : slice) l n k, slice_in sl l n ->
                  (exists a, 0 <= a < l /\ k = sel sl a) \/ (forall a, 0 <= a < l -> k <> sel sl a)).
        { intros sl l n k (Hl & Hs & _). unfold sel.
          destruct (Z.eq_dec ((k - sl_start sl) mod sl_step sl) 0) as [Em|Em].
          - pose proof (Z.div_mod (k - sl_start sl) (sl_step sl) Hs) as Hdm.
            destruct (Z_lt_le_dec ((k - sl_start sl) / sl_step sl) 0).
            + right. intros a Ha ->. replace (sl_start sl + a * sl_step sl - sl_start sl) with (a * sl_step sl) in * by lia.
              rewrite Z.div_mul in * by assumption. lia.
            + destruct (Z_lt_le_dec ((k - sl_start sl) / sl_step sl) l).
              * left. exists ((k - sl_start sl) / sl_step sl). split; [lia|]. lia.
              * right. intros a Ha ->. replace (sl_start sl + a * sl_step sl - sl_start sl) with (a * sl_step sl) in * by lia.
                rewrite Z.div_mul in * by assumption. lia.
          - right. intros a Ha ->. apply Em.
            replace (sl_start sl + a * sl_step sl - sl_start sl) with (a * sl_step sl) by lia.
            apply Z.mod_mul; assumption. }
        destruct (D (v_rs v) (v_rl v) r i' (proj1 V)) as [(a & Ha & ->)|Na];
          [destruct (D (v_cs v) (v_cl v) c j' (proj2 V)) as [(b & Hb & ->)|Nb]|].
        * destruct (Z_lt_le_dec a x) as [L|L]; [|destruct (Z.eq_dec a x) as [->|Ne]; [destruct (Z_lt_le_dec b y)|]].
          -- right. exists a, b. split; [unfold inr; lia|]. split; [lia|]. split; [reflexivity|]. split; [reflexivity|].
             apply H1; [unfold inr; lia|lia].
          -- right. exists x, b. split; [unfold inr; lia|]. split; [lia|]. split; [reflexivity|]. split; [reflexivity|].
             apply H1; [unfold inr; lia|lia].
          -- left. apply H2; [exact Hij'|]. intros i j Hij Hlt [E1 E2].
             apply (sel_inj _ _ _ _ _ (proj1 V)) in E1. apply (sel_inj _ _ _ _ _ (proj2 V)) in E2. lia.
          -- left. apply H2; [exact Hij'|]. intros i j Hij Hlt [E1 E2].
             apply (sel_inj _ _ _ _ _ (proj1 V)) in E1. lia.
        * left. apply H2; [exact Hij'|]. intros i j Hij Hlt [E1 E2]. unfold inr in Hij. apply (Nb j); [lia|auto].
        * left. apply H2; [exact Hij'|]. intros i j Hij Hlt [E1 E2]. unfold inr in Hij. apply (Na i); [lia|auto].
    - exists m'. split; [exact E1|]. split; [exact W'|]. split.
      + intros i j Hij. apply H1; [exact Hij|]. unfold inr in Hij; lia.
      + intros i' j' Hij' Hno. apply H2; [exact Hij'|]. intros i j Hij _. apply Hno; exact Hij.
  Qed.
End Proofs.
