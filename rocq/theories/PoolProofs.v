From Coq Require Import ZArith List Lia Bool Permutation.
From Verif Require Import Base PoolModel PoolSpec.
Import ListNotations.
Open Scope Z_scope.

Fixpoint all_blocks (bs : Z) (n : nat) (chunks : nat) : list addr :=
  match chunks with
  | O => []
  | S c => chunk_blocks c bs n ++ all_blocks bs n c
  end.

Definition inv (bs bpc : Z) (p : pool) (live : list blk) : Prop :=
  p_bpc p = bpc /\ p_chunks p = repeat (bs * bpc) (length (p_chunks p)) /\
  Permutation (map fst live ++ p_free p) (all_blocks bs (Z.to_nat bpc) (length (p_chunks p))) /\
  (forall b, In b live -> 0 < snd b <= bs).

Lemma repeat_snoc {A} (x : A) n : repeat x n ++ [x] = repeat x (S n).
Proof. induction n; cbn; [reflexivity|]. rewrite IHn. reflexivity. Qed.

Lemma hist_inv bs bpc p live na nd : 0 < bs -> 0 < bpc -> hist bs bpc p live na nd ->
  inv bs bpc p live /\ Z.of_nat na - Z.of_nat nd = Z.of_nat (length live).
Proof.
  intros Hbs Hbpc H. induction H as [|p live na nd k a p' H (IH & IHn) Hk Hfull E|p l1 b l2 na nd H (IH & IHn)].
  - split; [|reflexivity]. split; [reflexivity|]. split; [reflexivity|]. split; [constructor|]. intros b [].
  - destruct IH as (I1 & I2 & I3 & I4). unfold allocate in E.
    destruct (p_free p) as [|x f] eqn:Ef.
    + apply obind_ok in E. destruct E as (p1 & E1 & E). unfold add_chunk in E1.
      destruct (_ <=? _); [|discriminate]. injection E1 as <-. cbn [p_free p_chunks p_bpc] in E.
      rewrite Ef, app_nil_r in E. rewrite (Hfull eq_refl) in *.
      destruct (chunk_blocks (length (p_chunks p)) bs (Z.to_nat (p_bpc p))) as [|y f] eqn:Ec; [discriminate|].
      injection E as <- <-. split.
      * split; [exact I1|]. split.
        { cbn. rewrite app_length. cbn [length]. rewrite Nat.add_1_r, <- repeat_snoc, <- I2, I1. reflexivity. }
        split.
        { cbn [p_free p_chunks map fst]. rewrite app_length. cbn [length]. rewrite Nat.add_1_r. cbn [all_blocks].
          rewrite <- I1, Ec. cbn [app]. constructor. rewrite Permutation_app_comm. apply Permutation_app_head.
          rewrite app_nil_r in I3. rewrite I1. exact I3. }
        { intros b [<-|Hb]; [cbn; lia|auto]. }
      * cbn [length]. lia.
    + cbn [obind] in E. rewrite Ef in E. injection E as <- <-. split.
      * split; [exact I1|]. split; [exact I2|]. split.
        { cbn [p_free p_chunks map fst]. eapply Permutation_trans; [|exact I3]. cbn [app].
          symmetry. symmetry. apply Permutation_middle. }
        { intros b [<-|Hb]; [cbn; lia|auto]. }
      * cbn [length]. lia.
  - destruct IH as (I1 & I2 & I3 & I4). split.
    + split; [exact I1|]. split; [exact I2|]. split.
      * unfold deallocate. cbn [p_free p_chunks]. eapply Permutation_trans; [|exact I3].
        rewrite !map_app. cbn [map]. rewrite <- !app_assoc. cbn [app]. apply Permutation_app_head.
        symmetry. apply Permutation_middle.
      * intros x Hx. apply I4. apply in_app_iff in Hx. apply in_app_iff. cbn. tauto.
    + rewrite app_length in *. cbn [length] in IHn. lia.
Qed.

Lemma in_all_blocks bs n m c o : In (c, o) (all_blocks bs n m) <->
  (c < m)%nat /\ exists i, (i < n)%nat /\ o = bs * Z.of_nat i.
Proof.
  induction m; cbn [all_blocks]; [cbn; split; [tauto|lia]|].
  rewrite in_app_iff, IHm. unfold chunk_blocks. rewrite in_map_iff. split.
  - intros [(i & E & Hi)|(Hc & i & Hi)].
    + injection E as <- <-. apply in_seq in Hi. split; [lia|]. exists i. split; [lia|reflexivity].
    + split; [lia|]. eauto.
  - intros (Hc & i & Hi & ->). destruct (Nat.eq_dec c m) as [->|N].
    + left. exists i. split; [reflexivity|]. apply in_seq. lia.
    + right. split; [lia|]. eauto.
Qed.

Lemma all_blocks_nodup bs n m : 0 < bs -> NoDup (all_blocks bs n m).
Proof.
  intros Hbs. induction m; cbn [all_blocks]; [constructor|].
  assert (N1 : NoDup (chunk_blocks m bs n)).
  { unfold chunk_blocks. apply FinFun.Injective_map_NoDup; [|apply seq_NoDup].
    intros i j E. injection E as E. nia. }
  assert (D : forall a, In a (chunk_blocks m bs n) -> In a (all_blocks bs n m) -> False).
  { intros [c o] H1 H2. apply in_all_blocks in H2. unfold chunk_blocks in H1. apply in_map_iff in H1.
    destruct H1 as (i & E & _). injection E as <- _. lia. }
  revert N1 D. generalize (chunk_blocks m bs n). induction l as [|a l IHl]; intros N D; cbn; [exact IHm|].
  inversion N; subst. constructor.
  - intros Hin. apply in_app_iff in Hin. destruct Hin as [Hin|Hin]; [tauto|]. apply (D a); [left; auto|exact Hin].
  - apply IHl; [assumption|]. intros x Hx. apply D. right; exact Hx.
Qed.

Lemma all_blocks_length bs n m : length (all_blocks bs n m) = (m * n)%nat.
Proof.
  induction m; cbn [all_blocks]; [reflexivity|]. rewrite app_length, IHm. unfold chunk_blocks.
  rewrite map_length, seq_length. lia.
Qed.

(** In any list of blocks addressed by [all_blocks], distinct addresses give disjoint blocks. *)
Lemma blocks_disjoint bs n m b b' : 0 < bs ->
  In (fst b) (all_blocks bs n m) -> In (fst b') (all_blocks bs n m) -> fst b <> fst b' ->
  snd b <= bs -> snd b' <= bs -> disjoint b b'.
Proof.
  intros Hbs H1 H2 Hne S1 S2 c x (A1 & A2) (B1 & B2).
  destruct b as [[c1 o1] s1], b' as [[c2 o2] s2]. cbn [fst snd] in *.
  apply in_all_blocks in H1, H2. destruct H1 as (_ & i & _ & ->), H2 as (_ & j & _ & ->).
  assert (i <> j) by (intros ->; apply Hne; congruence). nia.
Qed.

Lemma pool_safe bs bpc p live na nd : 0 < bs -> 0 < bpc -> hist bs bpc p live na nd ->
  (forall l1 b l2 b' l3, live = l1 ++ b :: l2 ++ b' :: l3 -> disjoint b b') /\
  (forall b, In b live -> owned p b) /\
  (forall b a, In b live -> In a (p_free p) -> disjoint b (a, bs)) /\
  blocks_in_use p = Z.of_nat na - Z.of_nat nd /\ 0 <= blocks_in_use p.
Proof.
  intros Hbs Hbpc H. destruct (hist_inv bs bpc p live na nd Hbs Hbpc H) as ((I1 & I2 & I3 & I4) & Hn).
  pose proof (all_blocks_nodup bs (Z.to_nat bpc) (length (p_chunks p)) Hbs) as N.
  pose proof (Permutation_NoDup (Permutation_sym I3) N) as N'.
  assert (Hin : forall b, In b live -> In (fst b) (all_blocks bs (Z.to_nat bpc) (length (p_chunks p)))).
  { intros b Hb. eapply Permutation_in; [exact I3|]. apply in_app_iff. left. apply in_map. exact Hb. }
  split; [|split; [|split]].
  - intros l1 b l2 b' l3 E. apply (blocks_disjoint bs (Z.to_nat bpc) (length (p_chunks p))); try assumption.
    + apply Hin. rewrite E. apply in_app_iff. right. left. reflexivity.
    + apply Hin. rewrite E. apply in_app_iff. right. right. apply in_app_iff. right. left. reflexivity.
    + intros Eq. rewrite E in N'. rewrite !map_app in N'. cbn [map] in N'. rewrite map_app in N'. cbn [map] in N'.
      rewrite <- app_assoc in N'. apply NoDup_remove_2 in N'. apply N'.
      rewrite Eq. apply in_app_iff. right. cbn. apply in_app_iff. left. apply in_app_iff. right. left. reflexivity.
    + apply I4. rewrite E. apply in_app_iff. right. left. reflexivity.
    + apply I4. rewrite E. apply in_app_iff. right. right. apply in_app_iff. right. left. reflexivity.
  - intros b Hb c x (A1 & A2). pose proof (Hin b Hb) as Hib. pose proof (I4 b Hb) as Hs.
    destruct b as [[c1 o1] s1]. cbn [fst snd] in *. subst c1. apply in_all_blocks in Hib.
    destruct Hib as (Hc & i & Hi & ->). exists (bs * bpc). split.
    + rewrite I2. apply nth_error_repeat. exact Hc.
    + nia.
  - intros b a Hb Ha. apply (blocks_disjoint bs (Z.to_nat bpc) (length (p_chunks p))); try assumption.
    + apply Hin; exact Hb.
    + eapply Permutation_in; [exact I3|]. apply in_app_iff. right. exact Ha.
    + cbn. intros <-. apply in_split in Ha. destruct Ha as (f1 & f2 & Ef). rewrite Ef in N'.
      rewrite app_assoc in N'. apply NoDup_remove_2 in N'. apply N'. apply in_app_iff. left.
      apply in_app_iff. left. apply in_map. exact Hb.
    + apply I4; exact Hb.
    + cbn. lia.
  - apply Permutation_length in I3. rewrite app_length, map_length, all_blocks_length in I3.
    unfold blocks_in_use. rewrite I1. apply (f_equal Z.of_nat) in I3.
    rewrite Nat2Z.inj_add, Nat2Z.inj_mul, Z2Nat.id in I3 by lia. unfold blk in *. lia.
Qed.

Lemma pool_total bs bpc p live na nd k : 0 < bs -> 0 < bpc -> bs * bpc <= SIZE_MAX ->
  hist bs bpc p live na nd -> (p_free p = [] -> k = bs) ->
  exists a p', allocate p k = Ok (a, p') /\
    (p_free p <> [] -> p_chunks p' = p_chunks p /\ In a (p_free p)).
Proof.
  intros Hbs Hbpc Hsz H Hk. destruct (hist_inv bs bpc p live na nd Hbs Hbpc H) as ((I1 & I2 & I3 & I4) & Hn).
  unfold allocate. destruct (p_free p) as [|x f] eqn:Ef.
  - rewrite (Hk eq_refl). unfold add_chunk. rewrite I1. replace (bs * bpc <=? SIZE_MAX) with true by (symmetry; apply Z.leb_le; lia).
    cbn [obind p_free]. destruct (Z.to_nat bpc) as [|n] eqn:E; [lia|]. cbn.
    eexists _, _. split; [reflexivity|]. congruence.
  - cbn [obind]. rewrite Ef. eexists _, _. split; [reflexivity|]. intros _. split; [reflexivity|left; reflexivity].
Qed.
