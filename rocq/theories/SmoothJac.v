(** Entries of Jacobian matrices at smooth points, over any scalar type that computes the user's mathematics. *)
From Coq Require Import ZArith Reals List Bool Arith Lia Lra.
From Coquelicot Require Import Coquelicot.
From Verif Require Import Base ExprModel GraphSpec GraphProofs ExprInv VarModel VarReach VarProofs AdjProofs JacModel JacProofs ExprReal MathSpec MathProofs
  DiffSpec OpDeriv OpMath GradProofs Faith SmoothGraph SmoothGrad SmoothTree SmoothOpen.
Import ListNotations.
Local Open Scope nat_scope.

Section Hits.
Context {S : sops}.
Implicit Types ts : list (@triplet S).
Local Notation zero := (s_ofZ S 0%Z).

(** The numbers that were put at position (i, j). *)
Definition hits ts i j : list S := flat_map (fun '(a, b, x) => if Nat.eqb a i && Nat.eqb b j then [x] else []) ts.
Lemma hits_app ts ts' i j : hits (ts ++ ts') i j = hits ts i j ++ hits ts' i j.
Proof. apply flat_map_app. Qed.
Lemma entry_from_hits ts i j : forall acc, entry_from acc ts i j =
  match fold_left (fun a x => Some (match a with Some y => s_add S y x | None => x end)) (hits ts i j) acc with Some x => x | None => zero end.
Proof.
  induction ts as [|[[a b] x] ts IH]; intros acc; [reflexivity|]. cbn [entry_from hits flat_map].
  destruct (Nat.eqb a i && Nat.eqb b j); rewrite IH; reflexivity.
Qed.
Lemma entry_none ts i j : hits ts i j = [] -> entry ts i j = zero.
Proof. intros H. unfold entry. rewrite entry_from_hits, H. reflexivity. Qed.
Lemma entry_one ts i j x : hits ts i j = [x] -> entry ts i j = x.
Proof. intros H. unfold entry. rewrite entry_from_hits, H. reflexivity. Qed.

Lemma hits_other ts i j : (forall a b x, In (a, b, x) ts -> a <> i \/ b <> j) -> hits ts i j = [].
Proof.
  induction ts as [|[[a b] x] ts IH]; intros H; [reflexivity|]. cbn. fold (hits ts i j). rewrite IH by (intros; apply (H a0 b0 x0); right; assumption).
  destruct (H a b x (or_introl eq_refl)) as [C|C]; apply Nat.eqb_neq in C; rewrite C; rewrite ?andb_false_r; reflexivity.
Qed.
Lemma lower_hits ts i j : j <= i -> hits (lower_part ts) i j = hits ts i j.
Proof.
  intros L. induction ts as [|[[a b] x] ts IH]; [reflexivity|]. cbn [lower_part filter]. destruct (Nat.leb b a) eqn:E; cbn [hits flat_map].
  - f_equal. exact IH.
  - destruct (Nat.eqb a i) eqn:E1; [|cbn [andb app]; exact IH]. destruct (Nat.eqb b j) eqn:E2; [|cbn [andb app]; exact IH].
    apply Nat.eqb_eq in E1, E2. subst. apply Nat.leb_gt in E. lia.
Qed.
Lemma lower_above ts i j : i < j -> hits (lower_part ts) i j = [].
Proof.
  intros L. apply hits_other. intros a b x H. unfold lower_part in H. apply filter_In in H as [_ H]. apply Nat.leb_le in H. lia.
Qed.
Lemma lower_entry ts i j : entry (lower_part ts) i j = if Nat.leb j i then entry ts i j else zero.
Proof.
  destruct (Nat.leb j i) eqn:E.
  - apply Nat.leb_le in E. unfold entry. rewrite !entry_from_hits, lower_hits by exact E. reflexivity.
  - apply Nat.leb_gt in E. apply entry_none, lower_above, E.
Qed.

Definition only (l : list nat) (w : nat) (x : S) : list S := if in_dec Nat.eq_dec w l then [x] else [].

Lemma hits_row i ns (val : nat -> S) wrt l j w : NoDup l -> NoDup wrt -> nth_error wrt j = Some w ->
  hits (row_triplets i ns val l (outs_of wrt l)) i j = only l w (adj_final ns val l (fun _ => zero) w).
Proof.
  intros NDl NDw Hw. unfold row_triplets, only. set (a := adj_final ns val l (fun _ => zero)).
  clearbody a. induction l as [|n l IH]; [reflexivity|]. inversion NDl as [|? ? Nn NDl']; subst.
  unfold outs_of. cbn [flat_map]. fold (outs_of wrt l). rewrite map_app, hits_app, (IH NDl').
  destruct (Nat.eq_dec n w) as [->|D].
  - rewrite (col_nodup wrt NDw 0 j w Hw). cbn. rewrite !Nat.eqb_refl. cbn.
    destruct (in_dec Nat.eq_dec w l); [contradiction|].
    destruct (Nat.eq_dec w w); [reflexivity|congruence].
  - assert (Z : hits (map (fun '(col, n0) => (i, col, a n0)) match col_from wrt 0 n with Some c => [(c, n)] | None => [] end) i j = []).
    { apply hits_other. intros p q x Hx. right. intros ->. destruct (col_from wrt 0 n) as [c|] eqn:Ec; [|destruct Hx].
      destruct Hx as [Hx|[]]. injection Hx as <- -> <-. apply col_some in Ec as [_ Ec]. rewrite Nat.sub_0_r in Ec. congruence. }
    rewrite Z. cbn [app]. destruct (in_dec Nat.eq_dec w l) as [I|N]; destruct (in_dec Nat.eq_dec w (n :: l)) as [I'|N']; try reflexivity.
    + exfalso. apply N'. right. exact I.
    + destruct I' as [->|I']; contradiction.
Qed.
Lemma hits_row_other i i' ns (val : nat -> S) wrt l j : i <> i' -> hits (row_triplets i ns val l (outs_of wrt l)) i' j = [].
Proof.
  intros D. apply hits_other. intros a b x H. left. apply in_map_iff in H as ([c n] & E & _). injection E as <- _ _. exact D.
Qed.

Lemma sorted_nodup' ns n l : sorted ns n l -> NoDup l.
Proof. intros [[_ ->]|[_ (H & _)]]; [constructor|exact H]. Qed.
Lemma nonlin_in_K ns vars : forall row i, In i (nonlin_of ns row vars) <-> row <= i /\
  exists n, nth_error vars (i - row) = Some (Some n) /\ etype_rank LINEAR < etype_rank (typ ns n).
Proof.
  induction vars as [|v vars IH]; intros row i; cbn [nonlin_of].
  - split; [intros H; destruct H|]. intros (_ & n & H & _). destruct (i - row); cbn in H; discriminate.
  - rewrite in_app_iff, IH. split.
    + intros [H|(H & n & E & T)].
      * destruct v as [n|]; [|destruct H]. destruct (Nat.ltb _ _) eqn:L; [|destruct H]. destruct H as [<-|[]]. split; [lia|].
        exists n. rewrite Nat.sub_diag. split; [reflexivity|]. apply Nat.ltb_lt in L. exact L.
      * split; [lia|]. exists n. replace (i - row) with (Datatypes.S (i - Datatypes.S row)) by lia. auto.
    + intros (H & n & E & T). destruct (Nat.eq_dec i row) as [->|D].
      * left. rewrite Nat.sub_diag in E. cbn in E. injection E as ->. apply Nat.ltb_lt in T. rewrite T. left. reflexivity.
      * right. split; [lia|]. exists n. replace (i - row) with (Datatypes.S (i - Datatypes.S row)) in E by lia. auto.
Qed.
Lemma nonlin_nodup_K ns vars : forall row, NoDup (nonlin_of ns row vars).
Proof.
  induction vars as [|v vars IH]; intros row; cbn [nonlin_of]; [constructor|].
  destruct v as [n|]; [|apply IH]. destruct (Nat.ltb _ _); [|apply IH]. cbn [app]. constructor; [|apply IH].
  intros H. apply nonlin_lt in H. lia.
Qed.

Section Matrix.
Context (s : st S) (wrt : list nat).
Hypothesis W : wf s.
Hypothesis C : clean_scr s.
Hypothesis NDw : NoDup wrt.
Hypothesis Kw : List.Forall (is_kvar (st_nodes s)) wrt.
Let ns := st_nodes s.
Let lv := st_val s.

Lemma lin_row_K n l w : n < nlen s -> sorted ns n l -> typ ns n = LINEAR -> is_kvar ns w -> In w l ->
  adj_final ns lv l (fun _ => zero) w = adj_final ns (eval ns lv) l (fun _ => zero) w.
Proof.
  intros Hn Hs T (nd & E & K) Hw. unfold adj_final.
  assert (TL : forall x, In x l -> typ ns x = LINEAR \/ typ ns x = CONSTANT).
  { intros x Hx. destruct Hs as [[_ ->]|[_ (_ & Hr & _)]]; [destruct Hx|]. apply (linear_reach _ n W T). apply Hr, Hx. }
  apply (adj_linear ns _ _ l W (closed_incl _ _ (sorted_closed _ _ _ Hs)) TL); auto using incl_refl.
  - intros x Hx Tx. destruct (typ_const _ _ W Tx) as (nd' & E' & K'). symmetry. apply (eval_leaf ns lv x nd' W E' (or_introl K')).
  - destruct (W w _ E) as [_ Ty]. rewrite K in Ty. cbn in Ty. unfold typ. fold ns in E. rewrite E. congruence.
Qed.

Definition adjK l w : S := adj_final ns (eval ns lv) l (fun _ => zero) w.

Lemma hits_lin vars : forall row lists i j w, Forall2 (sort_is s) vars lists -> nth_error wrt j = Some w ->
  hits (lin_triplets ns lv row vars lists wrt) i j =
    if Nat.leb row i then
      match nth_error vars (i - row), nth_error lists (i - row) with
      | Some (Some n), Some l => if etype_eqb (typ ns n) LINEAR then only l w (adjK l w) else []
      | _, _ => []
      end
    else [].
Proof.
  induction vars as [|v vars IH]; intros row lists i j w H Hw; inversion H as [|v' l vars' lists' Hv Hr]; subst.
  - cbn. destruct (Nat.leb row i); [|reflexivity]. destruct (i - row); reflexivity.
  - cbn [lin_triplets]. rewrite hits_app, (IH (Datatypes.S row) lists' i j w Hr Hw).
    destruct (Nat.eq_dec i row) as [->|D].
    + rewrite Nat.leb_refl, Nat.sub_diag. assert (X : Nat.leb (Datatypes.S row) row = false) by (apply Nat.leb_gt; lia). rewrite X. cbn [nth_error].
      rewrite app_nil_r. destruct v as [n|]; [|reflexivity]. destruct (etype_eqb (typ ns n) LINEAR) eqn:T; [|reflexivity].
      pose proof (sort_is_sorted s n l W C Hv) as Hs. rewrite (hits_row row ns lv wrt l j w); [|eapply sorted_nodup'; exact Hs|exact NDw|exact Hw].
      unfold only. destruct (in_dec Nat.eq_dec w l) as [I|N]; [|reflexivity]. f_equal.
      apply (lin_row_K n l w (proj1 Hv) Hs); [apply etype_eqb_eq, T| |exact I].
      rewrite Forall_forall in Kw. apply Kw. eapply nth_error_In; eauto.
    + assert (Z : hits match v with Some n => if etype_eqb (typ ns n) LINEAR then row_triplets row ns lv l (outs_of wrt l) else []
                       | None => [] end i j = []).
      { destruct v as [n|]; [|reflexivity]. destruct (etype_eqb (typ ns n) LINEAR); [|reflexivity]. apply hits_row_other. congruence. }
      rewrite Z. cbn [app]. destruct (Nat.leb row i) eqn:L1.
      * apply Nat.leb_le in L1. assert (X : Nat.leb (Datatypes.S row) i = true) by (apply Nat.leb_le; lia). rewrite X.
        replace (i - row) with (Datatypes.S (i - Datatypes.S row)) by lia. reflexivity.
      * apply Nat.leb_gt in L1. assert (X : Nat.leb (Datatypes.S row) i = false) by (apply Nat.leb_gt; lia). rewrite X. reflexivity.
Qed.

Lemma hits_nl rows lists i j w : NoDup rows -> nth_error wrt j = Some w ->
  (forall r l, In r rows -> nth_error lists r = Some l -> NoDup l) ->
  hits (nl_triplets ns lv rows lists wrt) i j =
    if in_dec Nat.eq_dec i rows then match nth_error lists i with Some l => only l w (adjK l w) | None => [] end else [].
Proof.
  intros ND Hw Hl. unfold nl_triplets. induction rows as [|r rows IH]; [reflexivity|]. inversion ND as [|? ? Nr ND']; subst.
  cbn [flat_map]. rewrite hits_app, (IH ND') by (intros r0 l0 Hr0 El0; apply (Hl r0 l0); [right; exact Hr0|exact El0]).
  destruct (Nat.eq_dec r i) as [->|D].
  - destruct (in_dec Nat.eq_dec i rows); [contradiction|].
    destruct (in_dec Nat.eq_dec i (i :: rows)) as [I|N]; [|exfalso; apply N; left; reflexivity].
    rewrite app_nil_r. destruct (nth_error lists i) as [l|] eqn:El; [|reflexivity].
    apply hits_row; auto. eapply Hl; [left; reflexivity|exact El].
  - assert (Z : hits match nth_error lists r with Some l => row_triplets r ns (eval ns lv) l (outs_of wrt l) | None => [] end i j = []).
    { destruct (nth_error lists r); [|reflexivity]. apply hits_row_other. exact D. }
    rewrite Z. cbn [app]. destruct (in_dec Nat.eq_dec i rows) as [I|N]; destruct (in_dec Nat.eq_dec i (r :: rows)) as [I'|N']; try reflexivity.
    + exfalso. apply N'. right. exact I.
    + destruct I' as [->|I']; contradiction.
Qed.

(** Every entry of the matrix is the adjoint of its column in its row. *)
Lemma matrix_hits (j : jac S) i c w : jacok s j -> j_wrt j = wrt -> nth_error wrt c = Some w ->
  hits (jac_matrix s j) i c = match nth_error (j_lists j) i with Some l => only l w (adjK l w) | None => [] end.
Proof.
  intros (_ & Hl & _ & Hn & Hc & _) Ew Hw. unfold jac_matrix. rewrite hits_app, Hc, Ew. fold ns. fold lv.
  rewrite (hits_lin (j_vars j) 0 (j_lists j) i c w Hl Hw).
  fold ns in Hn. rewrite (hits_nl (j_nonlin j) (j_lists j) i c w); [| |exact Hw|].
  2:{ rewrite Hn. apply nonlin_nodup_K. }
  2:{ intros r l Hr El. rewrite Hn in Hr. apply nonlin_in_K in Hr as (_ & n & En & _). rewrite Nat.sub_0_r in En.
      pose proof (Forall2_nth _ _ _ _ _ _ Hl En El) as Hs. eapply sorted_nodup'. apply (sort_is_sorted s n l W C Hs). }
  cbn [Nat.leb]. rewrite Nat.sub_0_r.
  destruct (nth_error (j_lists j) i) as [l|] eqn:El.
  2:{ assert (Ev : nth_error (j_vars j) i = None).
      { apply nth_error_None. apply nth_error_None in El. rewrite (Forall2_len _ _ _ Hl). exact El. }
      rewrite Ev. destruct (in_dec _ _ _); reflexivity. }
  destruct (nth_error (j_vars j) i) as [v|] eqn:Ev.
  2:{ apply nth_error_None in Ev. assert (i < length (j_lists j)) by (apply nth_error_Some; congruence).
      rewrite <- (Forall2_len _ _ _ Hl) in H. lia. }
  pose proof (Forall2_nth _ _ _ _ _ _ Hl Ev El) as Hs.
  assert (HN : In i (j_nonlin j) <-> exists n, v = Some n /\ etype_rank LINEAR < etype_rank (typ ns n)).
  { rewrite Hn, nonlin_in_K, Nat.sub_0_r, Ev. split.
    - intros (_ & n & E & T). exists n. split; [congruence|exact T].
    - intros (n & -> & T). split; [lia|]. exists n. auto. }
  destruct v as [n|].
  - destruct (typ_cases s n W (proj1 Hs)) as [T|[T|[T|T]]]; fold ns in T; rewrite T; unfold etype_eqb; cbn [etype_rank Nat.eqb].
    + destruct (in_dec Nat.eq_dec i (j_nonlin j)) as [I|N].
      * apply HN in I as (m & Em & Tm). injection Em as <-. rewrite T in Tm. cbn in Tm. lia.
      * pose proof (sort_is_sorted s n l W C Hs) as [[_ ->]|[T' _]]; [reflexivity|fold ns in T'; contradiction].
    + destruct (in_dec Nat.eq_dec i (j_nonlin j)) as [I|N]; [|apply app_nil_r].
      apply HN in I as (m & Em & Tm). injection Em as <-. rewrite T in Tm. cbn in Tm. lia.
    + destruct (in_dec Nat.eq_dec i (j_nonlin j)) as [I|N]; [reflexivity|]. exfalso. apply N, HN. exists n. rewrite T. cbn. auto.
    + destruct (in_dec Nat.eq_dec i (j_nonlin j)) as [I|N]; [reflexivity|]. exfalso. apply N, HN. exists n. rewrite T. cbn. auto.
  - cbn in Hs. subst l. destruct (in_dec Nat.eq_dec i (j_nonlin j)) as [I|N]; [apply HN in I as (m & Em & _); discriminate|]. reflexivity.
Qed.
End Matrix.
End Hits.

Section Entries.
Context {K : sops} {FK : faith K} {FK2 : faith2 K}.
Context (s : st K) (j : jac K) (i c w n : nat) (v : R).
Hypothesis W : wf s.
Hypothesis C : clean_scr s.
Hypothesis Hj : jacok s j.
Hypothesis NDw : NoDup (j_wrt j).
Hypothesis Kw : List.Forall (is_kvar (st_nodes s)) (j_wrt j).
Hypothesis Hw : nth_error (j_wrt j) c = Some w.

(** The entry of a row that is smooth at the current point. *)
Lemma smooth_entry : nth_error (j_vars j) i = Some (Some n) -> GSm (st_nodes s) (st_val s) n v ->
  exists l, sorted (st_nodes s) n l /\ entry (jac_matrix s j) i c = inj (row_entry (st_nodes s) (prv (st_val s)) l w).
Proof.
  intros Hn G. pose proof Hj as (_ & Hl & _).
  assert (Kv : is_kvar (st_nodes s) w) by (rewrite Forall_forall in Kw; apply Kw; eapply nth_error_In; eauto).
  destruct (nth_error (j_lists j) i) as [l|] eqn:El.
  2:{ apply nth_error_None in El. rewrite <- (Forall2_len _ _ _ Hl) in El. apply nth_error_None in El. congruence. }
  pose proof (Forall2_nth _ _ _ _ _ _ Hl Hn El) as Hs. pose proof (sort_is_sorted s n l W C Hs) as So. exists l. split; [exact So|].
  pose proof (matrix_hits s (j_wrt j) W C NDw Kw j i c w Hj eq_refl Hw) as H. rewrite El in H. unfold only in H. unfold row_entry.
  destruct (in_dec Nat.eq_dec w l) as [I|N]; [|rewrite (entry_none _ _ _ H); apply f_ofZ].
  rewrite (entry_one _ _ _ _ H). unfold adjK. apply (final_same (st_nodes s) (st_val s) n v l W G).
  - destruct So as [[_ ->]|[_ (_ & Hr & _)]]; [destruct I|]. intros m Hm. apply Hr, Hm.
  - destruct Kv as (nd & E & Kd). unfold typ. rewrite E. destruct (W w _ E) as [_ Ty]. rewrite Kd in Ty. cbn in Ty. congruence.
Qed.

(** ... it is the partial derivative. *)
Lemma entry_derive x0 : nth_error (j_vars j) i = Some (Some n) -> GSm (st_nodes s) (st_val s) n v -> st_val s w = inj x0 ->
  exists d, entry (jac_matrix s j) i c = inj d /\ is_derive (path (st_nodes s) (st_val s) w n) x0 d.
Proof.
  intros Hn G Lw. destruct (smooth_entry Hn G) as (l & So & E). eexists. split; [exact E|].
  apply (GSm_derive (st_nodes s) (st_val s) w x0 W) with (v := v); auto.
  rewrite Forall_forall in Kw. apply Kw. eapply nth_error_In; eauto.
Qed.
Lemma null_entry : nth_error (j_vars j) i = Some None -> entry (jac_matrix s j) i c = inj 0%R.
Proof.
  intros Hn. pose proof Hj as (_ & Hl & _). pose proof (matrix_hits s (j_wrt j) W C NDw Kw j i c w Hj eq_refl Hw) as H.
  rewrite (entry_none _ _ _); [apply f_ofZ|]. rewrite H. destruct (nth_error (j_lists j) i) as [l|] eqn:El; [|reflexivity].
  pose proof (Forall2_nth _ _ _ _ _ _ Hl Hn El) as Hs. cbn in Hs. subst l. reflexivity.
Qed.
End Entries.
