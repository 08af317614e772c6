(** Jacobian construction and evaluation, for every scalar type. *)
From Coq Require Import ZArith List Bool Arith Lia.
From Verif Require Import Base ExprModel GraphSpec GraphProofs ExprInv VarModel VarReach VarProofs AdjProofs JacModel.
Import ListNotations.

(** ** Sorting does not depend on younger nodes. *)
Lemma visit_pt d t l : forall scr scr' stack, (forall n, scr n = scr' n) ->
  snd (visit scr d t l stack) = snd (visit scr' d t l stack) /\
  forall n, fst (visit scr d t l stack) n = fst (visit scr' d t l stack) n.
Proof.
  induction l as [|a l IH]; intros scr scr' stack H; cbn [visit]; [auto|].
  rewrite (H a). apply IH. intros n. unfold upd. destruct (Nat.eqb n a); [reflexivity|apply H].
Qed.

Lemma visit_in d t l : forall scr stack n, In n (snd (visit scr d t l stack)) -> In n l \/ In n stack.
Proof.
  induction l as [|a l IH]; intros scr stack n H; cbn [visit] in H; [auto|].
  apply IH in H as [H|H]; [left; right; exact H|]. destruct (_ =? _)%Z; [|auto].
  destruct H as [->|H]; [left; left; reflexivity|auto].
Qed.

Lemma Forall2_impl {A B} (R R' : A -> B -> Prop) l l' : (forall a b, R a b -> R' a b) -> Forall2 R l l' -> Forall2 R' l l'.
Proof. intros H. induction 1; constructor; auto. Qed.

Section SortExt.
Context (ns more : list node).
Hypothesis A : acyclic_nodes ns.

Lemma args_lt n a nd : nth_error ns n = Some nd -> In a (n_args nd) -> a < length ns.
Proof.
  intros E H. assert (a < n) by (apply A; unfold args; rewrite E; exact H).
  assert (n < length ns) by (apply nth_error_Some; congruence). lia.
Qed.

Lemma count_ext fuel : forall fuel' stack scr scr' r, fuel <= fuel' -> (forall n, In n stack -> n < length ns) ->
  (forall n, scr n = scr' n) -> count_edges fuel ns stack scr = Ok r ->
  exists r', count_edges fuel' (ns ++ more) stack scr' = Ok r' /\ forall n, r n = r' n.
Proof.
  induction fuel as [|fuel IH]; intros fuel' stack scr scr' r Hf Hs Hp E.
  - destruct stack as [|x stack]; [|discriminate]. cbn in E. injection E as <-.
    exists scr'. split; [destruct fuel'; reflexivity|exact Hp].
  - destruct stack as [|x stack].
    { cbn in E. injection E as <-. exists scr'. split; [destruct fuel'; reflexivity|exact Hp]. }
    destruct fuel' as [|fuel']; [lia|]. cbn [count_edges] in E |- *.
    assert (Hx : x < length ns) by (apply Hs; left; reflexivity). rewrite nth_error_app1 by exact Hx.
    destruct (nth_error ns x) as [nd|] eqn:Ex; [|discriminate].
    destruct (visit_pt 1 0 (n_args nd) scr scr' stack Hp) as [V1 V2].
    destruct (visit scr 1 0 (n_args nd) stack) as [c1 k1] eqn:Y1. destruct (visit scr' 1 0 (n_args nd) stack) as [c2 k2] eqn:Y2.
    cbn in V1, V2. subst k2. eapply IH; [lia| |exact V2|exact E].
    intros n Hn. assert (Hn' : In n (snd (visit scr 1 0 (n_args nd) stack))) by (rewrite Y1; exact Hn).
    apply visit_in in Hn' as [Hn'|Hn']; [eapply args_lt; eauto|apply Hs; right; exact Hn'].
Qed.

Lemma emit_ext fuel : forall fuel' stack scr scr' out o r, fuel <= fuel' -> (forall n, In n stack -> n < length ns) ->
  (forall n, scr n = scr' n) -> emit fuel ns stack scr out = Ok (o, r) ->
  exists r', emit fuel' (ns ++ more) stack scr' out = Ok (o, r').
Proof.
  induction fuel as [|fuel IH]; intros fuel' stack scr scr' out o r Hf Hs Hp E.
  - destruct stack as [|x stack]; [|discriminate]. cbn in E. injection E as <- <-.
    exists scr'. destruct fuel'; reflexivity.
  - destruct stack as [|x stack].
    { cbn in E. injection E as <- <-. exists scr'. destruct fuel'; reflexivity. }
    destruct fuel' as [|fuel']; [lia|]. cbn [emit] in E |- *.
    assert (Hx : x < length ns) by (apply Hs; left; reflexivity). rewrite nth_error_app1 by exact Hx.
    destruct (nth_error ns x) as [nd|] eqn:Ex; [|discriminate].
    destruct (visit_pt (-1) (-1) (n_args nd) scr scr' stack Hp) as [V1 V2].
    destruct (visit scr (-1) (-1) (n_args nd) stack) as [c1 k1] eqn:Y1.
    destruct (visit scr' (-1) (-1) (n_args nd) stack) as [c2 k2] eqn:Y2.
    cbn in V1, V2. subst k2. eapply IH; [lia| |exact V2|exact E].
    intros n Hn. assert (Hn' : In n (snd (visit scr (-1) (-1) (n_args nd) stack))) by (rewrite Y1; exact Hn).
    apply visit_in in Hn' as [Hn'|Hn']; [eapply args_lt; eauto|apply Hs; right; exact Hn'].
Qed.
End SortExt.

Section Gen.
Context {S : sops}.
Implicit Types s : st S.
Local Notation zero := (s_ofZ S 0%Z).

Definition grows s s' : Prop := exists more, st_nodes s' = st_nodes s ++ more.

Lemma grows_refl s : grows s s. Proof. exists []. rewrite app_nil_r. reflexivity. Qed.
Lemma grows_trans a b c : grows a b -> grows b c -> grows a c.
Proof. intros [m E] [m' E']. exists (m ++ m'). rewrite E', E, app_assoc. reflexivity. Qed.
Lemma grows_same s s' : st_nodes s' = st_nodes s -> grows s s'.
Proof. intros E. exists []. rewrite app_nil_r. exact E. Qed.
Lemma grows_ext s s' : ext s s' -> grows s s'. Proof. intros (H & _). exact H. Qed.
Lemma grows_nth s s' n nd : grows s s' -> nth_error (st_nodes s) n = Some nd -> nth_error (st_nodes s') n = Some nd.
Proof. intros (m & E) H. rewrite E. rewrite nth_error_app1; [exact H|]. apply nth_error_Some. congruence. Qed.
Lemma grows_len s s' : grows s s' -> nlen s <= nlen s'.
Proof. intros (m & E). unfold nlen. rewrite E, app_length. lia. Qed.
Lemma grows_typ s s' n : grows s s' -> n < nlen s -> typ (st_nodes s') n = typ (st_nodes s) n.
Proof. intros (m & E) H. rewrite E. apply typ_app. exact H. Qed.

(** The list a variable is sorted into. *)
Definition sort_is s (v : @ptr) (l : list nat) : Prop :=
  match v with
  | None => l = []
  | Some n => n < nlen s /\ exists scr, topological_sort (Some n) s = Ok (l, with_scr s scr)
  end.

Lemma sort_is_sorted s n l : wf s -> clean_scr s -> sort_is s (Some n) l -> sorted (st_nodes s) n l.
Proof.
  intros W C (Hn & scr & E). destruct (topological_sort_ok s n W C Hn) as (l' & scr' & E' & Hs & _).
  rewrite E in E'. injection E' as -> _. exact Hs.
Qed.

Lemma sort_is_grows s s' v l : wf s -> clean_scr s -> clean_scr s' -> grows s s' -> sort_is s v l -> sort_is s' v l.
Proof.
  intros W C C' (more & N) H. destruct v as [n|]; [|exact H]. destruct H as (Hn & scr & E).
  assert (L : nlen s <= nlen s') by (apply grows_len; exists more; exact N). split; [lia|].
  destruct (nth_valid s n Hn) as (nd & En). unfold topological_sort in *. rewrite En in E.
  rewrite N, nth_error_app1, En by exact Hn.
  destruct (etype_eqb (n_type nd) CONSTANT).
  - injection E as <- _. exists (st_scr s'). destruct s'; reflexivity.
  - destruct (sort_ok (st_nodes s) n (wfn_acyclic _ W) Hn (st_scr s) C) as (scr1 & out & scr2 & E1 & E2 & _).
    rewrite E1 in E. cbn [obind] in E. rewrite E2 in E. cbn [obind] in E. injection E as <- _.
    destruct (count_ext (st_nodes s) more (wfn_acyclic _ W) (length (st_nodes s)) (length (st_nodes s ++ more)) [n] (st_scr s) (st_scr s') scr1)
      as (r1 & F1 & P1); [rewrite app_length; lia|intros m [<-|[]]; exact Hn|intros m; rewrite C, C'; reflexivity|exact E1|].
    destruct (emit_ext (st_nodes s) more (wfn_acyclic _ W) (length (st_nodes s)) (length (st_nodes s ++ more)) [n] scr1 r1 [] out scr2)
      as (r2 & F2); [rewrite app_length; lia|intros m [<-|[]]; exact Hn|exact P1|exact E2|].
    rewrite F1. cbn [obind]. rewrite F2. cbn [obind]. exists r2. unfold with_scr. rewrite N. reflexivity.
Qed.

(** ** Sorted lists as closed sets. *)
Lemma sorted_closed ns r l : sorted ns r l -> closed_order ns l.
Proof. intros [[_ ->]|[_ T]]; [intros l1 x l2 X; destruct l1; discriminate|exact (topological_closed _ _ _ T)]. Qed.
Lemma sorted_valid s r l : wf s -> r < nlen s -> sorted (st_nodes s) r l -> forall n, In n l -> n < nlen s.
Proof. intros W Hr [[_ ->]|[_ T]]; [intros n []|exact (topological_valid s r l W Hr T)]. Qed.
Lemma closed_incl ns l : closed_order ns l -> forall n, In n l -> incl (args ns n) l.
Proof.
  intros H n Hn a Ha. apply in_split in Hn as (l1 & l2 & E). specialize (H l1 n l2 E a Ha). rewrite E.
  apply in_or_app. right. right. exact H.
Qed.

(** ** Columns. *)
Fixpoint col_from (wrt : list nat) (c n : nat) : option nat :=
  match wrt with
  | [] => None
  | w :: rest => match col_from rest (Datatypes.S c) n with
                 | Some k => Some k
                 | None => if Nat.eqb n w then Some c else None
                 end
  end.
Definition outs_of (wrt l : list nat) : list (nat * nat) :=
  flat_map (fun n => match col_from wrt 0 n with Some c => [(c, n)] | None => [] end) l.

Lemma outs_in wrt l c n : In (c, n) (outs_of wrt l) <-> In n l /\ col_from wrt 0 n = Some c.
Proof.
  unfold outs_of. rewrite in_flat_map. split.
  - intros (m & Hm & H). destruct (col_from wrt 0 m) eqn:E; [|destruct H]. destruct H as [H|[]]. injection H as <- <-. auto.
  - intros [H E]. exists n. rewrite E. split; [exact H|left; reflexivity].
Qed.

Lemma set_cols_ok wrt : forall col s, exists scr, set_cols wrt col s = Ok (tt, with_scr s scr) /\
  forall n, scr n = match col_from wrt col n with Some c => Z.of_nat c | None => st_scr s n end.
Proof.
  induction wrt as [|w wrt IH]; intros col s; cbn [set_cols col_from].
  - exists (st_scr s). split; [destruct s; reflexivity|reflexivity].
  - destruct (IH (Datatypes.S col) (set_scr s w (Z.of_nat col))) as (scr & E & H). exists scr. split; [exact E|].
    intros n. rewrite H. destruct (col_from wrt (Datatypes.S col) n); [reflexivity|]. cbn. unfold upd.
    destruct (Nat.eqb n w); reflexivity.
Qed.

Lemma reset_cols_ok wrt : forall s, exists scr, reset_cols wrt s = Ok (tt, with_scr s scr) /\
  forall n, scr n = if in_dec Nat.eq_dec n wrt then (-1)%Z else st_scr s n.
Proof.
  induction wrt as [|w wrt IH]; intros s; cbn [reset_cols].
  - exists (st_scr s). split; [destruct s; reflexivity|reflexivity].
  - destruct (IH (set_scr s w (-1))) as (scr & E & H). exists scr. split; [exact E|].
    intros n. rewrite H. cbn [st_scr set_scr]. unfold upd. destruct (in_dec Nat.eq_dec n wrt) as [I0|N0];
      destruct (in_dec Nat.eq_dec n (w :: wrt)) as [I1|N1]; try reflexivity.
    + exfalso. apply N1. right. exact I0.
    + destruct I1 as [->|I1]; [rewrite Nat.eqb_refl; reflexivity|contradiction].
    + destruct (Nat.eqb n w) eqn:X; [|reflexivity]. apply Nat.eqb_eq in X. subst w. exfalso. apply N1. left. reflexivity.
Qed.

Lemma col_none wrt : forall c n, ~ In n wrt -> col_from wrt c n = None.
Proof.
  induction wrt as [|w wrt IH]; intros c n H; [reflexivity|]. cbn. rewrite IH by (intros C; apply H; right; exact C).
  destruct (Nat.eqb n w) eqn:X; [|reflexivity]. apply Nat.eqb_eq in X. exfalso. apply H. left. congruence.
Qed.
Lemma col_some wrt : forall c n k, col_from wrt c n = Some k -> c <= k /\ nth_error wrt (k - c) = Some n.
Proof.
  induction wrt as [|w wrt IH]; intros c n k H; [discriminate|]. cbn in H.
  destruct (col_from wrt (Datatypes.S c) n) as [k'|] eqn:E.
  - injection H as <-. apply IH in E as [L E]. split; [lia|]. replace (k' - c) with (Datatypes.S (k' - Datatypes.S c)) by lia. exact E.
  - destruct (Nat.eqb n w) eqn:X; [|discriminate]. injection H as <-. apply Nat.eqb_eq in X. subst w.
    rewrite Nat.sub_diag. split; [lia|reflexivity].
Qed.
Lemma col_nodup wrt : NoDup wrt -> forall c k n, nth_error wrt k = Some n -> col_from wrt c n = Some (c + k).
Proof.
  induction wrt as [|w wrt IH]; intros ND c k n H; [destruct k; discriminate|]. inversion ND as [|? ? Nw ND']; subst.
  destruct k as [|k]; cbn in H |- *.
  - injection H as ->. rewrite (col_none wrt _ n Nw), Nat.eqb_refl, Nat.add_0_r. reflexivity.
  - rewrite (IH ND' (Datatypes.S c) k n H). f_equal. lia.
Qed.

Lemma out_list_ok wrt l scr : (forall n, scr n = match col_from wrt 0 n with Some c => Z.of_nat c | None => (-1)%Z end) ->
  out_list scr l = outs_of wrt l.
Proof.
  intros H. unfold out_list, outs_of. induction l as [|n l IH]; [reflexivity|]. cbn [flat_map]. rewrite IH. f_equal.
  rewrite H. destruct (col_from wrt 0 n) as [c|]; [|reflexivity].
  destruct (Z.of_nat c =? -1)%Z eqn:X; [apply Z.eqb_eq in X; lia|]. rewrite Nat2Z.id. reflexivity.
Qed.

(** ** Rows. *)
Definition row_triplets (row : nat) ns (val : nat -> S) l (o : list (nat * nat)) : list (@triplet S) :=
  map (fun '(col, n) => (row, col, adj_final ns val l (fun _ => zero) n)) o.

Lemma row_triplets_ext row ns ns' (val val' : nat -> S) l o :
  (forall c n, In (c, n) o -> adj_final ns val l (fun _ => zero) n = adj_final ns' val' l (fun _ => zero) n) ->
  row_triplets row ns val l o = row_triplets row ns' val' l o.
Proof. intros H. apply map_ext_in. intros [c n] Hi. rewrite (H c n Hi). reflexivity. Qed.

Lemma append_ok s l wrt ts row : closed_order (st_nodes s) l -> (forall n, In n l -> n < nlen s) ->
  exists adj, append_triplets l (outs_of wrt l) ts row s =
    Ok (ts ++ row_triplets row (st_nodes s) (st_val s) l (outs_of wrt l), with_adj s adj).
Proof.
  intros Hc Hv. destruct l as [|r rest] eqn:El.
  - exists (st_adj s). cbn. rewrite app_nil_r. destruct s; reflexivity.
  - rewrite <- El in *. exists (adj_final (st_nodes s) (st_val s) l (st_adj s)).
    unfold append_triplets. rewrite El at 1. rewrite (propagate_ok s l Hv). cbn [obind]. f_equal. f_equal. f_equal.
    apply map_ext_in. intros [c n] Hi. apply outs_in in Hi as [Hi _]. cbn [with_adj st_adj]. f_equal.
    apply (adj_agree _ _ _ l (closed_incl _ _ Hc)); auto using incl_refl. intros m Hm. apply seed_agree. exact Hm.
Qed.

(** Linear rows, cached; nonlinear rows. *)
Fixpoint lin_triplets ns (val : nat -> S) (row : nat) (vars : list (@ptr)) (lists : list (list nat)) (wrt : list nat)
    : list (@triplet S) :=
  match vars, lists with
  | v :: vars, l :: lists =>
      match v with
      | Some n => if etype_eqb (typ ns n) LINEAR then row_triplets row ns val l (outs_of wrt l) else []
      | None => []
      end ++ lin_triplets ns val (Datatypes.S row) vars lists wrt
  | _, _ => []
  end.
Fixpoint nonlin_of ns (row : nat) (vars : list (@ptr)) : list nat :=
  match vars with
  | [] => []
  | v :: vars =>
      match v with
      | Some n => if Nat.ltb (etype_rank LINEAR) (etype_rank (typ ns n)) then [row] else []
      | None => []
      end ++ nonlin_of ns (Datatypes.S row) vars
  end.

Lemma jac_rows_ok s wrt vars : forall row lists ts nl adj, wf s -> clean_scr s -> Forall2 (sort_is s) vars lists ->
  exists adj', jac_rows row vars lists (map (outs_of wrt) lists) ts nl (with_adj s adj) =
    Ok ((ts ++ lin_triplets (st_nodes s) (st_val s) row vars lists wrt, nl ++ nonlin_of (st_nodes s) row vars), with_adj s adj').
Proof.
  induction vars as [|v vars IH]; intros row lists ts nl adj W C H; inversion H as [|v' l vars' lists' Hv Hr]; subst; cbn [jac_rows map].
  - exists adj. cbn. rewrite !app_nil_r. reflexivity.
  - destruct v as [n|]; cbn [lin_triplets nonlin_of]; [|cbn [app]; apply IH; assumption].
    pose proof (sort_is_sorted s n l W C Hv) as Hs. pose proof Hv as (Hn & _).
    rewrite ptype_eq by exact Hn. cbn [obind st_nodes with_adj].
    destruct (etype_eqb (typ (st_nodes s) n) LINEAR) eqn:T.
    + destruct (append_ok (with_adj s adj) l wrt ts row (sorted_closed _ _ _ Hs) (sorted_valid s n l W Hn Hs)) as (adj1 & E).
      rewrite E. cbn [obind]. change (with_adj (with_adj s adj) adj1) with (with_adj s adj1).
      destruct (IH (Datatypes.S row) lists' (ts ++ row_triplets row (st_nodes s) (st_val s) l (outs_of wrt l)) nl adj1 W C Hr) as (adj2 & E2).
      exists adj2. cbn [st_nodes st_val with_adj]. rewrite E2.
      apply etype_eqb_eq in T. rewrite T. cbn [etype_rank Nat.ltb Nat.leb app]. rewrite app_assoc. reflexivity.
    + destruct (Nat.ltb (etype_rank LINEAR) (etype_rank (typ (st_nodes s) n))).
      * destruct (IH (Datatypes.S row) lists' ts (nl ++ [row]) adj W C Hr) as (adj2 & E2). exists adj2. rewrite E2.
        cbn [app]. rewrite <- app_assoc. reflexivity.
      * cbn [app]. apply IH; assumption.
Qed.

(** ** A Jacobian object in a given state. *)
Definition jacok s (j : jac S) : Prop :=
  Forall (fun w => w < nlen s /\ typ (st_nodes s) w <> CONSTANT) (j_wrt j) /\
  Forall2 (sort_is s) (j_vars j) (j_lists j) /\
  j_outs j = map (outs_of (j_wrt j)) (j_lists j) /\
  j_nonlin j = nonlin_of (st_nodes s) 0 (j_vars j) /\
  j_cached j = lin_triplets (st_nodes s) (st_val s) 0 (j_vars j) (j_lists j) (j_wrt j) /\
  (j_nonlin j = [] -> j_J j = j_cached j).

Lemma emap_deref wrt s : emap deref (map Some wrt) s = Ok (wrt, s).
Proof. induction wrt as [|w wrt IH]; [reflexivity|]. cbn [map emap]. unfold ebind, deref at 1. cbn [obind]. rewrite IH. reflexivity. Qed.

Definition valid_ptr s (p : @ptr) : Prop := match p with Some n => n < nlen s | None => True end.

Lemma with_scr_scr s scr scr' : with_scr (with_scr s scr) scr' = with_scr s scr'. Proof. reflexivity. Qed.

Lemma emap_sort vars : forall s, wf s -> clean_scr s -> Forall (valid_ptr s) vars ->
  exists lists scr, emap topological_sort vars s = Ok (lists, with_scr s scr) /\ Forall2 (sort_is s) vars lists /\
    forall n, scr n = (-1)%Z.
Proof.
  induction vars as [|v vars IH]; intros s W C H; inversion H as [|? ? Hv Hr]; subst.
  - exists [], (st_scr s). split; [destruct s; reflexivity|auto].
  - cbn [emap]. unfold ebind at 1.
    assert (E1 : exists l scr, topological_sort v s = Ok (l, with_scr s scr) /\ sort_is s v l /\ forall n, scr n = (-1)%Z).
    { destruct v as [n|]; [|exists [], (st_scr s); split; [destruct s; reflexivity|split; [reflexivity|exact C]]].
      destruct (topological_sort_ok s n W C Hv) as (l & scr & E & _ & Hc). exists l, scr. split; [exact E|].
      split; [|exact Hc]. split; [exact Hv|]. exists scr. exact E. }
    destruct E1 as (l & scr & E & Hl & Hc). rewrite E. cbn [obind]. unfold ebind.
    destruct (IH (with_scr s scr) W Hc Hr) as (lists & scr2 & E2 & H2 & C2). rewrite E2. cbn [obind].
    exists (l :: lists), scr2. split; [reflexivity|]. split; [|exact C2]. constructor; [exact Hl|].
    eapply Forall2_impl; [|exact H2]. intros p q Hq.
    apply (sort_is_grows (with_scr s scr) s p q W Hc C); [apply grows_same; reflexivity|exact Hq].
Qed.

Lemma sort_is_same s s' v l : wf s -> clean_scr s -> clean_scr s' -> st_nodes s' = st_nodes s -> sort_is s v l -> sort_is s' v l.
Proof. intros W C C' N. apply sort_is_grows; auto. apply grows_same, N. Qed.

Lemma jac_make_ok s vars wrt : wf s -> clean_scr s -> Forall (valid_ptr s) vars ->
  Forall (fun w => w < nlen s /\ typ (st_nodes s) w <> CONSTANT) wrt ->
  exists j s', jac_make vars (map Some wrt) s = Ok (j, s') /\ st_nodes s' = st_nodes s /\ st_val s' = st_val s /\
    st_adje s' = st_adje s /\ clean_scr s' /\ j_vars j = vars /\ j_wrt j = wrt /\ jacok s' j.
Proof.
  intros W C Hv Hw. unfold jac_make. unfold ebind at 1. rewrite emap_deref. cbn [obind].
  destruct (emap_sort vars s W C Hv) as (lists & scr & E & Hl & Hc). unfold ebind at 1. rewrite E. cbn [obind].
  destruct (set_cols_ok wrt 0 (with_scr s scr)) as (scr1 & E1 & H1). unfold ebind at 1. rewrite E1. cbn [obind].
  unfold ebind at 1. cbn [obind]. cbn [st_scr with_scr].
  assert (Ho : map (out_list scr1) lists = map (outs_of wrt) lists).
  { apply map_ext. intros l. apply out_list_ok. intros n. rewrite H1. cbn [st_scr with_scr]. rewrite Hc. reflexivity. }
  rewrite Ho. unfold ebind at 1.
  destruct (reset_cols_ok wrt (with_scr (with_scr s scr) scr1)) as (scr2 & E2 & H2). rewrite E2. cbn [obind].
  rewrite !with_scr_scr.
  assert (C2 : clean_scr (with_scr s scr2)).
  { intros n. cbn [st_scr with_scr]. rewrite H2. destruct (in_dec Nat.eq_dec n wrt) as [I0|N0]; [reflexivity|].
    cbn [st_scr with_scr]. rewrite H1, (col_none wrt 0 n N0). apply Hc. }
  assert (Hl2 : Forall2 (sort_is (with_scr s scr2)) vars lists).
  { eapply Forall2_impl; [|exact Hl]. intros p q Hq. apply (sort_is_same s (with_scr s scr2) p q W C C2 eq_refl Hq). }
  unfold ebind. destruct (jac_rows_ok (with_scr s scr2) wrt vars 0 lists [] [] (st_adj s) W C2 Hl2) as (adj & E3).
  change (with_adj (with_scr s scr2) (st_adj s)) with (with_scr s scr2) in E3. rewrite E3. cbn [obind app].
  eexists; eexists. split; [reflexivity|]. cbn [j_vars j_wrt]. split; [reflexivity|]. split; [reflexivity|].
  split; [reflexivity|]. split; [exact C2|]. split; [reflexivity|]. split; [reflexivity|].
  split; [exact Hw|]. cbn [j_vars j_lists j_outs j_nonlin j_cached j_J j_wrt]. split.
  { eapply Forall2_impl; [|exact Hl2]. intros p q Hq.
    apply (sort_is_same (with_scr s scr2) (with_adj (with_scr s scr2) adj) p q W C2 C2 eq_refl Hq). }
  split; [reflexivity|]. split; [reflexivity|]. split; [reflexivity|]. intros ->. reflexivity.
Qed.

(** ** Preservation. *)
Lemma adj_run_grows ns more (val : nat -> S) l : (forall n, In n l -> n < length ns) -> forall adj,
  adj_run (ns ++ more) val l adj = adj_run ns val l adj.
Proof.
  induction l as [|x l IH]; intros H adj; [reflexivity|]. cbn. unfold adj_run in IH. rewrite IH by (intros n Hn; apply H; right; exact Hn).
  f_equal. unfold step_adj. rewrite nth_error_app1 by (apply H; left; reflexivity). reflexivity.
Qed.

Lemma lin_row_same s s' n l wrt row : wf s -> clean_scr s -> grows s s' ->
  (forall m, is_kconst (st_nodes s) m -> st_val s' m = st_val s m) ->
  n < nlen s -> sorted (st_nodes s) n l -> typ (st_nodes s) n = LINEAR ->
  Forall (fun w => w < nlen s /\ typ (st_nodes s) w <> CONSTANT) wrt ->
  row_triplets row (st_nodes s') (st_val s') l (outs_of wrt l) = row_triplets row (st_nodes s) (st_val s) l (outs_of wrt l).
Proof.
  intros W C (more & N) Hk Hn Hs T Hw. pose proof (sorted_valid s n l W Hn Hs) as Hval.
  apply row_triplets_ext. intros c m Hi. apply outs_in in Hi as [Hi Hc].
  unfold adj_final. rewrite N, adj_run_grows by exact Hval.
  assert (TL : forall x, In x l -> typ (st_nodes s) x = LINEAR \/ typ (st_nodes s) x = CONSTANT).
  { intros x Hx. destruct Hs as [[_ ->]|[_ (_ & Hr & _)]]; [destruct Hx|].
    apply (linear_reach _ n W T). apply Hr, Hx. }
  assert (Tm : typ (st_nodes s) m = LINEAR).
  { destruct (TL m Hi) as [T0|T0]; [exact T0|]. apply col_some in Hc as [_ Hc]. apply nth_error_In in Hc.
    rewrite Forall_forall in Hw. destruct (Hw m Hc) as [_ X]. contradiction. }
  symmetry.
  apply (adj_linear (st_nodes s) (st_val s) (st_val s') l W (closed_incl _ _ (sorted_closed _ _ _ Hs)) TL); auto using incl_refl.
  intros x Hx Tx. symmetry. apply Hk. destruct (typ_const _ x W Tx) as (nd & E & K). exists nd. auto.
Qed.

Lemma lin_same s s' wrt vars : forall lists row, wf s -> clean_scr s -> grows s s' ->
  (forall m, is_kconst (st_nodes s) m -> st_val s' m = st_val s m) ->
  Forall2 (sort_is s) vars lists -> Forall (fun w => w < nlen s /\ typ (st_nodes s) w <> CONSTANT) wrt ->
  lin_triplets (st_nodes s') (st_val s') row vars lists wrt = lin_triplets (st_nodes s) (st_val s) row vars lists wrt.
Proof.
  induction vars as [|v vars IH]; intros lists row W C G Hk H Hw; inversion H as [|v' l vars' lists' Hv Hr]; subst; [reflexivity|].
  cbn [lin_triplets]. rewrite (IH lists' (Datatypes.S row) W C G Hk Hr Hw). f_equal.
  destruct v as [n|]; [|reflexivity]. pose proof Hv as (Hn & _). rewrite (grows_typ s s' n G Hn).
  destruct (etype_eqb (typ (st_nodes s) n) LINEAR) eqn:T; [|reflexivity]. apply etype_eqb_eq in T.
  apply (lin_row_same s s' n l wrt row W C G Hk Hn (sort_is_sorted s n l W C Hv) T Hw).
Qed.

Lemma nonlin_same s s' vars : forall lists row, grows s s' -> Forall2 (sort_is s) vars lists ->
  nonlin_of (st_nodes s') row vars = nonlin_of (st_nodes s) row vars.
Proof.
  induction vars as [|v vars IH]; intros lists row G H; inversion H as [|v' l vars' lists' Hv Hr]; subst; [reflexivity|].
  cbn [nonlin_of]. rewrite (IH lists' (Datatypes.S row) G Hr). f_equal. destruct v as [n|]; [|reflexivity].
  pose proof Hv as (Hn & _). rewrite (grows_typ s s' n G Hn). reflexivity.
Qed.

(** A Jacobian stays valid as long as nodes are only added and constants keep their values. *)
Lemma jacok_pres s s' j : wf s -> clean_scr s -> clean_scr s' -> grows s s' ->
  (forall m, is_kconst (st_nodes s) m -> st_val s' m = st_val s m) -> jacok s j -> jacok s' j.
Proof.
  intros W C C' G Hk (Hw & Hl & Ho & Hn & Hc & HJ). pose proof (grows_len s s' G). split.
  { eapply Forall_impl; [|exact Hw]. intros w [A B]. split; [lia|]. rewrite (grows_typ s s' w G A). exact B. }
  split. { eapply Forall2_impl; [|exact Hl]. intros p q. apply sort_is_grows; assumption. }
  split; [exact Ho|]. split; [rewrite Hn; symmetry; eapply nonlin_same; eauto|].
  split; [rewrite Hc; symmetry; apply lin_same; assumption|exact HJ].
Qed.

(** ** value() *)
Definition nl_triplets ns (val : nat -> S) (rows : list nat) (lists : list (list nat)) wrt : list (@triplet S) :=
  flat_map (fun r => match nth_error lists r with
                     | Some l => row_triplets r ns (eval ns val) l (outs_of wrt l)
                     | None => [] end) rows.

(** The matrix value() returns in state [s]. *)
Definition jac_matrix s (j : jac S) : list (@triplet S) :=
  j_cached j ++ nl_triplets (st_nodes s) (st_val s) (j_nonlin j) (j_lists j) (j_wrt j).

Lemma update_all lists : forall s, wf s -> Forall (fun l => closed_order (st_nodes s) l /\ forall n, In n l -> n < nlen s) lists ->
  exists v, each update_values lists s = Ok (with_val s v) /\
    (forall n, (exists l, In l lists /\ In n l) -> v n = ev s (st_val s) n) /\
    (forall n, is_kconst (st_nodes s) n \/ is_kvar (st_nodes s) n -> v n = st_val s n) /\
    (forall n, ~ (exists l, In l lists /\ In n l) -> v n = st_val s n).
Proof.
  induction lists as [|l lists IH]; intros s W H.
  - exists (st_val s). split; [destruct s; reflexivity|]. split; [intros n (l & [] & _)|auto].
  - inversion H as [|? ? [Hc Hv] Hr]; subst. cbn [each].
    destruct (update_values_ok (st_val s) l s W Hc Hv (fun n _ => eq_refl)) as (v & E & Hin & Hout).
    rewrite E. cbn [obind]. destruct (updated_leaves s l v W Hin Hout) as [_ Hleaf]. cbn [st_val with_val] in Hleaf.
    destruct (IH (with_val s v) W Hr) as (v2 & E2 & Hin2 & Hleaf2 & Hout2). exists v2. split; [exact E2|].
    assert (EV : forall n, n < nlen s -> ev (with_val s v) (st_val (with_val s v)) n = ev s (st_val s) n).
    { intros n. unfold ev. cbn [st_nodes st_val with_val]. clear - W Hleaf.
      induction n as [n IHn] using (well_founded_induction lt_wf). intros Hn.
      rewrite !(eval_eq _ _ n W). destruct (nth_error (st_nodes s) n) as [[k t]|] eqn:En.
      2:{ apply nth_error_None in En. unfold nlen in Hn. lia. }
      destruct (W n _ En) as [A _]. cbn [n_kind n_args] in *.
      destruct k as [| |u a|b a c]; cbn in A.
      - apply Hleaf. left. exists (mkN KConst t). auto.
      - apply Hleaf. right. exists (mkN KVar t). auto.
      - rewrite IHn; [reflexivity|apply A; auto|]. specialize (A a (or_introl eq_refl)). lia.
      - pose proof (A a (or_introl eq_refl)). pose proof (A c (or_intror (or_introl eq_refl))). rewrite !IHn by lia. reflexivity. }
    cbn [st_nodes with_val] in Hleaf2. split.
    + intros n (l' & [->|Hl'] & Hn).
      * assert (D : {exists l, In l lists /\ In n l} + {~ exists l, In l lists /\ In n l}).
        { destruct (Exists_dec (fun l => In n l) lists (fun l => in_dec Nat.eq_dec n l)) as [X|X].
          - left. apply Exists_exists in X. exact X.
          - right. intros Y. apply X. apply Exists_exists. exact Y. }
        destruct D as [D|D].
        -- rewrite (Hin2 n D). apply EV. destruct D as (l2 & Hl2 & Hn2).
           rewrite Forall_forall in Hr. apply (Hr l2 Hl2). exact Hn2.
        -- rewrite (Hout2 n D). cbn. apply Hin. exact Hn.
      * rewrite Hin2 by eauto. apply EV. rewrite Forall_forall in Hr. apply (Hr l' Hl'). exact Hn.
    + split.
      * intros n Hn. rewrite (Hleaf2 n Hn). cbn. apply Hleaf, Hn.
      * intros n Hn. rewrite Hout2; [cbn; apply Hout|]; intros C; apply Hn; [exists l; split; [left; reflexivity|exact C]|].
        destruct C as (l2 & A & B). exists l2. split; [right; exact A|exact B].
Qed.

Lemma value_rows_ok s lists wrt rows : forall ts adj, Forall (fun r => r < length lists) rows ->
  Forall (fun l => closed_order (st_nodes s) l /\ forall n, In n l -> n < nlen s) lists ->
  exists adj', value_rows rows lists (map (outs_of wrt) lists) ts (with_adj s adj) =
    Ok (ts ++ flat_map (fun r => match nth_error lists r with
                       | Some l => row_triplets r (st_nodes s) (st_val s) l (outs_of wrt l) | None => [] end) rows,
        with_adj s adj').
Proof.
  induction rows as [|r rows IH]; intros ts adj Hr Hl; cbn [value_rows flat_map].
  - exists adj. rewrite app_nil_r. reflexivity.
  - inversion Hr as [|? ? H1 H2]; subst. rewrite nth_error_map.
    destruct (nth_error lists r) as [l|] eqn:E; [|apply nth_error_None in E; lia]. cbn [option_map].
    rewrite Forall_forall in Hl. destruct (Hl l (nth_error_In _ _ E)) as [Hc Hv].
    destruct (append_ok (with_adj s adj) l wrt ts r Hc Hv) as (adj1 & E1). rewrite E1. cbn [obind].
    change (with_adj (with_adj s adj) adj1) with (with_adj s adj1). rewrite app_assoc.
    apply IH; [exact H2|]. apply Forall_forall. exact Hl.
Qed.

Lemma nonlin_lt ns vars : forall row r, In r (nonlin_of ns row vars) -> row <= r < row + length vars.
Proof.
  induction vars as [|v vars IH]; intros row r H; [destruct H|]. cbn [nonlin_of] in H. apply in_app_or in H as [H|H].
  - destruct v as [n|]; [|destruct H]. destruct (Nat.ltb _ _); [|destruct H]. destruct H as [<-|[]]. cbn. lia.
  - apply IH in H. cbn. lia.
Qed.

Lemma Forall2_len {A B} (R : A -> B -> Prop) l l' : Forall2 R l l' -> length l = length l'.
Proof. induction 1; cbn; congruence. Qed.

Lemma lists_ok s vars lists : wf s -> clean_scr s -> Forall2 (sort_is s) vars lists ->
  Forall (fun l => closed_order (st_nodes s) l /\ forall n, In n l -> n < nlen s) lists.
Proof.
  intros W C H. induction H as [|v l vars lists Hv Hr IH]; constructor; [|exact IH].
  destruct v as [n|].
  - pose proof (sort_is_sorted s n l W C Hv) as Hs. pose proof Hv as (Hn & _).
    split; [eapply sorted_closed; eauto|eapply sorted_valid; eauto].
  - cbn in Hv. subst l. split; [intros l1 x l2 X; destruct l1; discriminate|intros n []].
Qed.

Lemma jac_value_ok s j : wf s -> clean_scr s -> jacok s j ->
  exists j' s', jac_value j s = Ok ((jac_matrix s j, j'), s') /\ same_leaves s s' /\ st_adje s' = st_adje s /\
    st_scr s' = st_scr s /\ j_vars j' = j_vars j /\ j_wrt j' = j_wrt j /\ j_lists j' = j_lists j /\ jacok s' j'.
Proof.
  intros W C (Hw & Hl & Ho & Hn & Hc & HJ). unfold jac_value, jac_matrix.
  destruct (j_nonlin j) as [|r0 rows] eqn:En.
  - exists j, s. cbn. rewrite app_nil_r, (HJ eq_refl). split; [reflexivity|]. split; [split; auto|].
    do 5 (split; [reflexivity|]). split; [exact Hw|]. rewrite En. auto.
  - rewrite <- En in *. clear r0 rows En.
    pose proof (lists_ok s _ _ W C Hl) as HL.
    destruct (update_all (j_lists j) s W HL) as (v & E & Hin & Hleaf & _). rewrite E. cbn [obind]. rewrite Ho.
    assert (HR : Forall (fun r => r < length (j_lists j)) (j_nonlin j)).
    { rewrite Hn. apply Forall_forall. intros r Hr. apply nonlin_lt in Hr. rewrite <- (Forall2_len _ _ _ Hl). lia. }
    destruct (value_rows_ok (with_val s v) (j_lists j) (j_wrt j) (j_nonlin j) (j_cached j) (st_adj s) HR HL) as (adj & E2).
    change (with_adj (with_val s v) (st_adj s)) with (with_val s v) in E2. rewrite E2. cbn [obind].
    assert (EQ : flat_map (fun r => match nth_error (j_lists j) r with
                       | Some l => row_triplets r (st_nodes (with_val s v)) (st_val (with_val s v)) l (outs_of (j_wrt j) l) | None => [] end) (j_nonlin j)
               = nl_triplets (st_nodes s) (st_val s) (j_nonlin j) (j_lists j) (j_wrt j)).
    { unfold nl_triplets. apply flat_map_ext. intros r. destruct (nth_error (j_lists j) r) as [l|] eqn:El; [|reflexivity].
      apply row_triplets_ext. intros c m Hi. apply outs_in in Hi as [Hi _].
      apply nth_error_In in El. rewrite Forall_forall in HL. destruct (HL l El) as [Hcl _].
      apply (adj_agree _ _ _ l (closed_incl _ _ Hcl)); auto using incl_refl.
      intros x Hx. cbn [st_val with_val]. apply Hin. eauto. }
    rewrite EQ. eexists; eexists. split; [reflexivity|].
    split; [split; [reflexivity|exact Hleaf]|]. do 5 (split; [reflexivity|]).
    set (s' := with_adj (with_val s v) adj).
    assert (JP : jacok s' j).
    { apply (jacok_pres s s' j W C C); [apply grows_same; reflexivity|intros m Hm; apply Hleaf; auto|].
      split; [exact Hw|]. split; [exact Hl|]. split; [exact Ho|]. split; [exact Hn|]. split; [exact Hc|exact HJ]. }
    destruct JP as (P1 & P2 & P3 & P4 & P5 & P6). split; [exact P1|]. cbn [j_vars j_wrt j_lists j_outs j_cached j_nonlin j_J].
    split; [exact P2|]. split; [reflexivity|]. split; [exact P4|]. split; [exact P5|].
    intros Z. rewrite Z. cbn. rewrite app_nil_r. reflexivity.
Qed.

End Gen.
