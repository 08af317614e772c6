(** Proofs for C16-C19: sorting, evaluation, cached graphs, histories. *)
From Coq Require Import ZArith List Bool Arith Lia Permutation.
From Verif Require Import Base ExprModel GraphSpec GraphProofs ExprInv VarModel VarReach.
Import ListNotations.

Section Gen.
Context {S : sops}.
Implicit Types s : st S.

Definition clean_scr s : Prop := forall n, st_scr s n = (-1)%Z.

(** What the sorted list of root [r] is. *)
Definition sorted (ns : list node) (r : nat) (l : list nat) : Prop :=
  (typ ns r = CONSTANT /\ l = []) \/ (typ ns r <> CONSTANT /\ topological ns r l).

Definition with_scr s scr := mkSt (st_nodes s) (st_val s) (st_adj s) (st_adje s) scr.

Lemma topological_sort_ok s r : wf s -> clean_scr s -> r < nlen s ->
  exists l scr, topological_sort (Some r) s = Ok (l, with_scr s scr) /\ sorted (st_nodes s) r l /\
    forall n, scr n = (-1)%Z.
Proof.
  intros W C Hr. destruct (nth_valid s r Hr) as (nd & E). unfold topological_sort. rewrite E.
  destruct (etype_eqb (n_type nd) CONSTANT) eqn:T.
  - apply etype_eqb_eq in T. exists [], (st_scr s). split; [destruct s; reflexivity|]. split; [|exact C].
    left. split; [|reflexivity]. rewrite (typ_some _ _ _ E). exact T.
  - destruct (sort_ok (st_nodes s) r (wfn_acyclic _ W) Hr (st_scr s) C) as (scr1 & out & scr2 & E1 & E2 & Ht & Hs).
    rewrite E1. cbn [obind]. rewrite E2. cbn [obind]. exists out, scr2. split; [reflexivity|].
    split; [|exact Hs]. right. split; [|exact Ht]. rewrite (typ_some _ _ _ E). intros X. rewrite X in T. discriminate.
Qed.

(** A list in which every node comes before its operands. *)
Definition closed_order (ns : list node) (l : list nat) : Prop :=
  forall l1 n l2, l = l1 ++ n :: l2 -> forall a, In a (args ns n) -> In a l2.

Lemma closed_order_tl ns x l : closed_order ns (x :: l) -> closed_order ns l.
Proof. intros H l1 n l2 E. apply (H (x :: l1) n l2). rewrite E. reflexivity. Qed.

Lemma each_app {A} (f : A -> st S -> outcome (st S)) l l' : forall s,
  each f (l ++ l') s = obind (each f l s) (each f l').
Proof.
  induction l as [|x l IH]; intros s; cbn [each app obind]; [reflexivity|].
  destruct (f x s); cbn [obind]; [apply IH|reflexivity|reflexivity|reflexivity].
Qed.

Definition with_val s v := mkSt (st_nodes s) v (st_adj s) (st_adje s) (st_scr s).

(** Updating values along any such list computes the value of every listed node. *)
Lemma update_values_ok lv l : forall s, wf s -> closed_order (st_nodes s) l ->
  (forall n, In n l -> n < nlen s) -> leafvals s lv ->
  exists v, update_values l s = Ok (with_val s v) /\
    (forall n, In n l -> v n = ev s lv n) /\ (forall n, ~ In n l -> v n = st_val s n).
Proof.
  induction l as [|x l IH]; intros s W Ho Hv Hl.
  - exists (st_val s). cbn. split; [destruct s; reflexivity|]. split; [intros n []|auto].
  - destruct (IH s W (closed_order_tl _ _ _ Ho) (fun n Hn => Hv n (or_intror Hn)) Hl) as (v & E & Hin & Hout).
    unfold update_values in *. cbn [rev]. rewrite each_app, E. cbn [obind each].
    assert (Hx : x < nlen s) by (apply Hv; left; reflexivity).
    destruct (nth_valid s x Hx) as ([k t] & En).
    unfold update_node. cbn [st_nodes with_val]. rewrite En. cbn [n_kind].
    pose proof (Ho [] x l eq_refl) as Ha. unfold args in Ha. rewrite En in Ha. cbn [n_args n_kind] in Ha.
    assert (Hold : forall a, In a l -> v a = ev s lv a) by exact Hin.
    assert (Hkeep : k = KConst \/ k = KVar -> v x = ev s lv x).
    { intros K. destruct (in_dec Nat.eq_dec x l) as [I0|N0]; [apply Hin, I0|].
      rewrite Hout by exact N0. unfold ev. rewrite (eval_leaf _ _ _ _ W En K). symmetry. apply Hl.
      destruct K as [K|K]; [left|right]; exists (mkN k t); split; assumption. }
    destruct k as [| |u a|b a c]; cbn in Ha.
    + exists v. cbn [obind]. split; [reflexivity|]. split.
      * intros n [<-|Hn]; [apply Hkeep; auto|auto].
      * intros n Hn. apply Hout. intros C. apply Hn. right; exact C.
    + exists v. cbn [obind]. split; [reflexivity|]. split.
      * intros n [<-|Hn]; [apply Hkeep; auto|auto].
      * intros n Hn. apply Hout. intros C. apply Hn. right; exact C.
    + exists (upd v x (un_value u (v a))). cbn [obind]. split; [reflexivity|].
      assert (Hxv : un_value u (v a) = ev s lv x).
      { unfold ev at 1. rewrite (eval_eq _ _ _ W), En. cbn [n_kind]. rewrite Hold by (apply Ha; auto). reflexivity. }
      split.
      * intros n Hn. destruct (Nat.eq_dec n x) as [->|D]; [rewrite upd_eq; exact Hxv|].
        rewrite upd_ne by exact D. destruct Hn as [C|Hn]; [congruence|auto].
      * intros n Hn. rewrite upd_ne by (intros ->; apply Hn; left; reflexivity).
        apply Hout. intros C. apply Hn. right; exact C.
    + exists (upd v x (bin_value b (v a) (v c))). cbn [obind]. split; [reflexivity|].
      assert (Hxv : bin_value b (v a) (v c) = ev s lv x).
      { unfold ev at 1. rewrite (eval_eq _ _ _ W), En. cbn [n_kind].
        rewrite !Hold by (apply Ha; auto). reflexivity. }
      split.
      * intros n Hn. destruct (Nat.eq_dec n x) as [->|D]; [rewrite upd_eq; exact Hxv|].
        rewrite upd_ne by exact D. destruct Hn as [C|Hn]; [congruence|auto].
      * intros n Hn. rewrite upd_ne by (intros ->; apply Hn; left; reflexivity).
        apply Hout. intros C. apply Hn. right; exact C.
Qed.

Lemma topological_closed ns r l : topological ns r l -> closed_order ns l.
Proof. intros (_ & _ & H & _). exact H. Qed.

Lemma reach_valid ns r n : acyclic_nodes ns -> r < length ns -> reach ns r n -> n < length ns.
Proof. intros A Hr. induction 1 as [|m a _ IH Ha]; [exact Hr|]. apply A in Ha. lia. Qed.

Lemma topological_valid s r l : wf s -> r < nlen s -> topological (st_nodes s) r l -> forall n, In n l -> n < nlen s.
Proof.
  intros W Hr (_ & H & _) n Hn. apply H in Hn. eapply reach_valid; eauto. apply wfn_acyclic, W.
Qed.

(** Same graph, same values at the leaves. *)
Definition same_leaves s s' : Prop :=
  st_nodes s' = st_nodes s /\
  forall n, is_kconst (st_nodes s) n \/ is_kvar (st_nodes s) n -> st_val s' n = st_val s n.

Lemma leafvals_self s : leafvals s (st_val s).
Proof. intros n _. reflexivity. Qed.

Lemma updated_leaves s l v : wf s -> (forall n, In n l -> v n = ev s (st_val s) n) ->
  (forall n, ~ In n l -> v n = st_val s n) -> same_leaves s (with_val s v).
Proof.
  intros W Hin Hout. split; [reflexivity|]. intros n Hn. cbn [st_val with_val].
  destruct (in_dec Nat.eq_dec n l) as [I0|N0]; [|apply Hout, N0].
  rewrite Hin by exact I0. unfold ev.
  destruct Hn as [(nd & E & K)|(nd & E & K)]; rewrite (eval_leaf _ _ _ nd W E); auto.
Qed.

(** A variable whose cached graph, if any, is right. *)
Definition varok s (v : var) : Prop :=
  exists n, v_expr v = Some n /\ n < nlen s /\ (v_init v = true -> sorted (st_nodes s) n (v_graph v)).

Lemma var_value_ok s v n : wf s -> clean_scr s -> varok s v -> v_expr v = Some n ->
  exists v' s', var_value v s = Ok ((ev s (st_val s) n, v'), s') /\ same_leaves s s' /\ clean_scr s' /\
    varok s v' /\ v_expr v' = Some n /\ st_adj s' = st_adj s /\ st_adje s' = st_adje s.
Proof.
  intros W C (n' & En & Hn & Hi) En'. rewrite En in En'. injection En' as ->.
  assert (H : exists g scr, (if v_init v then Ok (v, s)
     else let* (g, s) := topological_sort (v_expr v) s in Ok (mkVar (v_expr v) g true, s)) =
        Ok (mkVar (Some n) g true, with_scr s scr) /\ sorted (st_nodes s) n g /\ forall m, scr m = (-1)%Z).
  { destruct (v_init v) eqn:I0.
    - exists (v_graph v), (st_scr s). split; [|split; [apply Hi; reflexivity|exact C]].
      rewrite <- En, <- I0. destruct s, v; reflexivity.
    - rewrite En. destruct (topological_sort_ok s n W C Hn) as (g & scr & E & Hs & Hc).
      exists g, scr. rewrite E. cbn [obind]. auto. }
  destruct H as (g & scr & E & Hs & Hc). unfold var_value. rewrite E. cbn [obind v_graph v_expr].
  set (s1 := with_scr s scr).
  assert (Hcl : closed_order (st_nodes s1) g).
  { destruct Hs as [[_ ->]|[_ T]]; [intros l1 x l2 X; destruct l1; discriminate|exact (topological_closed _ _ _ T)]. }
  assert (Hval : forall m, In m g -> m < nlen s1).
  { destruct Hs as [[_ ->]|[_ T]]; [intros m []|exact (topological_valid s n g W Hn T)]. }
  destruct (update_values_ok (st_val s) g s1 W Hcl Hval) as (v' & E' & Hin & Hout).
  { intros m _. reflexivity. }
  rewrite E'. cbn [obind]. rewrite pval_eq by exact Hn. cbn [obind].
  assert (Hroot : st_val (with_val s1 v') n = ev s (st_val s) n).
  { cbn [st_val with_val]. destruct Hs as [[T ->]|[_ T]].
    - rewrite Hout by (intros []). change (st_val s1 n) with (st_val s n). rewrite (const_ev s n (st_val s) W T); [reflexivity|].
      intros m _. reflexivity.
    - rewrite Hin; [reflexivity|]. destruct T as (_ & T & _). apply T. constructor. }
  rewrite Hroot. eexists; eexists. split; [reflexivity|].
  split; [exact (updated_leaves s1 g v' W Hin Hout)|]. split; [exact Hc|]. split; [|auto].
  exists n. cbn. auto.
Qed.

(** ** Extension of the graph keeps sorted lists sorted. *)
Lemma args_ext (ns more : list node) n : n < length ns -> args (ns ++ more) n = args ns n.
Proof. intros H. unfold args. rewrite nth_error_app1 by exact H. reflexivity. Qed.

Lemma reach_ext ns more r n : acyclic_nodes ns -> r < length ns ->
  reach (ns ++ more) r n <-> reach ns r n.
Proof.
  intros A Hr. split.
  - induction 1 as [|m a _ IH Ha]; [constructor|]. econstructor; [exact IH|].
    rewrite <- (args_ext ns more); [exact Ha|]. eapply reach_valid; eauto.
  - induction 1 as [|m a Hm IH Ha]; [constructor|]. econstructor; [exact IH|].
    rewrite args_ext; [exact Ha|]. eapply reach_valid; eauto.
Qed.

Lemma sorted_ext s s' r l : wf s -> ext s s' -> r < nlen s -> sorted (st_nodes s) r l -> sorted (st_nodes s') r l.
Proof.
  intros W X Hr H. unfold sorted. rewrite (ext_typ s s' r X Hr).
  destruct H as [H|[H T]]; [left; exact H|right; split; [exact H|]].
  pose proof (topological_valid s r l W Hr T) as V.
  destruct T as (ND & HR & HO & HH). destruct X as ((more & E) & _). rewrite E.
  pose proof (wfn_acyclic _ W) as A. split; [exact ND|]. split; [|split; [|exact HH]].
  - intros n. rewrite HR. symmetry. apply reach_ext; assumption.
  - intros l1 n l2 El a Ha. apply (HO l1 n l2 El). rewrite <- (args_ext (st_nodes s) more); [exact Ha|].
    apply V. rewrite El. apply in_or_app. right; left; reflexivity.
Qed.

Lemma varok_ext s s' v : wf s -> ext s s' -> varok s v -> varok s' v.
Proof.
  intros W X (n & E & Hn & Hi). exists n. split; [exact E|]. split; [pose proof (ext_nlen _ _ X); lia|].
  intros I0. eapply sorted_ext; eauto.
Qed.

Lemma varok_same s s' v : st_nodes s' = st_nodes s -> varok s v -> varok s' v.
Proof. intros E (n & H). exists n. unfold nlen. rewrite E. exact H. Qed.

Lemma varok_of s p : p < nlen s -> varok s (var_of (Some p)).
Proof. intros H. exists p. cbn. split; [reflexivity|]. split; [exact H|discriminate]. Qed.

Definition hinv (e : henv) s : Prop := wf s /\ clean_scr s /\ Forall (varok s) e.

Lemma ext_clean s s' : ext s s' -> clean_scr s -> clean_scr s'.
Proof.
  intros (_ & F & G) C n. destruct (Nat.lt_ge_cases n (nlen s)) as [L|Ge].
  - destruct (F n L) as (_ & _ & _ & ->). apply C.
  - apply (G n Ge), C.
Qed.

Lemma hinv_ext e s s' : ext s s' -> wf s' -> hinv e s -> hinv e s'.
Proof.
  intros X W' (W & C & F). split; [exact W'|]. split; [eapply ext_clean; eauto|].
  eapply Forall_impl; [|exact F]. intros v. apply varok_ext; assumption.
Qed.

Lemma hset_Forall (P : var -> Prop) e i v : Forall P e -> P v -> Forall P (hset e i v).
Proof.
  intros F Hv. revert i. induction F as [|x e Hx F IH]; intros i; cbn [hset]; [constructor|].
  destruct i; constructor; auto.
Qed.

Lemma hset_length e i v : length (hset e i v) = length e.
Proof. revert i. induction e as [|x e IH]; intros [|i]; cbn; auto. Qed.

Lemma hset_nth e i v : i < length e -> nth_error (hset e i v) i = Some v.
Proof. revert i. induction e as [|x e IH]; intros [|i] H; cbn in *; try lia; auto. apply IH. lia. Qed.

Lemma hset_nth_ne e i j v : j <> i -> nth_error (hset e i v) j = nth_error e j.
Proof. revert i j. induction e as [|x e IH]; intros [|i] [|j] H; cbn; auto; congruence. Qed.

Lemma hypot3_built s x y z : wf s -> x < nlen s -> y < nlen s -> z < nlen s ->
  built s (e_hypot3 (Some x) (Some y) (Some z) s) (fun lv v =>
    exists a b c ab abc, simp_bin BPow (ev s lv x) (s_ofZ S 2) a /\ simp_bin BPow (ev s lv y) (s_ofZ S 2) b /\
      simp_bin BPow (ev s lv z) (s_ofZ S 2) c /\ simp_bin BAdd a b ab /\ simp_bin BAdd ab c abc /\
      simp_un USqrt abc v).
Proof.
  intros W Hx Hy Hz. unfold e_hypot3.
  eapply built_bind; [exact W|apply (built_const s _ (fun lv v => v = s_ofZ S 2) W); auto|]. intros t1 s1 X1 W1 H1 Q1.
  pose proof (ext_nlen _ _ X1) as L1.
  eapply built_bind; [exact W1|apply e_pow_built; [exact W1|lia|exact H1]|]. intros a s2 X2 W2 H2 Q2.
  pose proof (ext_nlen _ _ X2) as L2.
  eapply built_bind; [exact W2|apply (built_const s2 _ (fun lv v => v = s_ofZ S 2) W2); auto|]. intros t2 s3 X3 W3 H3 Q3.
  pose proof (ext_nlen _ _ X3) as L3.
  eapply built_bind; [exact W3|apply e_pow_built; [exact W3|lia|exact H3]|]. intros b s4 X4 W4 H4 Q4.
  pose proof (ext_nlen _ _ X4) as L4.
  eapply built_bind; [exact W4|apply (e_add_built s4 a b W4); [lia|exact H4]|]. intros ab s5 X5 W5 H5 Q5.
  pose proof (ext_nlen _ _ X5) as L5.
  eapply built_bind; [exact W5|apply (built_const s5 _ (fun lv v => v = s_ofZ S 2) W5); auto|]. intros t3 s6 X6 W6 H6 Q6.
  pose proof (ext_nlen _ _ X6) as L6.
  eapply built_bind; [exact W6|apply e_pow_built; [exact W6|lia|exact H6]|]. intros c s7 X7 W7 H7 Q7.
  pose proof (ext_nlen _ _ X7) as L7.
  eapply built_bind; [exact W7|apply (e_add_built s7 ab c W7); [lia|exact H7]|]. intros abc s8 X8 W8 H8 Q8.
  eapply built_mono; [|apply (e_un_built USqrt s8 abc W8 H8)].
  intros lv v A8 Hv.
  pose proof (ext_agrees _ _ _ X8 A8) as A7. pose proof (ext_agrees _ _ _ X7 A7) as A6.
  pose proof (ext_agrees _ _ _ X6 A6) as A5. pose proof (ext_agrees _ _ _ X5 A5) as A4.
  pose proof (ext_agrees _ _ _ X4 A4) as A3. pose proof (ext_agrees _ _ _ X3 A3) as A2.
  pose proof (ext_agrees _ _ _ X2 A2) as A1.
  pose proof (ext_trans _ _ _ X1 X2) as X02. pose proof (ext_trans _ _ _ X02 X3) as X03.
  pose proof (ext_trans _ _ _ X03 X4) as X04. pose proof (ext_trans _ _ _ X04 X5) as X05.
  pose proof (ext_trans _ _ _ X05 X6) as X06.
  pose proof (ext_trans _ _ _ (ext_trans _ _ _ X3 X4) X5) as X25. 
  specialize (Q1 lv A1). specialize (Q2 lv A2). specialize (Q3 lv A3). specialize (Q4 lv A4).
  specialize (Q5 lv A5). specialize (Q6 lv A6). specialize (Q7 lv A7). specialize (Q8 lv A8).
  cbv beta in *.
  rewrite (ext_ev s s1 lv x) in Q2 by auto. rewrite Q1 in Q2.
  rewrite (ext_ev s s3 lv y) in Q4 by auto. rewrite Q3 in Q4.
  rewrite (ext_ev s s6 lv z) in Q7 by auto. rewrite Q6 in Q7.
  assert (Ea : ev s4 lv a = ev s2 lv a) by (exact (ext_ev s2 s4 lv a W2 W4 (ext_trans _ _ _ X3 X4) H2)).
  assert (Eab : ev s7 lv ab = ev s5 lv ab) by (exact (ext_ev s5 s7 lv ab W5 W7 (ext_trans _ _ _ X6 X7) H5)).
  rewrite Ea in Q5. rewrite Eab in Q8.
  exists (ev s2 lv a), (ev s4 lv b), (ev s7 lv c), (ev s5 lv ab), (ev s8 lv abc). auto 8.
Qed.

(** ** Graph-level statement about histories: any statements, any scalar type. *)
Lemma nth_Forall {A} (P : A -> Prop) l i x : Forall P l -> nth_error l i = Some x -> P x.
Proof. intros F E. rewrite Forall_forall in F. apply F. eapply nth_error_In; eauto. Qed.

Lemma hvar_ok (e : henv) i v : hvar e i = Ok v -> nth_error e i = Some v.
Proof. unfold hvar. destruct (nth_error e i); [intros [= ->]; reflexivity|discriminate]. Qed.

Lemma hvar_get e s i : hinv e s -> i < length e ->
  exists v n, hvar e i = Ok v /\ nth_error e i = Some v /\ v_expr v = Some n /\ n < nlen s /\ varok s v.
Proof.
  intros (_ & _ & F) Hi. destruct (nth_error e i) as [v|] eqn:E.
  - pose proof (nth_Forall _ _ _ _ F E) as V. destruct V as (n & En & Hn & Hs).
    exists v, n. unfold hvar. rewrite E. repeat split; auto. exists n; auto.
  - apply nth_error_None in E. lia.
Qed.

(** The effect of one statement. *)
Lemma hstep_ok o e s : hinv e s -> in_scope (length e) o ->
  exists e' s' out, hstep o e s = Ok (e', s', out) /\ hinv e' s' /\ length e <= length e' /\
    (forall i x, o = HValue i -> out = [x] ->
       exists v n, nth_error e i = Some v /\ v_expr v = Some n /\ Ev (st_nodes s) (st_val s) n x) /\
    length out = match o with HValue _ => 1 | _ => 0 end.
Proof.
  intros H Hsc. pose proof H as (W & C & F).
  assert (Hbuilt : forall (m : E S (@ptr)) Q, built s (m s) Q ->
     exists e' s' out, (let* (p, s1) := m s in Ok (e ++ [var_of p], s1, ([] : list S))) = Ok (e', s', out) /\
       hinv e' s' /\ length e <= length e' /\ out = []).
  { intros m Q (p & s' & E & X & W' & Hp & _). rewrite E. cbn [obind].
    eexists; eexists; eexists. split; [reflexivity|]. split; [|split; [rewrite app_length; lia|reflexivity]].
    pose proof (hinv_ext e s s' X W' H) as (W2 & C2 & F2). split; [exact W2|]. split; [exact C2|].
    apply Forall_app. split; [exact F2|]. constructor; [|constructor]. apply varok_of, Hp. }
  destruct o as [|c|u i|b i j|i j k|i|i j|i c|i x|i]; cbn [in_scope] in Hsc; cbn [hstep].
  - destruct (Hbuilt (decision_ptr (s_ofZ S 0)) (fun _ _ => True)) as (e' & s' & out & E & H' & L & ->).
    { apply alloc_built; [exact W|intros a []|reflexivity|auto]. }
    exists e', s', []. rewrite E. split; [reflexivity|]. split; [exact H'|]. split; [exact L|].
    split; [intros; discriminate|reflexivity].
  - destruct (Hbuilt (constant_ptr c) (fun _ _ => True)) as (e' & s' & out & E & H' & L & ->).
    { apply built_const; auto. }
    exists e', s', []. rewrite E. split; [reflexivity|]. split; [exact H'|]. split; [exact L|].
    split; [intros; discriminate|reflexivity].
  - destruct (hvar_get e s i H Hsc) as (v & n & Ev & _ & En & Hn & _). rewrite Ev. cbn [obind]. rewrite En.
    destruct (Hbuilt (e_un u (Some n)) _ (e_un_built u s n W Hn)) as (e' & s' & out & E & H' & L & ->).
    exists e', s', []. rewrite E. split; [reflexivity|]. split; [exact H'|]. split; [exact L|].
    split; [intros; discriminate|reflexivity].
  - destruct Hsc as [Hi Hj]. destruct (hvar_get e s i H Hi) as (v & n & Ev & _ & En & Hn & _).
    destruct (hvar_get e s j H Hj) as (w & m & Ew & _ & Em & Hm & _).
    rewrite Ev. cbn [obind]. rewrite Ew. cbn [obind]. rewrite En, Em.
    destruct (Hbuilt (e_bin b (Some n) (Some m)) _ (e_bin_built b s n m W Hn Hm)) as (e' & s' & out & E & H' & L & ->).
    exists e', s', []. rewrite E. split; [reflexivity|]. split; [exact H'|]. split; [exact L|].
    split; [intros; discriminate|reflexivity].
  - destruct Hsc as (Hi & Hj & Hk). destruct (hvar_get e s i H Hi) as (v & n & Ev & _ & En & Hn & _).
    destruct (hvar_get e s j H Hj) as (w & m & Ew & _ & Em & Hm & _).
    destruct (hvar_get e s k H Hk) as (u & q & Eu & _ & Eq0 & Hq & _).
    rewrite Ev. cbn [obind]. rewrite Ew. cbn [obind]. rewrite Eu. cbn [obind]. rewrite En, Em, Eq0.
    destruct (Hbuilt (e_hypot3 (Some n) (Some m) (Some q)) _ (hypot3_built s n m q W Hn Hm Hq)) as (e' & s' & out & E & H' & L & ->).
    exists e', s', []. rewrite E. split; [reflexivity|]. split; [exact H'|]. split; [exact L|].
    split; [intros; discriminate|reflexivity].
  - destruct (hvar_get e s i H Hsc) as (v & n & Ev & _ & En & Hn & V). rewrite Ev. cbn [obind].
    exists (e ++ [v]), s, []. split; [reflexivity|]. split.
    { split; [exact W|]. split; [exact C|]. apply Forall_app. split; [exact F|]. constructor; [exact V|constructor]. }
    split; [rewrite app_length; lia|]. split; [intros; discriminate|reflexivity].
  - destruct Hsc as [Hi Hj]. destruct (hvar_get e s i H Hi) as (v & n & Ev & _ & En & Hn & _).
    destruct (hvar_get e s j H Hj) as (w & m & Ew & _ & Em & Hm & V).
    rewrite Ev. cbn [obind]. rewrite Ew. cbn [obind].
    exists (hset e i w), s, []. split; [reflexivity|]. split.
    { split; [exact W|]. split; [exact C|]. apply hset_Forall; assumption. }
    split; [rewrite hset_length; lia|]. split; [intros; discriminate|reflexivity].
  - destruct (hvar_get e s i H Hsc) as (v & n & Ev & _ & En & Hn & V). rewrite Ev. cbn [obind].
    destruct (built_const s c (fun _ _ => True) W) as (p & s' & E & X & W' & Hp & _); [auto|].
    rewrite E. cbn [obind]. exists (hset e i (mkVar (Some p) (v_graph v) false)), s', []. split; [reflexivity|].
    split.
    { destruct (hinv_ext e s s' X W' H) as (W2 & C2 & F2). split; [exact W2|]. split; [exact C2|].
      apply hset_Forall; [exact F2|]. exists p. cbn. split; [reflexivity|]. split; [exact Hp|discriminate]. }
    split; [rewrite hset_length; lia|]. split; [intros; discriminate|reflexivity].
  - destruct (hvar_get e s i H Hsc) as (v & n & Ev & _ & En & Hn & V). rewrite Ev. cbn [obind].
    unfold var_set_value. rewrite En. destruct (nth_valid s n Hn) as (nd & End). rewrite End. cbn [obind].
    exists e, (set_val s n x), []. split; [reflexivity|]. split.
    { split; [exact W|]. split; [exact C|]. eapply Forall_impl; [|exact F]. intros w. apply varok_same. reflexivity. }
    split; [lia|]. split; [intros; discriminate|reflexivity].
  - destruct (hvar_get e s i H Hsc) as (v & n & Evv & En0 & En & Hn & V). rewrite Evv. cbn [obind].
    destruct (var_value_ok s v n W C V En) as (v' & s' & E & (N & _) & C' & V' & En' & _).
    rewrite E. cbn [obind]. exists (hset e i v'), s', [ev s (st_val s) n]. split; [reflexivity|]. split.
    { split; [unfold wf; rewrite N; exact W|]. split; [exact C'|]. apply hset_Forall.
      - eapply Forall_impl; [|exact F]. intros w. apply varok_same. exact N.
      - eapply varok_same; [exact N|exact V']. }
    split; [rewrite hset_length; lia|]. split; [|reflexivity].
    intros j x [= <-] [= <-]. exists v, n. split; [exact En0|]. split; [exact En|].
    apply eval_Ev; [exact W|exact Hn].
Qed.

Lemma hinv_empty : hinv [] (st_empty S).
Proof.
  split; [|split; [intros n; reflexivity|constructor]]. intros n nd E. destruct n; discriminate.
Qed.

Lemma hreach_inv e s : hreach e s -> hinv e s.
Proof.
  induction 1 as [|o e s e' s' out _ IH Hsc E]; [apply hinv_empty|].
  destruct (hstep_ok o e s IH Hsc) as (e2 & s2 & out2 & E2 & H2 & _). rewrite E in E2. injection E2 as <- <- <-. exact H2.
Qed.

End Gen.

Section Frame.
Context {S : sops}.

(** Only set_value changes the value of a leaf, and only of the leaf it is called on. *)
Lemma hstep_frame (o : hop S) e s e' s' out : hinv e s -> in_scope (length e) o -> hstep o e s = Ok (e', s', out) ->
  match o with
  | HSet i x => exists v n, nth_error e i = Some v /\ v_expr v = Some n /\ st_nodes s' = st_nodes s /\
                  forall m, st_val s' m = if Nat.eqb m n then x else st_val s m
  | _ => forall n, is_kconst (st_nodes s) n \/ is_kvar (st_nodes s) n -> st_val s' n = st_val s n
  end.
Proof.
  intros H Hsc. pose proof H as (W & C & F).
  assert (Hb : forall (m : E S (@ptr)) Q, built s (m s) Q ->
     (let* (p, s1) := m s in Ok (e ++ [var_of p], s1, ([] : list S))) = Ok (e', s', out) ->
     forall n, is_kconst (st_nodes s) n \/ is_kvar (st_nodes s) n -> st_val s' n = st_val s n).
  { intros m Q (p & s1 & E & X & _) Hm n Hn. rewrite E in Hm. cbn [obind] in Hm. injection Hm as _ <- _.
    destruct X as (_ & Fx & _). apply Fx. unfold nlen.
    destruct Hn as [(nd & En & _)|(nd & En & _)]; apply nth_error_Some; congruence. }
  destruct o as [|c|u i|b i j|i j k|i|i j|i c|i x|i]; cbn [in_scope] in Hsc; cbn [hstep].
  - eapply Hb. apply (alloc_built s KVar LINEAR _ (fun _ _ => True)); [exact W|intros a []|reflexivity|auto].
  - eapply Hb. apply (built_const s c (fun _ _ => True)); auto.
  - destruct (hvar_get e s i H Hsc) as (v & n & Ev & _ & En & Hn & _). rewrite Ev. cbn [obind]. rewrite En.
    eapply Hb. apply e_un_built; assumption.
  - destruct Hsc as [Hi Hj]. destruct (hvar_get e s i H Hi) as (v & n & Ev & _ & En & Hn & _).
    destruct (hvar_get e s j H Hj) as (w & m & Ew & _ & Em & Hm & _).
    rewrite Ev. cbn [obind]. rewrite Ew. cbn [obind]. rewrite En, Em. eapply Hb. apply e_bin_built; assumption.
  - destruct Hsc as (Hi & Hj & Hk). destruct (hvar_get e s i H Hi) as (v & n & Ev & _ & En & Hn & _).
    destruct (hvar_get e s j H Hj) as (w & m & Ew & _ & Em & Hm & _).
    destruct (hvar_get e s k H Hk) as (u & q & Eu & _ & Eq0 & Hq & _).
    rewrite Ev. cbn [obind]. rewrite Ew. cbn [obind]. rewrite Eu. cbn [obind]. rewrite En, Em, Eq0.
    eapply Hb. apply hypot3_built; assumption.
  - destruct (hvar e i); cbn [obind]; intros Hm; try discriminate. injection Hm as _ <- _. auto.
  - destruct (hvar e i); cbn [obind]; try discriminate. destruct (hvar e j); cbn [obind]; intros Hm; try discriminate.
    injection Hm as _ <- _. auto.
  - destruct (hvar e i); cbn [obind]; try discriminate.
    destruct (built_const s c (fun _ _ => True) W) as (p & s1 & E & X & W' & Hp & _); [auto|].
    rewrite E. cbn [obind]. intros Hm. injection Hm as _ <- _. intros n Hn. destruct X as (_ & Fx & _). apply Fx. unfold nlen.
    destruct Hn as [(nd & En & _)|(nd & En & _)]; apply nth_error_Some; congruence.
  - destruct (hvar_get e s i H Hsc) as (v & n & Ev & Ei & En & Hn & V). rewrite Ev. cbn [obind].
    unfold var_set_value. rewrite En. destruct (nth_valid s n Hn) as (nd & End). rewrite End. cbn [obind].
    intros Hm. injection Hm as _ <- _. exists v, n. split; [exact Ei|]. split; [exact En|]. split; [reflexivity|].
    intros m. reflexivity.
  - destruct (hvar_get e s i H Hsc) as (v & n & Evv & En0 & En & Hn & V). rewrite Evv. cbn [obind].
    destruct (var_value_ok s v n W C V En) as (v' & s1 & E & (N & Lv) & _).
    rewrite E. cbn [obind]. intros Hm. injection Hm as _ <- _. exact Lv.
Qed.

End Frame.
