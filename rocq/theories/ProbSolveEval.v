(** The functions Problem::solve() hands to the solvers never fail, and evaluate the expressions of the problem with
    the decision variables (and multipliers) at the given values. *)
From Coq Require Import ZArith List Bool Arith Lia.
From Verif Require Import Base ExprModel GraphSpec GraphProofs ExprInv VarModel VarReach VarProofs JacModel JacProofs JacReach JacHist JacSame NumModel UtilModel SolverModel
  NewtonModel SqpModel IpmModel IpmShape RestoreProofs ProblemModel ProblemInv ProbSolveModel ProbSolveInv.
Import ListNotations.
Local Open Scope nat_scope.

Section Eval.
Context {S : nops}.
Implicit Types (q : jstate S) (p : prog S).

(** [lv] with node [ns_i] at [v_i]. *)
Fixpoint puts (lv : nat -> S) (ns : list nat) (v : list S) : nat -> S :=
  match ns, v with
  | n :: ns, x :: v => puts (fun m => if Nat.eqb m n then x else lv m) ns v
  | _, _ => lv
  end.

Lemma puts_ext ns : forall v lv lv', (forall m, lv m = lv' m) -> forall m, puts lv ns v m = puts lv' ns v m.
Proof. induction ns as [|n ns IH]; intros v lv lv' H m; [apply H|]. destruct v as [|x v]; [apply H|]. cbn. apply IH. intros k. rewrite H. reflexivity. Qed.
Lemma puts_out ns : forall v lv m, ~ In m ns -> puts lv ns v m = lv m.
Proof.
  induction ns as [|n ns IH]; intros v lv m H; [reflexivity|]. destruct v as [|x v]; [reflexivity|]. cbn. rewrite IH by (intros X; apply H; right; exact X).
  destruct (Nat.eqb_spec m n) as [->|N]; [exfalso; apply H; left; reflexivity|reflexivity].
Qed.
Lemma puts_in ns : forall v lv k n d, NoDup ns -> nth_error ns k = Some n -> length v = length ns -> puts lv ns v n = nth k v d.
Proof.
  induction ns as [|n0 ns IH]; intros v lv k n d N E L; [destruct k; discriminate|]. destruct v as [|x v]; [discriminate|]. inversion N as [|? ? N1 N2]; subst.
  destruct k as [|k]; cbn in *.
  - injection E as ->. rewrite puts_out by exact N1. rewrite Nat.eqb_refl. reflexivity.
  - apply IH; [exact N2|exact E|lia].
Qed.

(** [q'] is [q] with the values of the nodes [ns] set to [v]. *)
Definition moved q (ns : list nat) (v : list S) q' : Prop :=
  jcareful q q' /\ qenv q' = qenv q /\ qobjs q' = qobjs q /\ st_nodes (qst q') = st_nodes (qst q) /\
  forall m, st_val (qst q') m = puts (st_val (qst q)) ns v m.

Lemma kvar_not_const (ns : list node) n : is_kvar ns n -> ~ is_kconst ns n.
Proof. intros (nd & E & K) (nd' & E' & K'). rewrite E in E'. injection E' as <-. congruence. Qed.

Lemma jsets_ok l : forall ns v q, jreach q -> Forall2 (decides (qenv q) (qst q)) l ns -> length v = length l ->
  exists q', jsets l v q = Ok q' /\ moved q ns v q'.
Proof.
  induction l as [|i l IH]; intros ns v q R F L; inversion F as [|? n ? ns' Hi F']; subst.
  - destruct v; [|discriminate]. exists q. split; [reflexivity|]. repeat split. apply jcareful_refl.
  - destruct v as [|x v]; [discriminate|]. destruct q as [[e js] s]. cbn [qenv qst fst snd] in *. pose proof (jreach_inv _ R) as (H & A & J).
    destruct Hi as (w & Ew & En & Kn).
    assert (Hs : in_scope (length e) (HSet (S := S) i x)) by (apply nth_error_Some; congruence).
    destruct (hstep_ok (HSet i x) e s H Hs) as (e' & s' & out & E & _). pose proof (hstep_frame _ _ _ _ _ _ H Hs E) as (w' & n' & Ew' & En' & N & V).
    rewrite Ew in Ew'. injection Ew' as <-. rewrite En in En'. injection En' as <-.
    assert (e' = e). { cbn [hstep] in E. unfold hvar in E. rewrite Ew in E. cbn [obind] in E. destruct (var_set_value w x s) as [[u su]| | |]; cbn [obind] in E; try discriminate. injection E as <- _ _. reflexivity. }
    subst e'.
    assert (KC : keeps_constants (e, js, s) (JH (HSet (S := S) i x))).
    { right. intros w2 n2 E2 N2. rewrite Ew in E2. injection E2 as <-. rewrite En in N2. injection N2 as <-. apply kvar_not_const, Kn. }
    assert (E1 : jstep (JH (HSet i x)) (e, js, s) = Ok ((e, js, s'), map OVal out)) by (cbn [jstep]; rewrite E; reflexivity).
    assert (R' : jreach (e, js, s')) by exact (jreach_step (JH (HSet i x)) _ _ _ R Hs KC E1).
    destruct (IH ns' v (e, js, s') R') as (q' & A' & C & D1 & D2 & D3 & D4).
    { cbn [qenv qst fst snd]. eapply JacProofs.Forall2_impl; [|exact F']. intros a b (u & U1 & U2 & U3). exists u. rewrite N. auto. }
    { cbn in L. lia. }
    exists q'. cbn [jsets]. rewrite E1. cbn [obind]. split; [exact A'|]. split; [exact (jcareful_step (e, js, s) (JH (HSet i x)) _ _ _ Hs KC E1 C)|]. split; [exact D1|]. split; [exact D2|].
    split; [cbn [qst snd] in *; congruence|]. intros m. rewrite D4. cbn [qst snd puts]. apply puts_ext. exact V.
Qed.

Lemma moved_reach q ns v q' : jreach q -> moved q ns v q' -> jreach q'.
Proof. intros R (C & _). eapply jcareful_reach; eauto. Qed.

(** Reading values. *)
Definition valued q q' : Prop :=
  jcareful q q' /\ keeps (qenv q) (qenv q') /\ qobjs q' = qobjs q /\ st_nodes (qst q') = st_nodes (qst q) /\
  (forall m, leaf (qst q) m -> st_val (qst q') m = st_val (qst q) m).

Lemma wf_of q : jreach q -> wf (qst q).
Proof. destruct q as [[e js] s]. intros R. apply jreach_inv in R as ((W & _) & _). exact W. Qed.

Lemma eval_leaves (s s' : st S) : wf s -> st_nodes s' = st_nodes s -> (forall m, leaf s m -> st_val s' m = st_val s m) ->
  forall n, n < length (st_nodes s) -> eval (st_nodes s) (st_val s') n = eval (st_nodes s) (st_val s) n.
Proof.
  intros W N L n Hn. rewrite <- (eval_kept s s' W); [rewrite N; reflexivity|unfold wf; rewrite N; exact W| |exact L|exact Hn].
  exists []. rewrite app_nil_r. exact N.
Qed.

Lemma jget_value_ok i n q : jreach q -> holds (qenv q) i n ->
  exists q', jget_value i q = Ok (eval (st_nodes (qst q)) (st_val (qst q)) n, q') /\ valued q q' /\ n < length (st_nodes (qst q)).
Proof.
  intros R (w & Ew & En). destruct q as [[e js] s]. cbn [qenv qst fst snd] in *. pose proof (jreach_inv _ R) as (H & A & J).
  assert (Hs : in_scope (length e) (HValue (S := S) i)) by (apply nth_error_Some; congruence).
  destruct (hstep_ok (HValue i) e s H Hs) as (e' & s' & out & E & _ & _ & Hv & Ho). pose proof (hstep_frame _ _ _ _ _ _ H Hs E) as Fr.
  destruct out as [|x [|? ?]]; try discriminate. destruct (Hv i x eq_refl eq_refl) as (w' & n' & Ew' & En' & X).
  rewrite Ew in Ew'. injection Ew' as <-. rewrite En in En'. injection En' as <-.
  pose proof H as (W & C & F). apply (Ev_eval _ _ _ _ W) in X. subst x.
  assert (Hn : n < length (st_nodes s)). { pose proof (nth_Forall _ _ _ _ F Ew) as (n' & En' & Hn & _). rewrite En in En'. injection En' as <-. exact Hn. }
  exists (e', js, s'). unfold jget_value. cbn [jstep]. rewrite E. cbn [obind map]. split; [reflexivity|]. split; [|exact Hn].
  split; [|split; [|split; [|split]]]; cbn [qenv qobjs qst fst snd].
  - eapply jcareful_step with (o := JH (HValue i)); [exact Hs|exact I|cbn [jstep]; rewrite E; reflexivity|apply jcareful_refl].
  - eapply hstep_keeps; [|exact E]. reflexivity.
  - reflexivity.
  - cbn [hstep] in E. unfold hvar in E. rewrite Ew in E. cbn [obind] in E.
    destruct (var_value_ok s w n W C (nth_Forall _ _ _ _ F Ew) En) as (v' & s2 & Ev2 & (N & _) & _). rewrite Ev2 in E. cbn [obind] in E. injection E as _ <-. exact N.
  - exact Fr.
Qed.

Lemma valued_trans q1 q2 q3 : valued q1 q2 -> valued q2 q3 -> valued q1 q3.
Proof.
  intros (A & B & C & D & E) (A' & B' & C' & D' & E'). split; [eapply jcareful_trans; eauto|]. split; [eapply keeps_trans; eauto|]. split; [congruence|]. split; [congruence|].
  intros m H. rewrite E'; [auto|]. unfold leaf in *. rewrite D. exact H.
Qed.

Lemma jget_values_ok l : forall ns q, jreach q -> Forall2 (holds (qenv q)) l ns ->
  exists q', jget_values l q = Ok (map (eval (st_nodes (qst q)) (st_val (qst q))) ns, q').
Proof.
  induction l as [|i l IH]; intros ns q R F; inversion F as [|? n ? ns' Hi F']; subst.
  - exists q. reflexivity.
  - destruct (jget_value_ok i n q R Hi) as (q1 & E1 & V1 & Hn). pose proof V1 as (C & K & O & N & Lf).
    destruct (IH ns' q1 (jcareful_reach _ _ R C)) as (q2 & E2). { eapply JacProofs.Forall2_impl; [|exact F']. intros a b. apply holds_ext, K. }
    exists q2. cbn [jget_values]. rewrite E1. cbn [obind]. rewrite E2. cbn [obind map]. f_equal. f_equal. f_equal.
    assert (forall m, In m ns' -> m < length (st_nodes (qst q))) as Hm.
    { intros m Hm. clear - F' R Hm. induction F' as [|a b l ns Hab F' IH]; [contradiction|]. destruct Hm as [<-|Hm]; [|auto].
      destruct Hab as (w & Ew & En). destruct q as [[e js] s]. apply jreach_inv in R as ((W & C & F) & _). cbn [qenv qst fst snd] in *.
      pose proof (nth_Forall _ _ _ _ F Ew) as (n' & En' & Hn & _). rewrite En in En'. injection En' as <-. exact Hn. }
    apply map_ext_in. intros m Hin. rewrite N. apply eval_leaves; auto. apply wf_of, R.
Qed.

Lemma made_lt o k q : makes o -> made o k q -> k < length (qobjs q).
Proof.
  intros M (q0 & q1 & out & R & Sc & E & -> & L & _). destruct (jmat_ok o q0 R M Sc) as (q' & A & _ & _ & LL).
  unfold jmat in A. rewrite E in A. cbn [obind] in A. injection A as ->. apply later_parts in L as (_ & _ & _ & _ & L). lia.
Qed.

Lemma jget_mat_ok k q : jreach q -> k < length (qobjs q) -> exists m, jget_mat k q = Ok m.
Proof.
  intros R H. destruct q as [[e js] s]. cbn [qobjs fst snd] in H. destruct (nth_error js k) as [[j b]|] eqn:E; [|apply nth_error_None in E; lia].
  destruct (jvalue_is e js s k j b (jreach_inv _ R) E) as (q' & E'). unfold jget_mat. rewrite E'. cbn [obind]. eexists. reflexivity.
Qed.

(** Setting x. *)
Variables (kd : kind) (p : prog S) (nodes : list nat) (t : setup) (q : jstate S).
Hypothesis Ip : pinv p.
Hypothesis Rd : ready kd p nodes t q.
Let n := length (p_dec p).
Hypothesis Dec : Forall2 (decides (p_env p) (p_st p)) (p_dec p) nodes.

Lemma len_x : length (t_x t) = n.
Proof. unfold n. rewrite (f2len _ _ _ (rd_x _ _ _ _ _ Rd)), (f2len _ _ _ Dec). reflexivity. Qed.
Lemma len_ce : length (t_ce t) = length (p_eq p).
Proof. symmetry. apply (f2len _ _ _ (rd_ce _ _ _ _ _ Rd)). Qed.
Lemma len_ci : length (t_ci t) = length (p_ineq p).
Proof. symmetry. apply (f2len _ _ _ (rd_ci _ _ _ _ _ Rd)). Qed.

Lemma at_x_ok x : length x = n -> exists q', at_x t q x = Ok q' /\ moved q nodes x q' /\ jreach q'.
Proof.
  intros L. destruct (jsets_ok (t_x t) nodes x q (rd_reach _ _ _ _ _ Rd) (rd_x _ _ _ _ _ Rd)) as (q' & A & M); [rewrite len_x; exact L|].
  exists q'. split; [exact A|]. split; [exact M|]. eapply moved_reach; [apply (rd_reach _ _ _ _ _ Rd)|exact M].
Qed.

(** Values of the problem's own expressions, in terms of the program before solve(). *)
Lemma old_value m x q' : length x = n -> moved q nodes x q' -> m < length (st_nodes (p_st p)) ->
  eval (st_nodes (qst q')) (st_val (qst q')) m = eval (st_nodes (p_st p)) (puts (st_val (p_st p)) nodes x) m.
Proof.
  intros L (C & E & O & N & V) Hm. pose proof (rd_later _ _ _ _ _ Rd) as La. apply later_parts in La as (_ & K & G & Lf & _). cbn [qenv qst fst snd] in *.
  pose proof (rd_reach _ _ _ _ _ Rd) as R. pose proof (wf_of _ R) as W.
  set (s1 := mkSt (st_nodes (p_st p)) (puts (st_val (p_st p)) nodes x) (st_adj (p_st p)) (st_adje (p_st p)) (st_scr (p_st p))).
  assert (Wp : wf (p_st p)).
  { exact (wf_of (p_env p, [], p_st p) (i_reach _ Ip)). }
  apply (eval_kept s1 (qst q')).
  - exact Wp.
  - unfold wf. rewrite N. exact W.
  - destruct G as (more & G). exists more. cbn [st_nodes s1]. rewrite N. exact G.
  - intros k Hk. cbn [st_val s1]. rewrite V. cbn [st_nodes s1] in Hk.
    destruct (in_dec Nat.eq_dec k nodes) as [I0|I0].
    + revert I0. clear - Lf Hk. revert Lf Hk. generalize (st_val (qst q)) (st_val (p_st p)). intros a b Lf Hk. specialize (Lf k Hk).
      revert a b Lf x. induction nodes as [|n0 l IH]; intros a b Lf x I0; [contradiction|]. destruct x as [|y x]; [exact Lf|]. cbn. 
      destruct (in_dec Nat.eq_dec k l) as [I1|I1]; [apply IH; [|exact I1]; destruct (Nat.eqb k n0); auto|].
      rewrite !puts_out by exact I1. destruct (Nat.eqb k n0); auto.
    + rewrite !puts_out by exact I0. apply Lf, Hk.
  - exact Hm.
Qed.

Definition val_at (x : list S) (m : nat) : S := eval (st_nodes (p_st p)) (puts (st_val (p_st p)) nodes x) m.

Lemma holds_old i m : holds (p_env p) i m -> m < length (st_nodes (p_st p)).
Proof.
  intros (w & Ew & En). pose proof (jreach_inv _ (i_reach _ Ip)) as ((W & C & F) & _). pose proof (nth_Forall _ _ _ _ F Ew) as (m' & Em & Hm & _).
  rewrite En in Em. injection Em as <-. exact Hm.
Qed.

Lemma born_const_value c i q' x : born (HConst c) i q -> length x = n -> moved q nodes x q' ->
  exists m, holds (qenv q') i m /\ eval (st_nodes (qst q')) (st_val (qst q')) m = c.
Proof.
  intros (q0 & q1 & out & R0 & _ & H & -> & L01 & L1q) L (C & E & O & N & V). cbn [hstep] in H. unfold constant_ptr, alloc in H. cbn [obind] in H.
  injection H as H1 H2 _. set (m := length (st_nodes (qst q0))) in *.
  assert (Hh : holds (qenv q1) (length (qenv q0)) m).
  { rewrite <- H1. eexists. split; [rewrite nth_error_app2 by lia; rewrite Nat.sub_diag; reflexivity|]. reflexivity. }
  assert (Kc : is_kconst (st_nodes (qst q1)) m).
  { rewrite <- H2. cbn [st_nodes]. eexists. split; [rewrite nth_error_app2 by lia; unfold m; rewrite Nat.sub_diag; reflexivity|]. reflexivity. }
  assert (Vc : st_val (qst q1) m = c).
  { rewrite <- H2. cbn [st_val]. unfold upd. rewrite Nat.eqb_refl. reflexivity. }
  pose proof (later_parts _ _ L1q) as (_ & K & G & Lf & _).
  assert (Kc' : is_kconst (st_nodes (qst q)) m). { destruct Kc as (nd & En & Kn). exists nd. split; [eapply grows_nth; eauto|exact Kn]. }
  assert (Ni : ~ In m nodes).
  { intros X. clear - Kc' X Rd. pose proof (rd_x _ _ _ _ _ Rd) as F. clear Rd. induction F as [|a b la lb (w & _ & _ & Kv) F IH]; [contradiction|].
    destruct X as [X|X]; [subst b; exact (kvar_not_const _ _ Kv Kc')|auto]. }
  exists m. split; [rewrite E; eapply later_holds; eauto|].
  assert (W : wf (qst q')). { unfold wf. rewrite N. apply wf_of, (rd_reach _ _ _ _ _ Rd). }
  rewrite (eval_eq _ _ _ W). rewrite N. destruct Kc' as ([k ty] & En & Kn). cbn in Kn. subst k. rewrite En. cbn [n_kind].
  rewrite V, puts_out by exact Ni. rewrite Lf by (left; exact Kc). exact Vc.
Qed.

Lemma cb_f_ok sc x : length x = n -> exists v, cb_f t q sc x = s_mul S (sc_f sc) v /\
  match p_f p with Some i => forall m, holds (p_env p) i m -> v = val_at x m | None => v = s_ofZ S 0 end.
Proof.
  intros L. destruct (at_x_ok x L) as (q' & A & M & R). unfold cb_f. rewrite A. cbn [obind].
  assert (exists m, holds (qenv q') (t_f t) m /\
    match p_f p with Some i => forall m', holds (p_env p) i m' -> eval (st_nodes (qst q')) (st_val (qst q')) m = val_at x m' | None => eval (st_nodes (qst q')) (st_val (qst q')) m = s_ofZ S 0 end) as (m & Hm & Vm).
  { pose proof (rd_f _ _ _ _ _ Rd) as F. destruct (p_f p) as [i|].
    - destruct F as (m & H1 & H2). exists m. pose proof M as (_ & E & _). split; [rewrite E; exact H2|]. intros m' H'. rewrite (holds_fun _ _ _ _ H' H1).
      apply old_value; [exact L|exact M|eapply holds_old; eauto].
    - destruct (born_const_value _ _ _ _ F L M) as (m & H1 & H2). exists m. auto. }
  destruct (jget_value_ok (t_f t) m q' R Hm) as (q2 & E2 & _). rewrite E2. cbn [obind total]. eexists. split; [reflexivity|].
  destruct (p_f p) as [i|]; exact Vm.
Qed.

Lemma cb_c_ok (old new : list nat) (ns : list nat) sc x : length x = n ->
  Forall2 (fun i i' => exists m, holds (p_env p) i m /\ holds (qenv q) i' m) old new -> Forall2 (holds (p_env p)) old ns ->
  cb_c t q new sc x = vmap2 (s_mul S) sc (map (val_at x) ns).
Proof.
  intros L F Fn. destruct (at_x_ok x L) as (q' & A & M & R). unfold cb_c. rewrite A. cbn [obind]. pose proof M as (_ & E & _).
  assert (Fh : Forall2 (holds (qenv q')) new ns).
  { rewrite E. clear - F Fn. revert ns Fn. induction F as [|i i' old new (m & H1 & H2) F IH]; intros ns Fn; inversion Fn as [|? m' ? ns' Hm' Fn']; subst; constructor; auto.
    rewrite (holds_fun _ _ _ _ Hm' H1). exact H2. }
  destruct (jget_values_ok new ns q' R Fh) as (q2 & E2). rewrite E2. cbn [obind total]. f_equal.
  apply map_ext_in. intros m Hm. apply old_value; [exact L|exact M|].
  clear - Fn Hm Ip. induction Fn as [|i k old ns H Fn IH]; [contradiction|]. destruct Hm as [<-|Hm]; [eapply holds_old; eauto|auto].
Qed.

Lemma len_c (old new ns : list nat) sc x : length x = n -> length sc = length new ->
  Forall2 (fun i i' => exists m, holds (p_env p) i m /\ holds (qenv q) i' m) old new -> Forall2 (holds (p_env p)) old ns ->
  length (cb_c t q new sc x) = length new.
Proof.
  intros L Ls F Fn. rewrite (cb_c_ok old new ns sc x L F Fn). unfold vmap2. rewrite map_length, combine_length, map_length, Ls.
  rewrite <- (f2len _ _ _ Fn), (f2len _ _ _ F). lia.
Qed.

Lemma at_x_mat k x : length x = n -> k < length (qobjs q) -> exists m, (let* q' := at_x t q x in jget_mat k q') = Ok m.
Proof.
  intros L H. destruct (at_x_ok x L) as (q' & A & M & R). rewrite A. cbn [obind]. pose proof M as (_ & _ & O & _).
  apply jget_mat_ok; [exact R|]. rewrite O. exact H.
Qed.

Lemma mat_bind {B} k x m (g : list triplet -> outcome B) : (let* q' := at_x t q x in jget_mat k q') = Ok m ->
  (let* q' := at_x t q x in let* m := jget_mat k q' in g m) = g m.
Proof. destruct (at_x t q x); cbn [obind]; try discriminate. intros ->. reflexivity. Qed.

Lemma cb_g_ok sc x : length x = n -> exists m, (let* q' := at_x t q x in jget_mat (t_g t) q') = Ok m /\
  cb_g n t q sc x = map (scaled (sc_f sc) m 0) (seq 0 n).
Proof.
  intros L. destruct (at_x_mat (t_g t) x L) as (m & E); [eapply made_lt; [|apply (rd_g _ _ _ _ _ Rd)]; exact I|].
  exists m. split; [exact E|]. unfold cb_g. rewrite (mat_bind _ _ _ _ E). reflexivity.
Qed.
Lemma cb_A_ok k r sc x : length x = n -> k < length (qobjs q) -> exists m, (let* q' := at_x t q x in jget_mat k q') = Ok m /\
  cb_A n t q k r sc x = dense r n (fun i j => scaled (nth i sc (s_ofZ S 0)) m i j).
Proof.
  intros L H. destruct (at_x_mat k x L H) as (m & E). exists m. split; [exact E|]. unfold cb_A. rewrite (mat_bind _ _ _ _ E). reflexivity.
Qed.

Lemma dense_dims r c (f : nat -> nat -> S) : mat_dims r c (dense r c f) = true.
Proof.
  unfold mat_dims, dense. rewrite map_length, seq_length, Nat.eqb_refl. cbn [andb]. apply forallb_forall. intros row H. apply in_map_iff in H as (i & <- & _).
  rewrite map_length, seq_length. apply Nat.eqb_refl.
Qed.
Lemma g_at_ok x : length x = n -> exists g, g_at n t q x = Ok g.
Proof.
  intros L. destruct (at_x_mat (t_g t) x L) as (m & E); [eapply made_lt; [|apply (rd_g _ _ _ _ _ Rd)]; exact I|].
  unfold g_at. rewrite (mat_bind _ _ _ _ E). eexists. reflexivity.
Qed.
Lemma A_at_ok k r x : length x = n -> k < length (qobjs q) -> exists a, A_at n t q k r x = Ok a.
Proof. intros L H. destruct (at_x_mat k x L H) as (m & E). unfold A_at. rewrite (mat_bind _ _ _ _ E). eexists. reflexivity. Qed.

End Eval.
