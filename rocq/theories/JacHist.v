(** Invariant of histories with Jacobians and Hessians. *)
From Coq Require Import ZArith List Bool Arith Lia.
From Verif Require Import Base ExprModel GraphSpec GraphProofs ExprInv VarModel VarReach VarProofs
  JacModel AdjProofs JacProofs SymProofs JacReach.
Import ListNotations.

Section Hist.
Context {S : sops}.
Implicit Types (s : st S) (e : henv).

Definition adje_none s : Prop := forall n, st_adje s n = None.

(** Every statement only adds nodes, and leaves no symbolic adjoints. *)
Lemma hstep_grows (o : hop S) e s e' s' out : hinv e s -> in_scope (length e) o -> hstep o e s = Ok (e', s', out) ->
  grows s s' /\ (adje_none s -> adje_none s').
Proof.
  intros H Hsc. pose proof H as (W & C & F).
  assert (Hx : forall s1, ext s s1 -> grows s s1 /\ (adje_none s -> adje_none s1)).
  { intros s1 X. split; [exact (proj1 X)|]. intros A n. destruct X as (_ & F1 & G1).
    destruct (Nat.lt_ge_cases n (nlen s)) as [L|Ge].
    - destruct (F1 n L) as (_ & _ & -> & _). apply A.
    - apply (G1 n Ge), A. }
  assert (Hb : forall (m : E S (@ptr)) Q, built s (m s) Q ->
     (let* (p, s1) := m s in Ok (e ++ [var_of p], s1, ([] : list S))) = Ok (e', s', out) ->
     grows s s' /\ (adje_none s -> adje_none s')).
  { intros m Q (p & s1 & E & X & _) Hm. rewrite E in Hm. cbn [obind] in Hm. injection Hm as _ <- _. apply Hx, X. }
  destruct o as [|c|u i|b i j|i j k|i|i j|i c|i x|i]; cbn [in_scope] in Hsc; cbn [hstep].
  - eapply Hb. apply (alloc_built s KVar LINEAR _ (fun _ _ => True)); [exact W|intros a []|reflexivity|auto].
  - eapply Hb. apply (built_const s c (fun _ _ => True)); auto.
  - destruct (hvar_get e s i H Hsc) as (v & n & Ev & _ & En & Hn & _). rewrite Ev. cbn [obind]. rewrite En.
    eapply Hb. apply e_un_built; assumption.
  - destruct Hsc as [Hi Hj]. destruct (hvar_get e s i H Hi) as (v & n & Ev & _ & En & Hn & _).
    destruct (hvar_get e s j H Hj) as (w & m & Ew & _ & Em & Hm & _).
    rewrite Ev. cbn [obind]. rewrite Ew. cbn [obind]. rewrite En, Em. eapply Hb. apply e_bin_built; assumption.
  - destruct Hsc as (Hi & Hj & Hk). destruct (hvar_get e s i H Hi) as (v & n & Ev & _ & En & Hn & _).
    destruct (hvar_get e s j H Hj) as (w & m & Ew & _ & Em & Hm & _).
    destruct (hvar_get e s k H Hk) as (u & q & Eu & _ & Eq0 & Hq & _).
    rewrite Ev. cbn [obind]. rewrite Ew. cbn [obind]. rewrite Eu. cbn [obind]. rewrite En, Em, Eq0.
    eapply Hb. apply hypot3_built; assumption.
  - destruct (hvar e i); cbn [obind]; intros Hm; try discriminate. injection Hm as _ <- _. split; [apply grows_refl|auto].
  - destruct (hvar e i); cbn [obind]; try discriminate. destruct (hvar e j); cbn [obind]; intros Hm; try discriminate.
    injection Hm as _ <- _. split; [apply grows_refl|auto].
  - destruct (hvar e i); cbn [obind]; try discriminate.
    destruct (built_const s c (fun _ _ => True) W) as (p & s1 & E & X & W' & Hp & _); [auto|].
    rewrite E. cbn [obind]. intros Hm. injection Hm as _ <- _. apply Hx, X.
  - destruct (hvar_get e s i H Hsc) as (v & n & Ev & Ei & En & Hn & V). rewrite Ev. cbn [obind].
    unfold var_set_value. rewrite En. destruct (nth_valid s n Hn) as (nd & End). rewrite End. cbn [obind].
    intros Hm. injection Hm as _ <- _. split; [apply grows_same; reflexivity|auto].
  - destruct (hvar_get e s i H Hsc) as (v & n & Evv & En0 & En & Hn & V). rewrite Evv. cbn [obind].
    destruct (var_value_ok s v n W C V En) as (v' & s1 & E & (N & Lv) & _ & _ & _ & _ & Ae).
    rewrite E. cbn [obind]. intros Hm. injection Hm as _ <- _. split; [apply grows_same; exact N|].
    intros A m. rewrite Ae. apply A.
Qed.

Definition objok s (o : jobj S) : Prop := jacok s (fst o) /\ Forall (is_kvar (st_nodes s)) (j_wrt (fst o)).

Definition jinv (q : jstate S) : Prop :=
  let '(e, js, s) := q in hinv e s /\ adje_none s /\ Forall (objok s) js.

Lemma kvar_grows s s' n : grows s s' -> is_kvar (st_nodes s) n -> is_kvar (st_nodes s') n.
Proof. intros G (nd & E & K). exists nd. split; [eapply grows_nth; eauto|exact K]. Qed.

Lemma kvar_wrt s n : wf s -> is_kvar (st_nodes s) n -> n < nlen s /\ typ (st_nodes s) n <> CONSTANT.
Proof.
  intros W (nd & E & K). split; [unfold nlen; apply nth_error_Some; congruence|].
  pose proof (W n nd E) as (_ & T). unfold typ. rewrite E. rewrite K in T. cbn in T. injection T as <-. discriminate.
Qed.

Lemma objok_pres s s' o : wf s -> clean_scr s -> clean_scr s' -> grows s s' ->
  (forall m, is_kconst (st_nodes s) m -> st_val s' m = st_val s m) -> objok s o -> objok s' o.
Proof.
  intros W C C' G Hk (Hj & Hw). split; [eapply jacok_pres; eauto|].
  eapply Forall_impl; [|exact Hw]. intros n. apply kvar_grows, G.
Qed.

Lemma objs_pres s s' js : wf s -> clean_scr s -> clean_scr s' -> grows s s' ->
  (forall m, is_kconst (st_nodes s) m -> st_val s' m = st_val s m) -> Forall (objok s) js -> Forall (objok s') js.
Proof. intros W C C' G Hk H. eapply Forall_impl; [|exact H]. intros o. apply objok_pres; assumption. Qed.

Lemma hinv_same e s s' : st_nodes s' = st_nodes s -> clean_scr s' -> hinv e s -> hinv e s'.
Proof.
  intros N C' (W & C & F). split; [unfold wf in *; rewrite N; exact W|]. split; [exact C'|].
  eapply Forall_impl; [|exact F]. intros v. apply varok_same, N.
Qed.

Lemma ext_consts s s' m : ext s s' -> is_kconst (st_nodes s) m -> st_val s' m = st_val s m.
Proof.
  intros (_ & Fx & _) (nd & En & _). apply Fx. unfold nlen. apply nth_error_Some. congruence.
Qed.

Lemma rows_get e s rows : hinv e s -> (forall i, In i rows -> i < length e) ->
  exists vars, omap (hexpr e) rows = Ok vars /\ Forall (some_ptr s) vars /\
    Forall2 (fun i p => exists v, nth_error e i = Some v /\ v_expr v = p) rows vars.
Proof.
  intros H. induction rows as [|i rows IH]; intros Hr; cbn [omap]; [exists []; auto|].
  destruct (hvar_get e s i H (Hr i (or_introl eq_refl))) as (v & n & Ev & Ei & En & Hn & _).
  destruct IH as (vars & E & Fv & F2); [intros k Hk; apply Hr; right; exact Hk|].
  unfold hexpr at 1. rewrite Ev. cbn [obind]. rewrite E. cbn [obind]. exists (v_expr v :: vars). split; [reflexivity|].
  split; constructor; auto.
  - rewrite En. exact Hn.
  - exists v. auto.
Qed.

Lemma wrt_get e s wrt : (forall i, In i wrt -> exists n, decides e s i n) ->
  exists ws, omap (hexpr e) wrt = Ok (map Some ws) /\ Forall (is_kvar (st_nodes s)) ws /\ Forall2 (decides e s) wrt ws.
Proof.
  induction wrt as [|i wrt IH]; intros H; cbn [omap]; [exists []; auto|].
  destruct (H i (or_introl eq_refl)) as (n & v & Ei & En & Kn).
  destruct IH as (ws & E & F & F2); [intros k Hk; apply H; right; exact Hk|].
  unfold hexpr at 1. unfold hvar. rewrite Ei. cbn [obind]. rewrite E. cbn [obind]. exists (n :: ws).
  rewrite En. split; [reflexivity|]. split; constructor; auto. exists v. auto.
Qed.

Lemma some_valid s p : some_ptr s p -> valid_ptr s p.
Proof. destruct p; [auto|intros []]. Qed.

Lemma jset_Forall (P : jobj S -> Prop) js k o : Forall P js -> P o -> Forall P (jset js k o).
Proof.
  intros F Ho. revert k. induction F as [|x js Hx F IH]; intros k; cbn [jset]; [constructor|]. destruct k; constructor; auto.
Qed.

(** Construction, queries and everything else succeed, and keep the invariant. *)
Lemma jstep_ok o q : jinv q -> jscope q o -> keeps_constants q o -> exists q' out, jstep o q = Ok (q', out) /\ jinv q'.
Proof.
  destruct q as [[e js] s]. intros (H & A & J) Hsc Hk. pose proof H as (W & C & F). cbn [jscope] in Hsc. cbn [jstep].
  destruct o as [o|rows wrt|f wrt lower|k|k]; cbn [keeps_constants] in Hk.
  - destruct (hstep_ok o e s H Hsc) as (e' & s' & out & E & H' & _). rewrite E. cbn [obind]. do 2 eexists. split; [reflexivity|].
    pose proof H' as (W' & C' & F').
    destruct (hstep_grows o e s e' s' out H Hsc E) as [G Ha]. split; [exact H'|]. split; [apply Ha, A|].
    pose proof (hstep_frame o e s e' s' out H Hsc E) as Fr.
    assert (Hd : (exists i x, o = HSet i x) \/ forall n, is_kconst (st_nodes s) n \/ is_kvar (st_nodes s) n -> st_val s' n = st_val s n)
      by (destruct o; eauto).
    destruct Hd as [(i & x & ->)|Hd].
    + destruct Hk as [->|Hk]; [constructor|]. destruct Fr as (v & n & Ei & En & N & Hv).
      apply (objs_pres s); auto. intros m Hm. rewrite Hv. destruct (Nat.eqb m n) eqn:X; [|reflexivity].
      apply Nat.eqb_eq in X. subst m. exfalso. apply (Hk v n Ei En Hm).
    + apply (objs_pres s); auto.
  - destruct Hsc as [Hr Hw]. destruct (rows_get e s rows H Hr) as (vars & E1 & Fv & _). rewrite E1. cbn [obind].
    destruct (wrt_get e s wrt Hw) as (ws & E2 & Fw & _). rewrite E2. cbn [obind].
    destruct (jac_make_ok s vars ws W C) as (j & s' & E & N & V & Ae & C' & _ & Ew & Hj).
    { eapply Forall_impl; [|exact Fv]. intros p. apply some_valid. }
    { eapply Forall_impl; [|exact Fw]. intros n. apply kvar_wrt, W. }
    rewrite E. cbn [obind]. do 2 eexists. split; [reflexivity|]. split; [eapply hinv_same; eauto|].
    split; [intros n; rewrite Ae; apply A|]. apply Forall_app. split.
    + apply (objs_pres s); auto; [apply grows_same, N|]. intros m _. rewrite V. reflexivity.
    + constructor; [|constructor]. split; [exact Hj|]. cbn [fst]. rewrite Ew, N. exact Fw.
  - destruct Hsc as [Hf Hw]. destruct (hvar_get e s f H Hf) as (v & n & Ev & Ei & En & Hn & _).
    unfold hexpr at 1. rewrite Ev. cbn [obind].
    destruct (wrt_get e s wrt Hw) as (ws & E2 & Fw & _). rewrite E2. cbn [obind].
    destruct (hess_make_ok s (v_expr v) ws W C A) as
      (l & s1 & g & s2 & j & s' & _ & _ & N1 & V1 & A1 & C1 & _ & X2 & W2 & _ & _ & E & N & V & A' & C' & _ & Ew & Hj).
    { rewrite En. exact Hn. }
    { eapply Forall_impl; [|exact Fw]. intros m. apply kvar_wrt, W. }
    rewrite E. cbn [obind]. do 2 eexists. split; [reflexivity|].
    assert (G : grows s s') by (destruct (proj1 X2) as (more & Nm); exists more; rewrite N, Nm, N1; reflexivity).
    assert (Hc : forall m, is_kconst (st_nodes s) m -> st_val s' m = st_val s m).
    { intros m Hm. rewrite V, (ext_consts s1 s2 m X2), V1; [reflexivity|]. rewrite N1. exact Hm. }
    split.
    { split; [unfold wf in *; rewrite N; exact W2|]. split; [exact C'|]. eapply Forall_impl; [|exact F].
      intros v' Hv'. apply (varok_same s2); [exact N|]. apply (varok_ext s1); auto.
      - unfold wf. rewrite N1. exact W.
      - apply (varok_same s); [exact N1|exact Hv']. }
    split; [exact A'|]. apply Forall_app. split; [apply (objs_pres s); auto|].
    constructor; [|constructor]. split; [exact Hj|]. cbn [fst]. rewrite Ew.
    eapply Forall_impl; [|exact Fw]. intros m. apply kvar_grows, G.
  - destruct (nth_error js k) as [[j lower]|] eqn:Ek; [|apply nth_error_None in Ek; lia].
    pose proof (nth_Forall _ _ _ _ J Ek) as [Hj Hjw]. cbn [fst] in Hj, Hjw.
    destruct (jac_value_ok s j W C Hj) as (j' & s' & E & (N & Hv) & Ae & Sc & _ & Ew & _ & Hj').
    rewrite E. cbn [obind]. do 2 eexists. split; [reflexivity|].
    assert (C' : clean_scr s') by (intros n; rewrite Sc; apply C).
    split; [eapply hinv_same; eauto|]. split; [intros n; rewrite Ae; apply A|]. apply jset_Forall.
    + apply (objs_pres s); auto. apply grows_same, N.
    + split; [exact Hj'|]. cbn [fst]. rewrite Ew, N. exact Hjw.
  - destruct (nth_error js k) as [[j lower]|] eqn:Ek; [|apply nth_error_None in Ek; lia].
    pose proof (nth_Forall _ _ _ _ J Ek) as [Hj Hjw]. cbn [fst] in Hj, Hjw.
    destruct (jac_get_ok s j W C A Hj) as (m & s' & E & X & W' & A' & Hm & _).
    rewrite E. cbn [obind]. do 2 eexists. split; [reflexivity|].
    pose proof (hinv_ext e s s' X W' H) as (_ & C' & F'). split.
    { split; [exact W'|]. split; [exact C'|]. apply Forall_app. split; [exact F'|].
      apply Forall_forall. intros v Hv. apply in_map_iff in Hv as (p & <- & Hp). apply in_concat in Hp as (row & Hrow & Hp).
      rewrite Forall_forall in Hm. pose proof (Hm row Hrow) as Hr. rewrite Forall_forall in Hr. specialize (Hr p Hp).
      destruct p as [n|]; [|destruct Hr]. apply varok_of, Hr. }
    split; [exact A'|]. apply (objs_pres s); auto; [exact (proj1 X)|]. intros n. apply ext_consts, X.
Qed.

Lemma jreach_inv q : jreach q -> jinv q.
Proof.
  induction 1 as [|o q q' out _ IH Hsc Hk E]; [split; [apply hinv_empty|split; [intros n; reflexivity|constructor]]|].
  destruct (jstep_ok o q IH Hsc Hk) as (q2 & out2 & E2 & H2). rewrite E in E2. injection E2 as <- _. exact H2.
Qed.

Lemma jcareful_reach (q q' : jstate S) : jreach q -> jcareful q q' -> jreach q'.
Proof. intros R H. induction H as [|q o q1 out q2 Hs Hk E _ IH]; [exact R|]. apply IH. eapply jreach_step; eauto. Qed.

Lemma jset_nth js k k' (o o' : jobj S) : nth_error js k = Some o ->
  nth_error (jset js k' o') k = Some (if Nat.eqb k k' then o' else o).
Proof.
  revert k k'. induction js as [|x js IH]; intros [|k] [|k'] H; cbn in *; try discriminate; auto.
Qed.

(** Objects keep their function and variables. *)
Lemma jstep_keep o e js s e' js' s' out : jinv (e, js, s) -> jscope (e, js, s) o ->
  jstep o (e, js, s) = Ok ((e', js', s'), out) ->
  grows s s' /\ forall k j b, nth_error js k = Some (j, b) ->
    exists j', nth_error js' k = Some (j', b) /\ j_vars j' = j_vars j /\ j_wrt j' = j_wrt j.
Proof.
  intros (H & A & J) Hsc. pose proof H as (W & C & F). cbn [jscope] in Hsc. cbn [jstep].
  destruct o as [o|rows wrt|f wrt lower|k0|k0].
  - destruct (hstep o e s) as [[[e1 s1] out1]| | |] eqn:E; cbn [obind]; intros Q; try discriminate. injection Q as <- <- <- <-.
    split; [eapply hstep_grows; eauto|]. intros k j b Hk. exists j. auto.
  - destruct Hsc as [Hr Hw]. destruct (rows_get e s rows H Hr) as (vars & E1 & Fv & _). rewrite E1. cbn [obind].
    destruct (wrt_get e s wrt Hw) as (ws & E2 & Fw & _). rewrite E2. cbn [obind].
    destruct (jac_make_ok s vars ws W C) as (j & s1 & E & N & _).
    { eapply Forall_impl; [|exact Fv]. intros p. apply some_valid. }
    { eapply Forall_impl; [|exact Fw]. intros n. apply kvar_wrt, W. }
    rewrite E. cbn [obind]. intros Q. injection Q as <- <- <- <-. split; [apply grows_same, N|].
    intros k j0 b Hk. exists j0. rewrite nth_error_app1 by (apply nth_error_Some; congruence). auto.
  - destruct Hsc as [Hf Hw]. destruct (hvar_get e s f H Hf) as (v & n & Ev & Ei & En & Hn & _).
    unfold hexpr at 1. rewrite Ev. cbn [obind].
    destruct (wrt_get e s wrt Hw) as (ws & E2 & Fw & _). rewrite E2. cbn [obind].
    destruct (hess_make_ok s (v_expr v) ws W C A) as
      (l & s1 & g & s2 & j & s3 & _ & _ & N1 & V1 & A1 & C1 & _ & X2 & W2 & _ & _ & E & N & V & A' & C' & _ & Ew & Hj).
    { rewrite En. exact Hn. }
    { eapply Forall_impl; [|exact Fw]. intros m. apply kvar_wrt, W. }
    rewrite E. cbn [obind]. intros Q. injection Q as <- <- <- <-. split.
    { destruct (proj1 X2) as (more & Nm). exists more. rewrite N, Nm, N1. reflexivity. }
    intros k j0 b Hk. exists j0. rewrite nth_error_app1 by (apply nth_error_Some; congruence). auto.
  - destruct (nth_error js k0) as [[j lower]|] eqn:Ek; [|apply nth_error_None in Ek; lia].
    pose proof (nth_Forall _ _ _ _ J Ek) as [Hj Hjw]. cbn [fst] in Hj, Hjw.
    destruct (jac_value_ok s j W C Hj) as (j1 & s1 & E & (N & Hv) & Ae & Sc & Ev & Ew & _ & Hj').
    rewrite E. cbn [obind]. intros Q. injection Q as <- <- <- <-. split; [apply grows_same, N|].
    intros k j0 b Hk. rewrite (jset_nth js k k0 _ _ Hk). destruct (Nat.eqb k k0) eqn:X; [|exists j0; auto].
    apply Nat.eqb_eq in X. subst k0. rewrite Ek in Hk. injection Hk as -> ->. exists j1. auto.
  - destruct (nth_error js k0) as [[j lower]|] eqn:Ek; [|apply nth_error_None in Ek; lia].
    pose proof (nth_Forall _ _ _ _ J Ek) as [Hj Hjw]. cbn [fst] in Hj, Hjw.
    destruct (jac_get_ok s j W C A Hj) as (m & s1 & E & X & _).
    rewrite E. cbn [obind]. intros Q. injection Q as <- <- <- <-. split; [exact (proj1 X)|]. intros k j0 b Hk. exists j0. auto.
Qed.

Lemma jcareful_keep (q q' : jstate S) : jreach q -> jcareful q q' ->
  let '(e, js, s) := q in let '(e', js', s') := q' in
  grows s s' /\ forall k j b, nth_error js k = Some (j, b) ->
    exists j', nth_error js' k = Some (j', b) /\ j_vars j' = j_vars j /\ j_wrt j' = j_wrt j.
Proof.
  intros R H. induction H as [[[e js] s]|[[e js] s] o [[e1 js1] s1] out [[e2 js2] s2] Hs Hk E _ IH].
  - split; [apply grows_refl|]. intros k j b H. exists j. auto.
  - destruct (jstep_keep o e js s e1 js1 s1 out (jreach_inv _ R) Hs E) as [G1 K1].
    destruct IH as [G2 K2]; [eapply jreach_step; eauto|]. split; [eapply grows_trans; eauto|].
    intros k j b H. destruct (K1 k j b H) as (j1 & H1 & V1 & W1). destruct (K2 k j1 b H1) as (j2 & H2 & V2 & W2).
    exists j2. split; [exact H2|]. split; congruence.
Qed.

(** What a new Jacobian is about. *)
Lemma jmake_is rows wrt e js s q1 out : jinv (e, js, s) -> jscope (e, js, s) (JMake rows wrt) ->
  jstep (JMake rows wrt) (e, js, s) = Ok (q1, out) ->
  exists j s1, q1 = (e, js ++ [(j, false)], s1) /\ out = [] /\ st_nodes s1 = st_nodes s /\
    Forall2 (fun i p => exists v, nth_error e i = Some v /\ v_expr v = p) rows (j_vars j) /\
    Forall2 (decides e s) wrt (j_wrt j).
Proof.
  intros (H & A & J) [Hr Hw]. pose proof H as (W & C & F). cbn [jstep].
  destruct (rows_get e s rows H Hr) as (vars & E1 & Fv & F1). rewrite E1. cbn [obind].
  destruct (wrt_get e s wrt Hw) as (ws & E2 & Fw & F2). rewrite E2. cbn [obind].
  destruct (jac_make_ok s vars ws W C) as (j & s1 & E & N & _ & _ & _ & Ev & Ew & _).
  { eapply Forall_impl; [|exact Fv]. intros p. apply some_valid. }
  { eapply Forall_impl; [|exact Fw]. intros n. apply kvar_wrt, W. }
  rewrite E. cbn [obind]. intros Q. injection Q as <- <-. exists j, s1. rewrite Ev, Ew. auto 6.
Qed.

Lemma distinct_nodup e s wrt ws : Forall2 (decides e s) wrt ws -> distinct e s wrt -> NoDup ws.
Proof.
  intros F D. apply NoDup_nth_error. intros c c' Lc E.
  assert (G : forall c n, nth_error ws c = Some n -> exists i, nth_error wrt c = Some i /\ decides e s i n).
  { clear - F. intros c n. revert c. induction F as [|i n' wrt ws H F IH]; intros [|c] E; cbn in E; try discriminate.
    - injection E as ->. exists i. auto.
    - destruct (IH c E) as (i' & H1 & H2). exists i'. auto. }
  destruct (nth_error ws c) as [n|] eqn:E1; [|apply nth_error_None in E1; lia].
  destruct (G c n E1) as (i & H1 & H2). destruct (G c' n (eq_sym E)) as (i' & H1' & H2'). eapply D; eauto.
Qed.

(** value() of any object in a reachable state. *)
Lemma jvalue_is e js s k j b : jinv (e, js, s) -> nth_error js k = Some (j, b) ->
  exists q', jstep (JValue k) (e, js, s) = Ok (q', [OMat (if b then lower_part (jac_matrix s j) else jac_matrix s j)]).
Proof.
  intros (H & A & J) Ek. pose proof H as (W & C & F). cbn [jstep]. rewrite Ek.
  pose proof (nth_Forall _ _ _ _ J Ek) as [Hj Hjw]. cbn [fst] in Hj, Hjw.
  destruct (jac_value_ok s j W C Hj) as (j1 & s1 & E & _). rewrite E. cbn [obind]. eexists. reflexivity.
Qed.

End Hist.
